(** Model of the SPORES mode: src/calliope/model.py:601-874 and math/spores.yaml. *)
From Coq Require Export QArith Qabs.
From Verif Require Import Base.
Local Open Scope string_scope.
Local Open Scope list_scope.
Local Open Scope nat_scope.

(** Floating-point values, with exact rationals for the finite ones (rounding is not
    modelled). *)
Inductive xq := Fin (q : Q) | PInf | NInf | NaN.

(** A result data set: arrays by name, each as the list of its values.  The data set of a
    failed solve has no arrays.  Indices are the positions in the list; all arrays over
    nodes, techs and carriers share the order of [ids] below. *)
Definition dataset := list (string * list xq).
Definition idx := (string * string * string)%type.
Definition carrier (i : idx) : string := snd i.
Definition score := list Q.

(** What the SPORES loop changes in the backend: active objective, [spores_score],
    [spores_baseline_cost]. *)
Record bstate := { b_obj : string; b_score : score; b_base : xq }.

(** schemas/config_schema.py:169-204; [p_save] says whether [save_per_spore_path] is set. *)
Inductive algorithm := Integer | Relative | Random | Evolving.
Record config := {
  p_alg : algorithm;
  p_number : nat;
  p_save : bool;
  p_latest : bool;
  p_factor : Q;
  p_objective : string;
  p_postprocess : bool
}.

(** Model results: none, without or with a "spores" dimension. *)
Inductive results := RNone | RPlain (d : dataset) | RSpores (l : list (nat * dataset)).

(** Capacities: values that are not finite count as missing. *)
Definition cap_of (x : xq) : option Q := match x with Fin q => Some q | _ => None end.
Definition caps (d : dataset) : result (list (option Q)) :=
  match d_get "flow_cap" d with Some l => Ok (map cap_of l) | None => Err EKey end.

Definition Qltb (a b : Q) : bool := negb (Qle_bool b a).
Definition omax (a b : option Q) : option Q :=
  match a, b with
  | Some x, Some y => Some (if Qle_bool x y then y else x)
  | Some x, None => Some x
  | None, y => y
  end.

Section Spores.
Variable ids : list idx.
(** [tracking_parameter] is given and the technology exists (model.py:857-862). *)
Variable tracked : list bool.
(** [flow_cap_max] of the inputs, if there is one. *)
Variable cap_max : option (list xq).
(** [spores_baseline_cost] of the inputs, if there is one. *)
Variable input_cost : option xq.
(** The solver: arrays and termination condition, by number of the call and state. *)
Variable solver : nat -> bstate -> dataset * string.
(** The draws of [np.random.choice]. *)
Variable draw : nat -> list bool.

(** [previous_cap.max(["nodes", "techs"])] for one carrier, missing values skipped. *)
Definition max_of_carrier (c : string) (l : list (option Q)) : option Q :=
  fold_right omax None
    (map snd (filter (fun p => String.eqb (carrier (fst p)) c) (combine ids l))).
Definition masked (l : list (option Q)) : list (option Q) :=
  map (fun p => if fst p : bool then snd p else None) (combine tracked l).

(** Adding a new score where the technology is tracked; elsewhere it is missing, and a
    missing value leaves the parameter as it is (backend_model.py:1251). *)
Definition added (inc : list Q) (old : score) : score :=
  map (fun p => match p with (t, (n, o)) => if t : bool then (n + o)%Q else o end)
      (combine tracked (combine inc old)).
(** Replacing the score (model.py:838-846): zero where the technology is not tracked. *)
Definition replaced (new : list Q) (old : score) : score :=
  map (fun p => match p with (t, (n, o)) => if t : bool then n else 0%Q end)
      (combine tracked (combine new old)).

(** model.py:764-783 [_score_integer] *)
Definition integer_inc (factor : Q) (l : list (option Q)) : list Q :=
  let m := masked l in
  map (fun p => match p with
                | (i, Some c) =>
                    match max_of_carrier (carrier i) m with
                    | Some x => if Qltb (factor * x) c then 1000%Q else 0%Q
                    | None => 0%Q
                    end
                | (_, None) => 0%Q
                end) (combine ids m).

(** model.py:785-806 [_score_relative_deployment].  A quotient 0/0 is missing and scores
    nothing, like x/0 = 0 here; a positive capacity with a maximum of zero does not occur. *)
Definition relative_inc (factor : Q) (l : list (option Q)) : result (list Q) :=
  match cap_max with
  | None => Err EBackend
  | Some cm =>
      if existsb (fun p => (fst p : bool) && match snd p with PInf => true | _ => false end)
                 (combine tracked cm)
      then Err EBackend
      else Ok (map (fun p => match p with
                             | (Some c, Fin m) =>
                                 if Qltb factor (c / m) then (c / m)%Q else 0%Q
                             | _ => 0%Q
                             end) (combine l cm))
  end.

(** model.py:808-822 [_score_random] *)
Definition random_inc (n : nat) (l : list (option Q)) : list Q :=
  map (fun p => match p with
                | (Some _, true) => 1000%Q
                | _ => 0%Q
                end) (combine (masked l) (draw n)).

(** model.py:824-850 [_score_evolving_average].  A quotient 0/0 is missing. *)
Definition oadd (a b : option Q) : option Q :=
  match a, b with Some x, Some y => Some (x + y)%Q | _, _ => None end.
Definition sum_caps (ls : list (list (option Q))) : list (option Q) :=
  match ls with
  | [] => []
  | l :: r => fold_left (fun a x => map (fun p => oadd (fst p) (snd p)) (combine a x)) r l
  end.
Definition relative_change (avg prev : option Q) : option Q :=
  match avg, prev with
  | Some a, Some p => if Qeq_bool a 0 then None else Some (Qabs (a - p) / a)%Q
  | _, _ => None
  end.
Definition evolving (factor : Q) (n : nat) (ls : list (list (option Q))) (prev : list (option Q))
  (old : score) : score :=
  let avg := map (option_map (fun q => (q / inject_Z (Z.of_nat n))%Q)) (sum_caps ls) in
  let change := map (fun p => relative_change (fst p) (snd p)) (combine avg prev) in
  if Qeq_bool (fold_right (fun o s => match o with Some q => (q + s)%Q | None => s end) 0%Q change) 0
  then added (integer_inc factor prev) old
  else replaced (map (fun o => match o with
                               | Some q => (/ (if Qltb q (1 # 1000) then (1 # 1000) else q))%Q
                               | None => 0%Q
                               end) change) old.

Fixpoint all_caps (l : list dataset) : result (list (list (option Q))) :=
  match l with
  | [] => Ok []
  | d :: r => bind (caps d) (fun c => bind (all_caps r) (fun cs => Ok (c :: cs)))
  end.

(** model.py:746-874 [_spores_update_model]: the score of the next run from all results so
    far, the last one being the latest. *)
Definition new_score (c : config) (n : nat) (prev : list dataset) (old : score) : result score :=
  match rev prev with
  | [] => Err EKey
  | latest :: _ =>
      bind (caps latest) (fun l =>
        match p_alg c with
        | Integer => Ok (added (integer_inc (p_factor c) l) old)
        | Relative => bind (relative_inc (p_factor c) l) (fun i => Ok (added i old))
        | Random => Ok (added (random_inc n l) old)
        | Evolving =>
            bind (all_caps prev) (fun ls =>
              Ok (evolving (p_factor c) (List.length prev) ls l old))
        end)
  end.

(** backend_model.py:1392-1447, pyomo_backend_model.py:374-391 and the post-processed arrays of
    math/spores.yaml: a usable solution gets the current score and cost limit attached. *)
Definition run_solver (c : config) (n : nat) (b : bstate) : dataset * string :=
  let (d, t) := solver n b in
  match d with
  | [] => ([], t)
  | _ => (if p_postprocess c
          then d_set "spores_baseline_cost_tracked" [b_base b]
                 (d_set "spores_score_cumulative" (map Fin (b_score b)) d)
          else d, t)
  end.

Definition usable (t : string) : bool := smem t ["optimal"; "feasible"].

(** model.py:646-654: the cost that limits all spores. *)
Definition limit_cost (c : config) (base : dataset) : result xq :=
  let own := match d_get (p_objective c) base with Some (x :: _) => Ok x | _ => Err EKey end in
  match (match d_get "spores_baseline_cost_tracked" base with
         | Some l => nth_error l 0
         | None => input_cost
         end) with
  | None => own
  | Some PInf => own
  | Some (Fin q) => if Qeq_bool q 0 then own else Ok (Fin q)
  | Some x => Ok x
  end.

(** What a run leaves behind: results so far (baseline first), their termination
    conditions, files written, backend state, number of solver calls. *)
Record trace := {
  t_list : list dataset;
  t_terms : list string;
  t_files : list (nat * dataset);
  t_b : bstate;
  t_n : nat
}.

(** model.py:704-744 [_spores_save_model] *)
Definition save (c : config) (k : nat) (d : dataset) (t : string) (files : list (nat * dataset)) :=
  if p_save c && usable t then files ++ [(k, d)] else files.

(** model.py:663-677: the loop over the spores.  The files written so far survive an error,
    so the trace is returned with it. *)
Fixpoint spores_loop (c : config) (range : list nat) (s : trace) : trace * option exn :=
  match range with
  | [] => (s, None)
  | k :: rest =>
      match new_score c (t_n s) (t_list s) (b_score (t_b s)) with
      | Err e => (s, Some e)
      | Ok sc =>
          let b1 := {| b_obj := b_obj (t_b s); b_score := sc; b_base := b_base (t_b s) |} in
          let (d, t) := run_solver c (t_n s) b1 in
          let files := save c k d t (t_files s) in
          match d with
          | [] => ({| t_list := t_list s; t_terms := t_terms s; t_files := files; t_b := b1;
                      t_n := S (t_n s) |}, None)
          | _ => spores_loop c rest
                   {| t_list := t_list s ++ [d]; t_terms := t_terms s ++ [t]; t_files := files;
                      t_b := b1; t_n := S (t_n s) |}
          end
      end
  end.

Definition max_label (l : list (nat * dataset)) : nat := fold_right Nat.max 0 (map fst l).
Definition fins (l : list xq) : score := map (fun x => match x with Fin q => q | _ => 0%Q end) l.

(** [",".join(set(...))]; the order of a set is arbitrary, here it is that of the last
    occurrences. *)
Definition joined (terms : list string) : string := join_on "," (nodup string_dec terms).

(** Everything before the loop (model.py:613-660): latest spore, baseline, the trace the loop
    starts from. *)
Definition start (c : config) (r : results) (b : bstate) (n : nat)
  : (nat * trace) + (exn * trace) :=
  let b0 := {| b_obj := b_obj b; b_score := repeat 0%Q (List.length ids); b_base := b_base b |} in
  let go (latest : nat) (base : dataset) (s : trace) : (nat * trace) + (exn * trace) :=
    if Nat.leb (p_number c) latest then inr (EModel, s)
    else match base with
         | [] => inr (EModel, s)
         | _ =>
             match limit_cost c base with
             | Err e => inr (e, s)
             | Ok x => inl (latest, {| t_list := [base]; t_terms := t_terms s; t_files := t_files s;
                         t_b := {| b_obj := "min_spores"; b_score := b_score (t_b s); b_base := x |};
                         t_n := t_n s |})
             end
         end in
  if negb (p_latest c) then
    let b1 := {| b_obj := p_objective c; b_score := b_score b0; b_base := b_base b0 |} in
    let (d, t) := run_solver c n b1 in
    go 0 d {| t_list := []; t_terms := [t]; t_files := save c 0 d t []; t_b := b1; t_n := S n |}
  else
    let s0 := {| t_list := []; t_terms := []; t_files := []; t_b := b0; t_n := n |} in
    match r with
    | RSpores l =>
        let latest := max_label l in
        match find (fun p => Nat.eqb (fst p) latest) l with
        | None => inr (EKey, s0)
        | Some (_, base) =>
            match d_get "spores_score_cumulative" base with
            | None => inr (EAttr, s0)
            | Some sc =>
                go latest base {| t_list := []; t_terms := []; t_files := [];
                  t_b := {| b_obj := b_obj b0; b_score := fins sc; b_base := b_base b0 |}; t_n := n |}
            end
        end
    | RPlain d => go 0 d s0
    | RNone => go 0 [] s0
    end.

Record outcome := {
  o_results : results;
  o_term : string;
  o_files : list (nat * dataset);
  o_b : bstate;
  o_n : nat
}.

(** model.py:601-702 [_solve_spores].  An error is returned with the files written before it
    and the backend state it leaves.  Simplification: concatenation keeps the data set of
    each spore as it is (arrays missing in some spores are not filled up). *)
Definition solve_spores (c : config) (r : results) (b : bstate) (n : nat)
  : outcome + (exn * trace) :=
  match start c r b n with
  | inr e => inr e
  | inl (latest, s0) =>
      let range := seq (S latest) (p_number c - latest) in
      match spores_loop c range s0 with
      | (s, Some e) => inr (e, s)
      | (s, None) =>
          let new := combine (latest :: firstn (List.length (t_list s) - 1) range) (t_list s) in
          let all := if (0 <? latest) && p_latest c then
                       match r with
                       | RSpores l => l ++ filter (fun p => negb (Nat.eqb (fst p) latest)) new
                       | _ => new
                       end
                     else new in
          inl {| o_results := RSpores all; o_term := joined (t_terms s); o_files := t_files s;
                 o_b := t_b s; o_n := t_n s |}
      end
  end.
End Spores.
