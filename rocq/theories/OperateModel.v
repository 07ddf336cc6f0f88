(** Model of the receding-horizon ("operate") mode: src/calliope/model.py:466-599. *)
From Coq Require Export QArith.
From Verif Require Import Base.
Local Open Scope list_scope.
Local Open Scope Z_scope.

(** Time is counted in nanoseconds, the unit of [_TS_OFFSET] (model.py:158). *)
Definition ts_offset : Z := 1.

(** model.py:481-485 [pd.date_range(first, last, freq=window)].  Simplification: the window is
    a fixed length of time (calendar frequencies such as "MS" are not modelled). *)
Definition windowsteps (first lst window : Z) : list Z :=
  map (fun i => first + Z.of_nat i * window) (seq 0 (Z.to_nat ((lst - first) / window + 1))).

(** model.py:486-496: the (inclusive) end of the horizon of a window. *)
Definition horizonstep (lst horizon ws : Z) : Z :=
  Z.min (ws + horizon) (lst + ts_offset) - ts_offset.

(** [.sel(timesteps=slice(lo, hi))], both ends included, on an ordered index. *)
Definition sel {V} (key : V -> Z) (lo hi : option Z) (l : list V) : list V :=
  filter (fun x => (match lo with Some a => a <=? key x | None => true end) &&
                   (match hi with Some b => key x <=? b | None => true end)) l.
Definition idZ (z : Z) : Z := z.
Definition horizon_ts (ts : list Z) (lst horizon ws : Z) : list Z :=
  sel idZ (Some ws) (Some (horizonstep lst horizon ws)) ts.

(** Arrays with a time dimension: by name, the values at the positions of the horizon. *)
Definition table := list (string * list Z).
Definition level := string -> Q.

(** The backend: what the optimisation problem was last given ([b_par], [b_look]), the copy
    of the inputs kept beside it ([b_inputs]), the initial storage, and the parameter names
    it knows. *)
Record backend := {
  b_len : nat;
  b_par : table;
  b_inputs : table;
  b_look : table;
  b_init : level
}.

Section Operate.
(** Inputs: timesteps, values of time-dependent parameters and look-ups, initial storage
    fraction, storage capacity. *)
Variable ts : list Z.
Variable par : list (string * (Z -> Z)).
Variable look : list (string * (Z -> Z)).
Variable init_frac : level.
Variable cap : level.
Variables window horizon : Z.
(** Results per timestep; the storage level is part of them. *)
Variable R : Type.
Variable storage : R -> option level.
(** The solver: one result per timestep of the horizon. *)
Variable solver : table -> table -> level -> nat -> list R.

Definition first : Z := hd 0 ts.
Definition final : Z := last ts 0.
Definition wss : list Z := windowsteps first final window.
Definition tab (vars : list (string * (Z -> Z))) (steps : list Z) : table :=
  map (fun nf => (fst nf, map (snd nf) steps)) vars.

(** model.py:271-312 [build] in operate mode, for the window starting at [ws]
    ([_prepare_operate_mode_inputs], 497-502). *)
Definition build (ws : Z) : backend :=
  let steps := horizon_ts ts final horizon ws in
  {| b_len := List.length steps; b_par := tab par steps; b_inputs := tab par steps;
     b_look := tab look steps; b_init := init_frac |}.

Definition values_eqb (a b : list Z) : bool :=
  if list_eq_dec Z.eq_dec a b then true else false.

(** model.py:557-565: the values of the new horizon replace those of parameters that the
    backend knows and whose values differ from the kept copy; look-ups are left alone. *)
Fixpoint update_params (new : table) (b : backend) : backend :=
  match new with
  | [] => b
  | (n, v) :: t =>
      let b' :=
        if d_mem n (b_par b) &&
           negb (match d_get n (b_inputs b) with Some old => values_eqb v old | None => false end)
        then {| b_len := b_len b; b_par := d_set n v (b_par b); b_inputs := d_set n v (b_inputs b);
                b_look := b_look b; b_init := b_init b |}
        else b in
      update_params t b'
  end.

Definition solve (b : backend) : list R := solver (b_par b) (b_look b) (b_init b) (b_len b).

(** [iteration_results.get("storage").notnull().any()] *)
Definition has_storage (r : list (Z * R)) : bool :=
  existsb (fun tr => match storage (snd tr) with Some _ => true | None => false end) r.

(** model.py:583-599 [_recalculate_storage_initial]; an empty slice has no last element
    (IndexError).  A missing level at the last step and a zero capacity give NaN; they are
    modelled as leaving the initial storage at 0. *)
Definition recalculate (r : list (Z * R)) : result level :=
  match rev r with
  | [] => Err EKey
  | (_, x) :: _ =>
      Ok (fun d => match storage x with
                   | Some l => if Qeq_bool (cap d) 0 then 0%Q else (l d / cap d)%Q
                   | None => 0%Q
                   end)
  end.

(** model.py:529-573: the loop over the windows after the first.  [iter] are the results of
    the previous window, [acc] is [results_list]. *)
Fixpoint loop (ws : list Z) (iter : list (Z * R)) (b : backend) (acc : list (list (Z * R)))
  : result (list (list (Z * R)) * list (Z * R) * backend) :=
  match ws with
  | [] => Ok (acc, iter, b)
  | w :: rest =>
      let kept := sel fst None (Some (w - ts_offset)) iter in
      let new_ts := horizon_ts ts final horizon w in
      let b1 := if Nat.eqb (List.length new_ts) (List.length iter)
                then update_params (tab par new_ts) b
                else build w in
      bind (if has_storage iter then
              bind (recalculate kept) (fun l =>
                Ok {| b_len := b_len b1; b_par := b_par b1; b_inputs := b_inputs b1;
                      b_look := b_look b1; b_init := l |})
            else Ok b1)
        (fun b2 => loop rest (combine new_ts (solve b2)) b2 (acc ++ [kept]))
  end.

(** model.py:505-581 [_solve_operate], from a backend built for the first window.  With a
    single window the loop variable is never bound (NameError, 574).  [combine] labels the
    positional results of the solver with the timesteps. *)
Definition solve_operate : result (list (Z * R)) :=
  let ts0 := horizon_ts ts final horizon first in
  let b0 := build first in
  bind (loop (tl wss) (combine ts0 (solve b0)) b0 []) (fun r =>
    let '(acc, iter, _) := r in
    match rev (tl wss) with
    | [] => Err EName
    | w :: _ => Ok (List.concat (acc ++ [sel fst (Some w) None iter]))
    end).
End Operate.
