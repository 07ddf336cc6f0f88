(** Model of how a math component becomes an array of expressions or constraints:
    src/calliope/backend/parsing.py and the building part of
    src/calliope/backend/backend_model.py. *)
From Coq Require Import QArith Qcanon.
From Verif Require Import Base LangModel MathText EvalModel.
From Verif Require CliModel.
Local Open Scope nat_scope.
Local Open Scope string_scope.
Local Open Scope list_scope.

(** * Parsed equations *)

(** An arithmetic expression (also of a sub-expression or slice) or a comparison. *)
Inductive parsed := PArith (e : expr) | PEq (l : expr) (c : cmp) (r : expr).

(** [ParsedBackendEquation], parsing.py:27-64, without [sets]. *)
Record peq := {
  q_name : string; q_where : list wexpr; q_expr : parsed;
  q_subs : list (string * parsed); q_slices : list (string * parsed) }.

(** What may go wrong: a text is not accepted ([raise_caught_errors] 806-815), a reference is
    not defined (696-700), a reference has no entry at evaluation, two equations for one index
    (backend_model.py:462-471), an expression without value (parsing.py:352-377). *)
Inductive failure := FParse | FUndefined | FKey | FOverlap (name : string) | FMissing (name : string).
Inductive outcome (A : Type) := Done (a : A) | Fail (f : failure).
Arguments Done {A}.
Arguments Fail {A}.
Definition next {A B} (x : outcome A) (f : A -> outcome B) : outcome B :=
  match x with Done a => f a | Fail e => Fail e end.

(** [_find_items_in_expression] 106-138; [slices = false]: sub-expressions, classes operator and
    function are searched; [slices = true]: slice references, sliced components too.  Signs
    are not searched. *)
Fixpoint items (slices : bool) (e : expr) {struct e} : list string :=
  match e with
  | ERef s => if slices then [] else [s]
  | ESlice s => if slices then [s] else []
  | EIndex _ sl => if slices then flat_map (fun x => items slices (snd x)) sl else []
  | EFun _ args kws => flat_map (items slices) args ++ flat_map (fun k => items slices (snd k)) kws
  | EChain e ops => items slices e ++ flat_map (fun x => items slices (snd x)) ops
  | _ => []
  end.
(** [self.expression[0].values] 79-83, 96-102: one level is opened whatever it is. *)
Definition top_items (slices : bool) (p : parsed) : list string :=
  match p with
  | PArith (ESign _ e) => items slices e
  | PArith e => items slices e
  | PEq l _ r => items slices l ++ items slices r
  end.
Definition part_items (slices : bool) (p : parsed) : list string :=
  match p with PArith e => items slices e | PEq l _ r => items slices l ++ items slices r end.
(** [find_sub_expressions] 66-83. *)
Definition find_subs (q : peq) : list string := top_items false (q_expr q).
(** [find_slices] 85-104. *)
Definition find_slices (q : peq) : list string :=
  top_items true (q_expr q) ++ flat_map (fun s => part_items true (snd s)) (q_subs q).

(** [add_expression_group_combination] 140-177. *)
Fixpoint dashed (l : list string) : string :=
  match l with [] => "" | [s] => s | s :: r => String.append s (String "-" (dashed r)) end.
Definition group_of (comb : list peq) : list (string * parsed) :=
  fold_left (fun d a => d_set (hd "" (split_on ":" (q_name a))) (q_expr a) d) comb [].
Definition add_combination (slices : bool) (q : peq) (comb : list peq) : peq :=
  {| q_name := String.append (q_name q) (String "-" (dashed (map q_name comb)));
     q_where := q_where q ++ flat_map q_where comb;
     q_expr := q_expr q;
     q_subs := if slices then q_subs q else group_of comb;
     q_slices := if slices then group_of comb else q_slices q |}.

Section Parse.
(** Iteration order of a set of strings (it depends on the hash seed of the process). *)
Variable order : list string -> list string.

(** [extend_equation_list_with_expression_group] 664-711. *)
Definition extend (slices : bool) (alts : list (string * list peq)) (q : peq) : outcome (list peq) :=
  let ks := order (if slices then find_slices q else find_subs q) in
  match ks with
  | [] => Done [q]
  | _ =>
      if forallb (fun k => d_mem k alts) ks
      then Done (map (add_combination slices q)
                   (CliModel.product (map (fun k => match d_get k alts with Some l => l | None => [] end) ks)))
      else Fail FUndefined
  end.
Fixpoint extend_all (slices : bool) (alts : list (string * list peq)) (qs : list peq) : outcome (list peq) :=
  match qs with
  | [] => Done []
  | q :: r => next (extend slices alts q) (fun a => next (extend_all slices alts r) (fun b => Done (a ++ b)))
  end.

(** [generate_expression_list] 605-662: every alternative must be accepted. *)
Definition alternative (N : names) (pe : string -> option parsed) (prefix : string) (ia : nat * (string * string))
  : option peq :=
  match parse_where_text N (fst (snd ia)), pe (snd (snd ia)) with
  | Some w, Some e =>
      Some {| q_name := if String.eqb prefix "" then CliModel.str (fst ia)
                        else String.append prefix (String ":" (CliModel.str (fst ia)));
              q_where := [w]; q_expr := e; q_subs := []; q_slices := [] |}
  | _, _ => None
  end.
Fixpoint sequence {A} (l : list (option A)) : option (list A) :=
  match l with
  | [] => Some []
  | Some a :: r => option_map (cons a) (sequence r)
  | None :: _ => None
  end.
Definition expression_list (N : names) (pe : string -> option parsed) (prefix : string) (l : list (string * string))
  : option (list peq) :=
  sequence (map (alternative N pe prefix) (CliModel.enumerate 0 l)).
Definition expression_dict (N : names) (pe : string -> option parsed) (d : list (string * list (string * string)))
  : option (list (string * list peq)) :=
  sequence (map (fun kl => option_map (pair (fst kl)) (expression_list N pe (fst kl) (snd kl))) d).

Definition arith_parser (valid : list string) (refs : bool) (s : string) : option parsed :=
  option_map PArith (parse_arith_text (lang_expr valid refs) s).
Definition slice_parser (valid : list string) (s : string) : option parsed :=
  option_map PArith (parse_slice_text (lang_slice valid) s).
Definition equation_parser (valid : list string) (s : string) : option parsed :=
  match parse_equation_text (lang_expr valid true) s with Some (l, c, r) => Some (PEq l c r) | None => None end.

(** [parse_equations] 493-558; [PARSERS] 401-407: constraints hold comparisons. *)
Definition parse_equations (N : names) (valid : list string) (group : string) (c : component)
  : outcome (list peq) :=
  let pe := if String.eqb group "constraints" then equation_parser valid else arith_parser valid true in
  match expression_list N pe (String.append group (String ":" (c_name c))) (c_equations c),
        expression_dict N (arith_parser valid false) (c_subs c),
        expression_dict N (slice_parser valid) (c_slices c) with
  | Some eqs, Some subs, Some slices =>
      next (extend_all false subs eqs) (extend_all true slices)
  | _, _, _ => Fail FParse
  end.
End Parse.

(** * Building *)

(** Labels of a tuple of dimensions. *)
Definition index := list string.
Fixpoint index_eqb (a b : index) : bool :=
  match a, b with
  | [], [] => true
  | x :: a, y :: b => String.eqb x y && index_eqb a b
  | _, _ => false
  end.

(** [d_dims]: the dimensions of the inputs; [d_labels]: their labels; [d_matrix]: the lookup
    "definition_matrix"; [d_where], [d_env]: what conditions and expressions look things up
    in.  Arrays are functions of a label for every dimension; a dimension that an array does
    not have is one it does not depend on. *)
Record data := {
  d_dims : list string; d_labels : string -> list string; d_matrix : pos -> bool;
  d_where : wenv; d_env : env }.

Definition at_index (ds : list string) (i : index) : pos :=
  fun d => match d_get d (combine ds i) with Some l => l | None => "" end.
Definition indices (D : data) (ds : list string) : list index := CliModel.product (map (d_labels D) ds).

(** [evaluate_where] 206-260. *)
Definition eval_where (D : data) (initial : pos -> bool) (ws : list wexpr) : pos -> bool :=
  fold_left (fun v w => fun p => v p && weval (d_where D) w p) ws initial.
(** [where.any()] over all dimensions. *)
Definition any_full (D : data) (w : pos -> bool) : bool :=
  existsb (fun i => w (at_index (d_dims D) i)) (indices D (d_dims D)).
(** [drop_dims_not_in_foreach] 262-274. *)
Definition drop_dims (D : data) (sets : list string) (w : pos -> bool) : index -> bool :=
  fun f => existsb (fun i => index_eqb (map (at_index (d_dims D) i) sets) f && w (at_index (d_dims D) i))
             (indices D (d_dims D)).

(** [combine_definition_matrix_and_foreach] 713-744. *)
Definition foreach_where (D : data) (sets : list string) : pos -> bool :=
  if forallb (fun s => smem s (d_dims D)) sets then d_matrix D else fun _ => false.

(** [generate_top_level_where_array] 746-804 with [align_to_foreach_sets] and [break_early]. *)
Definition top_level_where (D : data) (N : names) (c : component) : outcome (index -> bool) :=
  let fw := foreach_where D (c_foreach c) in
  if any_full D fw then
    match parse_where_text N (c_where c) with
    | None => Fail FParse
    | Some w =>
        let v := eval_where D fw [w] in
        if any_full D v then Done (drop_dims D (c_foreach c) v) else Done (fun _ => false)
    end
  else Done (fun _ => false).

(** An entry of the component: a value, or the two sides of a constraint. *)
Inductive entry := VCell (c : cell) | VRel (l : cell) (c : cmp) (r : cell).
Definition null (v : entry) : bool := match v with VCell Miss => true | _ => false end.

(** Everything an evaluation may look up in the dictionaries of sub-expressions and slices
    (slicers hold no references to sub-expressions). *)
Fixpoint lookups (slices : bool) (e : expr) {struct e} : list string :=
  match e with
  | ERef s => if slices then [] else [s]
  | ESlice s => if slices then [s] else []
  | EIndex _ sl => if slices then flat_map (fun x => lookups slices (snd x)) sl else []
  | EFun _ args kws => flat_map (lookups slices) args ++ flat_map (fun k => lookups slices (snd k)) kws
  | ESign _ e => lookups slices e
  | EChain e ops => lookups slices e ++ flat_map (fun x => lookups slices (snd x)) ops
  | _ => []
  end.
Definition lookups_of (slices : bool) (p : parsed) : list string :=
  match p with PArith e => lookups slices e | PEq l _ r => lookups slices l ++ lookups slices r end.
Definition keys_given (q : peq) : bool :=
  forallb (fun s => d_mem s (q_subs q)) (lookups_of false (q_expr q)) &&
  forallb (fun s => d_mem s (q_slices q))
    (lookups_of true (q_expr q) ++ flat_map (fun s => lookups_of true (snd s)) (q_subs q)).

(** The surroundings of an equation ([EvalAttrs], parsing.py:335-345): slices are evaluated
    without references, sub-expressions without sub-expressions. *)
Definition with_slices (E : env) (slices : list (string * parsed)) : env :=
  {| e_array := e_array E; e_default := e_default E; e_config := e_config E;
     e_ref := e_ref E;
     e_slice := fun s => match d_get s slices with Some (PArith e) => aeval E everywhere e | _ => const Miss end;
     e_helper := e_helper E; e_ignore := e_ignore E; e_odd := e_odd E |}.
Definition with_subs (E : env) (subs : list (string * parsed)) : env :=
  {| e_array := e_array E; e_default := e_default E; e_config := e_config E;
     e_ref := fun s w => match d_get s subs with Some (PArith e) => aeval E w e | _ => const Miss end;
     e_slice := e_slice E;
     e_helper := e_helper E; e_ignore := e_ignore E; e_odd := e_odd E |}.
Definition eq_env (E : env) (q : peq) : env := with_subs (with_slices E (q_slices q)) (q_subs q).

(** [evaluate_expression] 301-350, [EvalComparisonOp.as_array] (expression_parser.py:361-382):
    comparisons are made where the mask holds.  Simplification: expressions over dimensions
    that are not in [foreach] (an error, 366-371, 367-372) are not treated. *)
Definition evaluate (D : data) (sets : list string) (q : peq) (w : index -> bool) : index -> entry :=
  let E := eq_env (d_env D) q in
  let m : pos -> bool := fun p => w (map p sets) in
  match q_expr q with
  | PArith e => fun f => VCell (aeval E m e (at_index sets f))
  | PEq l c r => fun f => if w f then VRel (aeval E m l (at_index sets f)) c (aeval E m r (at_index sets f))
                          else VCell Miss
  end.

(** [_eval_equations], backend_model.py:423-460, one equation; the setters
    (pyomo_backend_model.py:217-240) give the expression where the mask holds. *)
Definition add_equation (D : data) (sets : list string) (top : index -> bool) (da : index -> entry) (q : peq)
  : outcome (index -> entry) :=
  let w := eval_where D (fun p => top (map p sets)) (q_where q) in
  if any_full D w then
    let wd := drop_dims D sets w in
    if existsb (fun f => wd f && negb (null (da f))) (indices D sets) then Fail (FOverlap (q_name q))
    else if keys_given q then
      let v := evaluate D sets q wd in
      if existsb (fun f => wd f && null (v f)) (indices D sets) then Fail (FMissing (q_name q))
      else Done (fun f => if null (da f) then if wd f then v f else VCell Miss else da f)
    else Fail FKey
  else Done da.
Fixpoint eval_equations (D : data) (sets : list string) (top : index -> bool) (da : index -> entry) (qs : list peq)
  : outcome (index -> entry) :=
  match qs with
  | [] => Done da
  | q :: r => next (add_equation D sets top da q) (fun da => eval_equations D sets top da r)
  end.

(** [add_global_expression] 215-257, [add_constraint] 259-301: the array of a component. *)
Definition build (order : list string -> list string) (D : data) (N : names) (valid : list string)
  (group : string) (c : component) : outcome (index -> entry) :=
  next (top_level_where D N c) (fun top =>
    if existsb top (indices D (c_foreach c)) then
      next (parse_equations order N valid group c)
        (eval_equations D (c_foreach c) top (fun _ => VCell Miss))
    else Done (fun _ => VCell Miss)).

(** * Input checks *)

(** math_schema.py, [Check]: condition, message, severity and switch. *)
Record check := { k_where : string; k_message : string; k_raise : bool; k_active : bool }.

(** [_check_inputs], backend_model.py:597-623, one check: the violation, if any. *)
Definition check_fires (D : data) (w : wexpr) : bool :=
  any_full D (weval (d_where D) w) && any_full D (fun p => weval (d_where D) w p && d_matrix D p).
Fixpoint check_results (D : data) (N : names) (ks : list check) : option (list string * list string) :=
  match ks with
  | [] => Some ([], [])
  | k :: r =>
      if k_active k then
        match parse_where_text N (k_where k) with
        | None => None
        | Some w =>
            match check_results D N r with
            | None => None
            | Some (warn, raise) =>
                if check_fires D w then
                  if k_raise k then Some (warn, k_message k :: raise) else Some (k_message k :: warn, raise)
                else Some (warn, raise)
            end
        end
      else check_results D N r
  end.
(** The warning given and the error raised (exceptions.py:42-108); [None]: a text is not
    accepted. *)
Definition check_inputs (D : data) (N : names) (ks : list check) (during bullet : string)
  : option (option string * option string) :=
  option_map (fun r => CliModel.report (Some (CliModel.Plain (fst r))) (Some (CliModel.Plain (snd r))) during bullet)
    (check_results D N ks).
