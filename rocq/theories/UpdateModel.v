(** Building the optimisation problem component by component and updating inputs afterwards
    (src/calliope/backend/backend_model.py, pyomo_backend_model.py). *)
From Coq Require Import QArith Qcanon.
From Verif Require Import Base EvalModel HelperModel.
Local Open Scope nat_scope.
Local Open Scope string_scope.
Local Open Scope list_scope.

(** [ALL_COMPONENTS_T], backend_model.py:30-32; [ORDERED_COMPONENTS_T],
    preprocess/model_math.py. *)
Inductive kind := KParameter | KLookup | KVariable | KExpression | KConstraint | KPiecewise | KObjective.
Definition ordered_kinds : list kind := [KVariable; KExpression; KConstraint; KPiecewise; KObjective].
Definition kind_eqb (a b : kind) : bool :=
  match a, b with
  | KParameter, KParameter | KLookup, KLookup | KVariable, KVariable | KExpression, KExpression
  | KConstraint, KConstraint | KPiecewise, KPiecewise | KObjective, KObjective => true
  | _, _ => false
  end.

(** Entries of the arrays of the backend dataset: nothing, a number, a parameter or variable of
    the solver interface, or a formula made of them. *)
Inductive item := INull | INum (c : cell) | IObj (s : string) (p : pos) | INode (t : string) (l : list item).
Definition is_null (i : item) : bool := match i with INull => true | _ => false end.

(** An array of [self._dataset] with its attributes [obj_type] and [references] (722-726): the
    components that refer to it. *)
Record entry := { t_kind : kind; t_dims : list string; t_at : pos -> item; t_refs : list string }.
Definition dataset := list (string * entry).
Definition inputs := string -> darr.

(** The building of one component (parsing, evaluation of conditions and expressions;
    BuildModel.v and HelperModel.v model what it computes) seen from outside: which entries it
    reads (their dimensions and entries), what it does with them, and whether it ends with an exception.
    [Ask]: an input, noted in [references] (where_parser.py:184-193, expression_parser.py:800);
    [Peek]: an input that is read without being noted: the definition matrix
    (parsing.py:735-744, helper_functions.py:308-313) and [carrier_in], [carrier_out]
    (helper_functions.py:424-427);
    [Look]: an array of the dataset, noted in [references] (where_parser.py:144-149,
    expression_parser.py:793-816), a [KeyError] if there is none. *)
Inductive prog :=
| Done (dims : list string) (at_ : pos -> item)
| Stop
| Ask (s : string) (p : pos) (k : list string -> cell -> prog)
| Peek (s : string) (p : pos) (k : list string -> cell -> prog)
| Look (s : string) (p : pos) (k : list string -> item -> prog).

(** The names noted in [references] and the array built. *)
Fixpoint run (I : inputs) (D : dataset) (x : prog) : option (list string * (list string * (pos -> item))) :=
  match x with
  | Done dims at_ => Some ([], (dims, at_))
  | Stop => None
  | Ask s p k => match run I D (k (a_dims (I s)) (a_at (I s) p)) with Some (r, b) => Some (s :: r, b) | None => None end
  | Peek s p k => run I D (k (a_dims (I s)) (a_at (I s) p))
  | Look s p k =>
      match d_get s D with
      | Some e => match run I D (k (t_dims e) (t_at e p)) with Some (r, b) => Some (s :: r, b) | None => None end
      | None => None
      end
  end.

(** The math: its inputs ([true]: lookups) and components, each group sorted by [order]
    ([_sorted_by_order] 677-680).  Only active ones. *)
Record comp := { k_kind : kind; k_name : string; k_prog : prog }.
Record math := { m_inputs : list (string * bool); m_comps : list comp }.

(** [s_inputs]: [self.inputs]; [s_data]: [self._dataset]; [s_vals]: the values of the parameter
    objects. *)
Record state := { s_inputs : inputs; s_data : dataset; s_vals : string -> pos -> cell }.
(** An exception leaves the state behind. *)
Inductive outcome := Ok (st : state) | Err (st : state).

Section Backend.
(** Labels of the dimensions; whether parameters are objects that can be changed in place (Pyomo)
    or plain numbers (Gurobi); the math. *)
Variable L : string -> list string.
Variable mutable : bool.
Variable M : math.

Definition cells (dims : list string) : list pos := map (puts (fun _ => "") dims) (CliModel.product (map L dims)).
Definition all_missing (a : darr) : bool := forallb (fun p => missing (a_at a p)) (cells (a_dims a)).

(** [add_lookup] 125-143, [add_parameter] 145-165, pyomo_backend_model.py:180-193. *)
Definition input_entry (s : string) (lookup : bool) (a : darr) : entry :=
  let k := if lookup then KLookup else KParameter in
  if all_missing a then {| t_kind := k; t_dims := []; t_at := fun _ => INull; t_refs := [] |}
  else {| t_kind := k; t_dims := a_dims a;
          t_at := fun p => if missing (a_at a p) then INull
                           else if lookup || negb mutable then INum (a_at a p) else IObj s p;
          t_refs := [] |}.
Definition add_input (s : string) (lookup : bool) (a : darr) (st : state) : state :=
  {| s_inputs := s_inputs st;
     s_data := s_data st ++ [(s, input_entry s lookup a)];
     s_vals := fun n p => if String.eqb n s then a_at a p else s_vals st n p |}.

(** [_update_references] 740-751. *)
Definition note (name : string) (e : entry) : entry :=
  {| t_kind := t_kind e; t_dims := t_dims e; t_at := t_at e;
     t_refs := if smem name (t_refs e) then t_refs e else t_refs e ++ [name] |}.
Definition update_references (name : string) (refs : list string) (D : dataset) : dataset :=
  map (fun se => if smem (fst se) refs then (fst se, note name (snd se)) else se) D.
(** [add_variable], [add_global_expression], [add_constraint], [add_objective] 167-360,
    [_add_to_dataset] 705-738, [_raise_error_on_preexistence] 804-846. *)
Definition add_comp (c : comp) (st : state) : option state :=
  match d_get (k_name c) (s_data st) with
  | Some _ => None
  | None =>
      match run (s_inputs st) (s_data st) (k_prog c) with
      | None => None
      | Some (refs, (dims, at_)) =>
          Some {| s_inputs := s_inputs st;
                  s_data := update_references (k_name c) refs
                              (s_data st ++ [(k_name c, {| t_kind := k_kind c; t_dims := dims; t_at := at_; t_refs := [] |})]);
                  s_vals := s_vals st |}
      end
  end.

(** [_load_inputs] 651-670, [add_optimisation_components] 625-640. *)
Fixpoint add_comps (cs : list comp) (st : state) : option state :=
  match cs with
  | [] => Some st
  | c :: cs => match add_comp c st with Some st => add_comps cs st | None => None end
  end.
Definition load_inputs (I : inputs) : state :=
  fold_left (fun st x => add_input (fst x) (snd x) (I (fst x)) st) (m_inputs M)
    {| s_inputs := I; s_data := []; s_vals := fun _ _ => Miss |}.
Definition build_order : list comp :=
  flat_map (fun k => filter (fun c => kind_eqb (k_kind c) k) (m_comps M)) ordered_kinds.
Definition fresh (I : inputs) : option state := add_comps build_order (load_inputs I).

(** [delete_component], pyomo_backend_model.py:417-425. *)
Definition delete (s : string) (st : state) : state :=
  {| s_inputs := s_inputs st; s_data := d_del s (s_data st); s_vals := s_vals st |}.

(** [_find_all_references] 1449-1462; [None]: a [KeyError], or no end. *)
Fixpoint find_all (fuel : nat) (D : dataset) (refs : list string) : option (list string) :=
  match fuel with
  | 0 => None
  | S n =>
      fold_left (fun acc r =>
        match acc, d_get r D with
        | Some acc, Some e => match find_all n D (t_refs e) with Some l => Some (acc ++ l) | None => None end
        | _, _ => None
        end) refs (Some refs)
  end.

(** [_rebuild_references] 1464-1477. *)
Definition def_of (s : string) : option comp := find (fun c => String.eqb (k_name c) s) (m_comps M).
Definition names_of_kind (k : kind) (D : dataset) : list string :=
  map fst (filter (fun se => kind_eqb (t_kind (snd se)) k) D).
Definition rebuild_one (o : outcome) (s : string) : outcome :=
  match o with
  | Err st => Err st
  | Ok st =>
      let st := delete s st in
      match def_of s with
      | Some c => match add_comp c st with Some st => Ok st | None => Err st end
      | None => Err st
      end
  end.
Definition rebuild_kind (refs : list string) (o : outcome) (k : kind) : outcome :=
  match o with
  | Err st => Err st
  | Ok st => fold_left rebuild_one (filter (fun s => smem s refs) (names_of_kind k (s_data st))) (Ok st)
  end.
Definition rebuild (refs : list string) (st : state) : outcome :=
  fold_left (rebuild_kind refs) ordered_kinds (Ok st).

(** * [_update_input] 1221-1281 *)

(** 1251: missing new entries keep the old ones; the result has the dimensions of both (and
    nothing beyond their labels). *)
Definition within (dims : list string) (p : pos) : bool := forallb (fun d => smem (p d) (L d)) dims.
Definition merged (new old : darr) : darr :=
  let dims := HelperModel.merge (a_dims old) (a_dims new) in
  {| a_dims := dims;
     a_at := fun p => if within dims p then if missing (a_at new p) then a_at old p else a_at new p else Miss |}.
(** 1255-1261. *)
Definition needs_rebuild (e : entry) (new : darr) : bool :=
  (match t_dims e, a_dims new with [], _ :: _ => true | _, _ => false end)
  || negb (all_in (a_dims new) (t_dims e))
  || existsb (fun p => is_null (t_at e p) && negb (missing (a_at new p))) (cells (HelperModel.merge (t_dims e) (a_dims new)))
  || kind_eqb (t_kind e) KLookup
  || negb mutable.

(** [_apply_func(self._update_pyomo_param, new.notnull(), 1, orig, new)],
    pyomo_backend_model.py:427-432 and backend_model.py:768-802: the arrays get the dimensions
    of [new] first and then the others; the mask is given to numpy as a plain array, so that
    its axes are matched with the last ones.  [None]: the shapes do not fit.  Simplifications:
    [new] has all labels of its dimensions; a last axis of length one with a longer axis of the
    mask is refused. *)
Fixpoint mask_pos (ds ts : list string) (p : pos) : option pos :=
  match ds, ts with
  | [], [] => Some p
  | d :: ds, t :: ts =>
      match mask_pos ds ts p with
      | None => None
      | Some q =>
          if Nat.eqb (List.length (L d)) (List.length (L t)) then
            match place (p t) (L t) with
            | Some i => Some (fun x => if String.eqb x d then nth i (L d) "" else q x)
            | None => None
            end
          else if Nat.eqb (List.length (L d)) 1 then Some (fun x => if String.eqb x d then nth 0 (L d) "" else q x)
          else None
      end
  | _, _ => None
  end.
Definition last_axes (new : darr) (dims : list string) : list string :=
  let all := a_dims new ++ without (a_dims new) dims in
  skipn (List.length all - List.length (a_dims new)) all.
Definition masked (new : darr) (dims : list string) (p : pos) : option bool :=
  match mask_pos (a_dims new) (last_axes new dims) p with
  | Some q => Some (negb (missing (a_at new q)))
  | None => None
  end.
Definition in_place (s : string) (e : entry) (new : darr) (st : state) : outcome :=
  if forallb (fun p => match masked new (t_dims e) p with
                       | Some b => negb b || negb (is_null (t_at e p))
                       | None => false
                       end) (cells (t_dims e))
  then Ok {| s_inputs := s_inputs st; s_data := s_data st;
             s_vals := fun n p =>
               if String.eqb n s then match masked new (t_dims e) p with Some true => a_at new p | _ => s_vals st n p end
               else s_vals st n p |}
  else Err st.

Definition update_input (s : string) (new : darr) (st : state) : outcome :=
  match d_get s (m_inputs M), d_get s (s_data st) with
  | Some lookup, Some e =>
      let full := merged new (s_inputs st s) in
      let st := {| s_inputs := fun n => if String.eqb n s then full else s_inputs st n;
                   s_data := s_data st; s_vals := s_vals st |} in
      if needs_rebuild e new then
        let st := add_input s lookup full (delete s st) in
        match find_all (S (List.length (s_data st))) (s_data st) (t_refs e) with
        | Some refs => rebuild refs st
        | None => Err st
        end
      else in_place s e new st
  | _, _ => Err st
  end.
End Backend.
