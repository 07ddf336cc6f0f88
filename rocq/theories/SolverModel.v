(** Changing the solver's problem after it was built: the active objective, bounds and fixing of
    variables (src/calliope/backend/pyomo_backend_model.py, gurobi_backend_model.py). *)
From Coq Require Import QArith Qcanon.
From Verif Require Import Base EvalModel HelperModel UpdateModel.
Local Open Scope nat_scope.
Local Open Scope string_scope.
Local Open Scope list_scope.

(** * Objectives *)

(** An objective of [self._dataset]: nothing if its condition does not hold (backend_model.py:318-360),
    else its expression.  [o_named]: [self.objective]; [o_on]: the objectives whose object in the
    instance is active. *)
Record objectives := { o_named : string; o_built : list (string * option item); o_on : list string }.

(** pyomo_backend_model.py:242-255 [_add_objective] within [add_objective]; [None]: the name exists. *)
Definition add_objective (n : string) (x : option item) (o : objectives) : option objectives :=
  match d_get n (o_built o) with
  | Some _ => None
  | None =>
      Some {| o_named := o_named o; o_built := o_built o ++ [(n, x)];
              o_on := match x with
                      | Some _ => if String.eqb n (o_named o) then o_on o ++ [n] else o_on o
                      | None => o_on o
                      end |}
  end.
Fixpoint add_objectives (l : list (string * option item)) (o : objectives) : option objectives :=
  match l with
  | [] => Some o
  | (n, x) :: l => match add_objective n x o with Some o => add_objectives l o | None => None end
  end.
(** backend_model.py:121 and 625-640: building with the objective named in the configuration. *)
Definition build_objectives (named : string) (l : list (string * option item)) : option objectives :=
  add_objectives l {| o_named := named; o_built := []; o_on := [] |}.

Definition off (n : string) (l : list string) : list string := filter (fun x => negb (String.eqb x n)) l.
(** pyomo_backend_model.py:257-265; [false]: an exception (no such objective, or NaN). *)
Definition set_objective (n : string) (o : objectives) : objectives * bool :=
  match d_get (o_named o) (o_built o) with
  | Some (Some _) =>
      let o := {| o_named := o_named o; o_built := o_built o; o_on := off (o_named o) (o_on o) |} in
      match d_get n (o_built o) with
      | Some (Some _) => ({| o_named := n; o_built := o_built o; o_on := off n (o_on o) ++ [n] |}, true)
      | _ => (o, false)
      end
  | _ => (o, false)
  end.
(** [_rebuild_references] (backend_model.py:1464-1477) on an objective: [delete_component]
    (pyomo_backend_model.py:417-425) and [add_objective] with what it is now. *)
Definition rebuild_objective (n : string) (x : option item) (o : objectives) : objectives * bool :=
  match d_get n (o_built o) with
  | None => (o, false)
  | Some _ =>
      let o := {| o_named := o_named o; o_built := d_del n (o_built o); o_on := off n (o_on o) |} in
      match add_objective n x o with Some o => (o, true) | None => (o, false) end
  end.
Inductive switch := Choose (n : string) | Renew (n : string) (x : option item).
Definition switch_one (o : objectives) (s : switch) : objectives :=
  match s with Choose n => fst (set_objective n o) | Renew n x => fst (rebuild_objective n x o) end.
Definition switch_all (l : list switch) (o : objectives) : objectives := fold_left switch_one l o.

(** gurobi_backend_model.py:122-129 [_add_objective] and 131-137 [set_objective]: the Gurobi model
    has one objective, [g_inst]. *)
Record gurobi := { g_named : string; g_built : list (string * option item); g_inst : option item }.
Definition g_add (n : string) (x : option item) (g : gurobi) : option gurobi :=
  match d_get n (g_built g) with
  | Some _ => None
  | None =>
      Some {| g_named := g_named g; g_built := g_built g ++ [(n, x)];
              g_inst := match x with
                        | Some e => if String.eqb n (g_named g) then Some e else g_inst g
                        | None => g_inst g
                        end |}
  end.
Fixpoint g_adds (l : list (string * option item)) (g : gurobi) : option gurobi :=
  match l with
  | [] => Some g
  | (n, x) :: l => match g_add n x g with Some g => g_adds l g | None => None end
  end.
Definition g_build (named : string) (l : list (string * option item)) : option gurobi :=
  g_adds l {| g_named := named; g_built := []; g_inst := None |}.
(** Setting a NaN objective is refused by gurobipy. *)
Definition g_set (n : string) (g : gurobi) : gurobi * bool :=
  match d_get n (g_built g) with
  | Some (Some e) => ({| g_named := n; g_built := g_built g; g_inst := Some e |}, true)
  | _ => (g, false)
  end.
Definition g_rebuild (n : string) (x : option item) (g : gurobi) : gurobi * bool :=
  match d_get n (g_built g) with
  | None => (g, false)
  | Some _ =>
      let g := {| g_named := g_named g; g_built := d_del n (g_built g); g_inst := g_inst g |} in
      match g_add n x g with Some g => (g, true) | None => (g, false) end
  end.
Definition g_one (g : gurobi) (s : switch) : gurobi :=
  match s with Choose n => fst (g_set n g) | Renew n x => fst (g_rebuild n x g) end.
Definition g_all (l : list switch) (g : gurobi) : gurobi := fold_left g_one l g.

(** * Variables *)

(** One variable of the instance: its bounds, its value after solving ([None] before, and if the
    solver did not see it), whether it is fixed.  A bound is a number or a parameter object. *)
Inductive bound := BNum (c : cell) | BPar (s : string) (p : pos).
Record vstate := { v_lb : bound; v_ub : bound; v_value : option Qc; v_fixed : bool }.

(** An array of variables: its dimensions and labels, where it has variables, and its bounds in
    the math (schemas/math_schema.py:226-236). *)
Inductive given := ByName (s : string) | ByNumber (c : cell).
Record vdef := { f_dims : list string; f_labels : string -> list string; f_exists : pos -> bool;
                 f_min : given; f_max : given }.

(** An array a user gives: its own labels.  [r_at] outside them is not read. *)
Record larr := { r_dims : list string; r_labels : string -> list string; r_at : pos -> cell }.

(** Order of labels as strings; pandas sorts the union of two different indexes. *)
Fixpoint insert (x : string) (l : list string) : list string :=
  match l with
  | [] => [x]
  | y :: t => if String.leb x y then x :: y :: t else y :: insert x t
  end.
Fixpoint sort (l : list string) : list string :=
  match l with [] => [] | x :: t => insert x (sort t) end.
Definition labels_eqb (a b : list string) : bool := if list_eq_dec string_dec a b then true else false.

(** [x.notnull() & y] keeps the common labels in the order of [x] (xarray: inner join). *)
Definition mask_labels (v : vdef) (y : larr) (d : string) : list string :=
  if smem d (r_dims y) then filter (fun l => smem l (r_labels y d)) (f_labels v d) else f_labels v d.
(** [variable.broadcast_like(mask)] (xarray: outer join). *)
Definition wide_labels (v : vdef) (y : larr) (d : string) : list string :=
  let m := mask_labels v y d in
  if labels_eqb m (f_labels v d) then f_labels v d
  else match m with [] => f_labels v d | _ => sort (f_labels v d) end.
(** Both arguments of the vectorised function in [update_variable_bounds]: their common labels. *)
Definition both_labels (v : vdef) (y : larr) (d : string) : list string :=
  if smem d (r_dims y) then filter (fun l => smem l (r_labels y d)) (wide_labels v y d) else wide_labels v y d.

(** backend_model.py:768-802 [_apply_func]: the mask is given to numpy as a plain array.  Along
    one axis: pairs of the label in the arguments and the label in the mask. *)
Definition axis (args mask : list string) : option (list (string * string)) :=
  if Nat.eqb (List.length args) (List.length mask) then Some (List.combine args mask)
  else match mask, args with
       | [m], _ => Some (map (fun a => (a, m)) args)
       | _, [a] => Some (map (fun m => (a, m)) mask)
       | _, _ => None
       end.
Fixpoint axes (l : list (list string * list string)) : option (list (list (string * string))) :=
  match l with
  | [] => Some []
  | (a, m) :: l => match axis a m, axes l with Some x, Some r => Some (x :: r) | _, _ => None end
  end.
(** The entries visited with the entry of the mask that counts, in order (numpy may choose another
    order of the axes; [None]: the shapes do not fit, nothing is visited).  Simplification: the
    array given has no dimensions that the variable does not have. *)
Definition visits (dims : list string) (args mask : string -> list string) : option (list (pos * pos)) :=
  match axes (map (fun d => (args d, mask d)) dims) with
  | Some l => Some (map (fun row => (puts (fun _ => "") dims (map fst row), puts (fun _ => "") dims (map snd row)))
                        (CliModel.product l))
  | None => None
  end.

(** Applying a function to the variables that are visited where the mask holds; [false]: an
    exception, the later entries are left. *)
Definition same_at (dims : list string) (p q : pos) : bool := forallb (fun d => String.eqb (p d) (q d)) dims.
Definition change (dims : list string) (p : pos) (x : vstate) (v : pos -> vstate) : pos -> vstate :=
  fun q => if same_at dims p q then x else v q.
Fixpoint sweep (dims : list string) (f : pos -> vstate -> option vstate) (on : pos -> bool) (l : list (pos * pos))
  (v : pos -> vstate) : (pos -> vstate) * bool :=
  match l with
  | [] => (v, true)
  | (p, m) :: l =>
      if on m then
        match f p (v p) with
        | Some x => sweep dims f on l (change dims p x v)
        | None => (v, false)
        end
      else sweep dims f on l v
  end.
Definition apply_func (v : vdef) (f : pos -> vstate -> option vstate) (on : pos -> bool)
  (args mask : string -> list string) (x : pos -> vstate) : (pos -> vstate) * bool :=
  match visits (f_dims v) args mask with
  | Some l => sweep (f_dims v) (fun p x => if f_exists v p then f p x else None) on l x
  | None => (x, false)
  end.

(** pyomo_backend_model.py:434-476 and 556-568, gurobi_backend_model.py:311-355: one bound.
    [params]: the names in [self.parameters]. *)
Inductive side := Lower | Upper.
Definition set_bound (s : side) (c : cell) (x : vstate) : vstate :=
  match s with
  | Lower => {| v_lb := BNum c; v_ub := v_ub x; v_value := v_value x; v_fixed := v_fixed x |}
  | Upper => {| v_lb := v_lb x; v_ub := BNum c; v_value := v_value x; v_fixed := v_fixed x |}
  end.
Definition bound_of (s : side) (v : vdef) : given := match s with Lower => f_min v | Upper => f_max v end.
Definition update_bound (params : list string) (v : vdef) (s : side) (new : option larr) (x : pos -> vstate) :
  (pos -> vstate) * bool :=
  match new with
  | None => (x, true)
  | Some y =>
      if match bound_of s v with ByName n => smem n params | ByNumber _ => false end then (x, false)
      else apply_func v (fun p x => Some (set_bound s (r_at y p) x))
             (fun p => f_exists v p && negb (missing (r_at y p))) (both_labels v y) (mask_labels v y) x
  end.
Definition update_bounds (params : list string) (v : vdef) (min max : option larr) (x : pos -> vstate) :
  (pos -> vstate) * bool :=
  let r := update_bound params v Lower min x in
  if snd r then update_bound params v Upper max (fst r) else r.

(** pyomo_backend_model.py:478-494 and 570-595.  [where]: missing entries count as false. *)
Definition holds (c : cell) : bool := match c with Boo b => b | _ => false end.
Definition everywhere : larr := {| r_dims := []; r_labels := fun _ => []; r_at := fun _ => Boo true |}.
Definition fix_one (x : vstate) : option vstate :=
  match v_value x with
  | Some _ => Some {| v_lb := v_lb x; v_ub := v_ub x; v_value := v_value x; v_fixed := true |}
  | None => None
  end.
Definition unfix_one (x : vstate) : option vstate :=
  Some {| v_lb := v_lb x; v_ub := v_ub x; v_value := v_value x; v_fixed := false |}.
Definition fix_with (f : vstate -> option vstate) (v : vdef) (where_ : option larr) (x : pos -> vstate) :
  (pos -> vstate) * bool :=
  let y := match where_ with Some y => y | None => everywhere end in
  apply_func v (fun _ => f) (fun p => f_exists v p && holds (r_at y p)) (wide_labels v y) (mask_labels v y) x.
Definition fix_variable : vdef -> option larr -> (pos -> vstate) -> (pos -> vstate) * bool := fix_with fix_one.
Definition unfix_variable : vdef -> option larr -> (pos -> vstate) -> (pos -> vstate) * bool := fix_with unfix_one.

(** gurobi_backend_model.py:356-373 and 427-440: nothing unless the problem was solved; [where] on
    the variables themselves keeps only the common labels, which are then both the arguments and the mask. *)
Definition g_fix_one (x : vstate) : option vstate :=
  match v_value x with
  | Some q => Some {| v_lb := BNum (Val q); v_ub := BNum (Val q); v_value := v_value x; v_fixed := v_fixed x |}
  | None => None
  end.
Definition g_fix_variable (solved : bool) (v : vdef) (where_ : option larr) (x : pos -> vstate) : (pos -> vstate) * bool :=
  let y := match where_ with Some y => y | None => everywhere end in
  if solved then
    apply_func v (fun _ => g_fix_one) (fun p => f_exists v p && holds (r_at y p)) (mask_labels v y) (mask_labels v y) x
  else (x, false).

(** * Variables and updates of inputs *)

(** backend_model.py:1486-1516 [_get_variable_bound], pyomo_backend_model.py:195-215 and 648:
    the bounds of a variable when it is built. *)
Definition first_bound (mutable : bool) (st : state) (default : string -> cell) (g : given) (p : pos) : bound :=
  match g with
  | ByNumber c => BNum c
  | ByName s => if missing (a_at (s_inputs st s) p) then BNum (default s)
                else if mutable then BPar s p else BNum (a_at (s_inputs st s) p)
  end.
(** The names of the variables that [update_input] builds again (backend_model.py:1255-1279). *)
Definition renewed (L : string -> list string) (mutable : bool) (M : math) (s : string) (new : darr) (st : state) : list string :=
  match d_get s (m_inputs M), d_get s (s_data st) with
  | Some lookup, Some e =>
      let full := merged L new (s_inputs st s) in
      let st := {| s_inputs := fun n => if String.eqb n s then full else s_inputs st n;
                   s_data := s_data st; s_vals := s_vals st |} in
      if needs_rebuild L mutable e new then
        let st := add_input L mutable s lookup full (delete s st) in
        match find_all (S (List.length (s_data st))) (s_data st) (t_refs e) with
        | Some refs => filter (fun n => smem n refs) (names_of_kind KVariable (s_data st))
        | None => []
        end
      else []
  | _, _ => []
  end.
(** An update that succeeds, with the state of all variables ([bounds]: the math's bounds).  Those
    built again are new objects. *)
Definition update_with_variables (L : string -> list string) (mutable : bool) (M : math) (bounds : string -> given * given)
  (default : string -> cell) (s : string) (new : darr) (st : state) (x : string -> pos -> vstate) :
  option (state * (string -> pos -> vstate)) :=
  match update_input L mutable M s new st with
  | Ok st' =>
      Some (st', fun n p =>
        if smem n (renewed L mutable M s new st)
        then {| v_lb := first_bound mutable st' default (fst (bounds n)) p;
                v_ub := first_bound mutable st' default (snd (bounds n)) p; v_value := None; v_fixed := false |}
        else x n p)
  | Err _ => None
  end.
