(** What a user expects of objectives, bounds and fixed variables. *)
From Coq Require Import QArith Qcanon Sorted.
From Verif Require Import Base EvalModel HelperModel UpdateModel SolverModel.
Local Open Scope nat_scope.
Local Open Scope string_scope.
Local Open Scope list_scope.

(** * Objectives *)
(** Exactly one objective is active, the one reported as current, and it exists. *)
Definition settled (o : objectives) : Prop :=
  o_on o = [o_named o] /\ exists e, d_get (o_named o) (o_built o) = Some (Some e).
(** The Gurobi model has the objective reported as current, as last built. *)
Definition g_settled (g : gurobi) : Prop :=
  exists e, d_get (g_named g) (g_built g) = Some (Some e) /\ g_inst g = Some e.
(** Objectives chosen exist, and the condition of the current one holds after an update. *)
Definition allowed (built : list (string * option item)) (named : string) (s : switch) : Prop :=
  match s with
  | Choose n => exists e, d_get n built = Some (Some e)
  | Renew n x => n = named -> x <> None
  end.
Fixpoint all_allowed (l : list switch) (o : objectives) : Prop :=
  match l with [] => True | s :: l => allowed (o_built o) (o_named o) s /\ all_allowed l (switch_one o s) end.
(** Any calls at all, as long as the current objective is not built to nothing. *)
Fixpoint keeps_current (l : list switch) (g : gurobi) : Prop :=
  match l with
  | [] => True
  | s :: l => match s with Choose _ => True | Renew n x => n = g_named g -> x <> None end /\ keeps_current l (g_one g s)
  end.
(** The objective chosen last. *)
Fixpoint last_choice (l : list switch) (n : string) : string :=
  match l with [] => n | Choose m :: l => last_choice l m | Renew _ _ :: l => last_choice l n end.

(** * Variables *)
Definition agree_on (dims : list string) (p q : pos) : Prop := forall d, In d dims -> p d = q d.
(** Arrays of variables: dimensions and labels differ, and entries depend on the dimensions. *)
Definition variables (v : vdef) (x : pos -> vstate) : Prop :=
  NoDup (f_dims v) /\ (forall d, NoDup (f_labels v d)) /\
  (forall p q, agree_on (f_dims v) p q -> x p = x q /\ f_exists v p = f_exists v q).
Definition one_of (v : vdef) (p : pos) : Prop := (forall d, In d (f_dims v) -> In (p d) (f_labels v d)) /\ f_exists v p = true.
(** An array a user gives for a variable. *)
Definition for_variable (v : vdef) (y : larr) : Prop :=
  (forall d, In d (r_dims y) -> In d (f_dims v)) /\ (forall p q, agree_on (r_dims y) p q -> r_at y p = r_at y q).
(** Its entry for the variable at a place. *)
Definition entry_at (y : larr) (p : pos) : cell :=
  if forallb (fun d => smem (p d) (r_labels y d)) (r_dims y) then r_at y p else Miss.
Definition given_at (y : option larr) (p : pos) : cell := match y with Some y => entry_at y p | None => Miss end.
(** It has all labels of the variable, or at least they are in ascending order. *)
Definition full (v : vdef) (y : larr) : Prop :=
  forall d, In d (r_dims y) -> forall l, In l (f_labels v d) -> In l (r_labels y d).
Definition ascending (v : vdef) : Prop := forall d, StronglySorted (fun a b => String.leb a b = true) (f_labels v d).
Definition usable (v : vdef) (y : option larr) : Prop :=
  match y with Some y => for_variable v y /\ (full v y \/ ascending v) | None => True end.
(** The bound is a number in the math, or a name that is no parameter. *)
Definition changeable (params : list string) (g : given) : Prop := forall s, g = ByName s -> ~ In s params.
(** Where a user wants to fix: everywhere if nothing is given. *)
Definition chosen (y : option larr) (p : pos) : Prop :=
  match y with Some y => entry_at y p = Boo true | None => True end.
(** A condition with all labels of the variable along its dimensions. *)
Definition full_where (v : vdef) (y : option larr) : Prop :=
  match y with Some y => for_variable v y /\ full v y | None => True end.
(** A variable fixed, otherwise as before. *)
Definition fixed_as (f : bool) (x z : vstate) : Prop :=
  v_fixed z = f /\ v_lb z = v_lb x /\ v_ub z = v_ub x /\ v_value z = v_value x.

(** [n] refers to [s], directly or through others. *)
Inductive uses (D : dataset) (s : string) : string -> Prop :=
| uses_one e n : d_get s D = Some e -> In n (t_refs e) -> uses D s n
| uses_more m e n : uses D s m -> d_get m D = Some e -> In n (t_refs e) -> uses D s n.
(** New values of a parameter only where it has values. *)
Definition only_values (e : entry) (new : darr) : Prop :=
  t_kind e = KParameter /\ (forall d, In d (a_dims new) -> In d (t_dims e)) /\
  forall p, a_at new p <> Miss -> t_at e p <> INull.
