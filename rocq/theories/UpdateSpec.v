(** What a user expects of an updated optimisation problem, without reference to how the code
    finds out what to rebuild. *)
From Coq Require Import QArith Qcanon.
From Verif Require Import Base EvalModel HelperModel HelperSpec UpdateModel.
Local Open Scope nat_scope.
Local Open Scope string_scope.
Local Open Scope list_scope.

(** Two problems that cannot be told apart: the same components with the same entries, and the
    same values of the parameters that occur. *)
Definition same_array (a b : option entry) : Prop :=
  match a, b with
  | Some a, Some b => t_kind a = t_kind b /\ t_dims a = t_dims b /\ forall p, t_at a p = t_at b p
  | None, None => True
  | _, _ => False
  end.
Definition same_problem (a b : state) : Prop :=
  (forall s, same_array (d_get s (s_data a)) (d_get s (s_data b))) /\
  (forall s e p, d_get s (s_data a) = Some e -> t_kind e = KParameter -> t_at e p = IObj s p ->
     s_vals a s p = s_vals b s p).

(** Inputs as xarray holds them: entries depend on the dimensions and there are none beyond the
    labels. *)
Definition proper (L : string -> list string) (a : darr) : Prop :=
  local a /\ NoDup (a_dims a) /\ forall p d, In d (a_dims a) -> ~ In (p d) (L d) -> a_at a p = Miss.

(** The inputs a user expects after an update: missing new values leave the old ones. *)
Definition replaced (L : string -> list string) (s : string) (new : darr) (I I' : inputs) : Prop :=
  (forall n, n <> s -> I' n = I n) /\
  a_dims (I' s) = a_dims (I s) ++ filter (fun d => negb (smem d (a_dims (I s)))) (a_dims new) /\
  proper L (I' s) /\
  (forall p, (forall d, In d (a_dims (I' s)) -> In (p d) (L d)) ->
     a_at (I' s) p = match a_at new p with Miss => a_at (I s) p | c => c end).

(** A program that never reads input [s] without noting it. *)
Fixpoint never_peeks (s : string) (x : prog) : Prop :=
  match x with
  | Done _ _ | Stop => True
  | Ask _ _ k => forall ds c, never_peeks s (k ds c)
  | Peek n _ k => n <> s /\ forall ds c, never_peeks s (k ds c)
  | Look _ _ k => forall ds i, never_peeks s (k ds i)
  end.
(** What it reads from the inputs are inputs. *)
Fixpoint asks (P : string -> Prop) (x : prog) : Prop :=
  match x with
  | Done _ _ | Stop => True
  | Ask n _ k => P n /\ forall ds c, asks P (k ds c)
  | Peek _ _ k => forall ds c, asks P (k ds c)
  | Look _ _ k => forall ds i, asks P (k ds i)
  end.
(** A program for which only the presence of entries of input [s] matters, not their size:
    no comparison of its values in a condition, no slicing with it. *)
Definition same_presence (a b : cell) : Prop := missing a = missing b /\ is_inf a = is_inf b.
Definition blind (s : string) (x : prog) : Prop :=
  forall I J D, (forall n, n <> s -> a_dims (I n) = a_dims (J n) /\ forall p, a_at (I n) p = a_at (J n) p) ->
    a_dims (I s) = a_dims (J s) -> (forall p, same_presence (a_at (I s) p) (a_at (J s) p)) ->
    run I D x = run J D x.
(** Components that read the same names whatever the inputs are: [R] lists them. *)
Definition static_reads (M : math) (R : comp -> list string) : Prop :=
  forall c, In c (m_comps M) -> forall I D refs res, run I D (k_prog c) = Some (refs, res) ->
    forall r, In r refs <-> In r (R c).

(** Names are unique (C13), components are of the kinds that can be built. *)
Definition well_formed (M : math) : Prop :=
  NoDup (map fst (m_inputs M) ++ map k_name (m_comps M)) /\
  (forall c, In c (m_comps M) -> In (k_kind c) ordered_kinds) /\
  (forall c, In c (m_comps M) -> asks (fun n => In n (map fst (m_inputs M))) (k_prog c)).

(** A series of updates. *)
Fixpoint update_all (L : string -> list string) (mutable : bool) (M : math) (us : list (string * darr)) (st : state) : outcome :=
  match us with
  | [] => Ok st
  | (s, new) :: us =>
      match update_input L mutable M s new st with Ok st => update_all L mutable M us st | Err st => Err st end
  end.

(** An update that gives new values where there were values already. *)
Definition values_only (L : string -> list string) (I : inputs) (s : string) (new : darr) : Prop :=
  (forall d, In d (a_dims new) -> In d (a_dims (I s))) /\
  forall p, (forall d, In d (a_dims (I s)) -> In (p d) (L d)) -> a_at new p <> Miss -> a_at (I s) p <> Miss.
(** Updates for which the result is as expected.  Where values of parameters of Pyomo are
    changed in place: they are given for all dimensions or as one number, no component looks at
    their size, and finite ones stay finite. *)
Definition harmless (L : string -> list string) (mutable : bool) (M : math) (I : inputs) (s : string) (new : darr) : Prop :=
  In s (map fst (m_inputs M)) /\ proper L new /\
  (forall c, In c (m_comps M) -> never_peeks s (k_prog c)) /\
  (mutable = true -> In (s, false) (m_inputs M) -> values_only L I s new ->
     (a_dims new = [] \/ forall d, In d (a_dims (I s)) -> In d (a_dims new)) /\
     (forall c, In c (m_comps M) -> blind s (k_prog c)) /\
     forall p, a_at new p <> Miss -> is_inf (a_at new p) = is_inf (a_at (I s) p)).
(** A series of updates after each of which the problem could be built. *)
Fixpoint series (L : string -> list string) (mutable : bool) (M : math) (us : list (string * darr)) (I I' : inputs) : Prop :=
  match us with
  | [] => I' = I
  | (s, new) :: us => exists J, replaced L s new I J /\ harmless L mutable M I s new /\
                        (exists st, fresh L mutable M J = Some st) /\ series L mutable M us J I'
  end.

(** Place in the dataset, and what a component refers to now. *)
Definition stored_before (D : dataset) (r c : string) : Prop :=
  exists a b, D = a ++ b /\ In r (map fst a) /\ In c (map fst b).
Definition refers (st : state) (c : comp) (r : string) : Prop :=
  exists refs res, run (s_inputs st) (s_data st) (k_prog c) = Some (refs, res) /\ In r refs.
