(** Specification of C101 and C102: types and defaults of inputs, independent of how they are computed. *)
From Verif Require Import Base KindModel.
From Coq Require Import QArith.
Local Open Scope string_scope.
Local Open Scope list_scope.

(** A value of a type. *)
Definition is_of (k : kind) (c : cell) : Prop :=
  match k with
  | KText => exists s, c = Text s
  | KNumber => (exists q, c = Num q) \/ (exists b, c = Inf b)
  | KFlag => exists b, c = Flag b
  | KWhole => exists z, c = Int z
  | KTime | KDate => exists t, c = Stamp t
  end.
(** Python reads numbers only out of texts: a finite one, an infinite one, or "nan". *)
Definition plain (P : py) : Prop := forall s c, to_float P s = Some c -> c = Gap \/ is_of KNumber c.
(** A value that has no counterpart in the type of its input. *)
Definition unreadable (P : py) (F : formats) (k : kind) (c : cell) : Prop :=
  match k with
  | KText | KFlag => False
  | KNumber => exists s, c = Text s /\ to_float P s = None
  | KWhole => c = Gap \/ (exists b, c = Inf b) \/ exists s, c = Text s /\ to_int P s = None
  | KTime => c <> Gap /\ ~ is_of KTime c /\ to_time P (f_time F) c = None
  | KDate => c <> Gap /\ ~ is_of KDate c /\ to_time P (f_date F) c = None
  end.

(** Names are declared once; integers are for dimensions only (math_schema.py:64, 90, 102). *)
Definition declared (m : math) (n : string) (d : decl) : Prop :=
  d_active d = true /\ d_get n (m_dimensions m) = None /\ d_kind d <> KWhole /\
  ((d_get n (m_parameters m) = Some d /\ d_get n (m_lookups m) = None) \/ (d_get n (m_parameters m) = None /\ d_get n (m_lookups m) = Some d)).
Definition undeclared (m : math) (n : string) : Prop :=
  forall d, (d_get n (m_parameters m) = Some d \/ d_get n (m_lookups m) = Some d \/ d_get n (m_dimensions m) = Some d) -> d_active d = false.
(** Data with unique names, each declared as a parameter or lookup or not at all. *)
Definition fits (m : math) (ds : data) : Prop := NoDup (map fst ds) /\ forall n, In n (map fst ds) -> (exists d, declared m n d) \/ undeclared m n.

(** What the user gave for an input at a place. *)
Definition given (ds : data) (n : string) (p : place) : cell := match d_get n ds with Some a => value_at p a | None => Gap end.
(** Same data except for one input elsewhere than at [p]; the input may be there in one of them only. *)
Definition same_at (n : string) (p : place) (ds ds' : data) : Prop :=
  given ds n p = given ds' n p /\ (forall a, d_get n ds = Some a -> at_place p a <> None) /\ (forall a, d_get n ds' = Some a -> at_place p a <> None).
