(** Specification of C103: shadow prices in results. *)
From Verif Require Import Base DualModel.
From Coq Require Import QArith.
Local Open Scope string_scope.
Local Open Scope list_scope.

(** Each constraint has one shadow price per label in a solution. *)
Definition unique (o : outcome) : Prop := forall n l q q', In (n, l, q) (o_prices o) -> In (n, l, q') (o_prices o) -> q = q'.
(** A constraint exists at a label. *)
Definition stands (p : problem) (n : string) (l : label) : Prop := exists ls, d_get n (p_constraints p) = Some ls /\ In l ls.
(** The results hold the price [q] at [l] under the name [x]. *)
Definition shows (r : list (string * list (label * Q))) (x : string) (l : label) (q : Q) : Prop := exists ps, In (x, ps) r /\ In (l, q) ps.
(** The results hold the shadow prices of the solution for the constraints that were asked for, and nothing else. *)
Definition right (p : problem) (names : list string) (o : outcome) (r : list (string * list (label * Q))) : Prop :=
  forall x l q, shows r x l q <-> exists n, x = ("shadow_price_" ++ n)%string /\ In n names /\ stands p n l /\ In (n, l, q) (o_prices o).
