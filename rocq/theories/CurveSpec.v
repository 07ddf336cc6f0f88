(** Specification vocabulary for piecewise constraints. *)
From Verif Require Import Base CurveModel.
From Coq Require Import QArith Sorted.
Local Open Scope list_scope.

(** The points of the breakpoints at which both values are given. *)
Inductive given : list (option Q) -> list (option Q) -> curve -> Prop :=
| gi_nil : given [] [] []
| gi_both x y xs ys c : given xs ys c -> given (Some x :: xs) (Some y :: ys) ((x, y) :: c)
| gi_no_x y xs ys c : given xs ys c -> given (None :: xs) (y :: ys) c
| gi_no_y x xs ys c : given xs ys c -> given (x :: xs) (None :: ys) c.
(** Values are missing at the same breakpoints for both. *)
Definition aligned (xs ys : list (option Q)) : Prop := Forall2 (fun a b => a = None <-> b = None) xs ys.

(** On one of the pieces that join neighbouring points. *)
Inductive joined : curve -> Q -> Q -> Prop :=
| jo_point a x y : x == fst a -> y == snd a -> joined [a] x y
| jo_piece pre a b post t x y : 0 <= t <= 1 -> x == fst a + t * (fst b - fst a) -> y == snd a + t * (snd b - snd a) ->
    joined (pre ++ a :: b :: post) x y.
Definition ascending (c : curve) : Prop := Sorted (fun a b => fst a < fst b) c.
Definition present (v : option Q) : bool := match v with Some _ => true | None => false end.
