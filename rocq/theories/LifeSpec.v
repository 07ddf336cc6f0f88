(** Specification vocabulary of the life cycle. *)
From Verif Require Import Base SporesModel LifeModel.
Local Open Scope list_scope.

(** There are results: some array, in the data set or in that of some spore. *)
Definition results_exist (r : results) : Prop :=
  match r with
  | RNone => False
  | RPlain d => d <> []
  | RSpores l => exists k d, In (k, d) l /\ d <> []
  end.

Definition unforced (x : op) : Prop :=
  match x with Build f _ => f = false | Solve f _ => f = false | Reload => True end.

(** The solve of this operation, if it runs, produces results. *)
Definition productive (x : op) : Prop :=
  match x with Solve _ (SDone r _) => results_exist r | _ => True end.
Definition no_reload (x : op) : Prop := match x with Reload => False | _ => True end.
(** No build of a model fails half-way. *)
Definition builds_clean (x : op) : Prop := match x with Build _ (BFailAfter _) => False | _ => True end.

(** Value by value: [small thr x] values become zero. *)
Definition small (thr : Q) (x : xq) : Prop := exists q, x = Fin q /\ (Qabs q < thr)%Q.
Inductive cleaned (thr : Q) : xq -> xq -> Prop :=
| cl_zero x : small thr x -> cleaned thr x (Fin 0)
| cl_same x : ~ small thr x -> cleaned thr x x.
Definition cleaned_data (thr : Q) : dataset -> dataset -> Prop :=
  Forall2 (fun a b => fst a = fst b /\ Forall2 (cleaned thr) (snd a) (snd b)).
Definition cleaned_results (thr : Q) (a b : results) : Prop :=
  match a, b with
  | RNone, RNone => True
  | RPlain d, RPlain d' => cleaned_data thr d d'
  | RSpores l, RSpores l' => Forall2 (fun x y => fst x = fst y /\ cleaned_data thr (snd x) (snd y)) l l'
  | _, _ => False
  end.
