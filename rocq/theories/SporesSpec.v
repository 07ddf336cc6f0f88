(** Specification vocabulary for SPORES runs, independent of the loop. *)
From Verif Require Import Base SporesModel.
Local Open Scope string_scope.
Local Open Scope list_scope.

(** The capacity at position [i] is of relevant size in [d]: larger than [factor] times the
    capacity of every tracked technology of the same carrier. *)
Definition significant (ids : list idx) (tracked : list bool) (factor : Q) (d : dataset) (i : nat) : Prop :=
  exists caps c x, d_get "flow_cap" d = Some caps /\ nth_error ids i = Some x /\
    nth_error caps i = Some (Fin c) /\ nth_error tracked i = Some true /\
    forall j c' y, nth_error tracked j = Some true -> nth_error ids j = Some y -> snd y = snd x ->
      nth_error caps j = Some (Fin c') -> (factor * c' < c)%Q.

(** [occurs P l n]: [n] elements of [l] satisfy [P]. *)
Inductive occurs {A} (P : A -> Prop) : list A -> nat -> Prop :=
| oc_nil : occurs P [] 0
| oc_yes x l n : P x -> occurs P l n -> occurs P (x :: l) (S n)
| oc_no x l n : ~ P x -> occurs P l n -> occurs P (x :: l) n.

(** A data set of a run: what the solver returned in its [n]-th call, in some state of the
    backend with the given objective, with the score and cost limit of that state attached. *)
Definition solved_with (solver : nat -> bstate -> dataset * string) (n : nat) (objective : string)
  (b : bstate) (d : dataset) : Prop :=
  b_obj b = objective /\ fst (solver n b) <> [] /\
  (forall k, k <> "spores_score_cumulative" -> k <> "spores_baseline_cost_tracked" ->
     d_get k d = d_get k (fst (solver n b))) /\
  d_get "spores_score_cumulative" d = Some (map Fin (b_score b)) /\
  d_get "spores_baseline_cost_tracked" d = Some [b_base b].

(** The score at position [i] that a result reports. *)
Definition score_of (d : dataset) (i : nat) (q : Q) : Prop :=
  exists sc, d_get "spores_score_cumulative" d = Some sc /\ nth_error sc i = Some (Fin q).
Definition cap_at (d : dataset) (i : nat) (c : Q) : Prop :=
  exists v, d_get "flow_cap" d = Some v /\ nth_error v i = Some (Fin c).

(** A capacity that is more than [factor] of the largest one allowed, and the part of it that is used. *)
Definition deployed (tracked : list bool) (maxima : list xq) (factor : Q) (d : dataset) (i : nat) (r : Q) : Prop :=
  exists c m, nth_error tracked i = Some true /\ cap_at d i c /\ nth_error maxima i = Some (Fin m) /\ (r == c / m)%Q /\ (factor < c / m)%Q.

(** How far the latest capacity is from the average of all so far, as a part of the average. *)
Definition change (past : list dataset) (i : nat) (x : Q) : Prop :=
  exists cs p a, Forall2 (fun d c => cap_at d i c) past cs /\ nth_error cs (List.length cs - 1) = Some p /\
    (a == fold_right Qplus 0 cs / inject_Z (Z.of_nat (List.length cs)))%Q /\ ~ (a == 0)%Q /\ (x == Qabs (a - p) / a)%Q.
Definition steady (past : list dataset) : Prop := forall i x, change past i x -> (x == 0)%Q.

(** One step of scoring: [past] are the results so far, [d] the latest of them, [q] its score and [q'] the next one. *)
Definition counted (ids : list idx) (tracked : list bool) (factor : Q) (d : dataset) (i : nat) (q q' : Q) : Prop :=
  (significant ids tracked factor d i /\ (q' == q + 1000)%Q) \/ (~ significant ids tracked factor d i /\ (q' == q)%Q).
Definition score_step (ids : list idx) (tracked : list bool) (maxima : option (list xq)) (drawn : list bool) (alg : algorithm)
    (factor : Q) (past : list dataset) (d : dataset) (i : nat) (q q' : Q) : Prop :=
  match alg with
  | Integer => counted ids tracked factor d i q q'
  | Relative => exists cm, maxima = Some cm /\
      ((exists r, deployed tracked cm factor d i r /\ (q' == q + r)%Q) \/ ((forall r, ~ deployed tracked cm factor d i r) /\ (q' == q)%Q))
  | Random =>
      let hit := nth_error tracked i = Some true /\ (exists c, cap_at d i c) /\ nth_error drawn i = Some true in
      (hit /\ (q' == q + 1000)%Q) \/ (~ hit /\ (q' == q)%Q)
  | Evolving =>
      (steady past /\ counted ids tracked factor d i q q') \/
      (~ steady past /\
        ((nth_error tracked i = Some true /\ exists x, change past i x /\ ((x < 1 # 1000 /\ q' == 1000) \/ (1 # 1000 <= x /\ q' == 1 / x))%Q) \/
         (~ (nth_error tracked i = Some true /\ exists x, change past i x) /\ (q' == 0)%Q)))
  end.
