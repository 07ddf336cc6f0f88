(** A further theorem on C43, found missing by changing the model. *)
From Coq Require Import Sorting.Sorted.
From Verif Require Import Base UpdateModel.
Local Open Scope string_scope.
Local Open Scope list_scope.

(** The order of the documentation: variables, expressions, constraints, piecewise constraints, objectives. *)
Definition rank (k : kind) : option nat :=
  match k with
  | KVariable => Some 1 | KExpression => Some 2 | KConstraint => Some 3 | KPiecewise => Some 4 | KObjective => Some 5
  | KParameter | KLookup => None
  end.
Definition no_later (c c' : comp) : Prop := exists r r', rank (k_kind c) = Some r /\ rank (k_kind c') = Some r' /\ r <= r'.

Lemma kind_eqb_eq a b : kind_eqb a b = true <-> a = b.
Proof. destruct a, b; cbn; split; congruence. Qed.
Lemma sorted_app {A} (R : A -> A -> Prop) l1 l2 : StronglySorted R l1 -> StronglySorted R l2 -> (forall x y, In x l1 -> In y l2 -> R x y) -> StronglySorted R (l1 ++ l2).
Proof.
  induction l1 as [|a l1 IH]; intros S1 S2 H; [exact S2|]; inversion S1 as [|? ? S F]; subst; cbn [app]; constructor.
  - apply IH; auto; intros x y I; apply H; right; exact I.
  - apply Forall_forall; intros y I; apply in_app_iff in I; destruct I as [I|I]; [rewrite Forall_forall in F; auto|apply H; [left; reflexivity|exact I]].
Qed.

(** Components are built kind by kind in this order, each as often as it is defined. *)
Theorem C43_build_order M : StronglySorted no_later (build_order M) /\
  forall c, In c (build_order M) <-> In c (m_comps M) /\ rank (k_kind c) <> None.
Proof.
  unfold build_order; set (part := fun k => filter (fun c => kind_eqb (k_kind c) k) (m_comps M)).
  assert (P : forall k c, In c (part k) <-> In c (m_comps M) /\ k_kind c = k) by (intros k c; unfold part; rewrite filter_In, kind_eqb_eq; tauto).
  split.
  - assert (O : StronglySorted (fun k k' => exists r r', rank k = Some r /\ rank k' = Some r' /\ r <= r') ordered_kinds /\ Forall (fun k => rank k <> None) ordered_kinds).
    { split; unfold ordered_kinds; repeat (constructor; try discriminate); do 2 eexists; repeat split; repeat constructor. }
    destruct O as [O1 O2]; induction O1 as [|k ks S IH F]; cbn [flat_map]; [constructor|]; inversion O2; subst; apply sorted_app.
    + assert (Q : forall l, (forall c, In c l -> k_kind c = k) -> StronglySorted no_later l).
      { induction l as [|c l IHl]; intros Hl; constructor; [apply IHl; intros x I; apply Hl; right; exact I|].
        apply Forall_forall; intros x I; unfold no_later; rewrite (Hl c (or_introl eq_refl)), (Hl x (or_intror I)).
        destruct (rank k) as [r|]; [exists r, r; auto|congruence]. }
      apply Q; intros c I; apply P in I; tauto.
    + auto.
    + intros x y I J; apply P in I; apply in_flat_map in J; destruct J as (k' & K & J); apply P in J.
      rewrite Forall_forall in F; specialize (F k' K); unfold no_later; destruct I as [_ ->], J as [_ ->]; exact F.
  - intros c; rewrite in_flat_map; split.
    + intros (k & K & I); apply P in I; destruct I as [I <-]; split; [exact I|]; revert K; unfold ordered_kinds; cbn; destruct (k_kind c); cbn; intuition discriminate.
    + intros [I R]; exists (k_kind c); split; [|apply P; auto]; unfold ordered_kinds; cbn; destruct (k_kind c); cbn in *; tauto.
Qed.
Print Assumptions C43_build_order.
Example C43_build_order_example :
  let c k n := {| k_kind := k; k_name := n; k_prog := Done [] (fun _ => INull) |} in
  map k_name (build_order {| m_inputs := []; m_comps := [c KObjective "cost"; c KConstraint "balance"; c KVariable "flow"; c KExpression "sum"; c KConstraint "limit"] |}) =
  ["flow"; "sum"; "balance"; "limit"; "cost"].
Proof. reflexivity. Qed.
