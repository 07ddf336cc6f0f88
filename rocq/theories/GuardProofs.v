(** Lemmas for GuardProps.v. *)
From Coq Require Import QArith Qcanon Lia.
From Verif Require Import Base BaseProofs LangModel MathText EvalModel EvalSpec BuildModel BuildSpec HelperModel HelperSpec HelperProofs ShipModel ShipSpec ShipProofs CostAny GuardModel GuardSpec GuardText.
From Verif Require CliModel HelperProps.
Local Open Scope nat_scope.
Local Open Scope string_scope.
Local Open Scope list_scope.
Local Arguments String.eqb : simpl never.

(** * Conditions *)
Section Conditions.
Variable N : names.
Variable U : world.
Let W := world_where N U.
Lemma name_says s p : smem s (n_inputs N) = true -> weval W (WName s) p = true <-> there U s p.
Proof.
  intros I; cbn [weval]; unfold defined_at, W, there, raw; cbn [world_where w_inputs w_input w_bool w_result]; rewrite I.
  destruct (u_bool U s), (a_at (n_array (u_env U) s) p) as [|x|x|[]|x]; cbn; split; intros H; try discriminate; try reflexivity; try (split; congruence); try (destruct H as (H & H'); try (now elim H); now elim (H' x)).
Qed.
Lemma value_says s p : smem s (LangModel.n_dims N) = false -> smem s (n_inputs N) = true -> aeval (cmp_env W) everywhere (EName s) p = value_in U s p.
Proof. intros H1 H2; exact (cond_input N U s p H1 H2). Qed.
Lemma text_says s k p : smem s (LangModel.n_dims N) = false -> smem s (n_inputs N) = true -> weval W (WCmp (EName s) CEq (EStr k)) p = true <-> reads U s p (Txt k).
Proof.
  intros H1 H2; cbn [weval]; rewrite (value_says s p H1 H2); cbn [compare aeval const]; unfold reads; destruct (value_in U s p); cbn [same]; split; intros H; try discriminate.
  - apply String.eqb_eq in H; subst; reflexivity.
  - injection H as ->; apply String.eqb_refl.
Qed.
Lemma inf_says s p : smem s (LangModel.n_dims N) = false -> smem s (n_inputs N) = true -> weval W (WCmp (EName s) CEq (ENum false "inf")) p = true <-> reads U s p (Inf false).
Proof.
  intros H1 H2; cbn [weval]; rewrite (value_says s p H1 H2); cbn [compare aeval]; change (number_cell false "inf") with (Inf false); unfold const, reads; destruct (value_in U s p) as [| |[]| |]; cbn [same Bool.eqb]; split; intros H; try discriminate; reflexivity.
Qed.
Lemma on_says s p : smem s (LangModel.n_dims N) = false -> smem s (n_inputs N) = true -> weval W (WCmp (EName s) CEq (EBool true)) p = true <-> on U s p.
Proof.
  intros H1 H2; cbn [weval]; rewrite (value_says s p H1 H2); cbn [compare aeval]; unfold const, on, reads; destruct (value_in U s p) as [|x| |[]|]; cbn [same Bool.eqb]; split; intros H; try discriminate; try (destruct H; discriminate); auto.
  - destruct (Qc_eq_dec x 1) as [->|]; [auto|discriminate].
  - destruct H as [H|H]; [discriminate|]; injection H as ->; destruct (Qc_eq_dec 1 1) as [_|B]; [reflexivity|destruct B; reflexivity].
Qed.
Lemma less_says s p : prepared U -> In s compared -> smem s (LangModel.n_dims N) = false -> smem s (n_inputs N) = true ->
  weval W (WCmp (EName s) CLt (ENum false "0")) p = true <-> negative (value_in U s p).
Proof.
  intros (_ & _ & L & _ & K) IS H1 H2; cbn [weval]; rewrite (value_says s p H1 H2); cbn [compare aeval]; change (number_cell false "0") with (Val (decimal 0 0 false "0")); unfold const, negative.
  assert (E : decimal 0 0 false "0" = 0%Qc) by (apply Qc_is_canon; reflexivity); rewrite E; clear E; pose proof (K s p) as K'; unfold less; fold W; destruct (value_in U s p) as [|x|x|b|x]; cbn [W world_where w_less].
  - split; [discriminate|intros [(x & H & _)|H]; discriminate].
  - destruct (x ?= 0)%Qc eqn:C; split; intros H; try discriminate H; try reflexivity.
    + exfalso; destruct H as [(y & H & LT)|H]; [|discriminate H]; injection H as E; subst y; apply (proj1 (Qclt_alt _ _)) in LT; rewrite LT in C; discriminate C.
    + left; exists x; split; [reflexivity|apply Qclt_alt, C].
    + exfalso; destruct H as [(y & H & LT)|H]; [|discriminate H]; injection H as E; subst y; apply (proj1 (Qclt_alt _ _)) in LT; rewrite LT in C; discriminate C.
  - rewrite (proj1 (L x 0%Qc)); destruct x; split; auto; try discriminate; intros [(y & H & _)|H]; discriminate.
  - destruct (proj1 (K' b "" IS) eq_refl).
  - destruct (proj2 (K' true x IS) eq_refl).
Qed.
Lemma more_says s p : prepared U -> In s compared -> smem s (LangModel.n_dims N) = false -> smem s (n_inputs N) = true ->
  weval W (WCmp (EName s) CGt (ENum false "1")) p = true <-> (exists x, value_in U s p = Val x /\ (1 < x)%Qc) \/ value_in U s p = Inf false.
Proof.
  intros (_ & _ & L & _ & K) IS H1 H2; cbn [weval]; rewrite (value_says s p H1 H2); cbn [compare aeval]; change (number_cell false "1") with (Val (decimal 0 0 false "1")); unfold const.
  assert (E : decimal 0 0 false "1" = 1%Qc) by (apply Qc_is_canon; reflexivity); rewrite E; clear E; pose proof (K s p) as K'; unfold less; destruct (value_in U s p) as [|x|x|b|x]; cbn [W world_where w_less].
  - split; [discriminate|intros [(x & H & _)|H]; discriminate].
  - destruct (1 ?= x)%Qc eqn:C; split; intros H; try discriminate H; try reflexivity.
    + exfalso; destruct H as [(y & H & LT)|H]; [|discriminate H]; injection H as E; subst y; apply (proj1 (Qclt_alt _ _)) in LT; rewrite LT in C; discriminate C.
    + left; exists x; split; [reflexivity|apply Qclt_alt, C].
    + exfalso; destruct H as [(y & H & LT)|H]; [|discriminate H]; injection H as E; subst y; apply (proj1 (Qclt_alt _ _)) in LT; rewrite LT in C; discriminate C.
  - rewrite (proj2 (L x 1%Qc)); destruct x; split; auto; try discriminate; intros [(y & H & _)|H]; discriminate.
  - destruct (proj1 (K' b "" IS) eq_refl).
  - destruct (proj2 (K' true x IS) eq_refl).
Qed.
Lemma any_node s p : prepared U -> weval W (WFun (EFun "any" [EName s] [("over", EName "nodes")])) p = true <-> exists n, In n (labels U "nodes") /\ there U s (at_node p n).
Proof.
  intros (SD & NE & _); change (weval W (WFun (EFun "any" [EName s] [("over", EName "nodes")])) p) with (weval W (WFun (c_any s ["nodes"])) p); unfold W; rewrite any_says.
  destruct (HelperProps.C65_any (u_env U) (u_bool U) no_mask s ["nodes"] p SD) as (r & -> & K).
  assert (T : is_true (a_at r p) = true <-> a_at r p = Boo true) by (destruct (a_at r p) as [| | |[|]|]; cbn; split; congruence).
  rewrite T, K; clear T K; assert (SL : local (n_array (u_env U) s)) by apply SD; split.
  - intros (q & H1 & H2 & G).
    assert (E : exists n, In n (labels U "nodes") /\ raw U s (at_node p n) = a_at (n_array (u_env U) s) q).
    { destruct (in_dec string_dec "nodes" (a_dims (n_array (u_env U) s))) as [I|NI].
      - exists (q "nodes"); split; [apply H1; [left; reflexivity|exact I]|]; apply SL; intros d _; unfold at_node, put; destruct (String.eqb_spec d "nodes") as [->|ND]; [reflexivity|]; symmetry; apply H2; intros [E|[]]; congruence.
      - destruct (labels U "nodes") as [|n ns]; [destruct (NE eq_refl)|]; exists n; split; [left; reflexivity|]; apply SL; intros d ID; unfold at_node, put; destruct (String.eqb_spec d "nodes") as [->|ND]; [destruct (NI ID)|]; symmetry; apply H2; intros [E|[]]; congruence. }
    destruct E as (n & IN & E); exists n; split; [exact IN|]; unfold there; rewrite E; exact G.
  - intros (n & IN & G); exists (at_node p n); split; [intros d [<- |[]] _; exact IN|split; [|exact G]].
    intros d ND; unfold at_node, put; destruct (String.eqb_spec d "nodes") as [->|_]; [destruct ND; left; reflexivity|reflexivity].
Qed.
End Conditions.

(** * What each check is about *)
Section Meaning.
Variable fs : list file.
Hypothesis IF : In fs choices.
Variable U : world.
Hypothesis PU : prepared U.
Let N := names_of fs.
Let W := world_where N U.
Definition milps : list string := ["distance_only_for_transmission_milp"; "conflicting_flow_caps"; "unit_commitment_only_for_units"; "conflicting_storage_caps"].
Lemma base_input s : In s base_read -> smem s (LangModel.n_dims N) = false /\ smem s (n_inputs N) = true.
Proof. intros H; pose proof (all_inputs fs IF) as A; rewrite forallb_forall in A; specialize (A s (in_or_app _ _ s (or_introl H))); apply andb_true_iff in A as (A & B); apply negb_true_iff in A; auto. Qed.
Lemma milp_input s : In Milp fs -> In s milp_read -> smem s (LangModel.n_dims N) = false /\ smem s (n_inputs N) = true.
Proof.
  intros IM H; pose proof (all_inputs fs IF) as A.
  assert (E : existsb (fun f => match f with Milp => true | _ => false end) fs = true) by (apply existsb_exists; exists Milp; auto); rewrite E in A.
  rewrite forallb_forall in A; specialize (A s (in_or_app _ _ s (or_intror H))); apply andb_true_iff in A as (A & B); apply negb_true_iff in A; auto.
Qed.
Lemma chain1 a b p : weval W (WChain a [(true, b)]) p = true <-> weval W a p = true /\ weval W b p = true.
Proof. cbn [weval fold_left fst snd]; apply andb_true_iff. Qed.
Lemma either1 a b p : weval W (WChain a [(false, b)]) p = true <-> weval W a p = true \/ weval W b p = true.
Proof. cbn [weval fold_left fst snd]; apply orb_true_iff. Qed.
Lemma not1 a p : weval W (WNot a) p = true <-> ~ weval W a p = true.
Proof. cbn [weval]; rewrite negb_true_iff; destruct (weval W a p); split; congruence. Qed.
Lemma here s p : In s base_read -> weval W (WName s) p = true <-> there U s p.
Proof. intros H; apply name_says, base_input, H. Qed.
Lemma here_milp s p : In Milp fs -> In s milp_read -> weval W (WName s) p = true <-> there U s p.
Proof. intros M H; apply name_says, milp_input; assumption. Qed.
Lemma text_here s k p : In s base_read -> weval W (WCmp (EName s) CEq (EStr k)) p = true <-> reads U s p (Txt k).
Proof. intros H; apply text_says; apply base_input, H. Qed.
Lemma unbounded_here cost cap p : In cost base_read -> In cost compared -> In cap base_read ->
  weval W (WChain (WCmp (EName cost) CLt (ENum false "0")) [(true, WNot (WName cap))]) p = true <-> unbounded cost cap U p.
Proof.
  intros H1 H2 H3; rewrite chain1, not1; unfold unbounded; pose proof (less_says N U cost p PU H2 (proj1 (base_input cost H1)) (proj2 (base_input cost H1))) as A; pose proof (here cap p H3) as B; unfold W in *; tauto.
Qed.
Lemma initial_here p : weval W (WChain (WName "storage_initial") [(true, WChain (WCmp (EName "storage_initial") CLt (ENum false "0")) [(false, WCmp (EName "storage_initial") CGt (ENum false "1"))])]) p = true <->
  exists x, raw U "storage_initial" p = Val x /\ ~ (0 <= x <= 1)%Qc.
Proof.
  assert (IC : In "storage_initial" compared) by (cbn; tauto); assert (IB : In "storage_initial" base_read) by (cbn; tauto); destruct (base_input _ IB) as (D1 & D2).
  rewrite chain1, either1, (here "storage_initial" p IB); unfold W; rewrite (less_says N U "storage_initial" p PU IC D1 D2), (more_says N U "storage_initial" p PU IC D1 D2).
  destruct PU as (_ & _ & _ & B & K); unfold there; rewrite (B _ IC); pose proof (K "storage_initial" p) as K'; unfold negative, value_in in *; fold (raw U "storage_initial" p) in *; destruct (raw U "storage_initial" p) as [|x|x|b|x]; cbn [fill missing] in *.
  - split; [intros ((H & _) & _); destruct (H eq_refl)|intros (x & H & _); discriminate].
  - split.
    + intros (_ & [[(y & E & L)|E]|[(y & E & L)|E]]); try discriminate; injection E as <-; exists x; (split; [reflexivity|]); intros (G1 & G2); [apply Qclt_not_le in L|apply Qclt_not_le in L]; contradiction.
    + intros (y & E & NB); injection E as <-; split; [split; [discriminate|intros neg; discriminate]|].
      destruct (Qclt_le_dec x 0) as [L|G]; [left; left; eauto|]; destruct (Qclt_le_dec 1 x) as [L|G2]; [right; left; eauto|]; destruct NB; split; assumption.
  - split; [intros ((_ & H) & _); destruct (H x eq_refl)|intros (y & H & _); discriminate].
  - destruct (proj1 (K' b "" IC) eq_refl).
  - destruct (proj2 (K' true x IC) eq_refl).
Qed.
Ltac known := cbn; tauto.
Ltac thereby IB := repeat match goal with
  | |- context [weval W (WName ?s) ?p = true] => rewrite (here s p ltac:(known))
  | |- context [weval W (WCmp (EName ?s) CEq (EStr ?k)) ?p = true] => rewrite (text_here s k p ltac:(known))
  | |- context [weval W (WChain _ [(true, _)]) ?p = true] => rewrite chain1
  | |- context [weval W (WChain _ [(false, _)]) ?p = true] => rewrite either1
  | |- context [weval W (WNot _) ?p = true] => rewrite not1
  end.
Definition agrees (p : pos) (r : string * wexpr) (v : string * (world -> pos -> Prop)) : Prop :=
  (In (fst r) milps -> In Milp fs) -> (weval W (snd r) p = true <-> snd v U p).
Lemma on_here s p : In s base_read -> weval W (WCmp (EName s) CEq (EBool true)) p = true <-> on U s p.
Proof. intros H; apply on_says; apply base_input, H. Qed.
Lemma meanings p : Forall2 (fun r v => fst r = fst v /\ agrees p r v) readings violations.
Proof.
  unfold readings, violations; repeat (apply Forall2_cons; [split; [reflexivity|unfold agrees; cbn [fst snd]; intros IM]|]); try apply Forall2_nil; thereby tt.
  - tauto.
  - assert (E : weval W (WChain (WName "distance") [(false, WName "flow_in_eff_per_distance"); (false, WName "flow_out_eff_per_distance"); (false, WName "cost_flow_cap_per_distance")]) p = true <->
      (weval W (WName "distance") p = true \/ weval W (WName "flow_in_eff_per_distance") p = true) \/ weval W (WName "flow_out_eff_per_distance") p = true \/ weval W (WName "cost_flow_cap_per_distance") p = true)
      by (cbn [weval fold_left fst snd]; rewrite !orb_true_iff; tauto).
    rewrite E; thereby tt; split; intros (H & G); (split; [exact H|]).
    + destruct G as [[G|G]|[G|G]]; eexists; (split; [|exact G]); known.
    + destruct G as (s & IS & G); cbn in IS; destruct IS as [<- |[<- |[<- |[<- |[]]]]]; tauto.
  - rewrite <- (unbounded_here "cost_flow_cap" "flow_cap_max" p) by known; thereby tt; reflexivity.
  - rewrite <- (unbounded_here "cost_storage_cap" "storage_cap_max" p) by known; thereby tt; reflexivity.
  - rewrite <- (unbounded_here "cost_area_use" "area_use_max" p) by known; thereby tt; reflexivity.
  - rewrite <- (unbounded_here "cost_source_cap" "source_cap_max" p) by known; thereby tt; reflexivity.
  - unfold W; rewrite !inf_says by (apply base_input; known); split.
    + intros [H|H]; eexists; (split; [|exact H]); known.
    + intros (s & IS & H); cbn in IS; destruct IS as [<- |[<- |[]]]; tauto.
  - unfold W; rewrite !(any_node N U _ p PU); split.
    + intros ([(n & IN & H)|(n & IN & H)] & G); (split; [exists n; eexists; split; [exact IN|split; [|exact H]]; known|tauto]).
    + intros ((n & s & IN & IS & H) & G); (split; [|tauto]); cbn in IS; destruct IS as [<- |[<- |[]]]; [left|right]; exists n; auto.
  - unfold W; rewrite !(any_node N U _ p PU); split; intros (H & G); (split; [exact H|]).
    + intros n IN T; apply G; exists n; auto.
    + intros (n & IN & T); exact (G n IN T).
  - rewrite <- initial_here; thereby tt; reflexivity.
  - reflexivity.
  - reflexivity.
  - reflexivity.
  - reflexivity.
  - rewrite (here_milp "cost_purchase_per_distance" p) by (try apply IM; known); tauto.
  - rewrite (here_milp "flow_cap_per_unit" p) by (try apply IM; known); tauto.
  - destruct (milp_input "integer_dispatch" ltac:(apply IM; known) ltac:(known)) as (A1 & A2); destruct (milp_input "cap_method" ltac:(apply IM; known) ltac:(known)) as (B1 & B2).
    unfold W; rewrite (on_says N U "integer_dispatch" p A1 A2), (text_says N U "cap_method" "integer" p B1 B2); tauto.
  - rewrite (here_milp "storage_cap_per_unit" p) by (try apply IM; known); tauto.
  - rewrite !on_here by known; tauto.
Qed.
Lemma forall2_get {A B} (R : string * A -> string * B -> Prop) l m k x y : Forall2 (fun a b => fst a = fst b /\ R a b) l m -> d_get k l = Some x -> d_get k m = Some y -> R (k, x) (k, y).
Proof.
  induction 1 as [|(a & u) (b & v) l m (E & H) _ IH]; cbn [d_get fst snd] in *; [discriminate|subst b]; destruct (String.eqb_spec k a) as [->|_]; [congruence|exact IH].
Qed.
Lemma meaning name w P p : (In name milps -> In Milp fs) -> d_get name readings = Some w -> d_get name violations = Some P -> weval W w p = true <-> P U p.
Proof. intros IM HR HV; exact (forall2_get (agrees p) readings violations name w P (meanings p) HR HV IM). Qed.
End Meaning.
