(** * C109 Storage in representative days that are not linked *)
From Coq Require Import QArith Qcanon Lia.
From Verif Require Import Base BaseProofs LangModel MathText EvalModel EvalSpec BuildModel BuildSpec HelperModel HelperSpec ShipModel ShipSpec ShipStorage ShipExample NetSpec NetExample PlaceSpec ShipPlace RuleText RuleProofs
  MilpProofs ShipFast BoundSpec BoundFast RuleExample MilpExample CostSpec StepExample RestExample BoundExample LinkSpec LinkText LinkProofs LinkExample DaySpec DayProofs DayExample.
From Verif Require CostExample.
Local Open Scope nat_scope.
Local Open Scope string_scope.
Local Open Scope list_scope.

Lemma sum_more k f : sum_steps (S k) f = (sum_steps k f + f k)%Qc.
Proof.
  unfold sum_steps; rewrite seq_S, fold_right_app; cbn [fold_right Nat.add].
  assert (G : forall l a, fold_right (fun i x => f i + x)%Qc a l = (fold_right (fun i x => f i + x)%Qc 0%Qc l + a)%Qc) by (induction l as [|i l IH]; intros a; cbn [fold_right]; [ring|rewrite IH; ring]).
  rewrite G; ring.
Qed.
Lemma sum_diff k f g : sum_steps k (fun i => f i - g i)%Qc = (sum_steps k f - sum_steps k g)%Qc.
Proof. induction k as [|k IH]; [unfold sum_steps; cbn; ring|]; rewrite !sum_more, IH; ring. Qed.
Lemma sum_times k a f : sum_steps k (fun i => a * f i)%Qc = (a * sum_steps k f)%Qc.
Proof. induction k as [|k IH]; [unfold sum_steps; cbn; ring|]; rewrite !sum_more, IH; ring. Qed.
Lemma sum_same k f g : (forall i, i < k -> f i = g i) -> sum_steps k f = sum_steps k g.
Proof. intros H; induction k as [|k IH]; [reflexivity|]; rewrite !sum_more, IH, H by (intros; try apply H; lia); reflexivity. Qed.

(** Within a day the level follows charging and discharging; a day starts with what is left at its own end. *)
Theorem C109_within order files U n t c cy fade f m :
  lists_set order -> In files chronological -> kept U n t c cy -> fading U n t fade -> day_from U f m -> constraint_holds order (layered files) U "balance_storage" -> cy = true \/ f <> 0 ->
  level U n t f = (fade (f + m)%nat * level U n t (f + m) + put_in U n t f - taken_out U n t f)%Qc /\
  forall j, j < m -> level U n t (f + S j) = (fade (f + j)%nat * level U n t (f + j) + put_in U n t (f + S j) - taken_out U n t (f + S j))%Qc.
Proof.
  intros OR IL KE FA DA HB NF; pose proof (da_steps _ _ _ DA) as LS; split.
  - rewrite (day_level order OR files IL U n t c cy KE fade FA f true (f + m) ltac:(lia) (da_first _ _ _ DA) LS (da_last _ _ _ DA) HB).
    replace ((f =? 0)%nat && negb cy) with false; [ring|]; destruct NF as [-> |NF]; [rewrite andb_false_r; reflexivity|apply Nat.eqb_neq in NF; rewrite NF; reflexivity].
  - intros j LJ; rewrite (day_level order OR files IL U n t c cy KE fade FA (f + S j) false (f + j) ltac:(lia) (da_goes_on _ _ _ DA (S j) ltac:(lia) ltac:(lia)) ltac:(lia)); [|replace (f + S j) with (S (f + j)) by lia; reflexivity|exact HB].
    replace ((f + S j =? 0)%nat && negb cy) with false; [ring|]; replace (f + S j) with (S (f + j)) by lia; reflexivity.
Qed.
Print Assumptions C109_within.
(** Storage that is not cyclic starts the first day with the given fraction of its capacity. *)
Theorem C109_first order files U n t c fade m :
  lists_set order -> In files chronological -> kept U n t c false -> fading U n t fade -> day_from U 0 m -> constraint_holds order (layered files) U "balance_storage" ->
  level U n t 0 = (amount U "storage_initial" (asset n t) * amount U "storage_cap" (asset n t) + put_in U n t 0 - taken_out U n t 0)%Qc /\
  forall j, j < m -> level U n t (S j) = (fade j * level U n t j + put_in U n t (S j) - taken_out U n t (S j))%Qc.
Proof.
  intros OR IL KE FA DA HB; pose proof (da_steps _ _ _ DA) as LS; cbn [Nat.add] in LS; split.
  - rewrite (day_level order OR files IL U n t c false KE fade FA 0 true m ltac:(lia) (da_first _ _ _ DA) LS (da_last _ _ _ DA) HB); cbn [Nat.eqb andb negb]; ring.
  - intros j LJ; rewrite (day_level order OR files IL U n t c false KE fade FA (S j) false j ltac:(lia) (da_goes_on _ _ _ DA (S j) ltac:(lia) ltac:(lia)) ltac:(lia) eq_refl HB); cbn [Nat.eqb andb]; ring.
Qed.
Print Assumptions C109_first.
(** Without losses a day gives back what it takes. *)
Theorem C109_day order files U n t c cy fade f m :
  lists_set order -> In files chronological -> kept U n t c cy -> fading U n t fade -> day_from U f m -> constraint_holds order (layered files) U "balance_storage" -> cy = true \/ f <> 0 ->
  (forall j, j <= m -> fade (f + j)%nat = 1%Qc) -> over_day f m (taken_out U n t) = over_day f m (put_in U n t).
Proof.
  intros OR IL KE FA DA HB NF F1; destruct (C109_within order files U n t c cy fade f m OR IL KE FA DA HB NF) as (H0 & HS); unfold over_day.
  pose proof (sum_diff (S m) (fun j => put_in U n t (f + j)) (fun j => taken_out U n t (f + j))) as D; cbv beta in D.
  assert (G : forall j, j <= m -> level U n t (f + j) = (level U n t (f + m) + sum_steps (S j) (fun i => put_in U n t (f + i)%nat - taken_out U n t (f + i)%nat))%Qc).
  { induction j as [|j IH]; intros LJ; rewrite sum_more.
    - change (sum_steps 0 _) with 0%Qc; rewrite Nat.add_0_r, H0, F1 by lia; ring.
    - rewrite HS, F1, IH by lia; ring. }
  specialize (G m (le_n _)); rewrite D in G; apply (f_equal (fun x => x - level U n t (f + m) + sum_steps (S m) (fun j => taken_out U n t (f + j)))%Qc) in G; ring_simplify in G; exact G.
Qed.
Print Assumptions C109_day.
(** With losses it gives back no more than it takes. *)
Theorem C109_loss order files U n t c cy fade f m :
  lists_set order -> In files chronological -> kept U n t c cy -> fading U n t fade -> day_from U f m -> constraint_holds order (layered files) U "balance_storage" -> cy = true \/ f <> 0 ->
  (forall j, j <= m -> (fade (f + j)%nat <= 1)%Qc /\ (0 <= level U n t (f + j))%Qc) ->
  (over_day f m (taken_out U n t) <= over_day f m (put_in U n t))%Qc.
Proof.
  intros OR IL KE FA DA HB NF HL; destruct (C109_within order files U n t c cy fade f m OR IL KE FA DA HB NF) as (H0 & HS); unfold over_day.
  pose proof (sum_diff (S m) (fun j => put_in U n t (f + j)) (fun j => taken_out U n t (f + j))) as D; cbv beta in D.
  assert (G : forall j, j <= m -> (level U n t (f + j) <= level U n t (f + m) + sum_steps (S j) (fun i => put_in U n t (f + i)%nat - taken_out U n t (f + i)%nat))%Qc).
  { assert (LE : forall j, j <= m -> (fade (f + j)%nat * level U n t (f + j) <= level U n t (f + j))%Qc).
    { intros j LJ; destruct (HL j LJ) as (L1 & L0); pose proof (Qcmult_le_compat_r _ _ _ L1 L0) as L; replace (1 * level U n t (f + j))%Qc with (level U n t (f + j)) in L by ring; exact L. }
    induction j as [|j IH]; intros LJ; rewrite sum_more.
    - change (sum_steps 0 _) with 0%Qc; rewrite Nat.add_0_r, H0; apply Qcle_minus_iff; pose proof (LE m (le_n _)) as L; apply Qcle_minus_iff in L.
      match goal with |- (0 <= ?x)%Qc => replace x with (level U n t (f + m) + - (fade (f + m)%nat * level U n t (f + m)))%Qc by ring end; exact L.
    - rewrite HS by lia; specialize (IH ltac:(lia)); pose proof (LE j ltac:(lia)) as L; apply Qcle_minus_iff in L, IH; apply Qcle_minus_iff; pose proof (Qcplus_le_compat _ _ _ _ L IH) as S; rewrite Qcplus_0_l in S.
      eapply Qcle_trans; [exact S|]; apply Qcle_minus_iff; match goal with |- (0 <= ?x)%Qc => replace x with 0%Qc by ring end; apply Qcle_refl. }
  specialize (G m (le_n _)); rewrite D in G; apply Qcle_minus_iff in G; apply Qcle_minus_iff; eapply Qcle_trans; [exact G|]; apply Qcle_minus_iff; match goal with |- (0 <= ?x)%Qc => replace x with 0%Qc by ring end; apply Qcle_refl.
Qed.
Print Assumptions C109_loss.

(** Over all dates, cyclic storage without losses gives back what it took. *)
Lemma sum_seq g k : forall f o, fold_right (fun i x => g i + x)%Qc 0%Qc (seq (f + o) k) = fold_right (fun j x => g (f + j)%nat + x)%Qc 0%Qc (seq o k).
Proof. induction k as [|k IH]; intros f o; [reflexivity|]; cbn [seq fold_right]; replace (S (f + o)) with (f + S o) by lia; rewrite IH; reflexivity. Qed.
Lemma sum_days g days : fold_right (fun i x => g i + x)%Qc 0%Qc (flat_map (fun d => seq (fst d) (S (snd d))) days) = fold_right (fun d x => over_day (fst d) (snd d) g + x)%Qc 0%Qc days.
Proof.
  induction days as [|(f & m) days IH]; [reflexivity|]; cbn [flat_map fst snd]; rewrite fold_right_app, IH; cbn [fold_right fst snd].
  assert (G : forall l a, fold_right (fun i x => g i + x)%Qc a l = (fold_right (fun i x => g i + x)%Qc 0%Qc l + a)%Qc) by (induction l as [|i l IL]; intros a; cbn [fold_right]; [ring|rewrite IL; ring]).
  rewrite G; f_equal; pose proof (sum_seq g (S m) f 0) as E; rewrite Nat.add_0_r in E; exact E.
Qed.
Theorem C109_year order files U n t c fade days :
  lists_set order -> In files chronological -> kept U n t c true -> fading U n t fade -> (forall k, k < steps U -> fade k = 1%Qc) -> all_days U days -> weighted U days ->
  constraint_holds order (layered files) U "balance_storage" ->
  sum_steps (steps U) (fun k => weight U k * taken_out U n t k)%Qc = sum_steps (steps U) (fun k => weight U k * put_in U n t k)%Qc.
Proof.
  intros OR IL KE FA F1 (AD & DF) WE HB; unfold sum_steps at 1 2; rewrite <- AD, !sum_days; clear AD.
  induction days as [|(f & m) days IH]; [reflexivity|]; cbn [fold_right fst snd]; rewrite IH; [f_equal|intros d H; apply DF; right; exact H|intros d j H; apply WE; right; exact H].
  pose proof (DF _ (or_introl eq_refl)) as DA; cbn [fst snd] in DA; pose proof (da_steps _ _ _ DA) as LS.
  pose proof (C109_day order files U n t c true fade f m OR IL KE FA DA HB (or_introl eq_refl) (fun j LJ => F1 (f + j)%nat ltac:(lia))) as E.
  assert (S1 : forall g, over_day f m (fun k => weight U k * g k)%Qc = (weight U f * over_day f m g)%Qc).
  { intros g; unfold over_day; rewrite <- sum_times; apply sum_same; intros i LI; pose proof (WE (f, m) i (or_introl eq_refl) ltac:(cbn [snd]; lia)) as EW; cbn [fst] in EW; rewrite EW; reflexivity. }
  rewrite !S1, E; reflexivity.
Qed.
Print Assumptions C109_year.

(** ** Examples *)
Ltac inside_list H := vm_compute in H; repeat (destruct H as [<- |H]; [|]); try destruct H.
Ltac three_of LT := match type of LT with ?k < _ => let E := fresh in assert (E : k = 0 \/ k = 1 \/ k = 2) by (vm_compute in LT; lia); destruct E as [-> |[-> | ->]] end.
Ltac are_kept P := constructor;
  [intros k LT; three_of LT; sited_by P|is_as|is_as|intros k LT; three_of LT; is_num|intros s k H LT; destruct H as [-> | ->]; three_of LT; is_over|intros s H; inside_list H; is_num|intros k LT; three_of LT; is_num].
Lemma cycle_kept : kept cycle "here" "battery" "power" true.
Proof. are_kept cycle_proper. Qed.
Lemma spent_kept : kept spent "here" "battery" "power" false.
Proof. are_kept spent_proper. Qed.
Ltac is_day := constructor; [vm_compute; lia|is_as|split; [dims_in|vm_compute; reflexivity]|intros j L0 L1; cbn [snd] in L1; try (exfalso; lia); assert (E : j = 1) by lia; subst j; is_as].
Lemma cycle_days : all_days cycle pair_days.
Proof. split; [vm_compute; reflexivity|]; intros d H; inside_list H; is_day. Qed.
Lemma spent_days : all_days spent pair_days.
Proof. split; [vm_compute; reflexivity|]; intros d H; inside_list H; is_day. Qed.
Definition pair_hours (k : nat) : nat := match k with 2 => 24 | _ => 12 end.
Lemma cycle_fading : fading cycle "here" "battery" (fun _ => 1%Qc).
Proof. intros k LT; left; exists (pair_hours k); three_of LT; (split; is_equal). Qed.
Lemma spent_fading : fading spent "here" "battery" (fun _ => 1%Qc).
Proof. intros k LT; left; exists (pair_hours k); three_of LT; (split; is_equal). Qed.
Lemma cycle_rule : constraint_holds as_listed (layered []) cycle "balance_storage".
Proof. apply CostExample.feasible_constraint; [exact (proj1 cycle_solution)|vm_compute; tauto|reflexivity]. Qed.
Lemma spent_rule : constraint_holds as_listed (layered []) spent "balance_storage".
Proof. apply CostExample.feasible_constraint; [exact (proj1 spent_solution)|vm_compute; tauto|reflexivity]. Qed.
Lemma base_listed : In [] chronological.
Proof. left; reflexivity. Qed.
Lemma cycle_levels j : j <= 1 -> ((fun _ : nat => 1%Qc) (0 + j)%nat <= 1)%Qc /\ (0 <= level cycle "here" "battery" (0 + j))%Qc.
Proof. intros L; assert (E : j = 0 \/ j = 1) by lia; destruct E as [-> | ->]; (split; [apply Qcle_refl|vm_compute; discriminate]). Qed.
Example C109_within_ex : level cycle "here" "battery" 0 = (1 * 0 + Q2Qc 2 - 0)%Qc /\ level cycle "here" "battery" 1 = (1 * Q2Qc 2 + 0 - Q2Qc 2)%Qc.
Proof.
  destruct (C109_within as_listed [] cycle "here" "battery" "power" true (fun _ => 1%Qc) 0 1 as_listed_set base_listed cycle_kept cycle_fading (proj2 cycle_days (0, 1) (or_introl eq_refl)) cycle_rule (or_introl eq_refl)) as (H0 & HS).
  specialize (HS 0 ltac:(lia)); cbn [Nat.add] in HS; split; [rewrite H0; is_equal|rewrite HS; is_equal].
Qed.
Example C109_first_ex : level spent "here" "battery" 0 = (half * Q2Qc 4 + 0 - 0)%Qc /\ level spent "here" "battery" 1 = (1 * Q2Qc 2 + 0 - Q2Qc 2)%Qc.
Proof.
  destruct (C109_first as_listed [] spent "here" "battery" "power" (fun _ => 1%Qc) 1 as_listed_set base_listed spent_kept spent_fading (proj2 spent_days (0, 1) (or_introl eq_refl)) spent_rule) as (H0 & HS).
  split; [rewrite H0; is_equal|rewrite (HS 0) by lia; is_equal].
Qed.
Example C109_day_ex : over_day 0 1 (taken_out cycle "here" "battery") = over_day 0 1 (put_in cycle "here" "battery") /\ over_day 0 1 (put_in cycle "here" "battery") = Q2Qc 2.
Proof.
  split; [|is_equal].
  apply (C109_day as_listed [] cycle "here" "battery" "power" true (fun _ => 1%Qc) 0 1 as_listed_set base_listed cycle_kept cycle_fading (proj2 cycle_days (0, 1) (or_introl eq_refl)) cycle_rule (or_introl eq_refl)); reflexivity.
Qed.
Example C109_loss_ex : (over_day 0 1 (taken_out cycle "here" "battery") <= over_day 0 1 (put_in cycle "here" "battery"))%Qc.
Proof. exact (C109_loss as_listed [] cycle "here" "battery" "power" true (fun _ => 1%Qc) 0 1 as_listed_set base_listed cycle_kept cycle_fading (proj2 cycle_days (0, 1) (or_introl eq_refl)) cycle_rule (or_introl eq_refl) cycle_levels). Qed.
Example C109_year_ex : sum_steps 3 (fun k => weight cycle k * taken_out cycle "here" "battery" k)%Qc = sum_steps 3 (fun k => weight cycle k * put_in cycle "here" "battery" k)%Qc /\
  sum_steps 3 (fun k => weight cycle k * put_in cycle "here" "battery" k)%Qc = Q2Qc 4.
Proof.
  split; [|is_equal].
  apply (C109_year as_listed [] cycle "here" "battery" "power" (fun _ => 1%Qc) pair_days as_listed_set base_listed cycle_kept cycle_fading); [|exact cycle_days| |exact cycle_rule].
  - reflexivity.
  - intros d j H; inside_list H; cbn [fst snd]; intros L; [assert (E : j = 0 \/ j = 1) by lia; destruct E as [-> | ->]; is_equal|assert (E : j = 0) by lia; subst j; is_equal].
Qed.

(** ** What does not hold *)
(** If storage is not cyclic, what is stored initially counts once for each date that the first day stands for. *)
Theorem C109_refuted : exists files U n t c days,
  In files chronological /\ solution as_listed files U /\ kept U n t c false /\ loss U n t = 0%Qc /\ all_days U days /\ weighted U days /\
  (amount U "storage_initial" (asset n t) * amount U "storage_cap" (asset n t) + sum_steps (steps U) (fun k => weight U k * put_in U n t k) < sum_steps (steps U) (fun k => weight U k * taken_out U n t k))%Qc.
Proof.
  exists [], spent, "here", "battery", "power", pair_days; split; [exact base_listed|split; [exact spent_solution|split; [exact spent_kept|split; [is_equal|split; [exact spent_days|split]]]]].
  - intros d j H; inside_list H; cbn [fst snd]; intros L; [assert (E : j = 0 \/ j = 1) by lia; destruct E as [-> | ->]; is_equal|assert (E : j = 0) by lia; subst j; is_equal].
  - vm_compute; reflexivity.
Qed.
Print Assumptions C109_refuted.
(** If storage is cyclic, the first day does not start with the given fraction of the capacity; only the last day does. *)
Theorem C109_initial_refuted : exists files U n t c m,
  In files chronological /\ solution as_listed files U /\ kept U n t c true /\ loss U n t = 0%Qc /\ day_from U 0 m /\ given U "storage_initial" (asset n t) /\
  (level U n t 0 - put_in U n t 0 + taken_out U n t 0)%Qc <> (amount U "storage_initial" (asset n t) * amount U "storage_cap" (asset n t))%Qc.
Proof.
  exists [], cycle, "here", "battery", "power", 1; split; [exact base_listed|split; [exact cycle_solution|split; [exact cycle_kept|split; [is_equal|split; [exact (proj2 cycle_days (0, 1) (or_introl eq_refl))|split; [is_given|]]]]]].
  intros E; apply (f_equal this) in E; vm_compute in E; discriminate E.
Qed.
Print Assumptions C109_initial_refuted.
