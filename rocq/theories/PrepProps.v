(** Properties of what time clustering hands over to the storage rules. *)
From Coq Require Import QArith Qcanon Lia Sorted.
From Verif Require Import Base BaseProofs LangModel MathText EvalModel EvalSpec BuildModel BuildSpec HelperModel HelperSpec ShipModel ShipSpec ShipStorage ShipExample NetSpec NetExample PlaceSpec ShipPlace RuleText RuleProofs
  MilpProofs ShipFast BoundSpec BoundFast RuleExample MilpExample CostSpec StepExample RestExample BoundExample LinkSpec LinkExample DaySpec DayExample PrepSpec PrepProofs PrepExample.
From Verif Require TimeModel TimeSpec TimeProofs CostExample LinkProps DayProps.
Local Open Scope nat_scope.
Local Open Scope string_scope.
Local Open Scope list_scope.

(** * C110: representative days as the storage rules need them *)
Lemma dates_nodup U a ts at_time on_day group : prepared U a ts at_time on_day group -> NoDup (labels U "datesteps") -> NoDup (map fst a).
Proof. intros PR ND; rewrite (pr_dates _ _ _ _ _ _ PR) in ND; exact (NoDup_map_inv _ _ ND). Qed.
Lemma one_entry (a : list (Z * Z)) (f : Z -> string) x y : NoDup (map f (map fst a)) -> In x a -> In y a -> f (fst x) = f (fst y) -> x = y.
Proof.
  induction a as [|z a IH]; intros ND IX IY E; [destruct IX|]; cbn [map] in ND; inversion_clear ND as [|? ? NI NA].
  assert (NO : forall w, In w a -> f (fst w) <> f (fst z)) by (intros w IW EW; apply NI; rewrite <- EW, map_map; apply (in_map (fun w => f (fst w))); exact IW).
  destruct IX as [-> |IX], IY as [-> |IY]; [reflexivity|destruct (NO y IY); congruence|destruct (NO x IX); congruence|exact (IH NA IX IY E)].
Qed.

(** Each date has the timesteps of its representative day, and the lookups say so. *)
Definition day_of (a : list (Z * Z)) (ts : list Z) (group : nat -> string) (r : Z) : day :=
  {| y_cluster := match TimeModel.index_of r (TimeModel.groups (map snd a)) with Some i => group i | None => "" end; y_first := begin a ts r; y_more := more a ts r |}.
Definition plan_of (a : list (Z * Z)) (ts : list Z) (on_day : Z -> string) (group : nat -> string) (x : string) : day :=
  match find (fun dr => String.eqb (on_day (fst dr)) x) a with Some dr => day_of a ts group (snd dr) | None => {| y_cluster := ""; y_first := 0; y_more := 0 |} end.
Lemma plan_found U a ts at_time on_day group d r : prepared U a ts at_time on_day group -> NoDup (labels U "datesteps") -> In (d, r) a -> plan_of a ts on_day group (on_day d) = day_of a ts group r.
Proof.
  intros PR ND ID; rewrite (pr_dates _ _ _ _ _ _ PR) in ND; unfold plan_of; destruct (find _ a) as [dr|] eqn:F.
  - apply find_some in F; destruct F as (I & E); apply String.eqb_eq in E; rewrite (one_entry a on_day dr (d, r) ND I ID E); reflexivity.
  - pose proof (find_none _ _ F (d, r) ID) as E; cbn [fst] in E; rewrite String.eqb_refl in E; discriminate E.
Qed.
Lemma labels_of U a ts at_time on_day group r : prepared U a ts at_time on_day group -> TimeSpec.ordered ts -> from_midnight a ts -> In r (map snd a) ->
  map (step_label U) (seq (begin a ts r) (S (more a ts r))) = map at_time (times_of r ts).
Proof.
  intros PR O MI IR; destruct (size_more U a ts at_time on_day group PR O MI r IR) as (SZ & _); rewrite <- (moments_times a r IR ts); fold (moments a ts r).
  apply nth_ext with (d := "") (d' := at_time 0%Z); rewrite !map_length, seq_length; [exact (eq_sym SZ)|]; intros j LJ.
  rewrite (map_nth at_time), (nth_indep _ "" (step_label U 0)), (map_nth (step_label U)), seq_nth by (rewrite ?map_length, ?seq_length; exact LJ).
  apply (label_at U a ts at_time on_day group PR O MI r j IR); lia.
Qed.
Theorem C110_linked U a ts at_time on_day group :
  prepared U a ts at_time on_day group -> TimeSpec.ordered ts -> NoDup (labels U "datesteps") -> from_midnight a ts ->
  exists plan, (forall d, In d (labels U "datesteps") -> represented U plan d) /\
    forall d r, In (d, r) a -> map (step_label U) (seq (y_first (plan (on_day d))) (S (y_more (plan (on_day d))))) = map at_time (times_of r ts).
Proof.
  intros PR O ND MI; exists (plan_of a ts on_day group); split.
  - intros x IX; rewrite (pr_dates _ _ _ _ _ _ PR), map_map in IX; apply in_map_iff in IX; destruct IX as ((d & r) & <- & ID); cbn [fst].
    assert (IR : In r (map snd a)) by (apply in_map_iff; exists (d, r); split; [reflexivity|exact ID]); destruct (cluster_known a r IR) as (i & EI); destruct (pr_last _ _ _ _ _ _ PR) as (WL & BL & _).
    assert (PD : forall d, y_cluster (day_of a ts group r) = group i /\ d = d :> string) by (intros; cbn [day_of y_cluster]; rewrite EI; split; reflexivity); destruct (PD "") as (EC & _); clear PD.
    constructor; unfold y_last; rewrite (plan_found U a ts at_time on_day group d r PR ND ID), ?EC; cbn [day_of y_first y_more].
    + exact (proj2 (size_more U a ts at_time on_day group PR O MI r IR)).
    + exact (date_cluster U a ts at_time on_day group PR d r i ID EI).
    + exact (proj2 (cluster_of U a ts at_time on_day group PR O MI r i 0 IR EI (Nat.le_0_l _))).
    + exact (date_last U a ts at_time on_day group PR O MI d r (dates_nodup U a ts at_time on_day group PR ND) ID).
    + intros j LJ; exact (proj1 (cluster_of U a ts at_time on_day group PR O MI r i j IR EI LJ)).
    + split; [exact WL|split; [exact BL|exact (last_at_first U a ts at_time on_day group PR O MI r IR)]].
    + intros j L0 LJ; split; [exact WL|exact (none_later U a ts at_time on_day group PR O MI r j IR L0 LJ)].
  - intros d r ID; assert (IR : In r (map snd a)) by (apply in_map_iff; exists (d, r); split; [reflexivity|exact ID]).
    rewrite (plan_found U a ts at_time on_day group d r PR ND ID); exact (labels_of U a ts at_time on_day group r PR O MI IR).
Qed.
Print Assumptions C110_linked.

(** The timesteps are those of the representative days one after the other, and the weights of the days count all dates. *)
Lemma day_is U a ts at_time on_day group r : prepared U a ts at_time on_day group -> TimeSpec.ordered ts -> from_midnight a ts -> In r (map snd a) -> day_from U (begin a ts r) (more a ts r).
Proof.
  intros PR O MI IR; constructor.
  - exact (proj2 (size_more U a ts at_time on_day group PR O MI r IR)).
  - pose proof (starts_at U a ts at_time on_day group PR O MI r 0 IR (Nat.le_0_l _)) as H; rewrite Nat.add_0_r in H; exact H.
  - split; [exact (proj1 (pr_last _ _ _ _ _ _ PR))|exact (last_at_first U a ts at_time on_day group PR O MI r IR)].
  - intros j L0 LJ; pose proof (starts_at U a ts at_time on_day group PR O MI r j IR LJ) as H; destruct j as [|j]; [lia|exact H].
Qed.
Lemma nat_sum (l : list nat) : fold_right (fun w x => Q2Qc (inject_Z (Z.of_nat w)) + x)%Qc 0%Qc l = Q2Qc (inject_Z (Z.of_nat (TimeProofs.nsum l))).
Proof.
  induction l as [|w l IH]; [reflexivity|]; cbn [fold_right]; rewrite IH; unfold TimeProofs.nsum; cbn [fold_right]; fold (TimeProofs.nsum l).
  apply Qc_is_canon; cbn [this Q2Qc Qcplus]; rewrite !Qred_correct, Nat2Z.inj_add, inject_Z_plus; reflexivity.
Qed.
Lemma sorted_nodup l : StronglySorted Z.lt l -> NoDup l.
Proof. intros S; induction S as [|x l S IH F]; constructor; [|exact IH]; intros I; pose proof (proj1 (Forall_forall _ _) F x I); lia. Qed.
Theorem C110_days U a ts at_time on_day group :
  prepared U a ts at_time on_day group -> TimeSpec.ordered ts -> from_midnight a ts ->
  exists days, all_days U days /\ weighted U days /\ fold_right (fun d x => weight U (fst d) + x)%Qc 0%Qc days = Q2Qc (inject_Z (Z.of_nat (List.length a))).
Proof.
  intros PR O MI; set (rs := TimeModel.groups (map snd a)).
  assert (GI : forall r, In r rs -> In r (map snd a)) by (intros r H; apply TimeProofs.groups_in; exact H).
  exists (map (fun r => (begin a ts r, more a ts r)) rs); split; [split|split].
  - rewrite flat_map_concat_map, map_map; cbn [fst snd]; rewrite <- flat_map_concat_map; unfold steps; rewrite (steps_kept U a ts at_time on_day group PR), map_length.
    rewrite <- (days_cover rs _ 0 (groups_sorted _) (kept_sorted a ts O)); [|intros t IT; apply TimeProofs.groups_in; apply TimeProofs.kept_in in IT; exact (proj2 IT)].
    rewrite !flat_map_concat_map; f_equal; apply map_ext_in; intros r H; rewrite <- (proj1 (size_more U a ts at_time on_day group PR O MI r (GI r H))); reflexivity.
  - intros d H; apply in_map_iff in H; destruct H as (r & <- & H); exact (day_is U a ts at_time on_day group r PR O MI (GI r H)).
  - intros d j H LJ; apply in_map_iff in H; destruct H as (r & <- & H); cbn [fst snd] in LJ |- *.
    pose proof (weight_of U a ts at_time on_day group PR O MI r 0 (GI r H) (Nat.le_0_l _)) as W0; rewrite Nat.add_0_r in W0; rewrite W0; exact (weight_of U a ts at_time on_day group PR O MI r j (GI r H) LJ).
  - assert (E : forall l, (forall r, In r l -> In r (map snd a)) -> fold_right (fun d x => weight U (fst d) + x)%Qc 0%Qc (map (fun r => (begin a ts r, more a ts r)) l) =
      fold_right (fun w x => Q2Qc (inject_Z (Z.of_nat w)) + x)%Qc 0%Qc (map (fun r => TimeModel.count r (map snd a)) l)).
    { induction l as [|r l IH]; intros H; [reflexivity|]; cbn [map fold_right fst]; rewrite IH by (intros; apply H; right; assumption).
      pose proof (weight_of U a ts at_time on_day group PR O MI r 0 (H r (or_introl eq_refl)) (Nat.le_0_l _)) as W0; rewrite Nat.add_0_r in W0; rewrite W0; reflexivity. }
    rewrite (E rs GI), nat_sum; do 3 f_equal.
    assert (DM : forall r, date (TimeModel.midnight r) = r) by (intros r; unfold TimeModel.date, TimeModel.midnight; apply Z.div_mul; discriminate).
    assert (HI : forall d r, In (d, r) a -> exists t, In t ts /\ date t = r) by (intros d r ID; exists (TimeModel.midnight r); split; [exact (MI d r ID)|apply DM]).
    apply (TimeProofs.represented_all ts a _ HI), TimeProofs.weights_represented; [exact (sorted_nodup _ (groups_sorted _))|].
    intros d r ID; split; [intros _; exact (HI d r ID)|intros _; apply TimeProofs.groups_in, in_map_iff; exists (d, r); split; [reflexivity|exact ID]].
Qed.
Print Assumptions C110_days.

(** Hence cyclic storage without losses gives back over all dates what it took, with or without linked days. *)
Definition flow_sum (U : world) (s n t k : string) : Qc := sum_over (labels U "carriers") (fun c => amount U s (("carriers", c) :: use_at n t k)).
Lemma over_times (g : nat -> Qc) (h : string -> Qc) U (at_time : Z -> string) f m l : (forall k, g k = h (step_label U k)) -> map (step_label U) (seq f (S m)) = map at_time l ->
  sum_steps (S m) (fun j => g (f + j)) = fold_right (fun k y => h (at_time k) + y)%Qc 0%Qc l.
Proof.
  intros E M; unfold sum_steps; rewrite <- (DayProps.sum_seq g (S m) f 0), Nat.add_0_r.
  transitivity (fold_right (fun x y => h x + y)%Qc 0%Qc (map (step_label U) (seq f (S m)))).
  - generalize (seq f (S m)); induction l0 as [|i l0 IH]; [reflexivity|]; cbn [map fold_right]; rewrite IH, E; reflexivity.
  - rewrite M; clear; induction l as [|k l IH]; [reflexivity|]; cbn [map fold_right]; rewrite IH; reflexivity.
Qed.
Theorem C110_unlinked order files U a ts at_time on_day group n t c fade :
  lists_set order -> In files chronological -> prepared U a ts at_time on_day group -> TimeSpec.ordered ts -> from_midnight a ts ->
  kept U n t c true -> fading U n t fade -> (forall k, k < steps U -> fade k = 1%Qc) -> constraint_holds order (layered files) U "balance_storage" ->
  over_dates U a ts at_time "flow_out_inc_eff" n t = over_dates U a ts at_time "flow_in_inc_eff" n t.
Proof.
  intros OR IL PR O MI KE FA F1 HB; unfold over_dates.
  assert (G : forall l, (forall x, In x l -> In x a) -> forall s g, (forall k, g k = flow_sum U s n t (step_label U k)) ->
    fold_right (fun dr x => fold_right (fun k y => flow_sum U s n t (at_time k) + y) 0 (times_of (snd dr) ts) + x)%Qc 0%Qc l =
    fold_right (fun dr x => over_day (begin a ts (snd dr)) (more a ts (snd dr)) g + x)%Qc 0%Qc l).
  { induction l as [|(d & r) l IH]; intros H s g EG; [reflexivity|]; cbn [fold_right snd]; rewrite (IH (fun x I => H x (or_intror I)) s g EG); f_equal; symmetry.
    apply (over_times g (flow_sum U s n t) U at_time); [exact EG|]; apply (labels_of U a ts at_time on_day group r PR O MI), in_map_iff; exists (d, r); split; [reflexivity|apply H; left; reflexivity]. }
  pose proof (G a (fun x I => I) "flow_out_inc_eff" (taken_out U n t) (fun k => eq_refl)) as GO; pose proof (G a (fun x I => I) "flow_in_inc_eff" (put_in U n t) (fun k => eq_refl)) as GI.
  unfold flow_sum in GO, GI; rewrite GO, GI; clear G GO GI.
  assert (K : forall l, (forall x, In x l -> In x a) -> fold_right (fun dr x => over_day (begin a ts (snd dr)) (more a ts (snd dr)) (taken_out U n t) + x)%Qc 0%Qc l = fold_right (fun dr x => over_day (begin a ts (snd dr)) (more a ts (snd dr)) (put_in U n t) + x)%Qc 0%Qc l).
  { induction l as [|(d & r) l IH]; intros H; [reflexivity|]; cbn [fold_right snd]; rewrite (IH (fun x I => H x (or_intror I))); f_equal.
    assert (IR : In r (map snd a)) by (apply in_map_iff; exists (d, r); split; [reflexivity|apply H; left; reflexivity]); pose proof (day_is U a ts at_time on_day group r PR O MI IR) as DA; pose proof (da_steps _ _ _ DA) as LS.
    apply (DayProps.C109_day order files U n t c true fade _ _ OR IL KE FA DA HB (or_introl eq_refl)); intros j LJ; apply F1; lia. }
  exact (K a (fun x I => I)).
Qed.
Print Assumptions C110_unlinked.
Theorem C110_dates order files U a ts at_time on_day group n t c fade :
  lists_set order -> In files linked_lists -> prepared U a ts at_time on_day group -> TimeSpec.ordered ts -> NoDup (labels U "datesteps") -> from_midnight a ts ->
  (forall plan, (forall d, In d (labels U "datesteps") -> represented U plan d) -> linked U plan n t c true) ->
  fading U n t fade -> loss U n t = 0%Qc -> (forall k, k < steps U -> fade k = 1%Qc) ->
  constraint_holds order (layered files) U "balance_storage" -> constraint_holds order (layered files) U "balance_storage_inter" ->
  over_dates U a ts at_time "flow_in_inc_eff" n t = over_dates U a ts at_time "flow_out_inc_eff" n t.
Proof.
  intros OR IL PR O ND MI LK FA LO F1 HB HI; destruct (C110_linked U a ts at_time on_day group PR O ND MI) as (plan & RP & ML).
  pose proof (LinkProps.C108_cyclic order files U plan n t c fade OR IL (LK plan RP) FA LO F1 HB HI) as E; rewrite (pr_dates _ _ _ _ _ _ PR) in E.
  assert (G : forall l, (forall x, In x l -> In x a) -> forall s g, (forall k, g k = flow_sum U s n t (step_label U k)) ->
    sum_over (map on_day (map fst l)) (fun d => sum_day (plan d) g) = fold_right (fun dr x => fold_right (fun k y => flow_sum U s n t (at_time k) + y) 0 (times_of (snd dr) ts) + x)%Qc 0%Qc l).
  { induction l as [|(d & r) l IH]; intros H s g EG; [reflexivity|]; unfold sum_over in *; cbn [map fold_right fst snd]; rewrite (IH (fun x I => H x (or_intror I)) s g EG); f_equal.
    unfold sum_day; apply (over_times g (flow_sum U s n t) U at_time); [exact EG|]; apply ML, H; left; reflexivity. }
  rewrite (G a (fun x I => I) "flow_in_inc_eff" (put_in U n t) (fun k => eq_refl)), (G a (fun x I => I) "flow_out_inc_eff" (taken_out U n t) (fun k => eq_refl)) in E; exact E.
Qed.
Print Assumptions C110_dates.

(** ** Examples *)
Ltac each H := vm_compute in H; repeat (destruct H as [H|H]; [injection H as <- <-|]); try destruct H.
Ltac are_prepared := constructor;
  [vm_compute; reflexivity|vm_compute; reflexivity|intros x k H; vm_compute in H; repeat (destruct H as [H|H]; [injection H as <- <-; vm_compute; tauto|]); destruct H
  |intros x o H; each H; is_as|intros x w H; each H; (split; [dims_in|is_as'])|intros x b H; each H; is_as
  |split; [dims_in|split; [vm_compute; reflexivity|intros x o H; each H; vm_compute; reflexivity]]
  |intros x o H; each H; is_as|intros x o H; each H; is_as]
with is_as' := unfold value_at; vm_compute; repeat f_equal; apply Qc_is_canon; vm_compute; reflexivity.
Lemma duo_prepared : prepared duo duo_days duo_times day_time day_date day_group.
Proof. are_prepared. Qed.
Lemma late_prepared : prepared late trio_days late_times day_time day_date day_group.
Proof. are_prepared. Qed.
Lemma duo_ordered : TimeSpec.ordered duo_times.
Proof. unfold duo_times; repeat constructor. Qed.
Lemma late_ordered : TimeSpec.ordered late_times.
Proof. unfold late_times; repeat constructor. Qed.
Lemma duo_midnight : from_midnight duo_days duo_times.
Proof. intros d r H; each H; vm_compute; tauto. Qed.
Lemma duo_nodup : NoDup (labels duo "datesteps").
Proof. vm_compute; repeat constructor; cbn; intuition discriminate. Qed.
Lemma cluster_in : In cluster_math linked_lists.
Proof. left; reflexivity. Qed.
Lemma none_in : In [] chronological.
Proof. left; reflexivity. Qed.
Ltac two_of LT := match type of LT with ?k < _ => let E := fresh in assert (E : k = 0 \/ k = 1) by (vm_compute in LT; lia); destruct E as [-> | ->] end.
Ltac spots H := vm_compute in H; repeat (destruct H as [<- |H]; [|]); try destruct H.
Lemma duo_linked plan : (forall d, In d (labels duo "datesteps") -> represented duo plan d) -> linked duo plan "here" "battery" "power" true.
Proof.
  intros RP; constructor;
  [intros k d LT H; two_of LT; spots H; sited_by duo_proper|is_as|is_as|intros k LT; two_of LT; is_num|intros s k H LT; destruct H as [-> | ->]; two_of LT; is_over|intros s H; spots H; is_num
  |intros k LT; two_of LT; is_num|intros d H; spots H; is_num|intros s v H K; destruct H as [-> | ->]; spots K; is_num|exact RP].
Qed.
Lemma duo_kept : kept duo "here" "battery" "power" true.
Proof.
  constructor; [intros k LT; two_of LT; sited_by duo_proper|is_as|is_as|intros k LT; two_of LT; is_num|intros s k H LT; destruct H as [-> | ->]; two_of LT; is_over|intros s H; spots H; is_num|intros k LT; two_of LT; is_num].
Qed.
Lemma duo_fading : fading duo "here" "battery" (fun _ => 1%Qc).
Proof. intros k LT; left; exists 12; two_of LT; (split; is_equal). Qed.
Lemma duo_rule s : In s ["balance_storage"; "balance_storage_inter"] -> constraint_holds as_listed (layered cluster_math) duo s.
Proof. intros H; apply CostExample.feasible_constraint; [exact (proj1 duo_solution)|spots H; vm_compute; tauto|spots H; reflexivity]. Qed.
Lemma duo_alone_rule : constraint_holds as_listed (layered []) duo "balance_storage".
Proof. apply CostExample.feasible_constraint; [exact (proj1 duo_alone)|vm_compute; tauto|reflexivity]. Qed.
Example C110_linked_ex : exists plan, (forall d, In d ["d0"; "d1"] -> represented duo plan d) /\ map (step_label duo) (seq (y_first (plan "d1")) (S (y_more (plan "d1")))) = ["a0"; "a1"].
Proof.
  destruct (C110_linked duo duo_days duo_times day_time day_date day_group duo_prepared duo_ordered duo_nodup duo_midnight) as (plan & RP & ML).
  exists plan; split; [exact RP|exact (ML 1%Z 0%Z (or_intror (or_introl eq_refl)))].
Qed.
Example C110_days_ex : exists days, all_days duo days /\ weighted duo days /\ fold_right (fun d x => weight duo (fst d) + x)%Qc 0%Qc days = Q2Qc 2.
Proof. exact (C110_days duo duo_days duo_times day_time day_date day_group duo_prepared duo_ordered duo_midnight). Qed.
Example C110_unlinked_ex : over_dates duo duo_days duo_times day_time "flow_out_inc_eff" "here" "battery" = over_dates duo duo_days duo_times day_time "flow_in_inc_eff" "here" "battery" /\
  over_dates duo duo_days duo_times day_time "flow_in_inc_eff" "here" "battery" = Q2Qc 4.
Proof.
  split; [|is_equal].
  exact (C110_unlinked as_listed [] duo duo_days duo_times day_time day_date day_group "here" "battery" "power" (fun _ => 1%Qc) as_listed_set none_in duo_prepared duo_ordered duo_midnight duo_kept duo_fading (fun _ _ => eq_refl) duo_alone_rule).
Qed.
Example C110_dates_ex : over_dates duo duo_days duo_times day_time "flow_in_inc_eff" "here" "battery" = over_dates duo duo_days duo_times day_time "flow_out_inc_eff" "here" "battery".
Proof.
  apply (C110_dates as_listed cluster_math duo duo_days duo_times day_time day_date day_group "here" "battery" "power" (fun _ => 1%Qc) as_listed_set cluster_in duo_prepared duo_ordered duo_nodup duo_midnight duo_linked duo_fading);
    [is_equal|reflexivity|apply duo_rule; cbn; tauto|apply duo_rule; cbn; tauto].
Qed.

(** ** What does not hold *)
(** If the days do not start at midnight (all times are half past the hour, say), their starts are not looked up: with linked days, cyclic storage without losses then gives out energy that it never took in. *)
Theorem C110_refuted : exists files U a ts at_time on_day group n t,
  In files linked_lists /\ solution as_listed files U /\ prepared U a ts at_time on_day group /\ TimeSpec.ordered ts /\ NoDup (labels U "datesteps") /\
  (forall d r, In (d, r) a -> exists x, In x ts /\ (x / 1440)%Z = r) /\ reads_as U "cyclic_storage" (asset n t) (Boo true) /\ loss U n t = 0%Qc /\
  (over_dates U a ts at_time "flow_in_inc_eff" n t < over_dates U a ts at_time "flow_out_inc_eff" n t)%Qc.
Proof.
  exists cluster_math, late, trio_days, late_times, day_time, day_date, day_group, "here", "battery".
  split; [exact cluster_in|split; [exact late_solution|split; [exact late_prepared|split; [exact late_ordered|split; [|split; [|split; [is_as|split; [is_equal|]]]]]]]].
  - vm_compute; repeat constructor; cbn; intuition discriminate.
  - intros d r H; each H; [exists 30%Z|exists 30%Z|exists 2910%Z]; (split; [vm_compute; tauto|reflexivity]).
  - vm_compute; reflexivity.
Qed.
Print Assumptions C110_refuted.
