(** Lemmas on what time clustering hands over to the math. *)
From Coq Require Import QArith Qcanon Lia Sorted.
From Verif Require Import Base LangModel MathText EvalModel EvalSpec HelperModel HelperSpec ShipModel ShipSpec NetSpec PlaceSpec LinkSpec DaySpec PrepSpec.
From Verif Require TimeModel TimeSpec TimeProofs.
Local Open Scope nat_scope.
Local Open Scope string_scope.
Local Open Scope list_scope.
Notation date := TimeModel.date.
Notation ordered := TimeSpec.ordered.

Lemma groups_sorted l : StronglySorted Z.lt (TimeModel.groups l).
Proof.
  unfold TimeModel.groups; induction l as [|x l IH]; cbn [fold_right]; [constructor|].
  generalize dependent (fold_right TimeModel.insert_new [] l); intros g; induction g as [|y g IG]; intros S; cbn [TimeModel.insert_new]; [repeat constructor|].
  destruct (Z.ltb_spec x y) as [L|L].
  - constructor; [exact S|]; inversion_clear S as [|? ? SG FG]; constructor; [exact L|]; eapply Forall_impl; [|exact FG]; cbv beta; intros z H; lia.
  - destruct (Z.eqb_spec x y) as [E|E]; [exact S|]; inversion_clear S as [|? ? SG FG]; constructor; [exact (IG SG)|].
    apply Forall_forall; intros z H; apply TimeProofs.insert_new_in in H; destruct H as [-> |H]; [lia|exact (proj1 (Forall_forall _ _) FG z H)].
Qed.
Lemma date_le x y : (x <= y)%Z -> (date x <= date y)%Z.
Proof. intros L; unfold TimeModel.date, TimeModel.day; apply Z.div_le_mono; lia. Qed.
Lemma filter_all {A} p (l : list A) : (forall x, In x l -> p x = true) -> filter p l = l.
Proof. induction l as [|x l IH]; intros H; cbn [filter]; [reflexivity|]; rewrite (H x (or_introl eq_refl)), IH by (intros; apply H; right; assumption); reflexivity. Qed.
Lemma filter_none {A} p (l : list A) : (forall x, In x l -> p x = false) -> filter p l = [].
Proof. induction l as [|x l IH]; intros H; cbn [filter]; [reflexivity|]; rewrite (H x (or_introl eq_refl)); apply IH; intros; apply H; right; assumption. Qed.
(** Ordered times: those before a day, those of the day, those after it. *)
Lemma three_parts r l : ordered l -> l = filter (fun t => (date t <? r)%Z) l ++ filter (fun t => (date t =? r)%Z) l ++ filter (fun t => (r <? date t)%Z) l.
Proof.
  induction l as [|x l IH]; intros O; [reflexivity|]; inversion_clear O as [|? ? OL FL]; specialize (IH OL).
  assert (LE : forall t, In t l -> (date x <= date t)%Z) by (intros t H; apply date_le; pose proof (proj1 (Forall_forall _ _) FL t H); lia).
  cbn [filter]; destruct (Z.ltb_spec (date x) r) as [L|L]; [destruct (Z.eqb_spec (date x) r); [lia|]; destruct (Z.ltb_spec r (date x)); [lia|]; cbn [app]; rewrite <- IH; reflexivity|].
  rewrite (filter_none (fun t => (date t <? r)%Z) l) in IH |- * by (intros t H; apply Z.ltb_ge; pose proof (LE t H); lia); cbn [app] in IH |- *.
  destruct (Z.eqb_spec (date x) r) as [E|E]; [destruct (Z.ltb_spec r (date x)); [lia|]; cbn [app]; rewrite <- IH; reflexivity|].
  destruct (Z.ltb_spec r (date x)) as [L2|L2]; [|lia]; rewrite (filter_none (fun t => (date t =? r)%Z) l) in IH |- * by (intros t H; apply Z.eqb_neq; pose proof (LE t H); lia); cbn [app] in IH |- *; rewrite <- IH; reflexivity.
Qed.

(** Where a day starts, and how many timesteps it has. *)
Definition start (r : Z) (l : list Z) : nat := List.length (filter (fun t => (date t <? r)%Z) l).
Definition size (r : Z) (l : list Z) : nat := List.length (filter (fun t => (date t =? r)%Z) l).
Lemma days_cover : forall rs l o, StronglySorted Z.lt rs -> ordered l -> (forall t, In t l -> In (date t) rs) ->
  flat_map (fun r => seq (o + start r l) (size r l)) rs = seq o (List.length l).
Proof.
  induction rs as [|r rs IH]; intros l o SR OL HD.
  - destruct l as [|t l]; [reflexivity|destruct (HD t (or_introl eq_refl))].
  - inversion_clear SR as [|? ? SS FR]; set (l1 := filter (fun t => (date t =? r)%Z) l); set (l2 := filter (fun t => (r <? date t)%Z) l).
    assert (B : filter (fun t => (date t <? r)%Z) l = []).
    { apply filter_none; intros t H; apply Z.ltb_ge; destruct (HD t H) as [-> |I]; [lia|]; pose proof (proj1 (Forall_forall _ _) FR _ I); lia. }
    assert (E : l = l1 ++ l2) by (pose proof (three_parts r l OL) as E; rewrite B in E; exact E).
    assert (S0 : start r l = 0) by (unfold start; rewrite B; reflexivity); assert (Z0 : size r l = List.length l1) by reflexivity.
    assert (I1 : forall t, In t l1 -> date t = r) by (intros t H; apply filter_In in H; apply Z.eqb_eq; tauto).
    assert (O2 : ordered l2) by (apply TimeProofs.ordered_filter; exact OL).
    assert (D2 : forall t, In t l2 -> In (date t) rs) by (intros t H; apply filter_In in H; destruct H as (IT & LT); apply Z.ltb_lt in LT; destruct (HD t IT) as [-> |I]; [lia|exact I]).
    clearbody l1 l2; cbn [flat_map]; rewrite S0, Z0, Nat.add_0_r.
    replace (List.length l) with (List.length l1 + List.length l2) by (rewrite <- app_length, <- E; reflexivity); rewrite seq_app; f_equal.
    rewrite <- (IH l2 (o + List.length l1) SS O2 D2), !flat_map_concat_map; f_equal; apply map_ext_in; intros r' IR; pose proof (proj1 (Forall_forall _ _) FR _ IR) as LR.
    assert (ST : start r' l = List.length l1 + start r' l2).
    { unfold start; rewrite E, filter_app, app_length; f_equal; rewrite filter_all; [reflexivity|]; intros t H; apply Z.ltb_lt; rewrite (I1 t H); exact LR. }
    assert (SZ : size r' l = size r' l2).
    { unfold size; rewrite E, filter_app, app_length, (filter_none _ l1); [reflexivity|]; intros t H; apply Z.eqb_neq; rewrite (I1 t H); lia. }
    rewrite ST, SZ, Nat.add_assoc; reflexivity.
Qed.
Lemma at_start r l j : ordered l -> j < size r l -> nth_error l (start r l + j) = nth_error (filter (fun t => (date t =? r)%Z) l) j.
Proof.
  intros O LJ; rewrite (three_parts r l O) at 1; unfold start; rewrite nth_error_app2 by lia; rewrite Nat.add_comm, Nat.add_sub, nth_error_app1 by exact LJ; reflexivity.
Qed.
Lemma start_size r l : ordered l -> start r l + size r l <= List.length l.
Proof. intros O; pose proof (f_equal (@List.length Z) (three_parts r l O)) as E; rewrite !app_length in E; unfold start, size; lia. Qed.
Lemma last_nth {A} (l : list A) d : l <> [] -> hd_error (rev l) = Some (nth (List.length l - 1) l d).
Proof.
  intros N; assert (L : List.length (rev l) <> 0) by (rewrite rev_length; destruct l; [congruence|discriminate]).
  assert (H : hd_error (rev l) = Some (nth 0 (rev l) d)) by (revert L; destruct (rev l); intros L; [destruct (L eq_refl)|reflexivity]); rewrite H, rev_nth by (rewrite rev_length in L; lia); reflexivity.
Qed.
Lemma ordered_nth l i j d : ordered l -> i < j -> j < List.length l -> (nth i l d < nth j l d)%Z.
Proof.
  intros O; revert i j; induction O as [|x l O IH FL]; intros i j LI LJ; [cbn in LJ; lia|].
  destruct j as [|j]; [lia|]; destruct i as [|i]; cbn [nth List.length] in *; [apply (proj1 (Forall_forall _ _) FL), nth_In; lia|apply IH; lia].
Qed.

Lemma moments_times (a : list (Z * Z)) r : In r (map snd a) -> forall ts, filter (fun t => (date t =? r)%Z) (filter (fun t => TimeModel.memZ (date t) (map snd a)) ts) = times_of r ts.
Proof.
  intros IR ts; unfold times_of; induction ts as [|t l IH]; [reflexivity|]; cbn [filter].
  change (t / 1440)%Z with (date t); destruct (Z.eqb_spec (date t) r) as [E|E].
  - replace (TimeModel.memZ (date t) (map snd a)) with true by (symmetry; apply TimeProofs.memZ_in; rewrite E; exact IR); cbn [filter].
    destruct (Z.eqb_spec (date t) r) as [E'|E']; [|congruence]; f_equal; exact IH.
  - destruct (TimeModel.memZ (date t) (map snd a)); cbn [filter]; [destruct (Z.eqb_spec (date t) r) as [E'|E']; [congruence|]|]; exact IH.
Qed.

Section Prepared.
Context (U : world) (a : list (Z * Z)) (ts : list Z) (at_time on_day : Z -> string) (group : nat -> string).
Context (PR : prepared U a ts at_time on_day group) (O : ordered ts) (MI : from_midnight a ts).
Let kept : list Z := filter (fun t => TimeModel.memZ (date t) (map snd a)) ts.
Lemma steps_kept : labels U "timesteps" = map at_time kept.
Proof. rewrite (pr_steps _ _ _ _ _ _ PR); cbn [TimeModel.cluster TimeModel.c_cluster]; rewrite !map_map; cbn [fst]; reflexivity. Qed.
Lemma kept_sorted : ordered kept.
Proof. apply TimeProofs.ordered_filter; exact O. Qed.
Definition begin (r : Z) : nat := start r kept.
Definition more (r : Z) : nat := size r kept - 1.
Definition moments (r : Z) : list Z := filter (fun t => (date t =? r)%Z) kept.
Lemma size_more r : In r (map snd a) -> size r kept = S (more r) /\ begin r + more r < steps U.
Proof.
  intros IR; assert (N : 0 < size r kept).
  { apply in_map_iff in IR; destruct IR as ((d & r') & <- & ID); cbn [snd]; pose proof (MI d r' ID) as IM.
    assert (IK : In (TimeModel.midnight r') (filter (fun t => (date t =? r')%Z) kept)).
    { assert (DM : date (TimeModel.midnight r') = r') by (unfold TimeModel.date, TimeModel.midnight; apply Z.div_mul; discriminate).
      apply filter_In; split; [|apply Z.eqb_eq, DM]; apply TimeProofs.kept_in; split; [exact IM|]; rewrite DM; apply in_map_iff; exists (d, r'); split; [reflexivity|exact ID]. }
    unfold size; destruct (filter (fun t => (date t =? r')%Z) kept); [destruct IK|cbn; lia]. }
  pose proof (start_size r kept kept_sorted) as LE; unfold more, begin, steps; rewrite steps_kept, map_length; lia.
Qed.
Lemma label_at r j : In r (map snd a) -> j <= more r -> step_label U (begin r + j) = at_time (nth j (moments r) 0%Z) /\ In (nth j (moments r) 0%Z) (moments r).
Proof.
  intros IR LJ; destruct (size_more r IR) as (SZ & LT); assert (LL : j < List.length (moments r)) by (unfold moments; fold (size r kept); lia).
  split; [|apply nth_In; exact LL]; unfold step_label; rewrite steps_kept.
  pose proof (at_start r kept j kept_sorted LL) as E; fold (begin r) in E; fold (moments r) in E.
  rewrite (nth_error_nth' (moments r) 0%Z LL) in E; rewrite (nth_error_nth _ _ "" (map_nth_error at_time _ _ E)); reflexivity.
Qed.
Lemma midnight_first r : In r (map snd a) -> nth 0 (moments r) 0%Z = TimeModel.midnight r.
Proof.
  intros IR; apply in_map_iff in IR; destruct IR as ((d & r') & <- & ID); cbn [snd]; pose proof (MI d r' ID) as IM.
  assert (DM : date (TimeModel.midnight r') = r') by (unfold TimeModel.date, TimeModel.midnight; apply Z.div_mul; discriminate).
  assert (IK : In (TimeModel.midnight r') (moments r')) by (apply filter_In; split; [|apply Z.eqb_eq, DM]; apply TimeProofs.kept_in; split; [exact IM|]; rewrite DM; apply in_map_iff; exists (d, r'); split; [reflexivity|exact ID]).
  assert (OM : ordered (moments r')) by (apply TimeProofs.ordered_filter, kept_sorted).
  assert (ME : forall t, In t (moments r') -> date t = r') by (intros t H; apply filter_In in H; apply Z.eqb_eq; tauto).
  destruct (moments r') as [|x l]; [destruct IK|]; cbn [nth]; inversion_clear OM as [|? ? _ FL]; pose proof (ME x (or_introl eq_refl)) as DX.
  destruct IK as [->|IL]; [reflexivity|]; pose proof (proj1 (Forall_forall _ _) FL _ IL) as LT; exfalso.
  unfold TimeModel.date, TimeModel.midnight, TimeModel.day in *; pose proof (Z.mul_div_le x 1440 ltac:(lia)); lia.
Qed.
Lemma moment_date r j : In r (map snd a) -> j <= more r -> date (nth j (moments r) 0%Z) = r /\ In (nth j (moments r) 0%Z) kept.
Proof. intros IR LJ; destruct (label_at r j IR LJ) as (_ & I); apply filter_In in I; split; [apply Z.eqb_eq|]; tauto. Qed.
Lemma last_moment r : In r (map snd a) -> TimeModel.last_of r kept = Some (nth (more r) (moments r) 0%Z).
Proof.
  intros IR; unfold TimeModel.last_of, TimeModel.of_date; fold (moments r); destruct (label_at r 0 IR (Nat.le_0_l _)) as (_ & I0).
  rewrite (last_nth (moments r) 0%Z) by (intros E; rewrite E in I0; destruct I0); reflexivity.
Qed.
Lemma moments_increase r i j : In r (map snd a) -> i < j -> j <= more r -> (nth i (moments r) 0 < nth j (moments r) 0)%Z.
Proof.
  intros IR LI LJ; destruct (size_more r IR) as (SZ & _); apply ordered_nth; [apply TimeProofs.ordered_filter, kept_sorted|exact LI|unfold moments; fold (size r kept); lia].
Qed.
(** What is looked up at the timesteps of a day. *)
Lemma last_at_first r : In r (map snd a) -> a_at (n_array (u_env U) "lookup_cluster_last_timestep") (spot (at_step (step_label U (begin r)))) = Txt (step_label U (begin r + more r)).
Proof.
  intros IR; destruct (pr_last _ _ _ _ _ _ PR) as (_ & _ & LA); destruct (label_at r 0 IR (Nat.le_0_l _)) as (E0 & _); rewrite Nat.add_0_r in E0; rewrite E0.
  destruct (label_at r (more r) IR (le_n _)) as (EM & _); rewrite EM; destruct (moment_date r 0 IR (Nat.le_0_l _)) as (D0 & K0).
  rewrite (LA (nth 0 (moments r) 0%Z) (Some (nth (more r) (moments r) 0%Z))); [reflexivity|].
  cbn [TimeModel.cluster TimeModel.c_last]; apply in_map_iff; exists (nth 0 (moments r) 0%Z); split; [|exact K0]; f_equal; rewrite D0, (midnight_first r IR), Z.eqb_refl; exact (last_moment r IR).
Qed.
Lemma none_later r j : In r (map snd a) -> 0 < j -> j <= more r -> a_at (n_array (u_env U) "lookup_cluster_last_timestep") (spot (at_step (step_label U (begin r + j)))) = Miss.
Proof.
  intros IR L0 LJ; destruct (pr_last _ _ _ _ _ _ PR) as (_ & _ & LA); destruct (label_at r j IR LJ) as (E0 & _); rewrite E0; destruct (moment_date r j IR LJ) as (D0 & K0).
  rewrite (LA (nth j (moments r) 0%Z) None); [reflexivity|].
  cbn [TimeModel.cluster TimeModel.c_last]; apply in_map_iff; exists (nth j (moments r) 0%Z); split; [|exact K0]; f_equal; rewrite D0, <- (midnight_first r IR).
  pose proof (moments_increase r 0 j IR L0 LJ); destruct (Z.eqb_spec (nth j (moments r) 0%Z) (nth 0 (moments r) 0%Z)); [lia|reflexivity].
Qed.
Lemma starts_at r j : In r (map snd a) -> j <= more r -> reads_as U "cluster_first_timestep" (at_step (step_label U (begin r + j))) (Boo (Nat.eqb j 0)).
Proof.
  intros IR LJ; destruct (label_at r j IR LJ) as (E0 & _); rewrite E0; destruct (moment_date r j IR LJ) as (D0 & K0); apply (pr_first _ _ _ _ _ _ PR).
  cbn [TimeModel.cluster TimeModel.c_first]; apply in_map_iff; exists (nth j (moments r) 0%Z); split; [|exact K0]; f_equal; rewrite D0.
  unfold TimeModel.first_of, TimeModel.of_date; fold kept; fold (moments r); destruct (label_at r 0 IR (Nat.le_0_l _)) as (_ & I0).
  replace (hd_error (moments r)) with (Some (nth 0 (moments r) 0%Z)) by (destruct (moments r); [destruct I0|reflexivity]).
  destruct j as [|j]; [apply Z.eqb_refl|]; pose proof (moments_increase r 0 (S j) IR ltac:(lia) LJ); apply Z.eqb_neq; lia.
Qed.
Lemma cluster_known r : In r (map snd a) -> exists i, TimeModel.index_of r (TimeModel.groups (map snd a)) = Some i.
Proof. intros IR; apply TimeProofs.index_of_in, TimeProofs.groups_in; exact IR. Qed.
Lemma cluster_of r i j : In r (map snd a) -> TimeModel.index_of r (TimeModel.groups (map snd a)) = Some i -> j <= more r ->
  reads_as U "timestep_cluster" (at_step (step_label U (begin r + j))) (Txt (group i)) /\ In (group i) (labels U "clusters").
Proof.
  intros IR EI LJ; destruct (label_at r j IR LJ) as (E0 & _); rewrite E0; destruct (moment_date r j IR LJ) as (D0 & K0).
  assert (IC : In (nth j (moments r) 0%Z, Some i) (TimeModel.c_cluster (TimeModel.cluster a ts))) by (cbn [TimeModel.cluster TimeModel.c_cluster]; apply in_map_iff; exists (nth j (moments r) 0%Z); split; [|exact K0]; rewrite D0, EI; reflexivity).
  split; [exact (pr_cluster _ _ _ _ _ _ PR _ _ IC)|exact (pr_groups _ _ _ _ _ _ PR _ _ IC)].
Qed.
Lemma weight_of r j : In r (map snd a) -> j <= more r -> weight U (begin r + j) = Q2Qc (inject_Z (Z.of_nat (TimeModel.count r (map snd a)))).
Proof.
  intros IR LJ; destruct (label_at r j IR LJ) as (E0 & _); unfold weight; rewrite E0; destruct (moment_date r j IR LJ) as (D0 & K0).
  unfold amount; rewrite (proj2 (pr_weight _ _ _ _ _ _ PR (nth j (moments r) 0%Z) (TimeModel.count r (map snd a)) ltac:(cbn [TimeModel.cluster TimeModel.c_weight]; apply in_map_iff; exists (nth j (moments r) 0%Z); split; [rewrite D0; reflexivity|exact K0]))); reflexivity.
Qed.
(** What is looked up for a date. *)
Lemma date_last d r : NoDup (map fst a) -> In (d, r) a -> reads_as U "lookup_datestep_last_cluster_timestep" (on_date (on_day d)) (Txt (step_label U (begin r + more r))).
Proof.
  intros ND ID; assert (IR : In r (map snd a)) by (apply in_map_iff; exists (d, r); split; [reflexivity|exact ID]).
  assert (EX : exists o, In (d, o) (TimeModel.c_date_last (TimeModel.cluster a ts))) by (eexists; cbn [TimeModel.cluster TimeModel.c_date_last]; apply in_map_iff; exists (d, r); split; [reflexivity|exact ID]).
  destruct EX as (o & IO); pose proof (pr_date_last _ _ _ _ _ _ PR d o IO) as RA; destruct (TimeProofs.date_last_spec a ts d o O IO) as (r' & ID' & S).
  assert (r' = r) by (clear - ND ID ID'; induction a as [|(x & y) l IH]; [destruct ID|]; cbn in ND; inversion_clear ND as [|? ? NI NL]; destruct ID as [E|ID], ID' as [E'|ID'];
    [congruence|injection E as -> ->; destruct NI; apply in_map_iff; exists (d, r'); split; [reflexivity|exact ID']|injection E' as -> ->; destruct NI; apply in_map_iff; exists (d, r); split; [reflexivity|exact ID]|exact (IH NL ID ID')]); subst r'.
  destruct (label_at r (more r) IR (le_n _)) as (EM & _); rewrite EM.
  pose proof (proj1 (TimeProofs.last_of_spec a ts O r _) (last_moment r IR)) as (IL & DL & LL).
  pose proof (proj1 (TimeProofs.kept_in a ts _) IL) as (IT & _).
  destruct o as [t|]; [|destruct (S _ IT DL)]; destruct S as (IT' & DT & LT).
  replace (nth (more r) (moments r) 0%Z) with t; [exact RA|].
  apply Z.le_antisymm; [apply LL; [apply TimeProofs.kept_in; split; [exact IT'|rewrite DT; exact IR]|exact DT]|exact (LT _ IT DL)].
Qed.
Lemma date_cluster d r i : In (d, r) a -> TimeModel.index_of r (TimeModel.groups (map snd a)) = Some i -> reads_as U "lookup_datestep_cluster" (on_date (on_day d)) (Txt (group i)).
Proof. intros ID EI; apply (pr_date_cluster _ _ _ _ _ _ PR d (Some i)); cbn [TimeModel.cluster TimeModel.c_date_cluster]; apply in_map_iff; exists (d, r); split; [cbn [fst snd]; rewrite EI; reflexivity|exact ID]. Qed.
End Prepared.
