(** Properties of storage in linked representative days. *)
From Coq Require Import QArith Qcanon Lia.
From Verif Require Import Base BaseProofs LangModel MathText EvalModel EvalSpec BuildModel BuildSpec HelperModel HelperSpec ShipModel ShipSpec ShipEntry ShipStorage ShipStorageProps ShipExample NetSpec PlaceSpec ShipPlace RuleText RuleProofs
  BoundSpec RuleExample MilpExample BoundExample LinkSpec LinkText LinkProofs LinkExample.
From Verif Require CostExample.
Local Open Scope nat_scope.
Local Open Scope string_scope.
Local Open Scope list_scope.
Local Arguments Qcplus : simpl never.
Local Arguments Qcmult : simpl never.
Local Arguments Qcminus : simpl never.
Local Arguments Qcpower : simpl never.

(** * C108: what is in store on a date *)

(** Within a date, what is in store follows from timestep to timestep: what remains, what is put in, less what is taken out. *)
Theorem C108_within order files U plan n t c cy fade :
  lists_set order -> In files linked_lists -> linked U plan n t c cy -> fading U n t fade -> constraint_holds order (layered files) U "balance_storage" ->
  forall d, In d (labels U "datesteps") -> cy = true \/ y_first (plan d) <> 0 ->
    in_store U plan n t fade d 0 = (carried U n t d + put_in U n t (y_first (plan d)) - taken_out U n t (y_first (plan d)))%Qc /\
    forall j, j < y_more (plan d) -> in_store U plan n t fade d (S j) =
      (fade (y_first (plan d) + j)%nat * in_store U plan n t fade d j + put_in U n t (y_first (plan d) + S j)%nat - taken_out U n t (y_first (plan d) + S j)%nat)%Qc.
Proof.
  intros OR IL LI FA HB d ID NF; pose proof (li_dates _ _ _ _ _ _ LI d ID) as RP; pose proof (re_steps _ _ _ RP) as LS; unfold y_last in LS; unfold in_store; split.
  - rewrite Nat.add_0_r, compound_self; assert (LT : y_first (plan d) < steps U) by lia; destruct (re_starts _ _ _ RP) as (WD & B & EV).
    rewrite (step_level order OR files IL U plan n t c cy LI fade FA _ d true LT ID (conj WD (conj B (ex_intro _ _ EV))) HB).
    replace ((y_first (plan d) =? 0)%nat && negb cy) with false; [ring|].
    destruct NF as [-> |NF]; [rewrite andb_false_r; reflexivity|apply Nat.eqb_neq in NF; rewrite NF; reflexivity].
  - intros j LJ; assert (LT : y_first (plan d) + S j < steps U) by lia.
    rewrite (step_level order OR files IL U plan n t c cy LI fade FA _ d false LT ID (re_goes_on _ _ _ RP (S j) ltac:(lia) ltac:(lia)) HB).
    replace (y_first (plan d) + S j) with (S (y_first (plan d) + j)) by lia; cbn [Nat.eqb andb before]; rewrite compound_next by lia; ring.
Qed.
Print Assumptions C108_within.

(** Storage that is not cyclic starts with the given fraction itself, as if it were an energy, and every date of the first day starts with the fraction of the capacity on top. *)
Theorem C108_start order files U plan n t c fade :
  lists_set order -> In files linked_lists -> linked U plan n t c false -> fading U n t fade -> constraint_holds order (layered files) U "balance_storage" -> constraint_holds order (layered files) U "balance_storage_inter" ->
  (forall d, nth_error (labels U "datesteps") 0 = Some d -> carried U n t d = amount U "storage_initial" (asset n t)) /\
  forall d, In d (labels U "datesteps") -> y_first (plan d) = 0 ->
    in_store U plan n t fade d 0 = (carried U n t d + amount U "storage_initial" (asset n t) * amount U "storage_cap" (asset n t) + put_in U n t 0 - taken_out U n t 0)%Qc.
Proof.
  intros OR IL LI FA HB HI; split.
  - intros d E0; exact (inter_first order OR files IL U plan n t c false LI d eq_refl E0 HI).
  - intros d ID Y0; pose proof (li_dates _ _ _ _ _ _ LI d ID) as RP; pose proof (re_steps _ _ _ RP) as LS; unfold y_last in LS; rewrite Y0 in LS; destruct (re_starts _ _ _ RP) as (WD & B & EV); rewrite Y0 in EV; unfold in_store.
    rewrite Y0, compound_self; cbn [Nat.add].
    rewrite (step_level order OR files IL U plan n t c false LI fade FA 0 d true ltac:(lia) ID (conj WD (conj B (ex_intro _ _ EV))) HB); cbn [Nat.eqb andb negb]; ring.
Qed.
Print Assumptions C108_start.

(** From one date to the next without losses, everything is carried over. *)
Lemma power_one n : Qcpower 1 n = 1%Qc.
Proof. induction n as [|n IH]; [reflexivity|]; change (Qcpower 1 (S n)) with (1 * Qcpower 1 n)%Qc; rewrite IH; ring. Qed.
Lemma compound_one fade i k : (forall j, i <= j < k -> fade j = 1%Qc) -> compound fade i k = 1%Qc.
Proof.
  unfold compound; intros H; assert (G : forall l, (forall j, In j l -> fade j = 1%Qc) -> fold_right (fun j x => fade j * x)%Qc 1%Qc l = 1%Qc).
  { induction l as [|j l IH]; intros HL; cbn [fold_right]; [reflexivity|]; rewrite (HL j (or_introl eq_refl)), (IH (fun i IX => HL i (or_intror IX))); ring. }
  apply G; intros j IJ; apply in_seq in IJ; apply H; lia.
Qed.
Theorem C108_next order files U plan n t c cy fade :
  lists_set order -> In files linked_lists -> linked U plan n t c cy -> loss U n t = 0%Qc -> (forall k, k < steps U -> fade k = 1%Qc) -> constraint_holds order (layered files) U "balance_storage_inter" ->
  forall d d', next_date U cy d d' -> carried U n t d' = in_store U plan n t fade d (y_more (plan d)).
Proof.
  intros OR IL LI LO FA HB d d' ND; rewrite (inter_next order OR files IL U plan n t c cy LI d d' ND HB), LO; unfold in_store; fold (y_last (plan d)).
  assert (ID : In d (labels U "datesteps")) by (destruct ND as (i & EI & _); exact (nth_error_In _ _ EI)).
  pose proof (re_steps _ _ _ (li_dates _ _ _ _ _ _ LI d ID)) as LS; rewrite compound_one by (intros j LJ; apply FA; lia); replace (1 - 0)%Qc with 1%Qc by ring; rewrite power_one; reflexivity.
Qed.
Print Assumptions C108_next.

(** Over all dates, cyclic storage without losses gives back what it took. *)
Lemma sum_steps_shift k f : sum_steps (S k) f = (f 0%nat + sum_steps k (fun i => f (S i)))%Qc.
Proof. induction k as [|k IH]; [unfold sum_steps; cbn; ring|]; rewrite sum_steps_next, IH, sum_steps_next; ring. Qed.
Lemma sum_over_nth l f : sum_over l f = sum_steps (List.length l) (fun i => f (nth i l "")).
Proof.
  induction l as [|x l IH]; [reflexivity|]; cbn [List.length]; rewrite sum_steps_shift; cbn [nth]; rewrite <- IH; reflexivity.
Qed.
Theorem C108_cyclic order files U plan n t c fade :
  lists_set order -> In files linked_lists -> linked U plan n t c true -> fading U n t fade -> loss U n t = 0%Qc -> (forall k, k < steps U -> fade k = 1%Qc) ->
  constraint_holds order (layered files) U "balance_storage" -> constraint_holds order (layered files) U "balance_storage_inter" ->
  sum_over (labels U "datesteps") (fun d => sum_day (plan d) (put_in U n t)) = sum_over (labels U "datesteps") (fun d => sum_day (plan d) (taken_out U n t)).
Proof.
  intros OR IL LI FA LO F1 HB HI.
  assert (DAY : forall d, In d (labels U "datesteps") -> forall j, j <= y_more (plan d) ->
    in_store U plan n t fade d j = (carried U n t d + sum_steps (S j) (fun i => put_in U n t (y_first (plan d) + i)%nat - taken_out U n t (y_first (plan d) + i)%nat))%Qc).
  { intros d ID; destruct (C108_within order files U plan n t c true fade OR IL LI FA HB d ID (or_introl eq_refl)) as (H0 & HS); pose proof (re_steps _ _ _ (li_dates _ _ _ _ _ _ LI d ID)) as LS; unfold y_last in LS.
    induction j as [|j IH]; intros LJ; rewrite sum_steps_next; [rewrite H0, Nat.add_0_r; change (sum_steps 0 _) with 0%Qc; ring|].
    rewrite HS by lia; rewrite IH by lia; rewrite F1 by lia; ring. }
  assert (NX : forall d d', next_date U true d d' -> carried U n t d' = (carried U n t d + (sum_day (plan d) (put_in U n t) - sum_day (plan d) (taken_out U n t)))%Qc).
  { intros d d' ND; rewrite (C108_next order files U plan n t c true fade OR IL LI LO F1 HI d d' ND); assert (ID : In d (labels U "datesteps")) by (destruct ND as (i & EI & _); exact (nth_error_In _ _ EI)).
    rewrite (DAY d ID _ (le_n _)); unfold sum_day; rewrite sum_steps_minus; reflexivity. }
  assert (E : (sum_over (labels U "datesteps") (fun d => sum_day (plan d) (put_in U n t)) - sum_over (labels U "datesteps") (fun d => sum_day (plan d) (taken_out U n t)))%Qc = 0%Qc).
  { rewrite !sum_over_nth, <- sum_steps_minus; remember (List.length (labels U "datesteps")) as k eqn:EK; destruct k as [|k]; [reflexivity|].
    assert (TEL : forall i, i < k -> carried U n t (nth (S i) (labels U "datesteps") "") = (carried U n t (nth 0%nat (labels U "datesteps") "") +
      sum_steps (S i) (fun j => sum_day (plan (nth j (labels U "datesteps") "")) (put_in U n t) - sum_day (plan (nth j (labels U "datesteps") "")) (taken_out U n t)))%Qc).
    { assert (N2 : forall i, i < k -> next_date U true (nth i (labels U "datesteps") "") (nth (S i) (labels U "datesteps") "")) by (intros i LT; exists i; split; [apply nth_error_nth'; lia|left; apply nth_error_nth'; lia]).
      induction i as [|i IH]; intros LT; rewrite (NX _ _ (N2 _ LT)).
      - rewrite sum_steps_next; change (sum_steps 0 _) with 0%Qc; ring.
      - rewrite IH by lia; rewrite (sum_steps_next (S i)); ring. }
    assert (LAST : carried U n t (nth 0%nat (labels U "datesteps") "") = (carried U n t (nth k (labels U "datesteps") "") + (sum_day (plan (nth k (labels U "datesteps") "")) (put_in U n t) - sum_day (plan (nth k (labels U "datesteps") "")) (taken_out U n t)))%Qc).
    { apply NX; exists k; split; [apply nth_error_nth'; lia|right; split; [reflexivity|split; [exact EK|apply nth_error_nth'; lia]]]. }
    rewrite sum_steps_next; destruct k as [|k].
    - change (sum_steps 0 _) with 0%Qc; rewrite Qcplus_0_l; match type of LAST with ?a = (?a + ?b)%Qc => replace b with (a + b - a)%Qc by ring; rewrite <- LAST; ring end.
    - rewrite (TEL k) in LAST by lia; match type of LAST with ?a = (?a + ?b + ?e)%Qc => replace (b + e)%Qc with (a + b + e - a)%Qc by ring; rewrite <- LAST; ring end. }
  match type of E with (?a - ?b)%Qc = _ => replace a with (a - b + b)%Qc by ring; rewrite E; ring end.
Qed.
Print Assumptions C108_cyclic.

(** What is in store is never negative and never above the capacity, at any timestep of any date. *)
Lemma power_add a p q : Qcpower a (p + q) = (Qcpower a p * Qcpower a q)%Qc.
Proof. induction p as [|p IH]; [change (Qcpower a 0) with 1%Qc; cbn [Nat.add]; ring|]; cbn [Nat.add]; change (Qcpower a (S (p + q))) with (a * Qcpower a (p + q))%Qc; change (Qcpower a (S p)) with (a * Qcpower a p)%Qc; rewrite IH; ring. Qed.
Lemma mult_below a b x : (a <= b)%Qc -> (0 <= x)%Qc -> (a * x <= b * x)%Qc.
Proof. intros; apply Qcmult_le_compat_r; assumption. Qed.
Lemma mult_nonneg a b : (0 <= a)%Qc -> (0 <= b)%Qc -> (0 <= a * b)%Qc.
Proof. intros A B; rewrite <- (Qcmult_0_l b); apply mult_below; assumption. Qed.
Lemma power_range a p : (0 <= a)%Qc -> (a <= 1)%Qc -> (0 <= Qcpower a p)%Qc /\ (Qcpower a p <= 1)%Qc.
Proof.
  intros A B; induction p as [|p (H0 & H1)]; [change (Qcpower a 0) with 1%Qc; split; [discriminate|apply Qcle_refl]|]; change (Qcpower a (S p)) with (a * Qcpower a p)%Qc; split; [apply mult_nonneg; assumption|].
  eapply Qcle_trans; [apply mult_below; [exact B|exact H0]|]; rewrite Qcmult_1_l; exact H1.
Qed.
Lemma fade_pow U n t fade hs k : fading U n t fade -> k < steps U -> hours U k = Q2Qc (inject_Z (Z.of_nat (hs k))) -> fade k = Qcpower (1 - loss U n t) (hs k).
Proof.
  intros FA LT EH; destruct (FA k LT) as [(p & E & ->)|(NN & _)]; [|exfalso; exact (NN (hs k) EH)].
  assert (EP : p = hs k) by (rewrite EH in E; apply (f_equal this) in E; cbn [this Q2Qc] in E; apply Qred_eq_iff in E; unfold Qeq in E; cbn in E; lia); rewrite EP; reflexivity.
Qed.
Lemma compound_pow fade a hs i k : (forall j, i <= j < k -> fade j = Qcpower a (hs j)) -> compound fade i k = Qcpower a (fold_right Nat.add 0 (map hs (seq i (k - i)))).
Proof.
  unfold compound; intros H; assert (G : forall l, (forall j, In j l -> fade j = Qcpower a (hs j)) -> fold_right (fun j x => fade j * x)%Qc 1%Qc l = Qcpower a (fold_right Nat.add 0 (map hs l))).
  { induction l as [|j l IH]; intros HL; cbn [fold_right map]; [reflexivity|]; rewrite power_add, (HL j (or_introl eq_refl)), (IH (fun i IX => HL i (or_intror IX))); reflexivity. }
  apply G; intros j IJ; apply in_seq in IJ; apply H; lia.
Qed.
Theorem C108_limits order files U plan n t c cy fade hs :
  lists_set order -> In files linked_lists -> linked U plan n t c cy -> fading U n t fade -> full_days U plan hs -> (0 <= loss U n t)%Qc -> (loss U n t <= 1)%Qc ->
  (forall s, In s ["storage_intra_max"; "storage_intra_min"; "storage_inter_max"; "storage_inter_min"] -> constraint_holds order (layered files) U s) ->
  forall d j, In d (labels U "datesteps") -> (0 <= carried U n t d)%Qc -> j <= y_more (plan d) ->
    (0 <= in_store U plan n t fade d j)%Qc /\ (in_store U plan n t fade d j <= amount U "storage_cap" (asset n t))%Qc.
Proof.
  intros OR IL LI FA (HH & HD) L0 L1 HC d j ID C0 LJ; pose proof (re_steps _ _ _ (li_dates _ _ _ _ _ _ LI d ID)) as LS; unfold y_last in LS.
  assert (A0 : (0 <= 1 - loss U n t)%Qc) by (apply Qcle_minus_iff in L1; exact L1).
  assert (A1 : (1 - loss U n t <= 1)%Qc) by (apply Qcle_minus_iff; replace (1 + - (1 - loss U n t))%Qc with (loss U n t) by ring; exact L0).
  pose proof (intra_max order OR files IL U plan n t c cy LI d j ID LJ (HC "storage_intra_max" ltac:(cbn; tauto))) as MX; pose proof (intra_min order OR files IL U plan n t c cy LI d j ID LJ (HC "storage_intra_min" ltac:(cbn; tauto))) as MN.
  pose proof (inter_max order OR files IL U plan n t c cy LI d ID (HC "storage_inter_max" ltac:(cbn; tauto))) as TX; pose proof (inter_min order OR files IL U plan n t c cy LI d ID (HC "storage_inter_min" ltac:(cbn; tauto))) as TN.
  unfold in_store; rewrite (compound_pow fade (1 - loss U n t)%Qc hs) by (intros i LX; apply (fade_pow U n t fade hs i FA); [lia|apply HH; lia]).
  specialize (HD d ID); replace (S (y_more (plan d))) with ((y_first (plan d) + j - y_first (plan d)) + (S (y_more (plan d)) - j)) in HD by lia; rewrite seq_app, map_app in HD.
  set (p := map hs (seq (y_first (plan d)) (y_first (plan d) + j - y_first (plan d)))) in *; set (q := map hs _) in HD.
  assert (EF : fold_right Nat.add 0 (p ++ q) = fold_right Nat.add 0 p + fold_right Nat.add 0 q) by (clear; induction p as [|x p IH]; cbn [app fold_right]; [reflexivity|rewrite IH; lia]).
  rewrite EF in HD; rewrite <- HD, power_add in TN; destruct (power_range _ (fold_right Nat.add 0 p) A0 A1) as (P0 & P1); destruct (power_range _ (fold_right Nat.add 0 q) A0 A1) as (Q0 & Q1).
  set (P := Qcpower _ (fold_right Nat.add 0 p)) in *; set (Q := Qcpower _ (fold_right Nat.add 0 q)) in *; split.
  - eapply Qcle_trans; [exact TN|]; apply Qcplus_le_compat; [|exact MN]; rewrite (Qcmult_comm (carried U n t d)); apply mult_below; [|exact C0].
    rewrite (Qcmult_comm P Q); rewrite <- (Qcmult_1_l P) at 2; apply mult_below; assumption.
  - eapply Qcle_trans; [|exact TX]; apply Qcplus_le_compat; [|exact MX]; rewrite <- (Qcmult_1_l (carried U n t d)) at 2; apply mult_below; assumption.
Qed.
Print Assumptions C108_limits.

(** With losses: what is carried over is what remains of what was in store, and the part that the timesteps of the day added loses nothing during the last timestep. *)
Theorem C108_loss order files U plan n t c cy fade hs :
  lists_set order -> In files linked_lists -> linked U plan n t c cy -> fading U n t fade -> full_days U plan hs -> constraint_holds order (layered files) U "balance_storage_inter" ->
  forall d d', next_date U cy d d' ->
    carried U n t d' = (fade (y_last (plan d)) * in_store U plan n t fade d (y_more (plan d)) + (1 - fade (y_last (plan d))) * level U n t (y_last (plan d)))%Qc.
Proof.
  intros OR IL LI FA (HH & HD) HB d d' ND; rewrite (inter_next order OR files IL U plan n t c cy LI d d' ND HB); assert (ID : In d (labels U "datesteps")) by (destruct ND as (i & EI & _); exact (nth_error_In _ _ EI)).
  pose proof (re_steps _ _ _ (li_dates _ _ _ _ _ _ LI d ID)) as LS; unfold in_store; fold (y_last (plan d)).
  assert (E : (fade (y_last (plan d)) * compound fade (y_first (plan d)) (y_last (plan d)))%Qc = Qcpower (1 - loss U n t) 24).
  { rewrite <- compound_next by (unfold y_last; lia); rewrite (compound_pow fade (1 - loss U n t)%Qc hs) by (intros i LX; apply (fade_pow U n t fade hs i FA); [lia|apply HH; lia]).
    replace (S (y_last (plan d)) - y_first (plan d)) with (S (y_more (plan d))) by (unfold y_last; lia); rewrite (HD d ID); reflexivity. }
  rewrite <- E; ring.
Qed.
Print Assumptions C108_loss.

(** ** Examples *)
Ltac places H := vm_compute in H; repeat (destruct H as [<- |H]; [|]); try destruct H.
Ltac three_steps LT := match type of LT with ?k < _ => let E := fresh in assert (E : k = 0 \/ k = 1 \/ k = 2) by (vm_compute in LT; lia); destruct E as [-> |[-> | ->]] end.
Ltac are_linked P := constructor;
  [intros k d LT H; three_steps LT; places H; sited_by P
  |is_as|is_as
  |intros k LT; three_steps LT; is_num
  |intros s k H LT; destruct H as [-> | ->]; three_steps LT; is_over
  |intros s H; places H; is_num
  |intros k LT; three_steps LT; is_num
  |intros d H; places H; is_num
  |intros s v H K; destruct H as [-> | ->]; places K; is_num
  |intros d H; places H; (constructor; [vm_compute; lia|is_as|vm_compute; tauto|is_as| | |])].
Lemma week_linked : linked week week_plan "here" "battery" "power" true.
Proof.
  are_linked week_proper.
  all: try (split; [dims_in|split; [reflexivity|vm_compute; reflexivity]]).
  all: first [intros j L0 L1|intros j L1]; vm_compute in L1; assert (E : j = 0 \/ j = 1) by lia; destruct E as [-> | ->]; try lia; is_as.
Qed.
Lemma leaky_linked : linked leaky week_plan "here" "battery" "power" true.
Proof.
  are_linked leaky_proper.
  all: try (split; [dims_in|split; [reflexivity|vm_compute; reflexivity]]).
  all: first [intros j L0 L1|intros j L1]; vm_compute in L1; assert (E : j = 0 \/ j = 1) by lia; destruct E as [-> | ->]; try lia; is_as.
Qed.
Lemma days_linked : linked days days_plan "here" "battery" "power" false.
Proof.
  constructor.
  - intros k d LT H; assert (E : k = 0 \/ k = 1) by (vm_compute in LT; lia); destruct E as [-> | ->]; places H; sited_by days_proper.
  - is_as.
  - is_as.
  - intros k LT; assert (E : k = 0 \/ k = 1) by (vm_compute in LT; lia); destruct E as [-> | ->]; is_num.
  - intros s k H LT; assert (E : k = 0 \/ k = 1) by (vm_compute in LT; lia); destruct E as [-> | ->]; destruct H as [-> | ->]; is_over.
  - intros s H; places H; is_num.
  - intros k LT; assert (E : k = 0 \/ k = 1) by (vm_compute in LT; lia); destruct E as [-> | ->]; is_num.
  - intros d H; places H; is_num.
  - intros s v H K; destruct H as [-> | ->]; places K; is_num.
  - intros d H; places H; (constructor; [vm_compute; lia|is_as|vm_compute; tauto|is_as| | |]).
    all: try (split; [dims_in|split; [reflexivity|vm_compute; reflexivity]]).
    all: first [intros j L0 L1|intros j L1]; vm_compute in L1; assert (E : j = 0 \/ j = 1) by lia; destruct E as [-> | ->]; try lia; is_as.
Qed.
Definition week_hours (k : nat) : nat := match k with 2 => 24 | _ => 12 end.
Lemma week_fading : fading week "here" "battery" (fun _ => 1%Qc).
Proof. intros k LT; left; exists (week_hours k); three_steps LT; (split; is_equal). Qed.
Lemma leaky_fading : fading leaky "here" "battery" (fun k => Qcpower half (week_hours k)).
Proof. intros k LT; left; exists (week_hours k); three_steps LT; (split; is_equal). Qed.
Lemma week_full : full_days week week_plan week_hours.
Proof. split; [intros k LT; three_steps LT; is_equal|intros d H; places H; vm_compute; reflexivity]. Qed.
Lemma leaky_full : full_days leaky week_plan week_hours.
Proof. split; [intros k LT; three_steps LT; is_equal|intros d H; places H; vm_compute; reflexivity]. Qed.
Definition link_rules : list string := "balance_storage_inter" :: link_names.
Lemma week_rules s : In s link_rules -> constraint_holds as_listed (layered cluster_math) week s.
Proof. intros H; apply CostExample.feasible_constraint; [exact (proj1 week_solution)|places H; vm_compute; tauto|places H; reflexivity]. Qed.
Lemma leaky_rules s : In s link_rules -> constraint_holds as_listed (layered cluster_math) leaky s.
Proof. intros H; apply CostExample.feasible_constraint; [exact (proj1 leaky_solution)|places H; vm_compute; tauto|places H; reflexivity]. Qed.
Lemma cluster_listed : In cluster_math linked_lists.
Proof. left; reflexivity. Qed.
Example C108_within_ex : in_store week week_plan "here" "battery" (fun _ => 1%Qc) "d0" 1 = (1 * in_store week week_plan "here" "battery" (fun _ => 1%Qc) "d0" 0 + 0 - 0)%Qc /\
  in_store week week_plan "here" "battery" (fun _ => 1%Qc) "d1" 0 = (Q2Qc 2 + 0 - Q2Qc 2)%Qc.
Proof.
  split.
  - rewrite (proj2 (C108_within as_listed cluster_math week week_plan "here" "battery" "power" true (fun _ => 1%Qc) as_listed_set cluster_listed week_linked week_fading (week_rules "balance_storage" ltac:(cbn; tauto)) "d0" ltac:(vm_compute; tauto) (or_introl eq_refl)) 0) by (vm_compute; lia); is_equal.
  - rewrite (proj1 (C108_within as_listed cluster_math week week_plan "here" "battery" "power" true (fun _ => 1%Qc) as_listed_set cluster_listed week_linked week_fading (week_rules "balance_storage" ltac:(cbn; tauto)) "d1" ltac:(vm_compute; tauto) (or_introl eq_refl))); is_equal.
Qed.
Lemma days_fading : fading days "here" "battery" (fun _ => 1%Qc).
Proof. intros k LT; left; exists 1; assert (E : k = 0 \/ k = 1) by (vm_compute in LT; lia); destruct E as [-> | ->]; (split; is_equal). Qed.
Example C108_start_ex : carried days "here" "battery" "d0" = half /\ in_store days days_plan "here" "battery" (fun _ => 1%Qc) "d0" 0 = (half + half * Q2Qc 8 + 0 - Q2Qc 4)%Qc.
Proof.
  destruct (C108_start as_listed cluster_math days days_plan "here" "battery" "power" (fun _ => 1%Qc) as_listed_set cluster_listed days_linked days_fading) as (E1 & E2);
    [apply CostExample.feasible_constraint; [exact (proj1 days_solution)|vm_compute; tauto|reflexivity]..|].
  split; [rewrite (E1 "d0" eq_refl); is_equal|rewrite (E2 "d0" (or_introl eq_refl) eq_refl); is_equal].
Qed.
Example C108_next_ex : carried week "here" "battery" "d1" = Q2Qc 2 /\ carried week "here" "battery" "d1" = in_store week week_plan "here" "battery" (fun _ => 1%Qc) "d0" 1.
Proof.
  split; [is_equal|]; apply (C108_next as_listed cluster_math week week_plan "here" "battery" "power" true (fun _ => 1%Qc) as_listed_set cluster_listed week_linked); [is_equal|reflexivity|apply week_rules; cbn; tauto|].
  exists 0; split; [reflexivity|left; reflexivity].
Qed.
Example C108_cyclic_ex : sum_over (labels week "datesteps") (fun d => sum_day (week_plan d) (put_in week "here" "battery")) = Q2Qc 2 /\
  sum_over (labels week "datesteps") (fun d => sum_day (week_plan d) (put_in week "here" "battery")) = sum_over (labels week "datesteps") (fun d => sum_day (week_plan d) (taken_out week "here" "battery")).
Proof.
  split; [is_equal|]; apply (C108_cyclic as_listed cluster_math week week_plan "here" "battery" "power" (fun _ => 1%Qc) as_listed_set cluster_listed week_linked week_fading); [is_equal|reflexivity|apply week_rules; cbn; tauto|apply week_rules; cbn; tauto].
Qed.
Example C108_limits_ex : (0 <= in_store leaky week_plan "here" "battery" (fun k => Qcpower half (week_hours k)) "d0" 1)%Qc /\
  (in_store leaky week_plan "here" "battery" (fun k => Qcpower half (week_hours k)) "d0" 1 <= amount leaky "storage_cap" (asset "here" "battery"))%Qc.
Proof.
  apply (C108_limits as_listed cluster_math leaky week_plan "here" "battery" "power" true (fun k => Qcpower half (week_hours k)) week_hours as_listed_set cluster_listed leaky_linked leaky_fading leaky_full);
    [vm_compute; discriminate|vm_compute; discriminate|intros s H; apply leaky_rules; places H; cbn; tauto|vm_compute; tauto|vm_compute; discriminate|vm_compute; lia].
Qed.
Example C108_loss_ex : carried leaky "here" "battery" "d1" =
  (r12 * in_store leaky week_plan "here" "battery" (fun k => Qcpower half (week_hours k)) "d0" 1 + (1 - r12) * r12)%Qc.
Proof.
  rewrite (C108_loss as_listed cluster_math leaky week_plan "here" "battery" "power" true (fun k => Qcpower half (week_hours k)) week_hours as_listed_set cluster_listed leaky_linked leaky_fading leaky_full (leaky_rules "balance_storage_inter" ltac:(cbn; tauto)) "d0"); [is_equal|].
  exists 0; split; [reflexivity|left; reflexivity].
Qed.

(** ** What does not hold *)

(** With losses, more may be carried over to the next date than remains of what was in store. *)
Theorem C108_loss_refuted : exists files U plan n t c fade hs d d',
  In files linked_lists /\ solution as_listed files U /\ linked U plan n t c true /\ fading U n t fade /\ full_days U plan hs /\ next_date U true d d' /\
  (fade (y_last (plan d)) * in_store U plan n t fade d (y_more (plan d)) < carried U n t d')%Qc.
Proof.
  exists cluster_math, leaky, week_plan, "here", "battery", "power", (fun k => Qcpower half (week_hours k)), week_hours, "d0", "d1".
  split; [exact cluster_listed|split; [exact leaky_solution|split; [exact leaky_linked|split; [exact leaky_fading|split; [exact leaky_full|split]]]]].
  - exists 0; split; [reflexivity|left; reflexivity].
  - vm_compute; reflexivity.
Qed.
Print Assumptions C108_loss_refuted.
(** If storage is not cyclic, the energy stored initially is handed out on every date that the first day represents: more is taken out over the dates than was there and was put in. *)
Theorem C108_refuted : exists files U plan n t c,
  In files linked_lists /\ solution as_listed files U /\ linked U plan n t c false /\ loss U n t = 0%Qc /\
  (amount U "storage_initial" (asset n t) * amount U "storage_cap" (asset n t) + sum_over (labels U "datesteps") (fun d => sum_day (plan d) (put_in U n t)) <
   sum_over (labels U "datesteps") (fun d => sum_day (plan d) (taken_out U n t)))%Qc.
Proof.
  exists cluster_math, days, days_plan, "here", "battery", "power".
  split; [exact cluster_listed|split; [exact days_solution|split; [exact days_linked|split; [is_equal|vm_compute; reflexivity]]]].
Qed.
Print Assumptions C108_refuted.
(** If storage is cyclic, the first date does not start with the given fraction of the capacity: what the last date adds is left out where it is set. *)
Theorem C108_initial_refuted : exists files U plan n t c d,
  In files linked_lists /\ solution as_listed files U /\ linked U plan n t c true /\ loss U n t = 0%Qc /\ nth_error (labels U "datesteps") 0 = Some d /\
  given U "storage_initial" (asset n t) /\ carried U n t d <> (amount U "storage_initial" (asset n t) * amount U "storage_cap" (asset n t))%Qc.
Proof.
  exists cluster_math, week, week_plan, "here", "battery", "power", "d0".
  split; [exact cluster_listed|split; [exact week_solution|split; [exact week_linked|split; [is_equal|split; [reflexivity|split; [is_given|]]]]]].
  intros E; apply (f_equal this) in E; vm_compute in E; discriminate E.
Qed.
Print Assumptions C108_initial_refuted.
