(** C74: limits on how fast a technology changes its output.  C92: supply technologies with a store. *)
From Coq Require Import QArith Qcanon Lia.
From Verif Require Import Base BaseProofs LangModel MathText EvalModel EvalSpec BuildModel BuildSpec HelperModel HelperSpec ShipModel ShipSpec ShipProofs ShipStorage ShipStorageProps ShipExample
  NetSpec NetExample PlaceSpec ShipPlace RuleText BoundSpec RuleProofs ShipFast RuleExample MilpExample CostSpec CostExample StepText StepSpec StepProofs StepExample.
Local Open Scope nat_scope.
Local Open Scope string_scope.
Local Open Scope list_scope.
Local Arguments String.eqb : simpl never.

(** * C74 *)
(** From each timestep to the next one the rate of a technology with [flow_ramping] changes by no
    more than that fraction of its capacity, up or down, in every shipped formulation. *)
Theorem C74_ramping order files U n t c j k rate :
  lists_set order -> In files shipped -> sited U (flow_at n t c k) -> follows U j k -> lasts U j -> lasts U k -> running U n t c rate ->
  given U "flow_ramping" (flow_at n t c k) -> numeric U "flow_cap" (cap_at n t c) ->
  let limit := (amount U "flow_ramping" (flow_at n t c k) * amount U "flow_cap" (cap_at n t c))%Qc in
  (constraint_holds order (layered files) U "ramping_up" -> (rate k <= rate j + limit)%Qc) /\
  (constraint_holds order (layered files) U "ramping_down" -> (rate j - limit <= rate k)%Qc).
Proof.
  intros OR IF SI FO LJ LK RU GR NC limit; destruct (ramp_limits order OR files U n t c j k rate IF SI FO LJ LK RU GR NC) as (H1 & H2); split; intros H.
  - specialize (H1 H); apply (Qcplus_le_compat _ _ _ _ (Qcle_refl (rate j))) in H1; replace (rate j + (rate k - rate j))%Qc with (rate k) in H1 by ring; exact H1.
  - specialize (H2 H); apply (Qcplus_le_compat _ _ _ _ (Qcle_refl (rate j))) in H2; replace (rate j + (rate k - rate j))%Qc with (rate k) in H2 by ring.
    replace (rate j - limit)%Qc with (rate j + - (1) * amount U "flow_ramping" (flow_at n t c k) * amount U "flow_cap" (cap_at n t c))%Qc by (unfold limit; ring); exact H2.
Qed.
Print Assumptions C74_ramping.
(** Over several timesteps the limits add up. *)
Theorem C74_climb order files U n t c rate r i d :
  lists_set order -> In files shipped -> i + d < steps U ->
  (forall e, e <= d -> sited U (flow_at n t c (step_label U (i + e))) /\ lasts U (step_label U (i + e)) /\
     given U "flow_ramping" (flow_at n t c (step_label U (i + e))) /\ amount U "flow_ramping" (flow_at n t c (step_label U (i + e))) = r) ->
  running U n t c rate -> numeric U "flow_cap" (cap_at n t c) -> constraint_holds order (layered files) U "ramping_up" -> constraint_holds order (layered files) U "ramping_down" ->
  let limit := (Q2Qc (inject_Z (Z.of_nat d)) * (r * amount U "flow_cap" (cap_at n t c)))%Qc in
  (rate (step_label U (i + d)) <= rate (step_label U i) + limit)%Qc /\ (rate (step_label U i) - limit <= rate (step_label U (i + d)))%Qc.
Proof.
  intros OR IF LT HE RU NC CU CD; cbv zeta; induction d as [|d IH].
  - replace (i + 0) with i by lia; change (Q2Qc (inject_Z (Z.of_nat 0))) with 0%Qc; split.
    + replace (rate (step_label U i) + 0 * (r * amount U "flow_cap" (cap_at n t c)))%Qc with (rate (step_label U i)) by ring; apply Qcle_refl.
    + replace (rate (step_label U i) - 0 * (r * amount U "flow_cap" (cap_at n t c)))%Qc with (rate (step_label U i)) by ring; apply Qcle_refl.
  - destruct IH as (I1 & I2); [lia|intros e LE; apply HE; lia|].
    destruct (HE (S d)) as (SI & LK & GR & ER); [lia|]; destruct (HE d) as (_ & LJ & _); [lia|].
    assert (FO : follows U (step_label U (i + d)) (step_label U (i + S d))).
    { exists (i + d); replace (S (i + d)) with (i + S d) by lia; unfold step_label, steps in *; split; apply nth_error_nth'; lia. }
    destruct (C74_ramping order files U n t c _ _ rate OR IF SI FO LJ LK RU GR NC) as (A & B); specialize (A CU); specialize (B CD); rewrite ER in A, B.
    assert (EQ : Q2Qc (inject_Z (Z.of_nat (S d))) = (Q2Qc (inject_Z (Z.of_nat d)) + 1)%Qc).
    { apply Qc_is_canon; rewrite Nat2Z.inj_succ; unfold Z.succ; rewrite inject_Z_plus; unfold Qcplus, Q2Qc; cbn [this]; rewrite !Qred_correct; reflexivity. }
    rewrite EQ; set (z := Q2Qc (inject_Z (Z.of_nat d))) in *; set (v := (r * amount U "flow_cap" (cap_at n t c))%Qc) in *; split.
    + eapply Qcle_trans; [exact A|]; replace (rate (step_label U i) + (z + 1) * v)%Qc with ((rate (step_label U i) + z * v) + v)%Qc by ring; apply Qcplus_le_compat; [exact I1|apply Qcle_refl].
    + eapply Qcle_trans; [|exact B]; replace (rate (step_label U i) - (z + 1) * v)%Qc with ((rate (step_label U i) - z * v) + - v)%Qc by ring; apply Qcplus_le_compat; [exact I2|apply Qcle_refl].
Qed.
Print Assumptions C74_climb.
(** The unit of [flow_ramping] is documented as 1/hour, but the limit is the same for timesteps of
    any length: a solution of all constraints in which a plant that may change by half of its
    capacity in an hour does so in half an hour. *)
Theorem C74_hours_refuted : exists files U n t c j k rate, In files shipped /\ solution as_listed files U /\ sited U (flow_at n t c k) /\ follows U j k /\ lasts U j /\ lasts U k /\
  running U n t c rate /\ given U "flow_ramping" (flow_at n t c k) /\ numeric U "flow_cap" (cap_at n t c) /\
  (rate j + amount U "flow_ramping" (flow_at n t c k) * lasting U k * amount U "flow_cap" (cap_at n t c) < rate k)%Qc.
Proof.
  exists base_math, hill, "here", "plant", "power", "t0", "t1", (fun k => amount hill "flow_out" (flow_at "here" "plant" "power" k) / lasting hill k)%Qc.
  split; [left; reflexivity|split; [exact (hill_solution)|split; [apply hill_flow_at; cbn; tauto|split; [exists 0; split; reflexivity|]]]].
  split; [split; [is_num|intros E; vm_compute in E; discriminate E]|split; [split; [is_num|intros E; vm_compute in E; discriminate E]|split; [|split; [is_given|split; [is_num|vm_compute; reflexivity]]]]].
  left; split; [is_as|split; [split; [dims_in|right; vm_compute; reflexivity]|split; [intros k IK; vm_compute in IK; repeat (destruct IK as [<- |IK]; [is_num|]); destruct IK|reflexivity]]].
Qed.
Print Assumptions C74_hours_refuted.
Lemma base_shipped : In base_math shipped. Proof. left; reflexivity. Qed.
Lemma hill_rule s : In s (active_names (h_constraints (layered base_math)) (layered base_math)) -> smem s (h_off (layered base_math)) = false -> constraint_holds as_listed (layered base_math) hill s.
Proof. intros A B; apply feasible_constraint; [exact hill_feasible|exact A|exact B]. Qed.
Ltac hill_holds := apply hill_rule; [vm_compute; tauto|reflexivity].
Ltac not_zero := let E := fresh in intros E; vm_compute in E; discriminate E.
Ltac all_steps := let k := fresh in let H := fresh in intros k H; vm_compute in H; repeat (destruct H as [<- |H]; [first [is_num|split; is_num]|]); destruct H.
Definition plant_rate (k : string) : Qc := (amount hill "flow_out" (flow_at "here" "plant" "power" k) / lasting hill k)%Qc.
Lemma plant_running : running hill "here" "plant" "power" plant_rate.
Proof. left; split; [is_as|split; [split; [dims_in|right; vm_compute; reflexivity]|split; [all_steps|reflexivity]]]. Qed.
Definition battery_rate (k : string) : Qc := ((amount hill "flow_out" (flow_at "here" "battery" "power" k) - amount hill "flow_in" (flow_at "here" "battery" "power" k)) / lasting hill k)%Qc.
Example C74_ramping_ex : (plant_rate "t1" <= plant_rate "t0" + half * Q2Qc 12)%Qc /\ (plant_rate "t1" - half * Q2Qc 12 <= plant_rate "t2")%Qc /\ (battery_rate "t2" <= battery_rate "t1" + 1 * Q2Qc 8)%Qc.
Proof.
  split; [|split].
  - refine (proj1 (C74_ramping as_listed base_math hill "here" "plant" "power" "t0" "t1" plant_rate as_listed_set base_shipped _ _ _ _ plant_running _ _) _);
      [apply hill_flow_at; cbn; tauto|exists 0; split; reflexivity|split; [is_num|not_zero]|split; [is_num|not_zero]|is_given|is_num|hill_holds].
  - refine (proj2 (C74_ramping as_listed base_math hill "here" "plant" "power" "t1" "t2" plant_rate as_listed_set base_shipped _ _ _ _ plant_running _ _) _);
      [apply hill_flow_at; cbn; tauto|exists 1; split; reflexivity|split; [is_num|not_zero]|split; [is_num|not_zero]|is_given|is_num|hill_holds].
  - refine (proj1 (C74_ramping as_listed base_math hill "here" "battery" "power" "t1" "t2" battery_rate as_listed_set base_shipped _ _ _ _ _ _ _) _);
      [apply hill_flow_at; cbn; tauto|exists 1; split; reflexivity|split; [is_num|not_zero]|split; [is_num|not_zero]|right; right; split; [is_as|split; [is_as|split; [all_steps|reflexivity]]]|is_given|is_num|hill_holds].
Qed.
Example C74_climb_ex : (plant_rate "t2" <= plant_rate "t0" + Q2Qc 2 * (half * Q2Qc 12))%Qc.
Proof.
  refine (proj1 (C74_climb as_listed base_math hill "here" "plant" "power" plant_rate half 0 2 as_listed_set base_shipped _ _ plant_running _ _ _)); [vm_compute; repeat constructor| |is_num|hill_holds|hill_holds].
  intros e LE; assert (E : e = 0 \/ e = 1 \/ e = 2) by lia; destruct E as [-> |[-> | ->]]; (split; [apply hill_flow_at; cbn; tauto|split; [split; [is_num|not_zero]|split; [is_given|is_equal]]]).
Qed.

(** * C92 *)
(** What is in the store after a timestep is what remains of the step before plus what the source
    provided minus what was given out. *)
Theorem C92_step order files U n t c cy fade :
  lists_set order -> In files chronological -> buffered U n t c cy -> fading U n t fade -> constraint_holds order (layered files) U "balance_supply_with_storage" ->
  forall k, S k < steps U -> stored U n t (S k) = (fade k * stored U n t k + gathered U n t (S k) - given_out U n t c (S k))%Qc.
Proof. intros OR IC BU FA HB k LT; exact (buffer_step order OR files U n t c cy fade IC BU FA HB (S k) LT). Qed.
Print Assumptions C92_step.
Theorem C92_level order files U n t c cy fade s :
  lists_set order -> In files chronological -> buffered U n t c cy -> fading U n t fade -> filled U n t cy fade s -> constraint_holds order (layered files) U "balance_supply_with_storage" ->
  forall k, k < steps U -> stored U n t k = (compound fade 0 k * s + sum_steps (S k) (fun i => compound fade i k * (gathered U n t i - given_out U n t c i)))%Qc.
Proof.
  intros OR IC BU FA FI HB; induction k as [|k IH]; intros LT.
  - pose proof (buffer_step order OR files U n t c cy fade IC BU FA HB 0 LT) as H; rewrite compound_self, sum_steps_next, compound_self; change (sum_steps 0 _) with 0%Qc.
    rewrite H; unfold filled in FI; destruct cy; cbn [Nat.eqb andb negb before]; rewrite FI; ring.
  - rewrite (C92_step order files U n t c cy fade OR IC BU FA HB k LT), IH by lia; rewrite (sum_steps_next (S k)), (compound_self fade (S k)), (compound_next fade 0 k) by lia.
    assert (E : sum_steps (S k) (fun i => compound fade i (S k) * (gathered U n t i - given_out U n t c i))%Qc =
                (fade k * sum_steps (S k) (fun i => compound fade i k * (gathered U n t i - given_out U n t c i)))%Qc).
    { rewrite <- sum_steps_scale; apply sum_steps_ext; intros i LI; rewrite compound_next by lia; ring. }
    rewrite E; ring.
Qed.
Print Assumptions C92_level.
(** Every output carrier gets the same, in every timestep. *)
Theorem C92_carriers order files U n t c c' cy fade :
  lists_set order -> In files chronological -> buffered U n t c cy -> buffered U n t c' cy -> fading U n t fade -> constraint_holds order (layered files) U "balance_supply_with_storage" ->
  forall k, k < steps U -> given_out U n t c k = given_out U n t c' k.
Proof.
  intros OR IC B1 B2 FA HB k LT; pose proof (buffer_step order OR files U n t c cy fade IC B1 FA HB k LT) as H1; pose proof (buffer_step order OR files U n t c' cy fade IC B2 FA HB k LT) as H2.
  rewrite H2 in H1; match type of H1 with (?a - ?b)%Qc = (_ - ?d)%Qc => assert (E : (a - (a - b))%Qc = (a - (a - d))%Qc) by (rewrite H1; reflexivity) end.
  match type of E with (?a - (_ - ?b))%Qc = (_ - (_ - ?d))%Qc => replace (a - (a - b))%Qc with b in E by ring; replace (a - (a - d))%Qc with d in E by ring end; symmetry; exact E.
Qed.
Print Assumptions C92_carriers.
(** Hence more can be given out than was there and came in: with two output carriers a solution of
    all constraints gives out twice as much. *)
Theorem C92_refuted : exists files U n t, In files chronological /\ solution as_listed files U /\
  (forall c, In c (labels U "carriers") -> buffered U n t c false) /\
  (amount U "storage_initial" (asset n t) * amount U "storage_cap" (asset n t) + sum_steps (steps U) (gathered U n t) <
   sum_steps (steps U) (fun k => sum_over (labels U "carriers") (fun c => given_out U n t c k)))%Qc.
Proof.
  exists base_math, tower, "here", "tower"; split; [left; reflexivity|split; [exact (tower_solution)|split; [|vm_compute; reflexivity]]].
  intros c H; vm_compute in H; repeat (destruct H as [<- |H]; [|]); [| |destruct H].
  all: constructor; try (intros k LT; assert (E : k = 0 \/ k = 1) by (vm_compute in LT; lia); destruct E as [-> | ->]).
  all: try (split; [dims_in|vm_compute; reflexivity]); try is_given; try is_num; try (split; is_num); try (right; is_as).
  all: try sited_by tower_proper.
  all: intros s H; repeat (destruct H as [<- |H]; [is_num|]); destruct H.
Qed.
Print Assumptions C92_refuted.
Lemma tower_buffered c : In c ["power"; "heat"] -> buffered tower "here" "tower" c false.
Proof.
  intros H; repeat (destruct H as [<- |H]; [|]); [| |destruct H].
  all: constructor; try (intros k LT; assert (E : k = 0 \/ k = 1) by (vm_compute in LT; lia); destruct E as [-> | ->]).
  all: try (split; [dims_in|vm_compute; reflexivity]); try is_given; try is_num; try (split; is_num); try (right; is_as).
  all: try sited_by tower_proper.
  all: intros s H; repeat (destruct H as [<- |H]; [is_num|]); destruct H.
Qed.
Lemma tower_fading : fading tower "here" "tower" (fun _ => half).
Proof. intros k LT; assert (E : k = 0 \/ k = 1) by (vm_compute in LT; lia); left; exists 1; destruct E as [-> | ->]; (split; [is_equal|is_equal]). Qed.
Lemma tower_rule : constraint_holds as_listed (layered base_math) tower "balance_supply_with_storage".
Proof. apply feasible_constraint; [exact tower_feasible|vm_compute; tauto|reflexivity]. Qed.
Example C92_step_ex : stored tower "here" "tower" 1 = (half * Q2Qc 4 + Q2Qc 2 - Q2Qc 4)%Qc.
Proof. rewrite (C92_step as_listed base_math tower "here" "tower" "heat" false (fun _ => half) as_listed_set base_in (tower_buffered "heat" ltac:(cbn; tauto)) tower_fading tower_rule 0) by (vm_compute; lia); is_equal. Qed.
Example C92_level_ex : stored tower "here" "tower" 1 = (half * Q2Qc 4 + (half * (Q2Qc 3 - Q2Qc 3) + (Q2Qc 2 - Q2Qc 4)))%Qc.
Proof.
  rewrite (C92_level as_listed base_math tower "here" "tower" "power" false (fun _ => half) (Q2Qc 4) as_listed_set base_in (tower_buffered "power" ltac:(cbn; tauto)) tower_fading ltac:(vm_compute; is_equal) tower_rule 1) by (vm_compute; lia); is_equal.
Qed.
Example C92_carriers_ex : given_out tower "here" "tower" "power" 1 = given_out tower "here" "tower" "heat" 1.
Proof. apply (C92_carriers as_listed base_math tower "here" "tower" "power" "heat" false (fun _ => half) as_listed_set base_in (tower_buffered "power" ltac:(cbn; tauto)) (tower_buffered "heat" ltac:(cbn; tauto)) tower_fading tower_rule); vm_compute; lia. Qed.
