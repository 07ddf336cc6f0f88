(** Properties of storage in the math that comes with the package. *)
From Coq Require Import QArith Qcanon Lia.
From Verif Require Import Base BaseProofs LangModel MathText EvalModel EvalSpec BuildModel BuildSpec
  HelperModel HelperSpec ShipModel ShipSpec ShipEntry ShipStorage ShipExample.
Local Open Scope nat_scope.
Local Open Scope string_scope.
Local Open Scope list_scope.
Local Arguments Qcplus : simpl never.
Local Arguments Qcmult : simpl never.
Local Arguments Qcminus : simpl never.

(** * C51: energy is conserved *)

Lemma compound_self fade k : compound fade k k = 1%Qc.
Proof. unfold compound; rewrite Nat.sub_diag; reflexivity. Qed.
Lemma compound_next fade i k : i <= k -> compound fade i (S k) = (fade k * compound fade i k)%Qc.
Proof.
  intros LE; unfold compound; rewrite Nat.sub_succ_l by exact LE; rewrite seq_S, fold_right_app; cbn [fold_right].
  replace (i + (k - i)) with k by lia; generalize (seq i (k - i)); intros l; induction l as [|j l IH]; cbn [fold_right]; [reflexivity|rewrite IH, !Qcmult_assoc, (Qcmult_comm (fade j)); reflexivity].
Qed.
Lemma sum_steps_next k f : sum_steps (S k) f = (sum_steps k f + f k)%Qc.
Proof.
  unfold sum_steps; rewrite seq_S, fold_right_app; cbn [fold_right Nat.add]; generalize (seq 0 k); intros l; induction l as [|j l IH]; cbn [fold_right]; [ring|rewrite IH; ring].
Qed.
Lemma sum_steps_ext k f g : (forall i, i < k -> f i = g i) -> sum_steps k f = sum_steps k g.
Proof. induction k as [|k IH]; intros H; [reflexivity|]; rewrite !sum_steps_next, IH, H; auto. Qed.
Lemma sum_steps_scale k a f : sum_steps k (fun i => a * f i)%Qc = (a * sum_steps k f)%Qc.
Proof. induction k as [|k IH]; [unfold sum_steps; cbn; ring|]; rewrite !sum_steps_next, IH; ring. Qed.
Lemma sum_steps_minus k f g : sum_steps k (fun i => f i - g i)%Qc = (sum_steps k f - sum_steps k g)%Qc.
Proof. induction k as [|k IH]; [unfold sum_steps; cbn; ring|]; rewrite !sum_steps_next, IH; ring. Qed.
Lemma cyclic_dec U n t : cyclic U n t \/ ~ cyclic U n t.
Proof. unfold cyclic; destruct (same (value_at U "cyclic_storage" (asset n t)) (Boo true)) eqn:E; [left; apply same_yes, E|right; rewrite <- same_yes; congruence]. Qed.

(** Levels follow from one timestep to the next, whatever the formulation. *)
Theorem C51_step order files U n t fade c :
  lists_set order -> In files chronological -> storing U n t -> fading U n t fade ->
  find_in (h_constraints (layered files)) "balance_storage" = Some c -> holds_in order (layered files) U c ->
  forall k, S k < steps U -> level U n t (S k) = (fade k * level U n t k + charged U n t (S k) - discharged U n t (S k))%Qc.
Proof.
  intros OR IF SO FA FC HO k LT; destruct (storage_step U n t SO fade FA files IF order OR c FC HO (S k) LT) as (H & _); rewrite H by (left; discriminate); cbn [before]; ring.
Qed.
Print Assumptions C51_step.
(** The level after any timestep is what remains of the level at the start and of the net charge of
    each timestep so far. *)
Theorem C51_level order files U n t fade c s :
  lists_set order -> In files chronological -> storing U n t -> fading U n t fade -> start U n t fade s ->
  find_in (h_constraints (layered files)) "balance_storage" = Some c -> holds_in order (layered files) U c ->
  forall k, k < steps U ->
    level U n t k = (compound fade 0 k * s + sum_steps (S k) (fun i => compound fade i k * (charged U n t i - discharged U n t i)))%Qc.
Proof.
  intros OR IF SO FA (S1 & S2) FC HO; induction k as [|k IH]; intros LT.
  - destruct (storage_step U n t SO fade FA files IF order OR c FC HO 0 LT) as (H1 & H2).
    rewrite compound_self, sum_steps_next, compound_self; change (sum_steps 0 _) with 0%Qc.
    destruct (cyclic_dec U n t) as [C|C]; [rewrite (H1 (or_intror C)), (S1 C)|rewrite (H2 eq_refl C), (S2 C)]; cbn [before]; ring.
  - rewrite (C51_step order files U n t fade c OR IF SO FA FC HO k LT), IH by lia; rewrite (sum_steps_next (S k)), (compound_self fade (S k)), (compound_next fade 0 k) by lia.
    assert (E : sum_steps (S k) (fun i => compound fade i (S k) * (charged U n t i - discharged U n t i))%Qc =
                (fade k * sum_steps (S k) (fun i => compound fade i k * (charged U n t i - discharged U n t i)))%Qc).
    { rewrite <- sum_steps_scale; apply sum_steps_ext; intros i LI; rewrite compound_next by lia; ring. }
    rewrite E; ring.
Qed.
Print Assumptions C51_level.
(** Cyclic storage without losses gives back what it took, over the whole period. *)
Theorem C51_cyclic order files U n t fade c :
  lists_set order -> In files chronological -> storing U n t -> fading U n t fade -> cyclic U n t -> (forall k, k < steps U -> fade k = 1%Qc) ->
  find_in (h_constraints (layered files)) "balance_storage" = Some c -> holds_in order (layered files) U c ->
  sum_steps (steps U) (charged U n t) = sum_steps (steps U) (discharged U n t).
Proof.
  intros OR IF SO FA CY LO FC HO.
  assert (STEP : forall k, k < steps U -> level U n t k = (level U n t (before U k) + charged U n t k - discharged U n t k)%Qc).
  { intros k LT; destruct (storage_step U n t SO fade FA files IF order OR c FC HO k LT) as (H & _); rewrite H by (right; exact CY); rewrite LO by (apply before_lt; exact LT); ring. }
  assert (TEL : forall k, k < steps U -> (level U n t k - level U n t (final U))%Qc = sum_steps (S k) (fun i => charged U n t i - discharged U n t i)%Qc).
  { induction k as [|k IH]; intros LT; rewrite sum_steps_next; [change (sum_steps 0 _) with 0%Qc|rewrite <- IH by lia]; rewrite (STEP _ LT) at 1; cbn [before]; ring. }
  pose proof (steps_there U n t SO) as NE; assert (LT : 0 < steps U) by (unfold steps; destruct (labels U "timesteps"); [congruence|cbn; lia]).
  assert (LF : final U < steps U) by (unfold final; lia); specialize (TEL (final U) LF).
  replace (S (final U)) with (steps U) in TEL by (unfold final; lia); rewrite sum_steps_minus in TEL.
  assert (E : (sum_steps (steps U) (charged U n t) - sum_steps (steps U) (discharged U n t))%Qc = 0%Qc) by (rewrite <- TEL; ring).
  rewrite <- (Qcplus_0_r (sum_steps (steps U) (discharged U n t))), <- E; ring.
Qed.
Print Assumptions C51_cyclic.
(** Without losses and with whole hours everything remains. *)
Theorem C51_lossless U n t fade : fading U n t fade -> loss U n t = 0%Qc ->
  (forall k, k < steps U -> exists h : nat, hours U k = Q2Qc (inject_Z (Z.of_nat h))) -> forall k, k < steps U -> fade k = 1%Qc.
Proof.
  intros FA LO WH k LT; destruct (WH k LT) as (h & EH); destruct (FA k LT) as [(j & _ & E)|(NN & _)]; [|exfalso; exact (NN h EH)].
  rewrite E, LO; replace (1 - 0)%Qc with 1%Qc by ring; apply Qcpower_1.
Qed.
Print Assumptions C51_lossless.
(** The level never exceeds the storage capacity. *)
Theorem C51_capacity order files U n t c :
  lists_set order -> In files chronological -> storing U n t ->
  find_in (h_constraints (layered files)) "storage_max" = Some c -> holds_in order (layered files) U c ->
  forall k, k < steps U -> is_there U "storage" (asset_step U n t k) -> (level U n t k <= amount U "storage_cap" (asset n t))%Qc.
Proof. intros OR IF SO FC HO k LT TH; exact (storage_below U n t SO files IF order OR c k FC HO LT TH). Qed.
Print Assumptions C51_capacity.

(** * C56: initial storage without linked clusters *)
(** Cyclic or not, storage starts with the given fraction of its capacity.  Missing for the full
    C56: linked clusters (refuted in BoundProps.v). *)
Theorem C56_partial order files U n t fade c s :
  lists_set order -> In files chronological -> storing U n t -> fading U n t fade -> start U n t fade s ->
  find_in (h_constraints (layered files)) "set_storage_initial" = Some c -> holds_in order (layered files) U c ->
  is_there U "storage" (asset_step U n t 0) -> u_bool U "storage_initial" = false -> is_there U "storage_initial" (asset n t) ->
  s = (amount U "storage_initial" (asset n t) * amount U "storage_cap" (asset n t))%Qc.
Proof.
  intros OR IF SO FA (S1 & S2) FC HO TH UB TI; destruct (cyclic_dec U n t) as [C|C]; [rewrite (S1 C)|exact (S2 C)].
  exact (storage_returns U n t SO fade FA files IF order OR c FC HO C TH UB TI).
Qed.
Print Assumptions C56_partial.

(** * Examples *)
Lemma base_in : In base_math chronological. Proof. left; reflexivity. Qed.
Definition balance := the (h_constraints (layered base_math)) "balance_storage".
Lemma battery_balance cyc : holds_in as_listed (layered base_math) (battery cyc) balance.
Proof. apply holds_check_sound; destruct cyc; vm_compute; reflexivity. Qed.
Lemma battery_fades cyc : fading (battery cyc) "north" "battery" (fun _ => if cyc then 1%Qc else half).
Proof. unfold fading; destruct cyc; apply below3; left; exists 1%nat; split; apply Qc_is_canon; vm_compute; reflexivity. Qed.
Example C51_step_ex : level (battery false) "north" "battery" 1 = (half * Q2Qc 6 + Q2Qc 1 - 0)%Qc.
Proof.
  rewrite (C51_step as_listed base_math (battery false) "north" "battery" _ balance as_listed_set base_in (battery_storing _) (battery_fades false)); [apply Qc_is_canon; vm_compute; reflexivity|vm_compute; reflexivity|apply battery_balance|vm_compute; auto].
Qed.
Example C51_level_ex : level (battery false) "north" "battery" 2 =
  (compound (fun _ => half) 0 2 * Q2Qc 4 + sum_steps 3 (fun i => compound (fun _ => half) i 2 * (charged (battery false) "north" "battery" i - discharged (battery false) "north" "battery" i)))%Qc.
Proof.
  apply (C51_level as_listed base_math (battery false) "north" "battery" (fun _ => half) balance); [apply as_listed_set|apply base_in|apply battery_storing|apply (battery_fades false)| |vm_compute; reflexivity|apply battery_balance|vm_compute; auto].
  split; [intros [E|E]; discriminate E|intros _; apply Qc_is_canon; vm_compute; reflexivity].
Qed.
Example C51_cyclic_ex : sum_steps 3 (charged (battery true) "north" "battery") = sum_steps 3 (discharged (battery true) "north" "battery") /\
  sum_steps 3 (charged (battery true) "north" "battery") <> 0%Qc.
Proof.
  split; [|intros E; apply (f_equal this) in E; vm_compute in E; discriminate].
  apply (C51_cyclic as_listed base_math (battery true) "north" "battery" (fun _ => 1%Qc) balance); [apply as_listed_set|apply base_in|apply battery_storing|apply (battery_fades true)|left; reflexivity|reflexivity|vm_compute; reflexivity|apply battery_balance].
Qed.
Example C51_lossless_ex : forall k, k < 3 -> (fun _ : nat => 1%Qc) k = 1%Qc.
Proof.
  apply (C51_lossless (battery true) "north" "battery" _ (battery_fades true)); [apply Qc_is_canon; vm_compute; reflexivity|].
  apply below3; exists 1%nat; apply Qc_is_canon; vm_compute; reflexivity.
Qed.
Example C51_capacity_ex : (level (battery false) "north" "battery" 0 <= Q2Qc 8)%Qc.
Proof.
  assert (E : Q2Qc 8 = amount (battery false) "storage_cap" (asset "north" "battery")) by (apply Qc_is_canon; vm_compute; reflexivity); rewrite E.
  apply (C51_capacity as_listed base_math (battery false) "north" "battery" (the (h_constraints (layered base_math)) "storage_max")); [apply as_listed_set|apply base_in|apply battery_storing|vm_compute; reflexivity| |vm_compute; auto|vm_compute; discriminate].
  apply holds_check_sound; vm_compute; reflexivity.
Qed.
Example C56_partial_ex : (1 * level (battery true) "north" "battery" 2)%Qc = (quarter * Q2Qc 8)%Qc.
Proof.
  assert (E : (quarter * Q2Qc 8)%Qc = (amount (battery true) "storage_initial" (asset "north" "battery") * amount (battery true) "storage_cap" (asset "north" "battery"))%Qc) by (apply Qc_is_canon; vm_compute; reflexivity); rewrite E.
  apply (C56_partial as_listed base_math (battery true) "north" "battery" (fun _ => 1%Qc) (the (h_constraints (layered base_math)) "set_storage_initial")); [apply as_listed_set|apply base_in|apply battery_storing|apply (battery_fades true)| |vm_compute; reflexivity| |vm_compute; discriminate|reflexivity|vm_compute; discriminate].
  - split; [reflexivity|intros NC; exfalso; apply NC; left; reflexivity].
  - apply holds_check_sound; vm_compute; reflexivity.
Qed.
