(** Lemmas on total costs and objectives. *)
From Coq Require Import QArith Qcanon Lia.
From Verif Require Import Base BaseProofs LangModel MathText EvalModel EvalSpec BuildModel BuildSpec BuildProofs BuildEqs
  HelperModel HelperSpec ShipModel ShipSpec ShipProofs ShipEntry ShipStorage ShipNumbers NetSpec NetProofs PlaceSpec ShipPlace RuleText RuleProofs CostSpec CostText CostProofs CostTotals CostYear.
From Verif Require CliModel CliProofs.
Local Open Scope nat_scope.
Local Open Scope string_scope.
Local Open Scope list_scope.
Local Arguments String.eqb : simpl never.

Lemma annual_dims tx : In tx annual_texts -> fe_of tx = ["nodes"; "techs"; "costs"].
Proof. intros IT; destruct (annual_cases tx IT) as (_ & _ & _ & _ & FE & _); exact FE. Qed.
Lemma run_dims tx : In tx variable_texts -> fe_of tx = ["nodes"; "techs"; "costs"; "timesteps"].
Proof. intros IT; exact (proj1 (run_cases tx "supply" "cost_export" IT ltac:(cbn; tauto) ltac:(cbn; tauto))). Qed.
Section Goal.
Variable order : list string -> list string.
Hypothesis OR : lists_set order.
Variable files : list math_file.
Hypothesis IF : In files shipped.
Variable U : world.
Let m := layered files.

Lemma variable_dims : expression_is order m U "cost_operation_variable" -> a_dims (n_array (u_env U) "cost_operation_variable") = ["nodes"; "techs"; "costs"; "timesteps"].
Proof.
  intros (co & FC & DE); destruct (each_read order "global_expressions" variable_refs "cost_operation_variable" variable_texts shipped 15 files co OR variable_read ltac:(discriminate) IF FC) as (tx & IT & TO).
  rewrite <- (run_dims tx IT); exact (dims_of order files U _ tx co TO FC DE).
Qed.
Lemma step_sited n t c o k s : on_duty U n t c o -> In k (labels U "timesteps") -> given U s (class_at n t o) -> given U s (class_flow n t c o k).
Proof.
  intros (LT & OD) IK (G1 & G2 & q & G3); pose proof (proj1 (proj1 (OD k IK))) as SD.
  split; [intros d ID; apply G1 in ID; cbn in ID |- *; tauto|split; [exact G2|exists q; rewrite <- G3]].
  apply (proj1 (proj2 SD)); intros d ID; apply G1 in ID; cbn in ID; repeat (destruct ID as [<- |ID]; [reflexivity|]); destruct ID.
Qed.
Lemma whole_step p n t c o : on_duty U n t c o -> whole U p -> fits (class_at n t o) p -> In (p "timesteps") (labels U "timesteps") /\ fits (class_step n t o (p "timesteps")) p.
Proof.
  intros (LT & OD) WP FP; destruct (labels U "timesteps") as [|k ks] eqn:EL; [congruence|]; destruct (OD k ltac:(left; reflexivity)) as (_ & _ & (_ & PL) & _).
  split; [rewrite <- EL; destruct WP as (i & II & ->); apply (at_index_label (world_data (math_names m) U) (u_dims U)); [exact II|exact (proj1 (PL "timesteps" k ltac:(cbn; tauto)))]|].
  intros d x IX; repeat (destruct IX as [E|IX]; [injection E as <- <-; first [reflexivity|apply FP; cbn; tauto]|]); destruct IX.
Qed.
Lemma duty_facts n t c o : on_duty U n t c o -> exists k, In k (labels U "timesteps") /\ sited U (class_flow n t c o k).
Proof. intros (LT & OD); destruct (labels U "timesteps") as [|k ks]; [congruence|]; exists k; split; [left; reflexivity|apply OD; left; reflexivity]. Qed.
Lemma duty_placed n t c o : on_duty U n t c o -> proper U /\ placed U (class_at n t o) /\ forall x, In x ["nodes"; "techs"; "costs"] -> In x (u_dims U).
Proof.
  intros OD; destruct (duty_facts n t c o OD) as (k & IK & SI); split; [exact (proj1 SI)|split].
  - change (class_at n t o) with (cut ["nodes"; "techs"; "costs"] (class_flow n t c o k)); apply (sited_cut U), SI.
  - intros x IX; destruct SI as (_ & _ & (_ & PL) & _); repeat (destruct IX as [<- |IX]; [eapply PL; cbn; tauto|]); destruct IX.
Qed.

Lemma run_total n t c o : In files operating -> on_duty U n t c o -> (forall s, In s ["cost"; "cost_operation_variable"] -> expression_is order m U s /\ ledger U s) ->
  numeric U "cost" (class_at n t o) /\ amount U "cost" (class_at n t o) = sum_over (labels U "timesteps") (fun k => amount U "cost_operation_variable" (class_step n t o k)).
Proof.
  intros IO OD ALL; destruct (duty_facts n t c o OD) as (k0 & IK0 & SI0); pose proof (proj1 (proj1 SI0)) as SD; pose proof (proj1 OD) as LT.
  pose proof (variable_dims (proj1 (ALL "cost_operation_variable" ltac:(cbn; tauto)))) as DV.
  assert (WV : forall k, within_dims U "cost_operation_variable" (map fst (class_step n t o k))) by (intros k d ID; rewrite DV in ID; exact ID).
  assert (NV : forall k, In k (labels U "timesteps") -> numeric U "cost_operation_variable" (class_step n t o k)) by (intros k _; apply ledger_numeric; [apply ALL; cbn; tauto|apply WV]).
  assert (DC : In "timesteps" (a_dims (n_array (u_env U) "cost_operation_variable"))) by (rewrite DV; cbn; tauto).
  destruct (proj1 (ALL "cost" ltac:(cbn; tauto))) as (co & FC & DE).
  pose proof (listed_told order OR files "global_expressions" ["cost"] run_cost_texts operating 5 0 _ co run_cost_read eq_refl IO eq_refl FC) as TO; set (tx := nth 0 run_cost_texts no_text) in *.
  destruct (there_some U "cost_operation_variable" (fun k => class_step n t o k) (labels U "timesteps")) as [(k & IK & TH)|NO].
  - pose proof (proj2 OD k IK) as SI; pose proof (ledger_given U _ _ (proj2 (ALL "cost_operation_variable" ltac:(cbn; tauto))) (WV k) TH) as GV.
    match goal with |- _ /\ _ = ?q => destruct (rule_amount order files U (class_flow n t c o k) (class_at n t o) [("cost_operation_variable", Given)] tx 0 co "cost" (value_text [("cost_operation_variable", Given)] tx flow_keys 0) q SI
      ltac:(facts SD) ltac:(knowns IF) TO FC DE ltac:(vm_compute; reflexivity) ltac:(reflexivity)) as (H1 & _ & H2) end; [|split; assumption].
    intros x FX; match goal with |- entry_of _ ?e _ = _ => let e' := eval vm_compute in e in change e with e' end; vals SD FX.
  - destruct (duty_placed n t c o OD) as (PU & PL & DU).
    destruct (rule_zero order files U (class_at n t o) tx co "cost" PU PL ltac:(apart) eq_refl DU TO FC DE) as (WD & E).
    + intros p WP FP; destruct (whole_step p n t c o OD WP FP) as (IK & FP').
      assert (FF : Forall (fact_in U p) [("cost_operation_variable", Absent)]) by (apply Forall_cons; [eapply fact_absent; [exact SD| | |apply ledger_absent; [apply WV|exact (NO _ IK)]]; [apart|exact FP']|apply Forall_nil]).
      match type of FF with Forall _ ?F => refine (cond3_sound (math_names m) U F p FF ltac:(knowns IF) None ltac:(intros b H; discriminate) _ _ _) end; vm_compute; reflexivity.
    + destruct (proj2 (ALL "cost" ltac:(cbn; tauto))) as (DF & _).
      rewrite (sum_over_ext _ _ (fun _ => 0%Qc)), sum_over_zero by (intros k IK; apply absent_zero; [apply ALL; cbn; tauto|apply ledger_absent; [apply WV|exact (NO k IK)]]).
      split; [split; [exact WD|exists 0%Qc; unfold value_at; rewrite E; exact DF]|unfold amount, value_at; rewrite E; cbn [fill]; rewrite DF; reflexivity].
Qed.
Lemma plan_total n t c o : In files planning -> on_duty U n t c o -> (forall s, In s ("cost" :: "cost_operation_variable" :: yearly_parts) -> expression_is order m U s /\ ledger U s) ->
  numeric U "cost" (class_at n t o) /\
  amount U "cost" (class_at n t o) = (amount U "cost_investment_annualised" (class_at n t o) + sum_over (labels U "timesteps") (fun k => amount U "cost_operation_variable" (class_step n t o k)) +
    amount U "cost_operation_fixed" (class_at n t o))%Qc.
Proof.
  intros IP OD ALL; destruct (duty_facts n t c o OD) as (k0 & IK0 & SI0); pose proof (proj1 (proj1 SI0)) as SD; pose proof (proj1 OD) as LT.
  pose proof (variable_dims (proj1 (ALL "cost_operation_variable" ltac:(cbn; tauto)))) as DV.
  assert (WV : forall k, within_dims U "cost_operation_variable" (map fst (class_step n t o k))) by (intros k d ID; rewrite DV in ID; exact ID).
  assert (NV : forall k, In k (labels U "timesteps") -> numeric U "cost_operation_variable" (class_step n t o k)) by (intros k _; apply ledger_numeric; [apply ALL; cbn; tauto|apply WV]).
  assert (DC : In "timesteps" (a_dims (n_array (u_env U) "cost_operation_variable"))) by (rewrite DV; cbn; tauto).
  assert (WY : forall s, In s yearly_parts -> within_dims U s (map fst (class_at n t o))).
  { intros s [<- |[<- |[]]] d ID.
    - destruct (proj1 (ALL "cost_investment_annualised" ltac:(cbn; tauto))) as (co & FC & DE); destruct (annual_told order OR files IP co FC) as (tx & IT & TO).
      rewrite (dims_of order files U _ tx co TO FC DE), (annual_dims tx IT) in ID; exact ID.
    - destruct (proj1 (ALL "cost_operation_fixed" ltac:(cbn; tauto))) as (co & FC & DE); rewrite (dims_of order files U _ (cost_text 4) co (cost_told order OR files IP 4 _ _ eq_refl FC) FC DE) in ID; exact ID. }
  assert (N1 : numeric U "cost_investment_annualised" (class_at n t o)) by (apply ledger_numeric; [apply ALL; cbn; tauto|apply WY; cbn; tauto]).
  assert (N2 : numeric U "cost_operation_fixed" (class_at n t o)) by (apply ledger_numeric; [apply ALL; cbn; tauto|apply WY; cbn; tauto]).
  destruct (proj1 (ALL "cost" ltac:(cbn; tauto))) as (co & FC & DE); pose proof (cost_told order OR files IP 5 _ _ eq_refl FC) as TO.
  assert (YES : forall k s, In k (labels U "timesteps") -> In s ("cost_operation_variable" :: yearly_parts) -> given U s (class_flow n t c o k) ->
    numeric U "cost" (class_at n t o) /\
    amount U "cost" (class_at n t o) = (amount U "cost_investment_annualised" (class_at n t o) + sum_over (labels U "timesteps") (fun k => amount U "cost_operation_variable" (class_step n t o k)) +
      amount U "cost_operation_fixed" (class_at n t o))%Qc).
  { intros k s IK IS GS; pose proof (proj2 OD k IK) as SI.
    assert (VO : value_of [(s, Given)] None (cost_text 5) (map fst (class_flow n t c o k)) 0 = Some (value_text [("cost_operation_variable", Given)] (cost_text 5) flow_keys 0))
      by (repeat (destruct IS as [<- |IS]; [vm_compute; reflexivity|]); destruct IS).
    match goal with |- _ /\ _ = ?q => destruct (rule_amount order files U (class_flow n t c o k) (class_at n t o) [(s, Given)] (cost_text 5) 0 co "cost" _ q SI ltac:(facts SD) ltac:(knowns IF) TO FC DE VO ltac:(reflexivity)) as (H1 & _ & H2) end; [|split; assumption].
    intros x FX; match goal with |- entry_of _ ?e _ = _ => let e' := eval vm_compute in e in change e with e' end; vals SD FX. }
  destruct (there_some U "cost_operation_variable" (fun k => class_step n t o k) (labels U "timesteps")) as [(k & IK & TH)|NO].
  { apply (YES k "cost_operation_variable" IK); [cbn; tauto|].
    destruct (ledger_given U _ _ (proj2 (ALL "cost_operation_variable" ltac:(cbn; tauto))) (WV k) TH) as (G1 & G2 & q & G3).
    split; [intros d ID; apply G1 in ID; cbn in ID |- *; tauto|split; [exact G2|exists q; rewrite <- G3]].
    apply (proj1 (proj2 SD)); intros d ID; apply G1 in ID; cbn in ID; repeat (destruct ID as [<- |ID]; [reflexivity|]); destruct ID. }
  destruct (there_dec U "cost_investment_annualised" (class_at n t o)) as [TH|NA].
  { apply (YES k0 "cost_investment_annualised" IK0); [cbn; tauto|]; apply (step_sited n t c o k0 _ OD IK0), ledger_given; [apply ALL; cbn; tauto|apply WY; cbn; tauto|exact TH]. }
  destruct (there_dec U "cost_operation_fixed" (class_at n t o)) as [TH|NF].
  { apply (YES k0 "cost_operation_fixed" IK0); [cbn; tauto|]; apply (step_sited n t c o k0 _ OD IK0), ledger_given; [apply ALL; cbn; tauto|apply WY; cbn; tauto|exact TH]. }
  assert (A1 : absent U "cost_investment_annualised" (class_at n t o)) by (apply ledger_absent; [apply WY; cbn; tauto|exact NA]).
  assert (A2 : absent U "cost_operation_fixed" (class_at n t o)) by (apply ledger_absent; [apply WY; cbn; tauto|exact NF]).
  destruct (duty_placed n t c o OD) as (PU & PL & DU).
  destruct (rule_zero order files U (class_at n t o) (cost_text 5) co "cost" PU PL ltac:(apart) eq_refl DU TO FC DE) as (WD & E).
  - intros p WP FP; destruct (whole_step p n t c o OD WP FP) as (IK & FP').
    assert (FF : Forall (fact_in U p) [("cost_operation_variable", Absent); ("cost_investment_annualised", Absent); ("cost_operation_fixed", Absent)]).
    { apply Forall_cons; [eapply fact_absent; [exact SD| | |apply ledger_absent; [apply WV|exact (NO _ IK)]]; [apart|exact FP']|].
      apply Forall_cons; [eapply fact_absent; [exact SD| | |exact A1]; [apart|exact FP]|]; apply Forall_cons; [eapply fact_absent; [exact SD| | |exact A2]; [apart|exact FP]|apply Forall_nil]. }
    match type of FF with Forall _ ?F => refine (cond3_sound (math_names m) U F p FF ltac:(knowns IF) None ltac:(intros b H; discriminate) _ _ _) end; vm_compute; reflexivity.
  - destruct (proj2 (ALL "cost" ltac:(cbn; tauto))) as (DF & _).
    rewrite (sum_over_ext _ _ (fun _ => 0%Qc)), sum_over_zero by (intros k IK; apply absent_zero; [apply ALL; cbn; tauto|apply ledger_absent; [apply WV|exact (NO k IK)]]).
    rewrite (absent_zero U _ _ (proj2 (ALL "cost_investment_annualised" ltac:(cbn; tauto))) A1), (absent_zero U _ _ (proj2 (ALL "cost_operation_fixed" ltac:(cbn; tauto))) A2).
    split; [split; [exact WD|exists 0%Qc; unfold value_at; rewrite E; exact DF]|unfold amount, value_at; rewrite E; cbn [fill]; rewrite DF; cbn [worth]; rewrite ?Qcplus_0_r; reflexivity].
Qed.
End Goal.
