(** Lemmas on annual and total costs and on objectives. *)
From Coq Require Import QArith Qcanon Lia.
From Verif Require Import Base BaseProofs LangModel MathText EvalModel EvalSpec BuildModel BuildSpec BuildProofs BuildEqs
  HelperModel HelperSpec ShipModel ShipSpec ShipProofs ShipEntry ShipStorage ShipNumbers NetSpec NetProofs PlaceSpec ShipPlace RuleText RuleProofs CostSpec CostText CostProofs CostTotals.
From Verif Require CliModel CliProofs.
Local Open Scope nat_scope.
Local Open Scope string_scope.
Local Open Scope list_scope.
Local Arguments String.eqb : simpl never.

Ltac op ::= first [apply op_mul | apply op_add | apply op_sub | apply op_div; assumption | eapply remains_pow; [reflexivity|eassumption]].
Lemma year_nonzero : Q2Qc 8760 <> 0%Qc. Proof. intros H; vm_compute in H; discriminate H. Qed.
Definition annual_text (j : nat) : text := nth j annual_texts no_text.
Section Planning.
Variable order : list string -> list string.
Hypothesis OR : lists_set order.
Variable files : list math_file.
Hypothesis IP : In files planning.
Let IF : In files shipped := planning_shipped files IP.
Variable U : world.
Let m := layered files.

Definition annual_expr (i : nat) : expr :=
  value_text (match i with
    | 0 => [("cost_investment", Given); ("cost_depreciation_rate", Given)]
    | 1 => [("cost_investment", Given); ("cost_depreciation_rate", Absent); ("cost_interest_rate", Absent)]
    | _ => [("cost_investment", Given); ("cost_depreciation_rate", Absent); ("cost_interest_rate", Is (Val 1%Qc))] end) (annual_text 0) cap_keys i.
Lemma annual_cases tx : In tx annual_texts ->
  value_of [("cost_investment", Given); ("cost_depreciation_rate", Given)] None tx cap_keys 0 = Some (annual_expr 0) /\
  value_of [("cost_investment", Given); ("cost_depreciation_rate", Absent); ("cost_interest_rate", Absent)] None tx cap_keys 1 = Some (annual_expr 1) /\
  value_of [("cost_investment", Given); ("cost_depreciation_rate", Absent); ("cost_interest_rate", Given); ("cost_interest_rate", Is (Val 0%Qc))] None tx cap_keys 1 = Some (annual_expr 1) /\
  (forall i, (0 < i)%Qc -> value_of [("cost_investment", Given); ("cost_depreciation_rate", Absent); ("cost_interest_rate", Is (Val i))] None tx cap_keys 2 = Some (annual_expr 2)) /\
  fe_of tx = ["nodes"; "techs"; "costs"] /\ where_of tx = WName "cost_investment".
Proof.
  assert (MO : forall i, (0 < i)%Qc -> more (Val i) (number_cell false "0") = Some true).
  { intros i H; rewrite zero_number; cbn [more]; rewrite (proj1 (Qclt_alt 0 i) H); reflexivity. }
  intros IT; repeat (destruct IT as [<- |IT]; [repeat (split; [vm_compute; reflexivity|]); split; [intros i H; specialize (MO i H)|split; reflexivity]|]); [| |destruct IT].
  - change (?a = ?b) with (value_of [("cost_investment", Given); ("cost_depreciation_rate", Absent); ("cost_interest_rate", Is (Val i))] None (annual_text 0) cap_keys 2 = b).
    let b := eval vm_compute in (annual_expr 2) in change (annual_expr 2) with b; cbv -[more number_cell]; rewrite MO; reflexivity.
  - change (?a = ?b) with (value_of [("cost_investment", Given); ("cost_depreciation_rate", Absent); ("cost_interest_rate", Is (Val i))] None (annual_text 1) cap_keys 2 = b).
    let b := eval vm_compute in (annual_expr 2) in change (annual_expr 2) with b; cbv -[more number_cell]; rewrite MO; reflexivity.
Qed.

Lemma annual_told co : find_in (h_expressions m) "cost_investment_annualised" = Some co -> exists tx, In tx annual_texts /\ told order m "global_expressions" co (fe_of tx) (where_of tx) (eqs_of tx).
Proof. intros FC; exact (each_read order "global_expressions" annual_refs "cost_investment_annualised" annual_texts planning 10 files co OR annual_read ltac:(discriminate) IP FC). Qed.
Lemma given_amount s l : given U s l -> reads_as U s l (Val (amount U s l)).
Proof. intros (WD & _ & q & E); split; [exact WD|]; unfold amount, value_at; rewrite E; reflexivity. Qed.
Lemma annual_is n t c o r : sited U (class_cap n t c o) -> weighed U -> labels U "timesteps" <> [] -> yearly_share U n t o r -> given U "cost_investment" (class_at n t o) ->
  expression_is order m U "cost_investment_annualised" ->
  numeric U "cost_investment_annualised" (class_at n t o) /\ amount U "cost_investment_annualised" (class_at n t o) = (years U * r * amount U "cost_investment" (class_at n t o))%Qc.
Proof.
  intros SI (NR & NW) LT YS GI (co & FC & DE); pose proof (proj1 (proj1 SI)) as SD; pose proof year_nonzero as YN; pose proof (given_numeric _ _ _ GI) as NI.
  destruct (annual_told co FC) as (tx & IT & TO); destruct (annual_cases tx IT) as (V0 & V1 & V1' & V2 & FE & WE).
  assert (CU : cut (fe_of tx) (class_cap n t c o) = class_at n t o) by (rewrite FE; reflexivity).
  destruct YS as [(GD & ->)|[(AD & NL & LN & [AI|(GR & ZR)] & ->)|(AD & NL & GR & PR & x & RE & XN & ->)]].
  - pose proof (given_numeric _ _ _ GD) as ND.
    match goal with |- _ /\ _ = ?q => destruct (rule_amount order files U (class_cap n t c o) (class_at n t o) [("cost_investment", Given); ("cost_depreciation_rate", Given)] tx 0 co "cost_investment_annualised" _ q SI ltac:(facts SD) ltac:(knowns IF) TO FC DE V0 CU) as (H1 & _ & H2) end; [|split; assumption].
    intros x FX; let e := eval vm_compute in (annual_expr 0) in change (annual_expr 0) with e; vals SD FX.
  - match goal with |- _ /\ _ = ?q => destruct (rule_amount order files U (class_cap n t c o) (class_at n t o) [("cost_investment", Given); ("cost_depreciation_rate", Absent); ("cost_interest_rate", Absent)] tx 1 co "cost_investment_annualised" _ q SI ltac:(facts SD) ltac:(knowns IF) TO FC DE V1 CU) as (H1 & _ & H2) end; [|split; assumption].
    intros x FX; let e := eval vm_compute in (annual_expr 1) in change (annual_expr 1) with e; vals SD FX.
  - pose proof (given_amount _ _ GR) as RR; rewrite ZR in RR.
    match goal with |- _ /\ _ = ?q => destruct (rule_amount order files U (class_cap n t c o) (class_at n t o) [("cost_investment", Given); ("cost_depreciation_rate", Absent); ("cost_interest_rate", Given); ("cost_interest_rate", Is (Val 0%Qc))] tx 1 co "cost_investment_annualised" _ q SI ltac:(facts SD) ltac:(knowns IF) TO FC DE V1' CU) as (H1 & _ & H2) end; [|split; assumption].
    intros x FX; let e := eval vm_compute in (annual_expr 1) in change (annual_expr 1) with e; vals SD FX.
  - pose proof (given_amount _ _ GR) as RR; pose proof (given_numeric _ _ _ GR) as NG; specialize (V2 _ PR).
    assert (XN' : (x - 1)%Qc <> 0%Qc) by (intros H; apply XN; rewrite <- (Qcplus_0_r 1), <- H; ring).
    match goal with |- _ /\ _ = ?q => destruct (rule_amount order files U (class_cap n t c o) (class_at n t o) [("cost_investment", Given); ("cost_depreciation_rate", Absent); ("cost_interest_rate", Is (Val (amount U "cost_interest_rate" (class_at n t o))))] tx 2 co "cost_investment_annualised" _ q SI ltac:(facts SD) ltac:(knowns IF) TO FC DE V2 CU) as (H1 & _ & H2) end; [|split; assumption].
    intros y FX; let e := eval vm_compute in (annual_expr 2) in change (annual_expr 2) with e; vals SD FX.
Qed.
Lemma annual_free n t c o : sited U (class_cap n t c o) -> absent U "cost_investment" (class_at n t o) -> expression_is order m U "cost_investment_annualised" -> ledger U "cost_investment_annualised" ->
  numeric U "cost_investment_annualised" (class_at n t o) /\ amount U "cost_investment_annualised" (class_at n t o) = 0%Qc.
Proof.
  intros SI AI (co & FC & DE) LE; pose proof (proj1 (proj1 SI)) as SD; destruct (annual_told co FC) as (tx & IT & TO); destruct (annual_cases tx IT) as (_ & _ & _ & _ & FE & WE).
  refine (rule_free order files U (class_cap n t c o) (class_at n t o) [("cost_investment", Absent)] tx co _ SI ltac:(facts SD) ltac:(knowns IF) TO FC DE _ _ _ LE);
    [rewrite WE; reflexivity|rewrite FE; reflexivity|rewrite FE; reflexivity].
Qed.
(** Fixed costs. *)
Lemma bill_at n t o price use x : sound (u_env U) -> labels U "carriers" <> [] -> fits (class_at n t o) x -> billed U price use "carriers" (class_at n t o) ->
  entry_of (u_env U) (EFun "sum" [EChain (EName price) [(OMul, EName use)]] [("over", EName "carriers")]) x = Val (bill U price use "carriers" (class_at n t o)).
Proof. intros SD LC FX B; apply bill_entry; try assumption; [apart|cbn; intuition discriminate|reflexivity]. Qed.
Lemma fixed_is n t c o : sited U (class_cap n t c o) -> weighed U -> labels U "timesteps" <> [] ->
  (given U "cost_om_annual" (class_cap n t c o) /\ given U "flow_cap" (class_cap n t c o) \/ given U "cost_investment" (class_cap n t c o) /\ given U "cost_om_annual_investment_fraction" (class_cap n t c o)) ->
  billed U "cost_om_annual" "flow_cap" "carriers" (class_at n t o) -> numeric U "cost_investment" (class_at n t o) -> numeric U "cost_om_annual_investment_fraction" (class_at n t o) ->
  expression_is order m U "cost_operation_fixed" ->
  numeric U "cost_operation_fixed" (class_at n t o) /\ amount U "cost_operation_fixed" (class_at n t o) =
    (years U * (bill U "cost_om_annual" "flow_cap" "carriers" (class_at n t o) + amount U "cost_investment" (class_at n t o) * amount U "cost_om_annual_investment_fraction" (class_at n t o)))%Qc.
Proof.
  intros SI (NR & NW) LT GG B NI NF (co & FC & DE); pose proof (proj1 (proj1 SI)) as SD; pose proof year_nonzero as YN; pose proof (cost_told order OR files IP 4 _ _ eq_refl FC) as TO.
  assert (LC : labels U "carriers" <> []) by (apply (site_labels U _ _ SI); cbn; tauto).
  pose (e := value_text [("cost_om_annual", Given); ("flow_cap", Given)] (cost_text 4) cap_keys 0).
  assert (EV : forall x, fits (class_at n t o) x -> entry_of (u_env U) e x = Val (years U * (bill U "cost_om_annual" "flow_cap" "carriers" (class_at n t o) + amount U "cost_investment" (class_at n t o) * amount U "cost_om_annual_investment_fraction" (class_at n t o)))%Qc).
  { intros x FX; pose proof (bill_at n t o _ _ x SD LC FX B) as E1; let e' := eval vm_compute in e in change e with e'.
    eapply chain_one; [vals SD FX| |op]; eapply chain_one; [exact E1|vals SD FX|op]. }
  destruct GG as [(G1 & G2)|(G1 & G2)].
  - destruct (rule_amount order files U (class_cap n t c o) (class_at n t o) [("cost_om_annual", Given); ("flow_cap", Given)] (cost_text 4) 0 co _ e _ SI ltac:(facts SD) ltac:(knowns IF) TO FC DE ltac:(vm_compute; reflexivity) ltac:(reflexivity) EV) as (H1 & _ & H2); split; assumption.
  - destruct (rule_amount order files U (class_cap n t c o) (class_at n t o) [("cost_investment", Given); ("cost_om_annual_investment_fraction", Given)] (cost_text 4) 0 co _ e _ SI ltac:(facts SD) ltac:(knowns IF) TO FC DE ltac:(vm_compute; reflexivity) ltac:(reflexivity) EV) as (H1 & _ & H2); split; assumption.
Qed.
Lemma fixed_free n t c o : sited U (class_cap n t c o) -> (forall c, In c (labels U "carriers") -> absent U "cost_om_annual" (class_cap n t c o) \/ absent U "flow_cap" (class_cap n t c o)) ->
  (absent U "cost_investment" (class_at n t o) \/ absent U "cost_om_annual_investment_fraction" (class_at n t o)) ->
  expression_is order m U "cost_operation_fixed" -> ledger U "cost_operation_fixed" ->
  numeric U "cost_operation_fixed" (class_at n t o) /\ amount U "cost_operation_fixed" (class_at n t o) = 0%Qc.
Proof.
  intros SI A1 A2 (co & FC & DE) (DF & _); pose proof (proj1 (proj1 SI)) as SD; pose proof (cost_told order OR files IP 4 _ _ eq_refl FC) as TO.
  destruct (rule_zero order files U (class_at n t o) (cost_text 4) co "cost_operation_fixed") as (WD & E); try assumption; try apply SI.
  - change (class_at n t o) with (cut (fe_of (cost_text 4)) (class_cap n t c o)); apply (sited_cut U), SI.
  - apart.
  - reflexivity.
  - intros x IX; destruct SI as (_ & _ & (_ & PL) & _); repeat (destruct IX as [<- |IX]; [eapply PL; cbn; tauto|]); destruct IX.
  - intros p WP FP.
    assert (IC : In (p "carriers") (labels U "carriers")).
    { destruct WP as (i & II & ->); apply (at_index_label (world_data (math_names m) U) (u_dims U)); [exact II|]; destruct SI as (_ & _ & (_ & PL) & _); exact (proj1 (PL "carriers" c ltac:(cbn; tauto))). }
    assert (FP' : fits (class_cap n t (p "carriers") o) p) by (intros d x IX; repeat (destruct IX as [E|IX]; [injection E as <- <-; first [reflexivity|apply FP; cbn; tauto]|]); destruct IX).
    destruct (A1 _ IC) as [B1|B1]; destruct A2 as [B2|B2].
    all: eapply (cond3_sound (math_names m) U) with (start := None); [apply Forall_cons; [eapply fact_absent; [exact SD| | |exact B1]; [apart|exact FP']|]; apply Forall_cons; [eapply fact_absent; [exact SD| | |exact B2]; [apart|exact FP]|]; apply Forall_nil|knowns IF|intros b H; discriminate|vm_compute; reflexivity].
  - split; [split; [exact WD|exists 0%Qc; unfold value_at; rewrite E; exact DF]|unfold amount, value_at; rewrite E; cbn [fill]; rewrite DF; reflexivity].
Qed.
End Planning.
