(** Lemmas on investments, annual costs, total costs and objectives. *)
From Coq Require Import QArith Qcanon Lia.
From Verif Require Import Base BaseProofs LangModel MathText EvalModel EvalSpec BuildModel BuildSpec BuildProofs BuildEqs
  HelperModel HelperSpec ShipModel ShipSpec ShipProofs ShipEntry ShipStorage ShipNumbers NetSpec NetProofs PlaceSpec ShipPlace RuleText RuleProofs CostSpec CostText CostProofs.
From Verif Require CliModel CliProofs.
Local Open Scope nat_scope.
Local Open Scope string_scope.
Local Open Scope list_scope.
Local Arguments String.eqb : simpl never.

Section Totals.
Variable order : list string -> list string.
Hypothesis OR : lists_set order.
Variable files : list math_file.
Hypothesis IF : In files shipped.
Variable U : world.
Let m := layered files.

Lemma spot_index (l : list (string * string)) fe f : map fst l = fe -> map snd l = f -> at_index fe f = spot l.
Proof.
  intros <- <-; assert (CO : List.combine (map fst l) (map snd l) = l) by (induction l as [|(d & v) l IH]; [reflexivity|]; cbn [map List.combine fst snd]; rewrite IH; reflexivity).
  unfold at_index, spot; rewrite CO; reflexivity.
Qed.
Lemma placed_index l : placed U l -> In (map snd l) (CliModel.product (map (n_labels (u_env U)) (map fst l))).
Proof.
  intros (_ & PL); induction l as [|(d & v) l IH]; [left; reflexivity|]; cbn [map CliModel.product fst snd]; apply in_flat_map; exists v.
  split; [exact (proj2 (PL d v (or_introl eq_refl)))|]; apply in_map, IH; intros d' x H; apply PL; right; exact H.
Qed.
(** Where there is a value the technology is defined. *)
Lemma rule_there l tx co s : proper U -> populated U -> placed U l -> map fst l = fe_of tx -> (forall d, In d (a_dims (n_matrix (u_env U))) -> In d (map fst l)) ->
  told order m "global_expressions" co (fe_of tx) (where_of tx) (eqs_of tx) -> find_in (h_expressions m) s = Some co -> defined_in order m U co ->
  is_there U s l -> sited U l.
Proof.
  intros PU PO PL KE MD TO FC DE TH; pose proof (find_name _ _ _ FC) as EN; destruct TO as (FE & PW & PE); destruct DE as (r & B & AD & SAT); rewrite EN in SAT.
  split; [exact PU|split; [exact PO|split; [exact PL|split; [exact MD|]]]].
  assert (SUB : forall x, In x (c_foreach co) -> In x (u_dims U)) by (intros x IX; rewrite FE, <- KE in IX; apply in_map_iff in IX as ((d & v) & <- & IN); exact (proj1 (proj2 PL d v IN))).
  assert (IN : In (map snd l) (CliModel.product (map (n_labels (u_env U)) (c_foreach co)))) by (rewrite FE, <- KE; apply placed_index, PL).
  specialize (SAT _ IN); rewrite (spot_index l (c_foreach co) (map snd l)) in SAT; [|congruence|reflexivity].
  destruct (build_entries order m U "global_expressions" co r _ _ B SUB PW PE) as (_ & K).
  destruct (K _ IN) as (i & q & wd & v & (II & MX & HW) & _ & EF & _); [rewrite SAT; unfold is_there in TH; destruct (a_at _ _); [congruence|reflexivity..]|].
  rewrite <- MX; f_equal; apply (proj2 (proj2 (proj1 PU))); intros d ID; apply MD in ID; apply in_map_iff in ID as ((d' & x) & <- & IX); cbn [fst].
  rewrite FE, <- KE in EF; rewrite (map_eq_in _ l EF d' x IX); apply spot_get; [exact (proj1 PL)|exact IX].
Qed.
Lemma ledger_given s l : ledger U s -> within_dims U s (map fst l) -> is_there U s l -> given U s l.
Proof. intros (_ & NB & NU) WD TH; split; [exact WD|split; [exact NB|]]; destruct (NU (spot l)) as [E|(q & E)]; [contradiction|exists q; exact E]. Qed.
Lemma ledger_absent s l : within_dims U s (map fst l) -> ~ is_there U s l -> absent U s l.
Proof. intros WD NT; split; [exact WD|]; unfold is_there in NT; destruct (a_at _ _); [reflexivity|exfalso; apply NT; discriminate..]. Qed.
Lemma ledger_numeric s l : ledger U s -> within_dims U s (map fst l) -> numeric U s l.
Proof. intros (DF & _ & NU) WD; split; [exact WD|]; unfold number, value_at; destruct (NU (spot l)) as [-> |(q & ->)]; cbn [fill]; [rewrite DF|]; eexists; reflexivity. Qed.
Lemma absent_zero s l : ledger U s -> absent U s l -> amount U s l = 0%Qc.
Proof. intros (DF & _) (_ & E); unfold amount, value_at; rewrite E; cbn [fill]; rewrite DF; reflexivity. Qed.
Lemma there_dec s l : is_there U s l \/ ~ is_there U s l.
Proof. unfold is_there; destruct (a_at _ _); [right; congruence|left; discriminate..]. Qed.
Lemma there_some s (f : string -> list (string * string)) (ls : list string) : (exists v, In v ls /\ is_there U s (f v)) \/ forall v, In v ls -> ~ is_there U s (f v).
Proof.
  induction ls as [|v ls [(x & IX & TH)|NO]]; [right; intros v []|left; exists x; split; [right; exact IX|exact TH]|].
  destruct (there_dec s (f v)) as [TH|NT]; [left; exists v; split; [left; reflexivity|exact TH]|right; intros x [<-|IX]; [exact NT|apply NO, IX]].
Qed.
Lemma dims_of s tx co : told order m "global_expressions" co (fe_of tx) (where_of tx) (eqs_of tx) -> find_in (h_expressions m) s = Some co -> defined_in order m U co -> a_dims (n_array (u_env U) s) = fe_of tx.
Proof. intros (FE & _) FC (r & _ & AD & _); rewrite (find_name _ _ _ FC) in AD; congruence. Qed.
End Totals.

Section Planning.
Variable order : list string -> list string.
Hypothesis OR : lists_set order.
Variable files : list math_file.
Hypothesis IP : In files planning.
Let IF : In files shipped := planning_shipped files IP.
Variable U : world.
Let m := layered files.
Lemma sited_cut l fe : sited U l -> placed U (cut fe l).
Proof.
  intros (_ & _ & PL & _); split; [apply cut_nodup, (proj1 PL)|]; intros d v IN; apply (proj2 PL); apply cut_in in IN; exact (proj1 IN).
Qed.
Lemma investment_plain n t c o : In files planning_plain -> sited U (class_cap n t c o) ->
  (forall s, In s ("cost_investment" :: "cost_investment_flow_cap" :: investment_parts) -> expression_is order m U s /\ ledger U s) ->
  numeric U "cost_investment" (class_at n t o) /\
  amount U "cost_investment" (class_at n t o) =
    (sum_over (labels U "carriers") (fun c => amount U "cost_investment_flow_cap" (class_cap n t c o)) + amount U "cost_investment_storage_cap" (class_at n t o) +
     amount U "cost_investment_source_cap" (class_at n t o) + amount U "cost_investment_area_use" (class_at n t o))%Qc.
Proof.
  intros IPP SI ALL; pose proof (proj1 (proj1 SI)) as SD; assert (LC : labels U "carriers" <> []) by (apply (site_labels U _ _ SI); cbn; tauto).
  assert (DIM : forall i s, nth_error cost_names i = Some s -> In s ("cost_investment" :: "cost_investment_flow_cap" :: investment_parts) -> a_dims (n_array (u_env U) s) = fe_of (cost_text i)).
  { intros i s NI IS; destruct (proj1 (ALL s IS)) as (co & FC & DE); exact (dims_of order files U s (cost_text i) co (cost_told order OR files IP i s co NI FC) FC DE). }
  pose proof (DIM 0 _ eq_refl ltac:(cbn; tauto)) as D0; pose proof (DIM 1 _ eq_refl ltac:(cbn; tauto)) as D1; pose proof (DIM 2 _ eq_refl ltac:(cbn; tauto)) as D2; pose proof (DIM 3 _ eq_refl ltac:(cbn; tauto)) as D3.
  assert (N0 : forall v, In v (labels U "carriers") -> numeric U "cost_investment_flow_cap" (class_cap n t v o)).
  { intros v _; apply ledger_numeric; [apply ALL; cbn; tauto|]; intros d ID; rewrite D0 in ID; exact ID. }
  assert (NP : forall s, In s investment_parts -> within_dims U s (map fst (class_at n t o))).
  { intros s IS d ID; repeat (destruct IS as [<- |IS]; [rewrite ?D1, ?D2, ?D3 in ID; exact ID|]); destruct IS. }
  assert (N1 : numeric U "cost_investment_storage_cap" (class_at n t o)) by (apply ledger_numeric; [apply ALL; cbn; tauto|apply NP; cbn; tauto]).
  assert (N2 : numeric U "cost_investment_source_cap" (class_at n t o)) by (apply ledger_numeric; [apply ALL; cbn; tauto|apply NP; cbn; tauto]).
  assert (N3 : numeric U "cost_investment_area_use" (class_at n t o)) by (apply ledger_numeric; [apply ALL; cbn; tauto|apply NP; cbn; tauto]).
  assert (DC : In "carriers" (a_dims (n_array (u_env U) "cost_investment_flow_cap"))) by (rewrite D0; cbn; tauto).
  destruct (proj1 (ALL "cost_investment" ltac:(cbn; tauto))) as (co & FC & DE).
  pose proof (listed_told order OR files "global_expressions" ["cost_investment"] plain_cost_texts planning_plain 4 0 _ co plain_cost_read eq_refl IPP eq_refl FC) as TO.
  set (tx := nth 0 plain_cost_texts no_text) in *.
  assert (YES : forall c' s, sited U (class_cap n t c' o) -> In s ("cost_investment_flow_cap" :: investment_parts) -> given U s (class_cap n t c' o) ->
    numeric U "cost_investment" (class_at n t o) /\ amount U "cost_investment" (class_at n t o) =
    (sum_over (labels U "carriers") (fun c => amount U "cost_investment_flow_cap" (class_cap n t c o)) + amount U "cost_investment_storage_cap" (class_at n t o) +
     amount U "cost_investment_source_cap" (class_at n t o) + amount U "cost_investment_area_use" (class_at n t o))%Qc).
  { intros c' s SI' IS GS; assert (VO : value_of [(s, Given)] None tx (map fst (class_cap n t c' o)) 0 = Some (value_text [("cost_investment_flow_cap", Given)] tx cap_keys 0))
      by (repeat (destruct IS as [<- |IS]; [vm_compute; reflexivity|]); destruct IS).
    match goal with |- _ /\ _ = ?q => destruct (rule_amount order files U (class_cap n t c' o) (class_at n t o) [(s, Given)] tx 0 co "cost_investment" _ q SI' ltac:(facts SD) ltac:(knowns IF) TO FC DE VO ltac:(reflexivity)) as (H1 & _ & H2) end; [|split; assumption].
    intros x FX; match goal with |- entry_of _ ?e _ = _ => let e' := eval vm_compute in e in change e with e' end; vals SD FX. }
  destruct (there_some U "cost_investment_flow_cap" (fun v => class_cap n t v o) (labels U "carriers")) as [(c' & IC & TH)|NO0].
  { apply (YES c' "cost_investment_flow_cap"); [|cbn; tauto|apply ledger_given; [apply ALL; cbn; tauto|intros d ID; rewrite D0 in ID; exact ID|exact TH]].
    destruct (proj1 (ALL "cost_investment_flow_cap" ltac:(cbn; tauto))) as (co' & FC' & DE').
    apply (rule_there order files U (class_cap n t c' o) (cost_text 0) co' "cost_investment_flow_cap"); try assumption; try reflexivity; try apply SI; [|exact (cost_told order OR files IP 0 _ _ eq_refl FC')].
    destruct SI as (_ & _ & (_ & PL) & _); split; [apart|]; intros d x IX; repeat (destruct IX as [E|IX]; [injection E as <- <-|]); try (apply PL; cbn; tauto); split; [exact (proj1 (PL "carriers" c ltac:(cbn; tauto)))|exact IC]. }
  assert (SOME : (exists s, In s investment_parts /\ is_there U s (class_at n t o)) \/ forall s, In s investment_parts -> ~ is_there U s (class_at n t o)).
  { generalize investment_parts; intros ls; induction ls as [|s ls [(x & IX & TH)|NO]]; [right; intros s []|left; exists x; split; [right; exact IX|exact TH]|].
    destruct (there_dec U s (class_at n t o)) as [TH|NT]; [left; exists s; split; [left; reflexivity|exact TH]|right; intros x [<-|IX]; [exact NT|apply NO, IX]]. }
  destruct SOME as [(s & IS & TH)|NO].
  { apply (YES c s SI); [right; exact IS|].
    destruct (ledger_given U s (class_at n t o)) as (G1 & G2 & q & G3); [apply ALL; right; right; exact IS|apply NP, IS|exact TH|].
    split; [intros d ID; apply G1 in ID; cbn in ID |- *; tauto|split; [exact G2|exists q; rewrite <- G3]].
    apply (proj1 (proj2 SD)); intros d ID; apply G1 in ID; cbn in ID; repeat (destruct ID as [<- |ID]; [reflexivity|]); destruct ID. }
  assert (Z0 : sum_over (labels U "carriers") (fun c => amount U "cost_investment_flow_cap" (class_cap n t c o)) = 0%Qc).
  { rewrite (sum_over_ext _ _ (fun _ => 0%Qc)); [apply sum_over_zero|]; intros v IV; apply absent_zero; [apply ALL; cbn; tauto|apply ledger_absent; [exact (proj1 (N0 v IV))|exact (NO0 v IV)]]. }
  assert (ZP : forall s, In s investment_parts -> amount U s (class_at n t o) = 0%Qc).
  { intros s IS; apply absent_zero; [apply ALL; right; right; exact IS|apply ledger_absent; [apply NP, IS|exact (NO s IS)]]. }
  rewrite Z0, (ZP "cost_investment_storage_cap"), (ZP "cost_investment_source_cap"), (ZP "cost_investment_area_use") by (cbn; tauto).
  destruct (rule_zero order files U (class_at n t o) tx co "cost_investment") as (WD & E); try assumption; try apply SI.
  - change (class_at n t o) with (cut (fe_of tx) (class_cap n t c o)); apply sited_cut, SI.
  - apart.
  - reflexivity.
  - intros x IX; destruct SI as (_ & _ & (_ & PL) & _); repeat (destruct IX as [<- |IX]; [eapply PL; cbn; tauto|]); destruct IX.
  - intros p WP FP.
    assert (FF : Forall (fact_in U p) [("cost_investment_flow_cap", Absent); ("cost_investment_storage_cap", Absent); ("cost_investment_source_cap", Absent); ("cost_investment_area_use", Absent)]).
    { assert (IC : In (p "carriers") (labels U "carriers")).
      { destruct WP as (i & II & ->); apply (at_index_label (world_data (math_names m) U) (u_dims U)); [exact II|]; destruct SI as (_ & _ & (_ & PL) & _); exact (proj1 (PL "carriers" c ltac:(cbn; tauto))). }
      assert (FP' : fits (class_cap n t (p "carriers") o) p) by (intros d x IX; repeat (destruct IX as [E|IX]; [injection E as <- <-; first [reflexivity|apply FP; cbn; tauto]|]); destruct IX).
      apply Forall_cons; [eapply fact_absent; [exact SD| | |apply ledger_absent; [exact (proj1 (N0 _ IC))|exact (NO0 _ IC)]]; [apart|exact FP']|].
      repeat (apply Forall_cons; [eapply fact_absent; [exact SD| | |apply ledger_absent; [apply NP|apply NO]; cbn; tauto]; [apart|exact FP]|]); apply Forall_nil. }
    match type of FF with Forall _ ?F => refine (cond3_sound (math_names m) U F p FF ltac:(knowns IF) None ltac:(intros b H; discriminate) _ _ _) end; vm_compute; reflexivity.
  - destruct (proj2 (ALL "cost_investment" ltac:(cbn; tauto))) as (DF & _).
    split; [split; [exact WD|exists 0%Qc; unfold value_at; rewrite E; exact DF]|unfold amount, value_at; rewrite E; cbn [fill]; rewrite DF; cbn [worth]; rewrite ?Qcplus_0_r; reflexivity].
Qed.
Lemma investment_milp n t c o : In files planning_milp -> sited U (class_cap n t c o) ->
  (forall s, In s ("cost_investment" :: "cost_investment_flow_cap" :: bought_parts) -> expression_is order m U s /\ ledger U s) ->
  numeric U "cost_investment" (class_at n t o) /\
  amount U "cost_investment" (class_at n t o) =
    (sum_over (labels U "carriers") (fun c => amount U "cost_investment_flow_cap" (class_cap n t c o)) + amount U "cost_investment_storage_cap" (class_at n t o) +
     amount U "cost_investment_source_cap" (class_at n t o) + amount U "cost_investment_area_use" (class_at n t o) + amount U "cost_investment_purchase" (class_at n t o))%Qc.
Proof.
  intros IPP SI ALL; pose proof (proj1 (proj1 SI)) as SD; assert (LC : labels U "carriers" <> []) by (apply (site_labels U _ _ SI); cbn; tauto).
  assert (DIM : forall i s, nth_error cost_names i = Some s -> In s ("cost_investment" :: "cost_investment_flow_cap" :: bought_parts) -> a_dims (n_array (u_env U) s) = fe_of (cost_text i)).
  { intros i s NI IS; destruct (proj1 (ALL s IS)) as (co & FC & DE); exact (dims_of order files U s (cost_text i) co (cost_told order OR files IP i s co NI FC) FC DE). }
  pose proof (DIM 0 _ eq_refl ltac:(cbn; tauto)) as D0; pose proof (DIM 1 _ eq_refl ltac:(cbn; tauto)) as D1; pose proof (DIM 2 _ eq_refl ltac:(cbn; tauto)) as D2; pose proof (DIM 3 _ eq_refl ltac:(cbn; tauto)) as D3.
  assert (D4 : a_dims (n_array (u_env U) "cost_investment_purchase") = fe_of (nth 1 milp_cost_texts no_text)).
  { destruct (proj1 (ALL "cost_investment_purchase" ltac:(cbn; tauto))) as (co & FC & DE).
    exact (dims_of order files U _ _ co (listed_told order OR files "global_expressions" ["cost_investment"; "cost_investment_purchase"] milp_cost_texts planning_milp 6 1 _ co milp_cost_read eq_refl IPP eq_refl FC) FC DE). }
  assert (N0 : forall v, In v (labels U "carriers") -> numeric U "cost_investment_flow_cap" (class_cap n t v o)).
  { intros v _; apply ledger_numeric; [apply ALL; cbn; tauto|]; intros d ID; rewrite D0 in ID; exact ID. }
  assert (NP : forall s, In s bought_parts -> within_dims U s (map fst (class_at n t o))).
  { intros s IS d ID; repeat (destruct IS as [<- |IS]; [rewrite ?D1, ?D2, ?D3, ?D4 in ID; exact ID|]); destruct IS. }
  assert (N1 : numeric U "cost_investment_storage_cap" (class_at n t o)) by (apply ledger_numeric; [apply ALL; cbn; tauto|apply NP; cbn; tauto]).
  assert (N2 : numeric U "cost_investment_source_cap" (class_at n t o)) by (apply ledger_numeric; [apply ALL; cbn; tauto|apply NP; cbn; tauto]).
  assert (N3 : numeric U "cost_investment_area_use" (class_at n t o)) by (apply ledger_numeric; [apply ALL; cbn; tauto|apply NP; cbn; tauto]).
  assert (N4 : numeric U "cost_investment_purchase" (class_at n t o)) by (apply ledger_numeric; [apply ALL; cbn; tauto|apply NP; cbn; tauto]).
  assert (DC : In "carriers" (a_dims (n_array (u_env U) "cost_investment_flow_cap"))) by (rewrite D0; cbn; tauto).
  destruct (proj1 (ALL "cost_investment" ltac:(cbn; tauto))) as (co & FC & DE).
  pose proof (listed_told order OR files "global_expressions" ["cost_investment"; "cost_investment_purchase"] milp_cost_texts planning_milp 6 0 _ co milp_cost_read eq_refl IPP eq_refl FC) as TO.
  set (tx := nth 0 milp_cost_texts no_text) in *.
  assert (YES : forall c' s, sited U (class_cap n t c' o) -> In s ("cost_investment_flow_cap" :: bought_parts) -> given U s (class_cap n t c' o) ->
    numeric U "cost_investment" (class_at n t o) /\ amount U "cost_investment" (class_at n t o) =
    (sum_over (labels U "carriers") (fun c => amount U "cost_investment_flow_cap" (class_cap n t c o)) + amount U "cost_investment_storage_cap" (class_at n t o) +
     amount U "cost_investment_source_cap" (class_at n t o) + amount U "cost_investment_area_use" (class_at n t o) + amount U "cost_investment_purchase" (class_at n t o))%Qc).
  { intros c' s SI' IS GS; assert (VO : value_of [(s, Given)] None tx (map fst (class_cap n t c' o)) 0 = Some (value_text [("cost_investment_flow_cap", Given)] tx cap_keys 0))
      by (repeat (destruct IS as [<- |IS]; [vm_compute; reflexivity|]); destruct IS).
    match goal with |- _ /\ _ = ?q => destruct (rule_amount order files U (class_cap n t c' o) (class_at n t o) [(s, Given)] tx 0 co "cost_investment" _ q SI' ltac:(facts SD) ltac:(knowns IF) TO FC DE VO ltac:(reflexivity)) as (H1 & _ & H2) end; [|split; assumption].
    intros x FX; match goal with |- entry_of _ ?e _ = _ => let e' := eval vm_compute in e in change e with e' end; vals SD FX. }
  destruct (there_some U "cost_investment_flow_cap" (fun v => class_cap n t v o) (labels U "carriers")) as [(c' & IC & TH)|NO0].
  { apply (YES c' "cost_investment_flow_cap"); [|cbn; tauto|apply ledger_given; [apply ALL; cbn; tauto|intros d ID; rewrite D0 in ID; exact ID|exact TH]].
    destruct (proj1 (ALL "cost_investment_flow_cap" ltac:(cbn; tauto))) as (co' & FC' & DE').
    apply (rule_there order files U (class_cap n t c' o) (cost_text 0) co' "cost_investment_flow_cap"); try assumption; try reflexivity; try apply SI; [|exact (cost_told order OR files IP 0 _ _ eq_refl FC')].
    destruct SI as (_ & _ & (_ & PL) & _); split; [apart|]; intros d x IX; repeat (destruct IX as [E|IX]; [injection E as <- <-|]); try (apply PL; cbn; tauto); split; [exact (proj1 (PL "carriers" c ltac:(cbn; tauto)))|exact IC]. }
  assert (SOME : (exists s, In s bought_parts /\ is_there U s (class_at n t o)) \/ forall s, In s bought_parts -> ~ is_there U s (class_at n t o)).
  { generalize bought_parts; intros ls; induction ls as [|s ls [(x & IX & TH)|NO]]; [right; intros s []|left; exists x; split; [right; exact IX|exact TH]|].
    destruct (there_dec U s (class_at n t o)) as [TH|NT]; [left; exists s; split; [left; reflexivity|exact TH]|right; intros x [<-|IX]; [exact NT|apply NO, IX]]. }
  destruct SOME as [(s & IS & TH)|NO].
  { apply (YES c s SI); [right; exact IS|].
    destruct (ledger_given U s (class_at n t o)) as (G1 & G2 & q & G3); [apply ALL; right; right; exact IS|apply NP, IS|exact TH|].
    split; [intros d ID; apply G1 in ID; cbn in ID |- *; tauto|split; [exact G2|exists q; rewrite <- G3]].
    apply (proj1 (proj2 SD)); intros d ID; apply G1 in ID; cbn in ID; repeat (destruct ID as [<- |ID]; [reflexivity|]); destruct ID. }
  assert (Z0 : sum_over (labels U "carriers") (fun c => amount U "cost_investment_flow_cap" (class_cap n t c o)) = 0%Qc).
  { rewrite (sum_over_ext _ _ (fun _ => 0%Qc)); [apply sum_over_zero|]; intros v IV; apply absent_zero; [apply ALL; cbn; tauto|apply ledger_absent; [exact (proj1 (N0 v IV))|exact (NO0 v IV)]]. }
  assert (ZP : forall s, In s bought_parts -> amount U s (class_at n t o) = 0%Qc).
  { intros s IS; apply absent_zero; [apply ALL; right; right; exact IS|apply ledger_absent; [apply NP, IS|exact (NO s IS)]]. }
  rewrite Z0, (ZP "cost_investment_storage_cap"), (ZP "cost_investment_source_cap"), (ZP "cost_investment_area_use"), (ZP "cost_investment_purchase") by (cbn; tauto).
  destruct (rule_zero order files U (class_at n t o) tx co "cost_investment") as (WD & E); try assumption; try apply SI.
  - change (class_at n t o) with (cut (fe_of tx) (class_cap n t c o)); apply sited_cut, SI.
  - apart.
  - reflexivity.
  - intros x IX; destruct SI as (_ & _ & (_ & PL) & _); repeat (destruct IX as [<- |IX]; [eapply PL; cbn; tauto|]); destruct IX.
  - intros p WP FP.
    assert (FF : Forall (fact_in U p) [("cost_investment_flow_cap", Absent); ("cost_investment_storage_cap", Absent); ("cost_investment_source_cap", Absent); ("cost_investment_area_use", Absent); ("cost_investment_purchase", Absent)]).
    { assert (IC : In (p "carriers") (labels U "carriers")).
      { destruct WP as (i & II & ->); apply (at_index_label (world_data (math_names m) U) (u_dims U)); [exact II|]; destruct SI as (_ & _ & (_ & PL) & _); exact (proj1 (PL "carriers" c ltac:(cbn; tauto))). }
      assert (FP' : fits (class_cap n t (p "carriers") o) p) by (intros d x IX; repeat (destruct IX as [E|IX]; [injection E as <- <-; first [reflexivity|apply FP; cbn; tauto]|]); destruct IX).
      apply Forall_cons; [eapply fact_absent; [exact SD| | |apply ledger_absent; [exact (proj1 (N0 _ IC))|exact (NO0 _ IC)]]; [apart|exact FP']|].
      repeat (apply Forall_cons; [eapply fact_absent; [exact SD| | |apply ledger_absent; [apply NP|apply NO]; cbn; tauto]; [apart|exact FP]|]); apply Forall_nil. }
    match type of FF with Forall _ ?F => refine (cond3_sound (math_names m) U F p FF ltac:(knowns IF) None ltac:(intros b H; discriminate) _ _ _) end; vm_compute; reflexivity.
  - destruct (proj2 (ALL "cost_investment" ltac:(cbn; tauto))) as (DF & _).
    split; [split; [exact WD|exists 0%Qc; unfold value_at; rewrite E; exact DF]|unfold amount, value_at; rewrite E; cbn [fill]; rewrite DF; cbn [worth]; rewrite ?Qcplus_0_r; reflexivity].
Qed.
Definition unit_expr (b : string) : expr := value_text [("base_tech", Is (Txt b)); ("cost_purchase", Given); ("purchased_units", Given)] (nth 1 milp_cost_texts no_text) cap_keys (if String.eqb b "transmission" then 0 else 1).
Lemma unit_cases b : In b base_kinds ->
  value_of [("base_tech", Is (Txt b)); ("cost_purchase", Given); ("purchased_units", Given)] None (nth 1 milp_cost_texts no_text) cap_keys (if String.eqb b "transmission" then 0 else 1) = Some (unit_expr b).
Proof. intros IB; repeat (destruct IB as [<- |IB]; [vm_compute; reflexivity|]); destruct IB. Qed.
Lemma unit_part n t b c o q : In files planning_milp -> sited U (class_cap n t c o) -> kind U t b -> unit_charge U n t b o q ->
  expression_is order m U "cost_investment_purchase" -> ledger U "cost_investment_purchase" ->
  numeric U "cost_investment_purchase" (class_at n t o) /\ amount U "cost_investment_purchase" (class_at n t o) = q.
Proof.
  intros IPP SI (KB & BT) CH (co & FC & DE) LE; pose proof (proj1 (proj1 SI)) as SD.
  pose proof (listed_told order OR files "global_expressions" ["cost_investment"; "cost_investment_purchase"] milp_cost_texts planning_milp 6 1 _ co milp_cost_read eq_refl IPP eq_refl FC) as TO.
  set (tx := nth 1 milp_cost_texts no_text) in *.
  destruct CH as [(GU & GP & NT & ->)|([AB|AB] & ->)].
  - pose proof (given_numeric _ _ _ GU) as NU; pose proof (given_numeric _ _ _ GP) as NP; pose proof (unit_cases b KB) as VO.
    match goal with |- _ /\ _ = ?q => destruct (rule_amount order files U (class_cap n t c o) (class_at n t o) [("base_tech", Is (Txt b)); ("cost_purchase", Given); ("purchased_units", Given)] tx
      (if String.eqb b "transmission" then 0 else 1) co "cost_investment_purchase" (unit_expr b) q SI ltac:(facts SD) ltac:(knowns IF) TO FC DE VO ltac:(reflexivity)) as (H1 & _ & H2) end; [|split; assumption].
    intros x FX; destruct (String.eqb b "transmission") eqn:SB.
    + apply String.eqb_eq in SB; subst b; destruct (NT eq_refl) as (N1 & N2); let e := eval vm_compute in (unit_expr "transmission") in change (unit_expr "transmission") with e; vals SD FX.
    + assert (RE : unit_expr b = unit_expr "demand") by (repeat (destruct KB as [<-|KB]; [first [discriminate SB|reflexivity]|]); destruct KB).
      rewrite RE; let e := eval vm_compute in (unit_expr "demand") in change (unit_expr "demand") with e; vals SD FX.
  - refine (rule_free order files U (class_cap n t c o) (class_at n t o) [("purchased_units", Absent)] tx co _ SI ltac:(facts SD) ltac:(knowns IF) TO FC DE ltac:(vm_compute; reflexivity) ltac:(reflexivity) ltac:(reflexivity) LE).
  - refine (rule_free order files U (class_cap n t c o) (class_at n t o) [("cost_purchase", Absent)] tx co _ SI ltac:(facts SD) ltac:(knowns IF) TO FC DE ltac:(vm_compute; reflexivity) ltac:(reflexivity) ltac:(reflexivity) LE).
Qed.
End Planning.
