(** Lemmas on objectives. *)
From Coq Require Import QArith Qcanon Lia.
From Verif Require Import Base BaseProofs LangModel MathText EvalModel EvalSpec BuildModel BuildSpec BuildProofs BuildEqs
  HelperModel HelperSpec ShipModel ShipSpec ShipProofs ShipEntry ShipStorage ShipNumbers NetSpec NetProofs PlaceSpec ShipPlace RuleText RuleProofs CostSpec CostText CostProofs CostTotals CostYear CostGoal.
From Verif Require CliModel CliProofs.
Local Open Scope nat_scope.
Local Open Scope string_scope.
Local Open Scope list_scope.
Local Arguments String.eqb : simpl never.

Definition slack_text : expr := EFun "sum" [EChain (EName "unmet_demand") [(OSub, EName "unused_supply")]] [("over", EList [EName "carriers"; EName "nodes"])].
Definition fine_text : expr := EChain (EFun "sum" [EChain slack_text [(OMul, EName "timestep_weights")]] [("over", EName "timesteps")]) [(OMul, EName "bigM")].
Lemma sum_three D e o d d' d2 x g r : names_of o = Some [d; d'; d2] -> NoDup [d; d'; d2] -> (forall y, In y [d; d'; d2] -> In y (dims_in D e)) -> (forall y, In y [d; d'; d2] -> n_labels D y <> []) ->
  (forall v v' w, In v (n_labels D d) -> In v' (n_labels D d') -> In w (n_labels D d2) -> entry_of D e (put (put (put x d v) d' v') d2 w) = Val (g v v' w)) ->
  sum_over (n_labels D d) (fun v => sum_over (n_labels D d') (fun v' => sum_over (n_labels D d2) (g v v'))) = r -> entry_of D (EFun "sum" [e] [("over", o)]) x = Val r.
Proof.
  intros NO ND ID NE H <-; cbn [entry_of]; rewrite NO.
  assert (SH : shared [d; d'; d2] (dims_in D e) = [d; d'; d2]).
  { unfold shared; rewrite (nodup_fixed_point string_dec ND); cbn [filter]; rewrite !(fun y IY => proj2 (smem_in y _) (ID y IY)) by (cbn; tauto); reflexivity. }
  rewrite SH; unfold spread; rewrite map_map.
  assert (P : CliModel.product (map (n_labels D) [d; d'; d2]) = flat_map (fun v => flat_map (fun v' => map (fun w => [v; v'; w]) (n_labels D d2)) (n_labels D d')) (n_labels D d)).
  { cbn [map CliModel.product]; apply flat_map_ext; intros v; clear; induction (n_labels D d') as [|y l IH]; [reflexivity|]; cbn [flat_map map app] in IH |- *; rewrite <- IH, map_app; f_equal; clear; induction (n_labels D d2) as [|z r IH]; [reflexivity|]; cbn [flat_map map app] in IH |- *; rewrite <- IH; reflexivity. }
  rewrite P; rewrite (total_sum D _ _ (fun ls => match ls with [v; v'; w] => g v v' w | _ => 0%Qc end)).
  - f_equal; clear; induction (n_labels D d) as [|v l IH]; [reflexivity|]; cbn [flat_map]; rewrite fold_right_app, IH; clear IH.
    match goal with |- _ = sum_over (v :: l) ?f => change (sum_over (v :: l) f) with (f v + sum_over l f)%Qc; cbv beta; generalize (sum_over l f) end; intros s.
    induction (n_labels D d') as [|v' l' IH]; [cbn; ring|]; cbn [flat_map]; rewrite fold_right_app, IH; clear IH.
    match goal with |- _ = (sum_over (v' :: l') ?f + s)%Qc => change (sum_over (v' :: l') f) with (f v' + sum_over l' f)%Qc; cbv beta; generalize (sum_over l' f) end; intros s'.
    unfold sum_over; induction (n_labels D d2) as [|y r IH]; cbn [map fold_right]; [ring|rewrite IH; ring].
  - pose proof (NE d ltac:(cbn; tauto)); pose proof (NE d' ltac:(cbn; tauto)); pose proof (NE d2 ltac:(cbn; tauto)); destruct (n_labels D d), (n_labels D d'), (n_labels D d2); try congruence; discriminate.
  - intros ls IL; apply in_flat_map in IL as (v & IV & IL); apply in_flat_map in IL as (v' & IV' & IL); apply in_map_iff in IL as (w & <- & IW); apply H; assumption.
Qed.
Section Objective.
Variable order : list string -> list string.
Hypothesis OR : lists_set order.
Variable files : list math_file.
Hypothesis IF : In files shipped.
Variable U : world.
Let m := layered files.

Lemma slack_numeric s n c k : slack_known U s -> In c (labels U "carriers") -> In n (labels U "nodes") -> In k (labels U "timesteps") -> numeric U s (bus_at n c k).
Proof. intros (HD & NU) IC IN IK; split; [intros d ID; apply HD in ID; cbn in ID |- *; tauto|apply NU; assumption]. Qed.
Lemma known_dims s d : slack_known U s -> In d ["nodes"; "carriers"; "timesteps"] -> In d (a_dims (n_array (u_env U) s)).
Proof. intros (HD & _) ID; apply HD, ID. Qed.
Lemma none_entry s x : sound (u_env U) -> slack_none U s -> entry_of (u_env U) (EName s) x = Val 0%Qc.
Proof.
  intros SD (DI & V); assert (NU : numeric U s []) by (split; [intros d ID; rewrite DI in ID; destruct ID|exists 0%Qc; apply V]).
  rewrite (numeric_here U s [] x NU); [unfold amount; rewrite V; reflexivity|constructor|intros d v []|exact SD].
Qed.
Lemma fine_is x : sound (u_env U) -> labels U "nodes" <> [] -> labels U "carriers" <> [] -> labels U "timesteps" <> [] -> slack_fits U -> numeric_over U "timestep_weights" "timesteps" [] ->
  numeric U "bigM" [] -> entry_of (u_env U) fine_text x = Val (unmet_total U * amount U "bigM" [])%Qc.
Proof.
  intros SD LN LC LT SL NW NB; pose proof (proj1 NW) as DW.
  assert (FX : fits [] x) by (intros d v []).
  destruct SL as [(K1 & K2)|(K1 & K2)].
  - pose proof (known_dims _ "nodes" K1 ltac:(cbn; tauto)); pose proof (known_dims _ "carriers" K1 ltac:(cbn; tauto)); pose proof (known_dims _ "timesteps" K1 ltac:(cbn; tauto)).
    pose proof (fun c n k => slack_numeric _ n c k K1) as M1; pose proof (fun c n k => slack_numeric _ n c k K2) as M2.
    unfold fine_text, slack_text; eapply chain_one; [|vals SD FX|op].
    eapply sum_on; [reflexivity|has|assumption|intros k IK|reflexivity].
    eapply chain_one; [|eapply numeric_here; [exact (proj2 NW k IK)|apart|fitting FX|exact SD]|op].
    eapply sum_on2; [reflexivity|discriminate|has|has|assumption|assumption|intros c n IC IN|reflexivity].
    eapply chain_one; [eapply numeric_here; [exact (M1 c n k IC IN IK)|apart|fitting FX|exact SD]|eapply numeric_here; [exact (M2 c n k IC IN IK)|apart|fitting FX|exact SD]|op].
  - unfold fine_text; assert (E : unmet_total U = 0%Qc).
    { unfold unmet_total; rewrite (sum_over_ext _ _ (fun _ => 0%Qc)), sum_over_zero; [reflexivity|]; intros k IK.
      rewrite (sum_over_ext _ _ (fun _ => 0%Qc)), sum_over_zero by (intros c IC; rewrite (sum_over_ext _ _ (fun _ => 0%Qc)), sum_over_zero by (intros n IN; unfold amount; rewrite (proj2 K1), (proj2 K2); apply Qcplus_opp_r); reflexivity).
      apply Qcmult_0_l. }
    rewrite E; eapply chain_one; [|vals SD FX|op].
    eapply (sum_on _ _ _ _ _ (fun _ => 0%Qc)); [reflexivity|has|assumption| |apply sum_over_zero].
    intros k IK; replace (Val 0%Qc) with (Val (0 * amount U "timestep_weights" (step_at k))%Qc) by (rewrite Qcmult_0_l; reflexivity).
    eapply chain_one; [|eapply numeric_here; [exact (proj2 NW k IK)|apart|fitting FX|exact SD]|op].
    unfold slack_text; eapply sum_none; [reflexivity| |].
    + intros d ID; cbn [dims_in flat_map app snd]; rewrite (proj1 K1), (proj1 K2); intros [].
    + replace (Val 0%Qc) with (Val (0 - 0)%Qc) by reflexivity; eapply chain_one; [apply none_entry; assumption|apply none_entry; assumption|op].
Qed.
Lemma goal_built s tx co r n t c e q : sited U (cap_at n t c) -> told order m "objectives" co (fe_of tx) (where_of tx) (eqs_of tx) -> find_in (h_objectives m) s = Some co ->
  build_all order m U "objectives" co = Built r -> fe_of tx = [] -> value_of [] None tx ["nodes"; "techs"; "carriers"] 0 = Some e -> (forall x, entry_of (u_env U) e x = Val q) -> r [] = VCell (Val q).
Proof.
  intros SI TO FC HB FE VO EV.
  destruct (rule_built U order m (cap_at n t c) SI [] None ltac:(intros; apply Forall_nil) ltac:(knowns IF) ltac:(no_start) "objectives" tx 0 co r e TO HB VO) as (x & f & _ & _ & FP & R).
  rewrite FE in FP; cbn in FP; destruct FP as [<- |[]]; rewrite R; f_equal; apply EV.
Qed.
Lemma min_cost_is co r n t c : sited U (cap_at n t c) -> labels U "timesteps" <> [] -> labels U "costs" <> [] -> find_in (h_objectives m) "min_cost_optimisation" = Some co -> build_all order m U "objectives" co = Built r ->
  has_dims U "cost" ["nodes"; "techs"; "costs"] -> (forall n t o, In n (labels U "nodes") -> In t (labels U "techs") -> In o (labels U "costs") -> numeric U "cost" (class_at n t o)) ->
  (forall o, In o (labels U "costs") -> numeric U "objective_cost_weights" [("costs", o)]) ->
  slack_fits U -> numeric_over U "timestep_weights" "timesteps" [] -> numeric U "bigM" [] ->
  r [] = VCell (Val (cost_total U + unmet_total U * amount U "bigM" [])%Qc).
Proof.
  intros SI LT LO FC HB HD NC NO SL NW NB; pose proof (proj1 (proj1 SI)) as SD.
  assert (LL : forall d x, In (d, x) (cap_at n t c) -> labels U d <> []) by (intros d x IX E; pose proof (proj2 (proj1 (proj2 (proj2 SI))) d x IX) as (_ & Q); rewrite E in Q; destruct Q).
  pose proof (LL "nodes" n ltac:(cbn; tauto)) as LN; pose proof (LL "techs" t ltac:(cbn; tauto)) as LTE; pose proof (LL "carriers" c ltac:(cbn; tauto)) as LC.
  pose proof (proj2 (HD "nodes") ltac:(cbn; tauto)) as D1; pose proof (proj2 (HD "techs") ltac:(cbn; tauto)) as D2; pose proof (proj2 (HD "costs") ltac:(cbn; tauto)) as D3.
  pose proof (listed_told order OR files "objectives" ["min_cost_optimisation"] goal_texts shipped 15 0 _ co goal_read eq_refl IF eq_refl FC) as TO; set (tx := nth 0 goal_texts no_text) in *.
  eapply (goal_built _ tx co r n t c _ _ SI TO FC HB eq_refl); [vm_compute; reflexivity|]; intros x.
  assert (FX : fits [] x) by (intros d v []).
  match goal with |- entry_of _ (EChain ?a [(OAdd, ?b)]) x = _ => change b with fine_text end.
  eapply chain_one; [|apply fine_is; assumption|op].
  eapply sum_on; [reflexivity|apply in_or_app; left; cbn [dims_in names_of]; apply filter_In; split; [exact D3|reflexivity]|assumption|intros o IO|reflexivity].
  eapply chain_one; [|eapply numeric_here; [exact (NO o IO)|apart|fitting FX|exact SD]|op].
  eapply sum_on2; [reflexivity|discriminate|has|has|assumption|assumption|intros n' t' IN IT'|reflexivity].
  eapply numeric_here; [exact (NC n' t' o IN IT' IO)|apart|fitting FX|exact SD].
Qed.
Lemma min_spores_is co r n t c : In files exploring -> sited U (cap_at n t c) -> labels U "timesteps" <> [] -> find_in (h_objectives m) "min_spores" = Some co -> build_all order m U "objectives" co = Built r ->
  has_dims U "flow_cap" ["nodes"; "techs"; "carriers"] -> (forall n t c, In n (labels U "nodes") -> In t (labels U "techs") -> In c (labels U "carriers") -> numeric U "flow_cap" (cap_at n t c) /\ numeric U "spores_score" (cap_at n t c)) ->
  slack_fits U -> numeric_over U "timestep_weights" "timesteps" [] -> numeric U "bigM" [] ->
  r [] = VCell (Val (score_total U + unmet_total U * amount U "bigM" [])%Qc).
Proof.
  intros IX SI LT FC HB HD NC SL NW NB; pose proof (proj1 (proj1 SI)) as SD.
  assert (LL : forall d x, In (d, x) (cap_at n t c) -> labels U d <> []) by (intros d x IXX E; pose proof (proj2 (proj1 (proj2 (proj2 SI))) d x IXX) as (_ & Q); rewrite E in Q; destruct Q).
  pose proof (LL "nodes" n ltac:(cbn; tauto)) as LN; pose proof (LL "techs" t ltac:(cbn; tauto)) as LTE; pose proof (LL "carriers" c ltac:(cbn; tauto)) as LC.
  pose proof (listed_told order OR files "objectives" ["min_spores"] spores_goal_texts exploring 5 0 _ co spores_goal_read eq_refl IX eq_refl FC) as TO; set (tx := nth 0 spores_goal_texts no_text) in *.
  eapply (goal_built _ tx co r n t c _ _ SI TO FC HB eq_refl); [vm_compute; reflexivity|]; intros x.
  assert (FX : fits [] x) by (intros d v []).
  match goal with |- entry_of _ (EChain ?a [(OAdd, ?b)]) x = _ => change b with fine_text end.
  eapply chain_one; [|apply fine_is; assumption|op].
  eapply sum_three; [reflexivity|repeat constructor; cbn; intuition discriminate| | | |reflexivity].
  - intros y IY; apply in_or_app; left; apply HD, IY.
  - intros y IY; repeat (destruct IY as [<- |IY]; [assumption|]); destruct IY.
  - intros n' t' c' IN IT IC; destruct (NC n' t' c' IN IT IC) as (M1 & M2); eapply chain_one; [eapply numeric_here; [exact M1|apart|fitting FX|exact SD]|eapply numeric_here; [exact M2|apart|fitting FX|exact SD]|op].
Qed.
End Objective.
