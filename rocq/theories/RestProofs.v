(** Lemmas on the remaining components of the shipped math: lower limits of capacities, area, and results of whole carriers and technologies. *)
From Coq Require Import QArith Qcanon Lia.
From Verif Require Import Base BaseProofs LangModel MathText EvalModel EvalSpec BuildModel BuildSpec BuildProofs BuildEqs
  HelperModel HelperSpec ShipModel ShipSpec ShipProofs ShipEntry ShipStorage ShipNumbers NetSpec NetProofs PlaceSpec ShipPlace RuleText RuleProofs MilpProofs CostSpec CostText CostProofs CostTotals CostYear CostGoal CostObj CostPost CostAny RestSpec.
From Verif Require CliModel CliProofs.
Local Open Scope nat_scope.
Local Open Scope string_scope.
Local Open Scope list_scope.
Local Arguments String.eqb : simpl never.

Definition area_texts : list text := Eval vm_compute in map or_none (texts_in (layered []) "constraints" ["force_zero_area_use"]).
Lemma area_read : map (fun files => texts_in (layered files) "constraints" ["force_zero_area_use"]) shipped = repeat (map Some area_texts) 15.
Proof. vm_compute; reflexivity. Qed.
Definition area_text : text := nth 0 area_texts no_text.

Section Least.
Variable order : list string -> list string.
Hypothesis OR : lists_set order.
Variable files : list math_file.
Variable U : world.
Variables (n t c : string).
Hypothesis SI : sited U (cap_at n t c).
Let SD := proj1 (proj1 SI).
Section Units.
Hypothesis IM : In files milp_lists.
Let IF := milp_shipped _ IM.
Section Bought.
Hypothesis GP : given U "purchased_units" (asset n t).
Let GN := given_numeric _ _ _ GP.
Lemma store_above_bought : given U "storage_cap_min" (asset n t) -> numeric U "storage_cap" (asset n t) -> constraint_holds order (layered files) U "storage_capacity_minimum" ->
  (amount U "storage_cap_min" (asset n t) * amount U "purchased_units" (asset n t) <= amount U "storage_cap" (asset n t))%Qc.
Proof.
  intros GU NF (co & FC & HO); pose proof (milp_told order OR files 19 _ _ IM eq_refl FC) as TO; pose proof (given_numeric _ _ _ GU) as GN'.
  says SI SD IF [("purchased_units", Given); ("storage_cap_min", Given)] TO HO (milp_text 19) 1 x FX R; exact R.
Qed.
Lemma area_above_bought : given U "area_use_min" (asset n t) -> numeric U "area_use" (asset n t) -> constraint_holds order (layered files) U "area_use_minimum" ->
  (amount U "area_use_min" (asset n t) * amount U "purchased_units" (asset n t) <= amount U "area_use" (asset n t))%Qc.
Proof.
  intros GU NF (co & FC & HO); pose proof (milp_told order OR files 20 _ _ IM eq_refl FC) as TO; pose proof (given_numeric _ _ _ GU) as GN'.
  says SI SD IF [("purchased_units", Given); ("area_use_min", Given)] TO HO (milp_text 20) 1 x FX R; exact R.
Qed.
Lemma source_above_bought : reads_as U "base_tech" (tech_at t) (Txt "supply") -> given U "source_cap_min" (asset n t) -> numeric U "source_cap" (asset n t) -> constraint_holds order (layered files) U "source_capacity_minimum" ->
  (amount U "source_cap_min" (asset n t) * amount U "purchased_units" (asset n t) <= amount U "source_cap" (asset n t))%Qc.
Proof.
  intros BT GU NF (co & FC & HO); pose proof (milp_told order OR files 21 _ _ IM eq_refl FC) as TO; pose proof (given_numeric _ _ _ GU) as GN'.
  says SI SD IF [("purchased_units", Given); ("source_cap_min", Given); ("base_tech", Is (Txt "supply"))] TO HO (milp_text 21) 1 x FX R; exact R.
Qed.
End Bought.
Section Free.
Hypothesis AP : absent U "purchased_units" (asset n t).
Lemma store_above : given U "storage_cap_min" (asset n t) -> numeric U "storage_cap" (asset n t) -> constraint_holds order (layered files) U "storage_capacity_minimum" ->
  (amount U "storage_cap_min" (asset n t) <= amount U "storage_cap" (asset n t))%Qc.
Proof.
  intros GU NF (co & FC & HO); pose proof (milp_told order OR files 19 _ _ IM eq_refl FC) as TO; pose proof (given_numeric _ _ _ GU) as GN'.
  says SI SD IF [("purchased_units", Absent); ("storage_cap_min", Given)] TO HO (milp_text 19) 0 x FX R; exact R.
Qed.
Lemma area_above : given U "area_use_min" (asset n t) -> numeric U "area_use" (asset n t) -> constraint_holds order (layered files) U "area_use_minimum" ->
  (amount U "area_use_min" (asset n t) <= amount U "area_use" (asset n t))%Qc.
Proof.
  intros GU NF (co & FC & HO); pose proof (milp_told order OR files 20 _ _ IM eq_refl FC) as TO; pose proof (given_numeric _ _ _ GU) as GN'.
  says SI SD IF [("purchased_units", Absent); ("area_use_min", Given)] TO HO (milp_text 20) 0 x FX R; exact R.
Qed.
Lemma source_above : reads_as U "base_tech" (tech_at t) (Txt "supply") -> given U "source_cap_min" (asset n t) -> numeric U "source_cap" (asset n t) -> constraint_holds order (layered files) U "source_capacity_minimum" ->
  (amount U "source_cap_min" (asset n t) <= amount U "source_cap" (asset n t))%Qc.
Proof.
  intros BT GU NF (co & FC & HO); pose proof (milp_told order OR files 21 _ _ IM eq_refl FC) as TO; pose proof (given_numeric _ _ _ GU) as GN'.
  says SI SD IF [("purchased_units", Absent); ("source_cap_min", Given); ("base_tech", Is (Txt "supply"))] TO HO (milp_text 21) 0 x FX R; exact R.
Qed.
End Free.
End Units.
(** No area without capacity. *)
Hypothesis IF : In files shipped.
Lemma area_none : given U "area_use" (asset n t) -> given U "flow_cap_max" (cap_at n t c) -> amount U "flow_cap_max" (cap_at n t c) = 0%Qc -> constraint_holds order (layered files) U "force_zero_area_use" ->
  amount U "area_use" (asset n t) = 0%Qc.
Proof.
  intros GA GM EZ (co & FC & HO); pose proof (listed_told order OR files "constraints" ["force_zero_area_use"] area_texts shipped 15 0 _ co area_read eq_refl IF eq_refl FC) as TO.
  pose proof (given_has U _ _ GM) as HM; rewrite EZ in HM; pose proof (given_numeric _ _ _ GA) as GN.
  assert (FI : forall p, fits (cap_at n t c) p -> Forall (fact_in U p) [("area_use", Given); ("flow_cap_max", Has (Val 0%Qc))]).
  { intros p FP; apply Forall_cons; [refine (fact_given U (asset n t) p _ SD _ _ GA); [apart|apply (fits_incl _ _ _ FP); inside]|]; apply Forall_cons; [|apply Forall_nil].
    refine (fact_has U (cap_at n t c) p _ _ SD _ FP _ (proj1 GM) HM); [apart|discriminate]. }
  assert (FK : Forall (fact_known (math_names (layered files))) [("area_use", Given); ("flow_cap_max", Has (Val 0%Qc))]) by knowns IF.
  destruct (rule_says U order (layered files) (cap_at n t c) SI _ None FI FK ltac:(no_start) area_text 0 co (EName "area_use") CEq (ENum false "0") TO HO) as (x & FX & R).
  - vm_compute; reflexivity.
  - place_of FX; numbers SD FX R; exact R.
Qed.
End Least.

Section Results.
Variable order : list string -> list string.
Hypothesis OR : lists_set order.
Variable files : list math_file.
Hypothesis IF : In files shipped.
Variable U : world.
Let m := layered files.
Let N := math_names (post_view m).

(** * Conditions on the configuration and on sums *)
Lemma config_says s b p : n_config (u_env U) s = Boo b -> weval (world_where N U) (WCmp (EConf s) CEq (EBool b)) p = true.
Proof. intros E; change (same (n_config (u_env U) s) (Boo b) = true); rewrite E; destruct b; reflexivity. Qed.
Lemma sum_says s d p q : entry_of (u_env U) (EFun "sum" [EName s] [("over", EName d)]) p = Val q -> (0 < q)%Qc ->
  weval (world_where N U) (WCmp (EFun "sum" [EName s] [("over", EName d)]) CGt (ENum false "0")) p = true.
Proof.
  intros E PQ; change (EvalModel.compare (world_where N U) CGt (where_call (u_env U) "sum" [(EName s, aeval (cmp_env (world_where N U)) EvalModel.everywhere (EName s))] [("over", (EName d, aeval (cmp_env (world_where N U)) EvalModel.everywhere (EName d)))] p) (number_cell false "0") = true).
  destruct (entry_sound (u_env U) [] (fun _ => true) (EFun "sum" [EName s] [("over", EName d)]) eq_refl) as (a & DA & _ & _ & AT).
  assert (W : where_call (u_env U) "sum" [(EName s, aeval (cmp_env (world_where N U)) EvalModel.everywhere (EName s))] [("over", (EName d, aeval (cmp_env (world_where N U)) EvalModel.everywhere (EName d)))] = a_at a).
  { unfold where_call; change (deval (u_env U) (mask_of [] (fun _ => true)) (EFun "sum" [EName s] [("over", EName d)]) = Some a) in DA.
    cbn [map fst snd]; change (call (u_env U) "sum" [(EName s, deval (u_env U) (mask_of [] (fun _ => true)) (EName s))] [("over", (EName d, deval (u_env U) (mask_of [] (fun _ => true)) (EName d)))]) with (deval (u_env U) (mask_of [] (fun _ => true)) (EFun "sum" [EName s] [("over", EName d)])).
    transitivity (match deval (u_env U) (mask_of [] (fun _ => true)) (EFun "sum" [EName s] [("over", EName d)]) with Some a => a_at a | None => const Miss end); [reflexivity|rewrite DA; reflexivity]. }
  rewrite W, (AT p eq_refl), E, zero_number; cbn [EvalModel.compare]; unfold less; rewrite (proj1 (Qclt_alt 0 q) PQ); reflexivity.
Qed.

(** * Unmet demand *)
Lemma unmet_is n t c k : sited U (flow_at n t c k) -> n_config (u_env U) "ensure_feasibility" = Boo true -> numeric U "unmet_demand" (bus_at n c k) -> numeric U "unused_supply" (bus_at n c k) -> post_built order m U "unmet_sum" ->
  post_is order m U "unmet_sum" (bus_at n c k) (amount U "unmet_demand" (bus_at n c k) + amount U "unused_supply" (bus_at n c k))%Qc.
Proof.
  intros SI CF N1 N2 (co & r & FC & HB); exists co, r; split; [exact FC|split; [exact HB|]]; pose proof (proj1 (proj1 SI)) as SD.
  pose proof (post_told order OR files IF 5 _ co eq_refl FC) as TO; change (where_of (post_text 5)) with (WCmp (EConf "ensure_feasibility") CEq (EBool true)) in TO; change (fe_of (post_text 5)) with ["nodes"; "carriers"; "timesteps"] in TO.
  assert (Q : exists q e, nth_error (eqs_of (post_text 5)) 0 = Some q /\ q_expr q = PArith e /\ plain_side ["nodes"; "carriers"; "timesteps"] q e = true /\ q_where q = [WBool true] /\
    plug (arith_of (q_subs q)) e = EChain (EName "unmet_demand") [(OAdd, EName "unused_supply")]) by (do 2 eexists; vm_compute; repeat split).
  destruct Q as (q & e & NE & EQ & PL & QW & PG).
  assert (NDL : NoDup ["nodes"; "carriers"; "timesteps"]) by apart.
  assert (HT : Forall (fun d => In d (map fst (flow_at n t c k))) ["nodes"; "carriers"; "timesteps"]) by (repeat constructor; cbn; tauto).
  destruct (value_where U order (post_view m) (flow_at n t c k) SI "postprocessed" co r _ _ _ q e HB TO NDL (proj1 (Forall_forall _ _) HT)) as (x & f & FX & EX & FP & R); try assumption.
  - intros p _ _; apply config_says, CF.
  - exact (nth_error_In _ _ NE).
  - intros p _ _; unfold applies; rewrite QW; reflexivity.
  - change (cut ["nodes"; "carriers"; "timesteps"] (flow_at n t c k)) with (bus_at n c k) in FX; rewrite <- (index_of U (bus_at n c k) f); [rewrite R; do 2 f_equal| | |].
    + unfold side; rewrite PG; eapply chain_one; [eapply numeric_here; [exact N1|apart|exact FX|exact SD]|eapply numeric_here; [exact N2|apart|exact FX|exact SD]|op].
    + apart.
    + exact FP.
    + subst x; exact FX.
Qed.

(** * Levelised costs of a carrier *)
Lemma paid_is n t c o : sited U (class_cap n t c o) -> In "techs" (a_dims (n_array (u_env U) "total_generation")) -> (forall t, In t (labels U "techs") -> numeric U "total_generation" (carrier_of t c)) ->
  (0 < sum_over (labels U "techs") (fun t => amount U "total_generation" (carrier_of t c)))%Qc ->
  In "nodes" (a_dims (n_array (u_env U) "cost")) -> In "techs" (a_dims (n_array (u_env U) "cost")) -> (forall n t, In n (labels U "nodes") -> In t (labels U "techs") -> numeric U "cost" (class_at n t o)) -> post_built order m U "total_levelised_cost" ->
  post_is order m U "total_levelised_cost" (paid_for c o)
    (sum_over (labels U "nodes") (fun n => sum_over (labels U "techs") (fun t => amount U "cost" (class_at n t o))) / sum_over (labels U "techs") (fun t => amount U "total_generation" (carrier_of t c)))%Qc.
Proof.
  intros SI DT NG PG DN DT' NC (co & r & FC & HB); exists co, r; split; [exact FC|split; [exact HB|]]; pose proof (proj1 (proj1 SI)) as SD.
  assert (LN : labels U "nodes" <> []) by (apply (site_labels U _ _ SI); cbn; tauto); assert (LT : labels U "techs" <> []) by (apply (site_labels U _ _ SI); cbn; tauto).
  assert (GS : forall x, x "carriers" = c -> entry_of (u_env U) (EFun "sum" [EName "total_generation"] [("over", EName "techs")]) x = Val (sum_over (labels U "techs") (fun t => amount U "total_generation" (carrier_of t c)))).
  { intros x EC; assert (FX : fits [("carriers", c)] x) by (intros d v [E|[]]; injection E as <- <-; exact EC).
    eapply sum_on; [reflexivity|exact DT|exact LT|intros t' IT|reflexivity]; eapply numeric_here; [exact (NG t' IT)|apart|fitting FX|exact SD]. }
  pose proof (post_told order OR files IF 4 _ co eq_refl FC) as TO; change (where_of (post_text 4)) with (WCmp (EFun "sum" [EName "total_generation"] [("over", EName "techs")]) CGt (ENum false "0")) in TO; change (fe_of (post_text 4)) with ["carriers"; "costs"] in TO.
  assert (Q : exists q e, nth_error (eqs_of (post_text 4)) 0 = Some q /\ q_expr q = PArith e /\ plain_side ["carriers"; "costs"] q e = true /\ q_where q = [WBool true] /\
    plug (arith_of (q_subs q)) e = EChain (EFun "sum" [EName "cost"] [("over", EList [EName "nodes"; EName "techs"])]) [(ODiv, EFun "sum" [EName "total_generation"] [("over", EName "techs")])]) by (do 2 eexists; vm_compute; repeat split).
  destruct Q as (q & e & NE & EQ & PL & QW & PT).
  assert (NDL : NoDup ["carriers"; "costs"]) by apart.
  assert (HT : Forall (fun d => In d (map fst (class_cap n t c o))) ["carriers"; "costs"]) by (repeat constructor; cbn; tauto).
  destruct (value_where U order (post_view m) (class_cap n t c o) SI "postprocessed" co r _ _ _ q e HB TO NDL (proj1 (Forall_forall _ _) HT)) as (x & f & FX & EX & FP & R); try assumption.
  - intros p _ FP; refine (sum_says "total_generation" "techs" p _ (GS p _) PG); apply (FP "carriers" c); cbn; tauto.
  - exact (nth_error_In _ _ NE).
  - intros p _ _; unfold applies; rewrite QW; reflexivity.
  - change (cut ["carriers"; "costs"] (class_cap n t c o)) with (paid_for c o) in FX; rewrite <- (index_of U (paid_for c o) f); [rewrite R; do 2 f_equal| | |].
    + unfold side; rewrite PT; eapply chain_one; [|apply GS, (FX "carriers" c); cbn; tauto|apply op_div; intros E; rewrite E in PG; discriminate PG].
      eapply sum_on2; [reflexivity|discriminate|exact DN|exact DT'|exact LN|exact LT|intros n' t' IN IT'|reflexivity]; eapply numeric_here; [exact (NC n' t' IN IT')|apart|fitting FX|exact SD].
    + apart.
    + exact FP.
    + subst x; exact FX.
Qed.

(** * Curtailment over all timesteps *)
Definition curbed (f : string) (q : Qc) : list (string * fact) := [("base_tech", Is (Txt "supply")); ("source_use_max", Given); ("source_cap", Has (Val q)); ("source_unit", Is (Txt f))].
Lemma curbed_shown f q : In f ["per_area"; "per_cap"; "absolute"] -> (0 < q)%Qc -> value_of (curbed f q) None (post_text 7) plant_keys (unit_rule f) = Some (post_expr 7 (unit_rule f) (curbed f 1)).
Proof.
  intros IN PQ; pose proof (more_zero q PQ) as M1.
  repeat (destruct IN as [<- |IN]; [match goal with |- _ = Some (post_expr ?i ?j ?F) => let b := eval vm_compute in (post_expr i j F) in change (post_expr i j F) with b end; match goal with |- value_of ?F None ?t ?k ?j = _ => let t' := eval vm_compute in t in change t with t' end; cbv -[more number_cell]; rewrite ?M1; reflexivity|]); destruct IN.
Qed.
(** The maximum, added up if it depends on the timestep. *)
Lemma curbed_is n t c k f top : sited U (flow_at n t c k) -> reads_as U "base_tech" (tech_at t) (Txt "supply") -> given U "source_use_max" (use_at n t k) ->
  given U "source_cap" (asset n t) -> (0 < amount U "source_cap" (asset n t))%Qc -> per_unit U "source_unit" n t f \/ per_capacity U "source_unit" n t f ->
  over_time U "source_use" n t ->
  over_time U "source_use_max" n t /\ top = sum_over (labels U "timesteps") (fun k => amount U "source_use_max" (use_at n t k) * f)%Qc \/
  within_dims U "source_use_max" ["nodes"; "techs"] /\ within_dims U "area_use" ["nodes"; "techs"] /\ within_dims U "flow_cap" ["nodes"; "techs"; "carriers"] /\ top = (amount U "source_use_max" (asset n t) * f)%Qc ->
  top <> 0%Qc -> post_built order m U "total_curtailment" ->
  post_is order m U "total_curtailment" (asset n t) (1 - sum_over (labels U "timesteps") (fun k => amount U "source_use" (use_at n t k)) / top)%Qc.
Proof.
  intros SI BT GM GC PC PF NU TP TZ (co & r & FC & HB); pose proof (proj1 (proj1 SI)) as SD; pose proof (given_has U _ _ GC) as HC; pose proof (given_has U _ _ GM) as HM; pose proof (given_numeric _ _ _ GM) as NM.
  assert (LC : labels U "carriers" <> []) by (apply (site_labels U _ _ SI); cbn; tauto); assert (LT : labels U "timesteps" <> []) by (apply (site_labels U _ _ SI); cbn; tauto).
  assert (FI : forall u, reads_as U "source_unit" (asset n t) (Txt u) -> forall p, fits (flow_at n t c k) p -> Forall (fact_in U p) (curbed u (amount U "source_cap" (asset n t)))).
  { intros u RU p FP; apply Forall_cons; [eapply fact_is; [exact SD| | |exact BT]; [apart|apply (fits_incl _ _ _ FP); inside]|].
    apply Forall_cons; [refine (fact_given U (use_at n t k) p _ SD _ _ GM); [apart|apply (fits_incl _ _ _ FP); inside]|].
    apply Forall_cons; [eapply fact_has; [exact SD| | |discriminate|exact (proj1 GC)|exact HC]; [apart|apply (fits_incl _ _ _ FP); inside]|].
    apply Forall_cons; [eapply fact_is; [exact SD| | |exact RU]; [apart|apply (fits_incl _ _ _ FP); inside]|apply Forall_nil]. }
  assert (FK : forall u q, Forall (fact_known (math_names (post_view m))) (curbed u q)) by (intros u q; unfold curbed; knowns IF).
  set (goal := (1 - sum_over (labels U "timesteps") (fun k => amount U "source_use" (use_at n t k)) / top)%Qc).
  assert (GO : forall u, In u ["per_area"; "per_cap"; "absolute"] -> reads_as U "source_unit" (asset n t) (Txt u) ->
    (forall x, fits (asset n t) x -> entry_of (u_env U) (post_expr 7 (unit_rule u) (curbed u 1)) x = Val goal) ->
    post_is order m U "total_curtailment" (asset n t) goal).
  { intros u IU RU EV; exact (post_value order OR files IF U (flow_at n t c k) (asset n t) _ 7 (unit_rule u) _ co r _ _ SI (FI u RU) (FK u _) eq_refl FC HB (curbed_shown u _ IU PC) eq_refl eq_refl EV). }
  assert (MAX : forall e x, fits (asset n t) x -> (forall x, fits (asset n t) x -> entry_of (u_env U) e x = Val f) -> (within_dims U "area_use" ["nodes"; "techs"] -> within_dims U "flow_cap" ["nodes"; "techs"; "carriers"] -> ~ In "timesteps" (dims_in (u_env U) e)) ->
    entry_of (u_env U) (EChain (ENum false "1") [(OSub, EChain (EFun "sum" [EName "source_use"] [("over", EName "timesteps")]) [(ODiv, EFun "sum" [EChain (EName "source_use_max") [(OMul, e)]] [("over", EName "timesteps")])])]) x = Val goal).
  { intros e x FX EF ND; unfold goal; eapply chain_one; [cbn [entry_of]; exact one_number| |op]; eapply chain_one; [| |apply op_div, TZ].
    - eapply sum_on; [reflexivity|exact (proj1 NU)|exact LT|intros k' IK|reflexivity]; eapply numeric_here; [exact (proj2 NU k' IK)|apart|fitting FX|exact SD].
    - assert (PUT : forall k', fits (asset n t) (put x "timesteps" k')) by (intros k' d v IN; unfold put; destruct (String.eqb_spec d "timesteps") as [-> |_]; [cbn in IN; destruct IN as [E|[E|[]]]; discriminate E|apply FX, IN]).
      destruct TP as [((DM & NX) & ->)|(WD & WA & WF & ->)].
      + eapply sum_on; [reflexivity|cbn [dims_in]; apply in_or_app; left; exact DM|exact LT|intros k' IK|reflexivity].
        eapply chain_one; [eapply numeric_here; [exact (NX k' IK)|apart|fitting FX|exact SD]|exact (EF _ (PUT k'))|op].
      + eapply sum_none; [reflexivity| |].
        * intros d [<- |[]] ID; cbn [dims_in flat_map] in ID; apply in_app_or in ID as [ID|ID]; [apply WD in ID; cbn in ID; destruct ID as [E|[E|[]]]; discriminate E|].
          cbn [map snd] in ID; rewrite app_nil_r in ID; exact (ND WA WF ID).
        * eapply chain_one; [|exact (EF x FX)|op]; eapply (numeric_here U "source_use_max" (asset n t)); [|apart|exact FX|exact SD].
          split; [exact WD|]; destruct NM as (_ & q & E); exists q; rewrite <- E; symmetry; unfold value_at; f_equal; apply (there_local U); [exact SD|]; intros d ID; apply WD in ID; destruct ID as [<- |[<- |[]]]; reflexivity. }
  destruct PF as [[(RU & ->)|(RU & NA & ->)]|(RU & NC & ->)].
  - apply (GO "absolute" ltac:(cbn; tauto) RU); intros x FX; apply (MAX (ENum false "1") x FX); [intros y _; exact one_number|intros _ _ []].
  - apply (GO "per_area" ltac:(cbn; tauto) RU); intros x FX; apply (MAX (EName "area_use") x FX); [intros y FY; eapply numeric_here; [exact NA|apart|exact FY|exact SD]|intros WA _ ID; apply WA in ID; cbn in ID; destruct ID as [E|[E|[]]]; discriminate E].
  - apply (GO "per_cap" ltac:(cbn; tauto) RU); intros x FX; apply (MAX (EFun "sum" [EName "flow_cap"] [("over", EName "carriers")]) x FX).
    + intros y FY; eapply sum_on; [reflexivity|exact (proj1 NC)|exact LC|intros c' IC|reflexivity]; eapply numeric_here; [exact (proj2 NC c' IC)|apart|fitting FY|exact SD].
    + intros _ WF ID; cbn [dims_in] in ID; apply filter_In in ID as (ID & _); apply WF in ID; cbn in ID; destruct ID as [E|[E|[E|[]]]]; discriminate E.
Qed.
End Results.
