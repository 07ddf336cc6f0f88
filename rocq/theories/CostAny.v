(** Lemmas on components whose conditions call helper functions: the cost limit of SPORES, levelised costs. *)
From Coq Require Import QArith Qcanon Lia Permutation.
From Verif Require Import Base BaseProofs LangModel MathText EvalModel EvalSpec BuildModel BuildSpec BuildProofs BuildEqs
  HelperModel HelperSpec HelperProofs ShipModel ShipSpec ShipProofs ShipEntry ShipStorage ShipNumbers NetSpec NetProofs PlaceSpec ShipPlace RuleText RuleProofs CostSpec CostText CostProofs CostTotals CostYear CostGoal CostObj CostPost.
From Verif Require CliModel CliProofs HelperProps.
Local Open Scope nat_scope.
Local Open Scope string_scope.
Local Open Scope list_scope.
Local Arguments String.eqb : simpl never.

(** * Conditions *)
Lemma any_says N U s ds p : weval (world_where N U) (WFun (c_any s ds)) p = match deval (present (u_env U) (u_bool U)) no_mask (c_any s ds) with Some a => is_true (a_at a p) | None => false end.
Proof.
  cbn [weval]; unfold c_any; cbn [aeval top_env e_helper world_where w_helper_top map fst snd]; unfold where_call; cbn [map fst snd deval]; change (ignores "any") with false; cbv iota.
  destruct (call _ _ _ _); reflexivity.
Qed.
Lemma any_true N U s ds p q : sound (u_env U) -> (forall d, In d ds -> In (q d) (labels U d)) -> (forall d, ~ In d ds -> q d = p d) -> u_bool U s = false -> is_number (a_at (n_array (u_env U) s) q) ->
  weval (world_where N U) (WFun (c_any s ds)) p = true.
Proof.
  intros SD H1 H2 B (v & E); rewrite any_says; destruct (HelperProps.C65_any (u_env U) (u_bool U) no_mask s ds p SD) as (r & -> & K).
  rewrite (proj2 K); [reflexivity|]; exists q; split; [intros d ID _; apply H1, ID|split; [exact H2|]]; rewrite B, E; split; [discriminate|intros b; discriminate].
Qed.
Lemma any_false N U s ds p : sound (u_env U) -> u_bool U s = false ->
  (forall q, (forall d, In d ds -> In d (a_dims (n_array (u_env U) s)) -> In (q d) (labels U d)) -> (forall d, ~ In d ds -> q d = p d) -> a_at (n_array (u_env U) s) q = Miss) ->
  weval (world_where N U) (WFun (c_any s ds)) p = false.
Proof.
  intros SD B H; rewrite any_says; destruct (HelperProps.C65_any (u_env U) (u_bool U) no_mask s ds p SD) as (r & -> & K).
  destruct (is_true (a_at r p)) eqn:T; [exfalso|reflexivity]; assert (E : a_at r p = Boo true) by (destruct (a_at r p) as [| | |[|]|]; try discriminate T; reflexivity).
  apply K in E as (q & H1 & H2 & G); rewrite B in G; destruct G as (G & _); apply G, H; [intros d ID DD; apply H1; assumption|exact H2].
Qed.

(** * Entries where the conditions hold *)
Section At.
Variable U : world.
Variable order : list string -> list string.
Variable m : math_file.
Variable l : list (string * string).
Hypothesis SI : sited U l.
Let W := world_where (math_names m) U.
Lemma entry_where group c r fe w qs q : build_all order m U group c = Built r -> told order m group c fe w qs -> NoDup fe -> (forall s, In s fe -> In s (map fst l)) ->
  (forall p, whole U p -> fits l p -> weval W w p = true) -> In q qs -> (forall p, whole U p -> fits l p -> applies W p q = true) ->
  exists f wd v, fits (cut fe l) (at_index fe f) /\ In f (CliModel.product (map (n_labels (u_env U)) fe)) /\ wd f = true /\
    m_at (mask_of fe wd) (at_index fe f) = true /\ evaluate_all U fe q wd = Built v /\ r f = v f.
Proof.
  intros B (FE & PW & PE) ND SUB CW IQ WQ; destruct (site_at U l SI) as (p & WP & FP & MX); pose proof WP as (i & IN & E); subst p; pose proof (subdims_of U l SI fe SUB) as SD; subst fe.
  destruct (build_entries order m U group c r w qs B SD PW PE) as (K & _).
  destruct (K i q) as (wd & v & WD & EV & ER & NF); [split; [exact IN|split; [exact MX|apply (CW _ WP FP)]]|exact IQ|apply WQ; assumption|].
  exists (map (at_index (u_dims U) i) (c_foreach c)), wd, v; split; [apply (cut_fits (c_foreach c) l (at_index (u_dims U) i)); [exact FP|apply at_map, ND]|].
  split; [apply (at_index_in (world_data (math_names m) U)); assumption|split; [exact WD|split; [|auto]]]; apply mask_here; [exact ND|apply map_length|exact WD].
Qed.
Lemma says_where c fe w qs q a o b : holds_in order m U c -> told order m "constraints" c fe w qs -> NoDup fe -> (forall s, In s fe -> In s (map fst l)) ->
  (forall p, whole U p -> fits l p -> weval W w p = true) -> In q qs -> (forall p, whole U p -> fits l p -> applies W p q = true) -> q_expr q = PEq a o b -> plain_side fe q a = true -> plain_side fe q b = true ->
  exists x, fits (cut fe l) x /\ related o (side U q a x) (side U q b x).
Proof.
  intros (r & B & SAT) TO ND SUB CW IQ WQ EQ PA PB.
  destruct (entry_where "constraints" c r fe w qs q B TO ND SUB CW IQ WQ) as (f & wd & v & FX & IF & WD & MA & EV & ER).
  exists (at_index fe f); split; [exact FX|]; destruct (evaluate_sides U fe q wd v f a o b EQ EV WD) as (_ & _ & VF).
  pose proof (proj1 TO) as FE; rewrite FE in SAT; specialize (SAT f IF); rewrite ER, VF in SAT.
  rewrite <- (side_sound U q a fe wd _ PA MA), <- (side_sound U q b fe wd _ PB MA); exact SAT.
Qed.
Lemma value_where group c r fe w qs q e : build_all order m U group c = Built r -> told order m group c fe w qs -> NoDup fe -> (forall s, In s fe -> In s (map fst l)) ->
  (forall p, whole U p -> fits l p -> weval W w p = true) -> In q qs -> (forall p, whole U p -> fits l p -> applies W p q = true) -> q_expr q = PArith e -> plain_side fe q e = true ->
  exists x f, fits (cut fe l) x /\ x = at_index fe f /\ In f (CliModel.product (map (n_labels (u_env U)) fe)) /\ r f = VCell (side U q e x).
Proof.
  intros B TO ND SUB CW IQ WQ EQ PA; destruct (entry_where group c r fe w qs q B TO ND SUB CW IQ WQ) as (f & wd & v & FX & IF & WD & MA & EV & ER).
  destruct (evaluate_value U fe q wd v f e EQ EV) as (_ & VF).
  exists (at_index fe f), f; split; [exact FX|split; [reflexivity|split; [exact IF|]]]; rewrite ER, VF; f_equal; exact (side_sound U q e fe wd _ PA MA).
Qed.
End At.

(** * The cost limit of SPORES *)
Section Slack.
Variable order : list string -> list string.
Hypothesis OR : lists_set order.
Variable files : list math_file.
Hypothesis IX : In files exploring.
Variable U : world.
Let m := layered files.
Variables (n t c : string).
Hypothesis SI : sited U (cap_at n t c).
Hypothesis LT : labels U "timesteps" <> [].
Hypothesis LO : labels U "costs" <> [].
Hypothesis HD : has_dims U "cost" ["nodes"; "techs"; "costs"].
Hypothesis NO : forall o, In o (labels U "costs") -> numeric U "objective_cost_weights" [("costs", o)].
Hypothesis SL : slack_fits U.
Hypothesis NW : numeric_over U "timestep_weights" "timesteps" [].
Hypothesis NB : numeric U "bigM" [].
Hypothesis NQ : numeric U "spores_baseline_cost" [].
Hypothesis NS : numeric U "spores_slack" [].
Hypothesis BO : u_bool U "cost" = false.
Let SD := proj1 (proj1 SI).
Let limit := (amount U "spores_baseline_cost" [] * (1 + amount U "spores_slack" []))%Qc.
Lemma limit_is x : entry_of (u_env U) (EChain (EName "spores_baseline_cost") [(OMul, EChain (ENum false "1") [(OAdd, EName "spores_slack")])]) x = Val limit.
Proof.
  assert (FX : fits [] x) by (intros d v []).
  eapply chain_one; [eapply numeric_here; [exact NQ|exact (NoDup_nil _)|fitting FX|exact SD]|eapply chain_one; [cbn [entry_of]; exact one_number|eapply numeric_here; [exact NS|exact (NoDup_nil _)|fitting FX|exact SD]|op]|op].
Qed.
Lemma costs_is x : (forall n t o, In n (labels U "nodes") -> In t (labels U "techs") -> In o (labels U "costs") -> numeric U "cost" (class_at n t o)) ->
  entry_of (u_env U) (EFun "sum" [EChain (EFun "sum" [EName "cost"] [("over", EList [EName "nodes"; EName "techs"])]) [(OMul, EName "objective_cost_weights")]] [("over", EName "costs")]) x = Val (cost_total U).
Proof.
  intros NC; assert (FX : fits [] x) by (intros d v []).
  assert (LL : forall d x, In (d, x) (cap_at n t c) -> labels U d <> []) by (intros d y IY E; pose proof (proj2 (proj1 (proj2 (proj2 SI))) d y IY) as (_ & Q); rewrite E in Q; destruct Q).
  pose proof (LL "nodes" n ltac:(cbn; tauto)) as LN; pose proof (LL "techs" t ltac:(cbn; tauto)) as LTE.
  pose proof (proj2 (HD "nodes") ltac:(cbn; tauto)) as D1; pose proof (proj2 (HD "techs") ltac:(cbn; tauto)) as D2; pose proof (proj2 (HD "costs") ltac:(cbn; tauto)) as D3.
  eapply sum_on; [reflexivity|apply in_or_app; left; cbn [dims_in names_of]; apply filter_In; split; [exact D3|reflexivity]|assumption|intros o IO|reflexivity].
  eapply chain_one; [|eapply numeric_here; [exact (NO o IO)|apart|fitting FX|exact SD]|op].
  eapply sum_on2; [reflexivity|discriminate|has|has|assumption|assumption|intros n' t' IN IT'|reflexivity].
  eapply numeric_here; [exact (NC n' t' o IN IT' IO)|apart|fitting FX|exact SD].
Qed.
Definition slack_rule : text := nth 0 slack_texts no_text.
Lemma slack_told co : find_in (h_constraints m) "total_system_cost_max" = Some co -> told order m "constraints" co (fe_of slack_rule) (where_of slack_rule) (eqs_of slack_rule).
Proof. intros FC; exact (listed_told order OR files "constraints" ["total_system_cost_max"] slack_texts exploring 5 0 _ co slack_read eq_refl IX eq_refl FC). Qed.
Lemma fined x : entry_of (u_env U) fine_text x = Val (unmet_total U * amount U "bigM" [])%Qc.
Proof.
  assert (LL : forall d x, In (d, x) (cap_at n t c) -> labels U d <> []) by (intros d y IY E; pose proof (proj2 (proj1 (proj2 (proj2 SI))) d y IY) as (_ & Q); rewrite E in Q; destruct Q).
  apply fine_is; try assumption; [apply (LL "nodes" n)|apply (LL "carriers" c)]; cbn; tauto.
Qed.
Lemma related_le a b : related CLe (Val a) (Val b) -> (a <= b)%Qc. Proof. exact (fun H => H). Qed.
Lemma limit_with n' t' o' : In n' (labels U "nodes") -> In t' (labels U "techs") -> In o' (labels U "costs") -> given U "cost" (class_at n' t' o') ->
  (forall n t o, In n (labels U "nodes") -> In t (labels U "techs") -> In o (labels U "costs") -> numeric U "cost" (class_at n t o)) ->
  constraint_holds order m U "total_system_cost_max" -> (cost_total U + unmet_total U * amount U "bigM" [] <= limit)%Qc.
Proof.
  intros IN IT IO GC NC (co & FC & HO).
  assert (Q : exists q a b, nth_error (eqs_of slack_rule) 0 = Some q /\ q_expr q = PEq a CLe b /\ (plain_side [] q a && plain_side [] q b = true)%bool /\ q_where q = [WFun (c_any "cost" ["nodes"; "techs"; "costs"]); WBool true] /\
    plug (arith_of (q_subs q)) a = EChain (EFun "sum" [EChain (EFun "sum" [EName "cost"] [("over", EList [EName "nodes"; EName "techs"])]) [(OMul, EName "objective_cost_weights")]] [("over", EName "costs")]) [(OAdd, fine_text)] /\
    plug (arith_of (q_subs q)) b = EChain (EName "spores_baseline_cost") [(OMul, EChain (ENum false "1") [(OAdd, EName "spores_slack")])]) by (do 3 eexists; vm_compute; repeat split).
  destruct Q as (q & a & b & NE & EQ & PL & QW & PA & PB); apply andb_prop in PL as (P1 & P2).
  destruct (says_where U order m (cap_at n t c) SI co [] (WBool true) (eqs_of slack_rule) q a CLe b HO (slack_told co FC)) as (x & _ & R); try assumption.
  - constructor.
  - intros s [].
  - reflexivity.
  - exact (nth_error_In _ _ NE).
  - intros p WP FP; unfold applies; rewrite QW; cbn [forallb]; rewrite andb_true_r.
    set (at_ := fun d => match d_get d (class_at n' t' o') with Some v => v | None => p d end).
    rewrite (any_true (math_names m) U "cost" ["nodes"; "techs"; "costs"] p at_); [reflexivity|exact SD|..].
    + intros d [<- |[<- |[<- |[]]]]; assumption.
    + intros d ND; unfold at_; destruct (d_get d (class_at n' t' o')) as [v|] eqn:E; [exfalso; apply ND; cbn in E; repeat match type of E with context [String.eqb ?x ?y] => destruct (String.eqb_spec x y); [subst; cbn; tauto|] end; discriminate E|reflexivity].
    + exact BO.
    + destruct GC as (WD & _ & v & E); exists v; rewrite <- E; apply (there_local U); [exact SD|]; intros d ID; apply WD in ID; unfold at_, spot; destruct ID as [<- |[<- |[<- |[]]]]; reflexivity.
  - unfold side in R; rewrite PA, PB, limit_is in R; rewrite (chain_one (u_env U) _ OAdd fine_text x (cost_total U) (unmet_total U * amount U "bigM" [])%Qc _ (costs_is x NC) (fined x) ltac:(op)) in R; exact R.
Qed.
Lemma limit_without : (forall p, a_at (n_array (u_env U) "cost") p = Miss) -> constraint_holds order m U "total_system_cost_max" -> (unmet_total U * amount U "bigM" [] <= limit)%Qc.
Proof.
  intros NC (co & FC & HO).
  assert (Q : exists q a b, nth_error (eqs_of slack_rule) 1 = Some q /\ q_expr q = PEq a CLe b /\ (plain_side [] q a && plain_side [] q b = true)%bool /\ q_where q = [WNot (WFun (c_any "cost" ["nodes"; "techs"; "costs"])); WBool true] /\
    plug (arith_of (q_subs q)) a = fine_text /\
    plug (arith_of (q_subs q)) b = EChain (EName "spores_baseline_cost") [(OMul, EChain (ENum false "1") [(OAdd, EName "spores_slack")])]) by (do 3 eexists; vm_compute; repeat split).
  destruct Q as (q & a & b & NE & EQ & PL & QW & PA & PB); apply andb_prop in PL as (P1 & P2).
  destruct (says_where U order m (cap_at n t c) SI co [] (WBool true) (eqs_of slack_rule) q a CLe b HO (slack_told co FC)) as (x & _ & R); try assumption.
  - constructor.
  - intros s [].
  - reflexivity.
  - exact (nth_error_In _ _ NE).
  - intros p WP FP; unfold applies; rewrite QW; cbn [forallb]; rewrite andb_true_r; change (negb (weval (world_where (math_names m) U) (WFun (c_any "cost" ["nodes"; "techs"; "costs"])) p) = true).
    rewrite any_false; [reflexivity|exact SD|exact BO|intros q' _ _; apply NC].
  - unfold side in R; rewrite PA, PB, limit_is, fined in R; exact R.
Qed.
End Slack.

(** * Levelised costs *)
Section Level.
Variable order : list string -> list string.
Hypothesis OR : lists_set order.
Variable files : list math_file.
Hypothesis IF : In files shipped.
Variable U : world.
Let m := layered files.
Let N := math_names (post_view m).
Definition level_at (t c o : string) : list (string * string) := [("techs", t); ("carriers", c); ("costs", o)].
Lemma level_text : post_text 3 = (["techs"; "carriers"; "costs"], WChain (WCmp (EName "total_generation") CGt (ENum false "0")) [(true, WFun (EFun "any" [EName "cost"] [("over", EName "nodes")]))], eqs_of (post_text 3)).
Proof. reflexivity. Qed.
Lemma level_is n t c o : sited U (class_cap n t c o) -> given U "total_generation" (carrier_of t c) -> (0 < amount U "total_generation" (carrier_of t c))%Qc ->
  given U "cost" (class_at n t o) -> In "nodes" (a_dims (n_array (u_env U) "cost")) -> (forall n, In n (labels U "nodes") -> numeric U "cost" (class_at n t o)) -> post_built order m U "systemwide_levelised_cost" ->
  post_is order m U "systemwide_levelised_cost" (level_at t c o) (sum_over (labels U "nodes") (fun n => amount U "cost" (class_at n t o)) / amount U "total_generation" (carrier_of t c))%Qc.
Proof.
  intros SI GT PT GC DN NC (co & r & FC & HB); exists co, r; split; [exact FC|split; [exact HB|]]; pose proof (proj1 (proj1 SI)) as SD.
  assert (LN : labels U "nodes" <> []) by (apply (site_labels U _ _ SI); cbn; tauto).
  pose proof (post_told order OR files IF 3 _ co eq_refl FC) as TO; rewrite level_text in TO; cbn [fe_of where_of eqs_of fst snd] in TO.
  assert (Q : exists q e, nth_error (eqs_of (post_text 3)) 0 = Some q /\ q_expr q = PArith e /\ plain_side ["techs"; "carriers"; "costs"] q e = true /\ q_where q = [WBool true] /\
    plug (arith_of (q_subs q)) e = EChain (EFun "sum" [EName "cost"] [("over", EName "nodes")]) [(ODiv, EName "total_generation")]) by (do 2 eexists; vm_compute; repeat split).
  destruct Q as (q & e & NE & EQ & PL & QW & PG).
  assert (NDL : NoDup ["techs"; "carriers"; "costs"]) by apart.
  assert (HT : Forall (fun d => In d (map fst (class_cap n t c o))) ["techs"; "carriers"; "costs"]) by (repeat constructor; cbn; tauto).
  destruct (value_where U order (post_view m) (class_cap n t c o) SI "postprocessed" co r _ _ _ q e HB TO NDL (proj1 (Forall_forall _ _) HT)) as (x & f & FX & EX & FP & R); try assumption.
  - intros p WP FP; fold N; change (weval (world_where N U) (WCmp (EName "total_generation") CGt (ENum false "0")) p && weval (world_where N U) (WFun (c_any "cost" ["nodes"])) p = true)%bool; rewrite (any_true N U "cost" ["nodes"] p p); [|exact SD| |reflexivity|exact (proj1 (proj2 GC))|].
    + rewrite andb_true_r; refine (cond3_sound N U [("total_generation", Has (Val (amount U "total_generation" (carrier_of t c))))] p _ _ None ltac:(discriminate) (WCmp (EName "total_generation") CGt (ENum false "0")) true _).
      * apply Forall_cons; [|apply Forall_nil]; eapply fact_has; [exact SD| | |discriminate|exact (proj1 GT)|exact (given_has U _ _ GT)]; [apart|apply (fits_incl _ _ _ FP); inside].
      * unfold N; knowns IF.
      * exact (more_zero _ PT).
    + intros d [<- |[]]; rewrite (FP "nodes" n ltac:(cbn; tauto)); exact (proj2 (proj2 (proj1 (proj2 (proj2 SI))) "nodes" n ltac:(cbn; tauto))).
    + exists (amount U "cost" (class_at n t o)); rewrite <- (given_has U _ _ GC); apply (there_local U); [exact SD|]; intros d ID; apply (proj1 GC) in ID; destruct ID as [<- |[<- |[<- |[]]]]; [apply (FP "nodes" n)|apply (FP "techs" t)|apply (FP "costs" o)]; cbn; tauto.
  - exact (nth_error_In _ _ NE).
  - intros p _ _; unfold applies; rewrite QW; reflexivity.
  - change (cut ["techs"; "carriers"; "costs"] (class_cap n t c o)) with (level_at t c o) in FX; rewrite <- (index_of U (level_at t c o) f); [rewrite R; do 2 f_equal| | |].
    + unfold side; rewrite PG; eapply chain_one; [|eapply numeric_here; [exact (given_numeric _ _ _ GT)|apart|apply (fits_incl _ _ _ FX); inside|exact SD]|apply op_div; intros E; rewrite E in PT; discriminate PT].
      eapply sum_on; [reflexivity|exact DN|exact LN|intros n' IN|reflexivity]; eapply numeric_here; [exact (NC n' IN)|apart|fitting FX|exact SD].
    + apart.
    + exact FP.
    + subst x; exact FX.
Qed.
End Level.
