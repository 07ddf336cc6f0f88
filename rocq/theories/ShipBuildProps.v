(** Properties of the math that comes with the package. *)
From Coq Require Import QArith Qcanon Lia Permutation.
From Verif Require Import Base BaseProofs LangModel MathText EvalModel EvalSpec BuildModel BuildSpec BuildProofs BuildEqs BuildProps
  HelperModel HelperSpec ShipModel ShipSpec ShipProofs ShipExcl ShipExample.
From Verif Require CliModel CliProofs.
Local Open Scope nat_scope.
Local Open Scope string_scope.
Local Open Scope list_scope.
Local Arguments String.eqb : simpl never.

(** * C69: the shipped math can be built *)

(** Every condition and expression text of the shipped math is accepted, in whatever order sets are
    listed, and whatever an equation refers to is there. *)
Lemma shipped_refs : forallb (fun files => let m := layered files in forallb (fun gc => refs_ok m (fst gc) (snd gc)) (equations_of m)) shipped = true.
Proof. vm_compute; reflexivity. Qed.
Theorem C69_accepted files order group c :
  In files shipped -> lists_set order -> In (group, c) (equations_of (layered files)) ->
  (exists w, parse_where_text (math_names (layered files)) (MathText.c_where c) = Some w) /\
  exists qs, parse_equations order (math_names (layered files)) (math_valid (layered files)) group c = Done qs /\
    forall q, In q qs -> keys_given q = true.
Proof.
  intros IF OR IC; pose proof shipped_refs as R; rewrite forallb_forall in R; specialize (R files IF); cbv zeta in R; rewrite forallb_forall in R; specialize (R (group, c) IC); cbn [fst snd] in R.
  split.
  - unfold refs_ok in R; destruct (expression_list _ _ _ _); [|discriminate]; destruct (expression_dict _ (arith_parser _ false) _); [|discriminate]; destruct (expression_dict _ (slice_parser _) _); [|discriminate].
    destruct (parse_where_text _ _) as [w|]; [eauto|discriminate].
  - destruct (refs_accepted _ _ _ order OR R) as (qs & PE); exists qs; split; [exact PE|exact (refs_given _ _ _ order qs OR R PE)].
Qed.
Print Assumptions C69_accepted.

Definition interest_clauses : list clause :=
  [[(WCmp (EName "cost_interest_rate") CEq (ENum false "0"), true); (WCmp (EName "cost_interest_rate") CGt (ENum false "0"), true)];
   [(WName "cost_interest_rate", false); (WCmp (EName "cost_interest_rate") CGt (ENum false "0"), true)]].
Definition unit_clauses : list clause := [[(WName "flow_cap_per_unit", true); (WName "available_flow_cap", true)]].
Definition clauses_of (name : string) : list clause :=
  if String.eqb name "cost_investment_annualised" then interest_clauses else if String.eqb name "flow_out_min_milp" then unit_clauses else [].
Definition roles_known (m : math_file) : bool :=
  let N := math_names m in
  negb (smem "cost_interest_rate" (LangModel.n_dims N)) && smem "cost_interest_rate" (n_inputs N) &&
  (negb (existsb (fun gc => String.eqb (c_name (snd gc)) "flow_out_min_milp") (equations_of m)) || (smem "flow_cap_per_unit" (n_inputs N) && negb (smem "available_flow_cap" (n_inputs N)))).
Lemma shipped_excl : forallb (fun files => let m := layered files in roles_known m && forallb (fun gc => component_check (clauses_of (c_name (snd gc))) m (snd gc)) (equations_of m)) shipped = true.
Proof. vm_compute; reflexivity. Qed.
Lemma compare_pos N U s p : smem s (LangModel.n_dims N) = false -> smem s (n_inputs N) = true ->
  aeval (cmp_env (world_where N U)) everywhere (EName s) p = fill (n_default (u_env U) s) (a_at (n_array (u_env U) s) p).
Proof. intros H1 H2; cbn [aeval cmp_env e_array e_default world_where w_dims w_inputs w_input w_default]; rewrite H1, H2; reflexivity. Qed.

(** No entry of a component of the shipped math gets two equations, if the conditions depend on the
    dimensions of the component only.  The annualised costs and the minimum outflow of
    technologies with units each need a fact about the data. *)
Theorem C69_no_overlap files order U group c :
  In files shipped -> In (group, c) (equations_of (layered files)) -> conditions_over (layered files) U c ->
  (c_name c = "cost_investment_annualised" -> plain_rates U) -> (c_name c = "flow_out_min_milp" -> units_apart U) ->
  forall name, build_all order (layered files) U group c <> Broken (TBuild (FOverlap name)).
Proof.
  intros IF IC CO HR HU; pose proof shipped_excl as R; rewrite forallb_forall in R; specialize (R files IF); cbv zeta in R; apply andb_true_iff in R as (RK & R).
  rewrite forallb_forall in R; specialize (R (group, c) IC); cbn [fst snd] in R; refine (no_overlap _ _ order U group c R CO _).
  unfold roles_known in RK; rewrite !andb_true_iff, negb_true_iff in RK; destruct RK as ((K1 & K2) & K3).
  assert (ZERO : number_cell false "0" = Val 0%Qc) by (vm_compute; reflexivity).
  intros p k WP; unfold clauses_of; destruct (String.eqb (c_name c) "cost_investment_annualised") eqn:E1; [|destruct (String.eqb (c_name c) "flow_out_min_milp") eqn:E2; [|intros []]].
  - apply String.eqb_eq in E1; destruct (HR E1) as (B & DF & PR); specialize (PR p WP).
    assert (GT : forall b, weval (world_where (math_names (layered files)) U) (WCmp (EName "cost_interest_rate") CGt (ENum false "0")) p = b ->
      less (world_where (math_names (layered files)) U) (Val 0%Qc) (fill (Val 0%Qc) (a_at (n_array (u_env U) "cost_interest_rate") p)) = b).
    { intros b <-; cbn [weval compare]; rewrite compare_pos by assumption; rewrite DF; cbn [aeval]; unfold const; rewrite ZERO; reflexivity. }
    intros [<- |[<- |[]]]; match goal with |- exists l, In l [?a; ?b] /\ _ => destruct (bool_dec (weval (world_where (math_names (layered files)) U) (fst b) p) (snd b)) as [E|E]; [exists a|exists b; split; [right; left; reflexivity|exact E]] end;
      cbn [fst snd] in *; apply GT in E; (split; [left; reflexivity|]); cbn [fst snd].
    + cbn [weval compare]; rewrite compare_pos by assumption; rewrite DF; cbn [aeval]; unfold const; rewrite ZERO.
      destruct (a_at (n_array (u_env U) "cost_interest_rate") p) as [|q| | |] eqn:EA; try contradiction; cbn [fill missing] in *; unfold less in E; [discriminate|].
      unfold same; destruct (Qc_eq_dec q 0); [subst; discriminate|discriminate].
    + cbn [weval]; unfold defined_at; cbn [world_where w_inputs w_input w_bool]; rewrite K2, B.
      destruct (a_at (n_array (u_env U) "cost_interest_rate") p) as [|q| | |] eqn:EA; try contradiction; cbn [missing is_inf negb andb]; [|discriminate].
      cbn [fill missing less] in E; discriminate.
  - apply String.eqb_eq in E2; destruct (HU E2) as (B & AP); specialize (AP p WP); intros [<- |[]].
    apply orb_true_iff in K3 as [K3|K3].
    { apply negb_true_iff in K3; rewrite existsb_false in K3; specialize (K3 (group, c) IC); cbn [snd] in K3; rewrite E2 in K3; discriminate. }
    apply andb_true_iff in K3 as (K3 & K4); apply negb_true_iff in K4.
    destruct AP as [A|[A|A]]; [eexists; split; [left; reflexivity|]|eexists; split; [left; reflexivity|]|eexists; split; [right; left; reflexivity|]]; cbn [fst snd weval]; unfold defined_at; cbn [world_where w_inputs w_input w_bool w_result]; rewrite ?K3, ?K4, ?B, A; cbn; try discriminate.
    rewrite andb_false_r; discriminate.
Qed.
Print Assumptions C69_no_overlap.

(** So only the inputs can make the building of a component fail. *)
Theorem C69_troubles files order U group c t :
  In files shipped -> lists_set order -> In (group, c) (equations_of (layered files)) -> conditions_over (layered files) U c ->
  (c_name c = "cost_investment_annualised" -> plain_rates U) -> (c_name c = "flow_out_min_milp" -> units_apart U) ->
  build_all order (layered files) U group c = Broken t -> input_trouble t.
Proof.
  intros IF OR IC CO HR HU B; pose proof (C69_no_overlap files order U group c IF IC CO HR HU) as NO.
  destruct (C69_accepted files order group c IF OR IC) as ((w & PW) & qs & PE & KG); unfold build_all in *; set (N := math_names (layered files)) in *.
  destruct (top_level_where_spec (world_data N U) N c w PW) as (top & TL & _); rewrite TL in *; cbn [lift then_] in *.
  destruct (existsb top _); [|discriminate]; rewrite PE in *; cbn [lift then_] in *.
  revert B NO KG; generalize (fun _ : index => VCell Miss); clear; induction qs as [|q qs IH]; intros da B NO KG; cbn [add_ones] in *; [discriminate|].
  destruct (add_one N U (c_foreach c) top da q) as [d1|u] eqn:AE; cbn [then_] in *; [apply (IH d1 B NO); intros q' IQ; apply KG; right; exact IQ|].
  injection B as ->; clear IH; unfold add_one in AE; destruct (any_full _ _); [|discriminate]; rewrite (KG q (or_introl eq_refl)) in AE.
  match type of AE with context [existsb ?a ?b] => destruct (existsb a b) end; [injection AE as <-; exfalso; eapply NO; reflexivity|].
  unfold evaluate_all in AE; destruct (q_expr q).
  - destruct (deval _ _ _) as [x|]; [|injection AE as <-; exact I]; destruct (all_in _ _); [|injection AE as <-; exact I]; cbn [then_] in AE; match type of AE with context [existsb ?a ?b] => destruct (existsb a b) end; [injection AE as <-; exact I|discriminate].
  - destruct (deval _ _ l) as [x|]; [|injection AE as <-; exact I]; destruct (deval _ _ r) as [y|]; [|injection AE as <-; exact I]; destruct (_ && _); [|injection AE as <-; exact I]; cbn [then_] in AE;
      match type of AE with context [existsb ?a ?b] => destruct (existsb a b) end; [injection AE as <-; exact I|discriminate].
Qed.
Print Assumptions C69_troubles.

(** * C50: one definition of the previous storage level *)
Lemma shipped_previous : forallb (fun files => let m := layered files in
  forallb (fun c => negb (d_mem "storage_previous_step" (c_subs c)) || (exact_component m c && existsb (fun gc => String.eqb (fst gc) "constraints" && String.eqb (c_name (snd gc)) (c_name c)) (equations_of m)))
    (h_constraints m)) shipped = true.
Proof. vm_compute; reflexivity. Qed.
(** Whatever the inputs are: at every position exactly one alternative of the level stored in the
    previous step holds, in all formulations. *)
Theorem C50_exactly_one files U p c l :
  In files shipped -> In c (h_constraints (layered files)) -> In ("storage_previous_step", l) (c_subs c) ->
  holding (math_names (layered files)) (world_where (math_names (layered files)) U) p l = 1.
Proof.
  intros IF IC IL; pose proof shipped_previous as R; rewrite forallb_forall in R; specialize (R files IF); cbv zeta in R; rewrite forallb_forall in R; specialize (R c IC).
  assert (M : d_mem "storage_previous_step" (c_subs c) = true) by (apply d_mem_keys; apply (in_map fst) in IL; exact IL).
  rewrite M in R; cbn [negb orb] in R; apply andb_true_iff in R as (R & _); apply andb_true_iff in R as (_ & R); rewrite forallb_forall in R.
  apply exact_list_sound, (R ("storage_previous_step", l)); apply in_or_app; left; exact IL.
Qed.
Print Assumptions C50_exactly_one.
(** Every storage technology has a storage equation in every timestep once the component is built. *)
Theorem C50_every_step files order U c r p l :
  In files shipped -> lists_set order -> In ("constraints", c) (equations_of (layered files)) -> In ("storage_previous_step", l) (c_subs c) ->
  (forall s, In s (c_foreach c) -> In s (u_dims U)) ->
  build_all order (layered files) U "constraints" c = Built r -> is_for (layered files) U c p ->
  exists a o b, r (map p (c_foreach c)) = VRel a o b.
Proof.
  intros IF OR IC IL SUB B ((i & IN & ->) & MX & w & PW & HW).
  assert (IC' : In c (h_constraints (layered files))).
  { unfold equations_of in IC; rewrite !in_app_iff, !in_map_iff in IC; destruct IC as [(x & E & _)|[(x & E & IX)|(x & E & _)]]; try discriminate; injection E as ->; apply filter_In in IX; apply IX. }
  pose proof shipped_previous as R; rewrite forallb_forall in R; specialize (R files IF); cbv zeta in R; rewrite forallb_forall in R; specialize (R c IC').
  assert (M : d_mem "storage_previous_step" (c_subs c) = true) by (apply d_mem_keys; apply (in_map fst) in IL; exact IL).
  rewrite M in R; cbn [negb orb] in R; apply andb_true_iff in R as (R & _).
  destruct (C69_accepted files order "constraints" c IF OR IC) as (_ & qs & PE & _).
  assert (NF : null (r (map (at_index (u_dims U) i) (c_foreach c))) = false) by (apply (exact_entry order (layered files) U "constraints" c r w qs R B SUB PW PE i); split; auto).
  destruct (build_entries order (layered files) U "constraints" c r w qs B SUB PW PE) as (_ & K).
  destruct (K (map (at_index (u_dims U) i) (c_foreach c))) as (i' & q & wd & v & _ & IQ & _ & _ & WD & EV & E); [apply (at_index_in (world_data (math_names (layered files)) U)); assumption|exact NF|].
  rewrite E in *; assert (EQ : exists x o y, q_expr q = PEq x o y).
  { assert (PK : forall k, In k (d_keys (c_subs c)) \/ In k (d_keys (c_slices c)) -> plain_key k).
    { clear - IF IC; pose proof shipped_refs as R; rewrite forallb_forall in R; specialize (R files IF); cbv zeta in R; rewrite forallb_forall in R; specialize (R _ IC); cbn [fst snd] in R; unfold refs_ok in R.
      destruct (expression_list _ _ _ _); [|discriminate]; destruct (expression_dict _ (arith_parser _ false) _); [|discriminate]; destruct (expression_dict _ (slice_parser _) _); [|discriminate].
      destruct (parse_where_text _ _); [|discriminate]; apply andb_true_iff in R as (_ & R); rewrite forallb_forall in R; intros k IK; apply in_or_app in IK; specialize (R k IK).
      apply andb_true_iff in R as (K1 & K2); apply negb_true_iff in K1, K2; split; [intros ->; rewrite String.eqb_refl in K1; discriminate|exact K2]. }
    destruct (C36_expansion order _ _ _ _ _ OR PK PE) as (eqs & subs & slices & mid & A1 & _ & _ & X1 & X2).
    assert (EXP : forall b alts a z q, expanded b alts a z -> In q z -> exists q0, In q0 a /\ q_expr q = q_expr q0).
      { intros b alts a z q0 (ks & cs & _ & _ & _ & F) IQ0; clear - F IQ0; induction F as [|ch y cs' z' (q1 & N1 & V) F IH]; [destruct IQ0|]; destruct IQ0 as [<- |IQ0]; [|apply IH, IQ0].
        exists q1; split; [eapply nth_error_In, N1|apply V]. }
    destruct (EXP _ _ _ _ _ X2 IQ) as (q1 & I1 & E1); destruct (EXP _ _ _ _ _ X1 I1) as (q0 & I0 & E0); rewrite E1, E0; clear - A1 I0.
      induction A1 as [|we q l qs (w & _ & _ & PX & _) F IH]; [destruct I0|]; destruct I0 as [<- |I0]; [|apply IH, I0]; change (String.eqb "constraints" "constraints") with true in PX; cbv iota in PX.
      unfold equation_parser in PX; destruct (parse_equation_text _ _) as [((x & o) & y)|]; [|discriminate]; injection PX as <-; eauto. }
  destruct EQ as (x & o & y & EQ); destruct (evaluate_sides U (c_foreach c) q wd v _ x o y EQ EV WD) as (_ & _ & ->); eauto.
Qed.
Print Assumptions C50_every_step.

(** * Examples *)
Definition storage_balance : component := the (h_constraints (layered base_math)) "balance_storage".
Lemma storage_balance_in : In ("constraints", storage_balance) (equations_of (layered base_math)).
Proof.
  assert (E : existsb (fun gc => String.eqb (fst gc) "constraints" && String.eqb (c_name (snd gc)) "balance_storage") (equations_of (layered base_math)) = true) by (vm_compute; reflexivity).
  unfold storage_balance, the, find_in, equations_of; rewrite !in_app_iff; right; left; apply in_map; apply filter_In.
  destruct (find _ (h_constraints (layered base_math))) as [c|] eqn:F; [|vm_compute in F; discriminate]; split; [apply find_some in F; apply F|].
  vm_compute in F; injection F as <-; vm_compute; reflexivity.
Qed.
Lemma base_shipped : In base_math shipped. Proof. left; reflexivity. Qed.
Lemma storage_balance_over cyc : conditions_over (layered base_math) (battery cyc) storage_balance.
Proof.
  intros t w IT PW; vm_compute in IT.
  repeat (destruct IT as [<- |IT]; [vm_compute in PW; injection PW as <-; intros p q H;
    change (map p ["nodes"; "techs"; "timesteps"] = map q ["nodes"; "techs"; "timesteps"]) in H; injection H as H1 H2 H3; destruct cyc; vm_compute; rewrite ?H1, ?H2, ?H3; reflexivity|]); destruct IT.
Qed.
Example C69_accepted_ex : exists qs, parse_equations as_listed (math_names (layered [])) (math_valid (layered [])) "constraints" storage_balance = Done qs /\ forall q, In q qs -> keys_given q = true.
Proof. exact (proj2 (C69_accepted base_math as_listed "constraints" storage_balance base_shipped as_listed_set storage_balance_in)). Qed.
Example C69_no_overlap_ex : forall name, build_all as_listed (layered base_math) (battery true) "constraints" storage_balance <> Broken (TBuild (FOverlap name)).
Proof.
  apply C69_no_overlap; [apply base_shipped|apply storage_balance_in|apply storage_balance_over|intros E; vm_compute in E; discriminate|intros E; vm_compute in E; discriminate].
Qed.
(** Without any arrays the storage balance cannot be built. *)
Definition no_arrays : world := system ex_labels (firstn 1 (battery_arrays true)) [("cyclic_storage", Boo true)] battery_matrix.
Example C69_troubles_ex : exists t, build_all as_listed (layered base_math) no_arrays "constraints" storage_balance = Broken t /\ input_trouble t.
Proof.
  destruct (build_all as_listed (layered base_math) no_arrays "constraints" storage_balance) as [r|t] eqn:B.
  - exfalso; assert (E : match build_all as_listed (layered base_math) no_arrays "constraints" storage_balance with Built _ => false | Broken _ => true end = true) by (vm_compute; reflexivity); rewrite B in E; discriminate.
  - exists t; split; [reflexivity|]; apply (C69_troubles base_math as_listed no_arrays "constraints" storage_balance t); [apply base_shipped|apply as_listed_set|apply storage_balance_in| |intros E; vm_compute in E; discriminate|intros E; vm_compute in E; discriminate|exact B].
    intros tx w IT PW; vm_compute in IT.
    repeat (destruct IT as [<- |IT]; [vm_compute in PW; injection PW as <-; intros p q H; change (map p ["nodes"; "techs"; "timesteps"] = map q ["nodes"; "techs"; "timesteps"]) in H; injection H as H1 H2 H3;
      vm_compute; rewrite ?H1, ?H2, ?H3; reflexivity|]); destruct IT.
Qed.
Definition previous_texts : list (string * string) := match d_get "storage_previous_step" (c_subs storage_balance) with Some l => l | None => [] end.
Lemma equations_constraint m c : In ("constraints", c) (equations_of m) -> In c (h_constraints m).
Proof.
  unfold equations_of; rewrite !in_app_iff, !in_map_iff; intros [(x & E & _)|[(x & E & IX)|(x & E & _)]]; try discriminate; injection E as <-; apply filter_In in IX; apply IX.
Qed.
Lemma storage_balance_there : In storage_balance (h_constraints (layered base_math)).
Proof. exact (equations_constraint _ _ storage_balance_in). Qed.
Lemma previous_there : In ("storage_previous_step", previous_texts) (c_subs storage_balance).
Proof. apply d_get_in; vm_compute; reflexivity. Qed.
Example C50_exactly_one_ex : holding (math_names (layered base_math)) (world_where (math_names (layered base_math)) (battery false)) (spot (asset_step (battery false) "north" "battery" 0)) previous_texts = 1.
Proof. exact (C50_exactly_one base_math (battery false) _ storage_balance previous_texts base_shipped storage_balance_there previous_there). Qed.
Lemma battery_selected : match parse_where_text (math_names (layered base_math)) (MathText.c_where storage_balance) with
  | Some w => weval (world_where (math_names (layered base_math)) (battery false)) w (at_index (u_dims (battery false)) ["north"; "battery"; "power"; "t1"; "monetary"])
  | None => false end = true.
Proof. vm_compute; reflexivity. Qed.
Example C50_every_step_ex : exists r, build_all as_listed (layered base_math) (battery false) "constraints" storage_balance = Built r /\
  exists a o b, r ["north"; "battery"; "t1"] = VRel a o b.
Proof.
  destruct (build_all as_listed (layered base_math) (battery false) "constraints" storage_balance) as [r|t] eqn:B.
  - exists r; split; [reflexivity|].
    refine (C50_every_step base_math as_listed (battery false) storage_balance r (at_index (u_dims (battery false)) ["north"; "battery"; "power"; "t1"; "monetary"]) previous_texts base_shipped as_listed_set storage_balance_in previous_there _ B _).
    + intros s IS; change (In s ["nodes"; "techs"; "timesteps"]) in IS; destruct IS as [<- |[<- |[<- |[]]]]; cbn; auto 6.
    + split; [exists ["north"; "battery"; "power"; "t1"; "monetary"]; split; [vm_compute; tauto|reflexivity]|]; split; [reflexivity|].
      destruct (parse_where_text (math_names (layered base_math)) (MathText.c_where storage_balance)) as [w|] eqn:PW; pose proof battery_selected as S1; rewrite PW in S1; [exists w; split; [reflexivity|exact S1]|discriminate S1].
  - exfalso; assert (E : match build_all as_listed (layered base_math) (battery false) "constraints" storage_balance with Built _ => true | Broken _ => false end = true) by (vm_compute; reflexivity); rewrite B in E; discriminate.
Qed.
