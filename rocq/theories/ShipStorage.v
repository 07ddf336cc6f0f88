(** Lemmas on the storage balance of the shipped math. *)
From Coq Require Import QArith Qcanon Lia Permutation.
From Verif Require Import Base BaseProofs LangModel MathText EvalModel EvalSpec BuildModel BuildSpec BuildProofs BuildEqs
  HelperModel HelperSpec HelperProofs HelperLocal HelperLaws ShipModel ShipSpec ShipProofs ShipEntry.
From Verif Require CliModel CliProofs.
Local Open Scope nat_scope.
Local Open Scope string_scope.
Local Open Scope list_scope.
Local Arguments String.eqb : simpl never.

(** * What the texts say *)
Definition first_step : wexpr := WCmp (EName "timesteps") CEq (EFun "get_val_at_index" [] [("timesteps", ENum false "0")]).
Definition says (s : string) : wexpr := WCmp (EName s) CEq (EBool true).
Definition tech_is (s : string) : wexpr := WCmp (EName "base_tech") CEq (EStr s).
Definition storage_where : wexpr :=
  WChain (WChain (says "include_storage") [(false, tech_is "storage")]) [(true, WNot (WChain (tech_is "supply") [(false, tech_is "demand")]))].
Definition carrier_sum (s : string) : expr := EFun "sum" [EName s] [("over", EName "carriers")].
Definition storage_side : expr := EChain (ERef "storage_previous_step") [(OSub, carrier_sum "flow_out_inc_eff"); (OAdd, carrier_sum "flow_in_inc_eff")].
Definition rolled_by_one (s : string) : expr := EFun "roll" [EName s] [("timesteps", ENum false "1")].
Definition from_initial : expr := EChain (EName "storage_initial") [(OMul, EName "storage_cap")].
Definition from_previous : expr :=
  EChain (EChain (EChain (ENum false "1") [(OSub, EName "storage_loss")]) [(OPow, rolled_by_one "timestep_resolution")]) [(OMul, rolled_by_one "storage")].
Definition looked_up (s : string) : expr := EFun "select_from_lookup_arrays" [EName s] [("timesteps", EName "lookup_cluster_last_timestep")].
Definition from_cluster : expr :=
  EChain (EChain (EChain (ENum false "1") [(OSub, EName "storage_loss")]) [(OPow, looked_up "timestep_resolution")]) [(OMul, looked_up "storage")].
Definition when_initial : wexpr := WChain first_step [(true, WNot (says "cyclic_storage"))].
Definition when_previous : wexpr :=
  WChain (WChain (WChain first_step [(true, says "cyclic_storage")]) [(false, WNot first_step)]) [(true, WNot (says "cluster_first_timestep"))].
Definition when_cluster : wexpr := WChain (says "cluster_first_timestep") [(true, WNot when_initial)].
Definition storage_eq (i : string) (w : wexpr) (prev : expr) : peq :=
  {| q_name := String.append "constraints:balance_storage:0-storage_previous_step:" i; q_where := [WBool true; w];
     q_expr := PEq (EName "storage") CEq storage_side; q_subs := [("storage_previous_step", PArith prev)]; q_slices := [] |}.
Definition storage_eqs : list peq := [storage_eq "0" when_initial from_initial; storage_eq "1" when_previous from_previous; storage_eq "2" when_cluster from_cluster].

Definition inputs_known (m : math_file) (l : list string) : bool :=
  smem "timesteps" (LangModel.n_dims (math_names m)) && forallb (fun s => negb (smem s (LangModel.n_dims (math_names m))) && smem s (n_inputs (math_names m))) l.
Lemma storage_reads files : In files chronological ->
  exists c, find_in (h_constraints (layered files)) "balance_storage" = Some c /\ c_foreach c = ["nodes"; "techs"; "timesteps"] /\
    reads (layered files) "constraints" c storage_where storage_eqs.
Proof.
  intros H; repeat (destruct H as [<- |H]; [eexists; split; [vm_compute; reflexivity|split; [reflexivity|split; [vm_compute; reflexivity|split; vm_compute; reflexivity]]]|]); destruct H.
Qed.
Lemma storage_inputs : forallb (fun files => inputs_known (layered files) ["base_tech"; "include_storage"; "cyclic_storage"; "cluster_first_timestep"]) chronological = true.
Proof. vm_compute; reflexivity. Qed.

(** * Conditions *)
Lemma same_yes c : same c (Boo true) = true <-> yes c.
Proof.
  unfold yes; destruct c as [|q|b|b|s]; cbn [same]; try (split; [discriminate|intros [E|E]; discriminate]).
  - destruct (Qc_eq_dec q 1) as [->|NE]; split; auto; [discriminate|]; intros [E|E]; [discriminate|injection E as E; contradiction].
  - destruct b; cbn; split; auto; [discriminate|intros [E|E]; discriminate].
Qed.
Lemma says_yes N U s p : smem s (LangModel.n_dims N) = false -> smem s (n_inputs N) = true -> weval (world_where N U) (says s) p = true <-> yes (value_in U s p).
Proof. intros H1 H2; cbn [weval says compare]; rewrite (cond_input N U s p H1 H2); cbn [aeval const]; apply same_yes. Qed.
Lemma tech_says N U s p : smem "base_tech" (LangModel.n_dims N) = false -> smem "base_tech" (n_inputs N) = true ->
  weval (world_where N U) (tech_is s) p = true <-> value_in U "base_tech" p = Txt s.
Proof.
  intros H1 H2; cbn [weval tech_is compare]; rewrite (cond_input N U _ p H1 H2); cbn [aeval]; unfold const.
  destruct (value_in U "base_tech" p) as [|q|b|b|x]; cbn [same]; try (split; discriminate).
  rewrite String.eqb_eq; split; [intros ->; reflexivity|intros E; injection E as ->; reflexivity].
Qed.
Lemma first_says N U p : smem "timesteps" (LangModel.n_dims N) = true -> labels U "timesteps" <> [] ->
  weval (world_where N U) first_step p = true <-> p "timesteps" = step_label U 0.
Proof.
  intros H NE; cbn [weval first_step compare]; rewrite (cond_dim N U "timesteps" p H), (cond_first N U "timesteps" p NE); cbn [same]; apply String.eqb_eq.
Qed.

(** * One storage technology *)
Lemma remains_pow D U a h x : n_odd D = n_odd (u_env U) -> remains U a h x -> op_cell D OPow (Val a) (Val h) = Val x.
Proof.
  intros EO [(n & -> & ->)|(NN & E)]; unfold op_cell; cbn [operate].
  - assert (EN : natural (Q2Qc (inject_Z (Z.of_nat n))) = Some n); [|rewrite EN; reflexivity].
    unfold natural; change (this (Q2Qc (inject_Z (Z.of_nat n)))) with (Qred (inject_Z (Z.of_nat n))); rewrite Qred_int; cbn [Qden Qnum inject_Z].
    assert (EB : Z.leb 0 (Z.of_nat n) = true) by (apply Z.leb_le; lia); rewrite EB, Nat2Z.id; reflexivity.
  - destruct (natural h) as [n|] eqn:EN; [|cbn [plain_env e_odd]; rewrite EO; exact E]; exfalso; apply (NN n).
    unfold natural in EN; destruct h as [h HC]; cbn [this] in EN; destruct h as [nu de]; cbn [Qden Qnum] in EN; destruct de; try discriminate.
    destruct (Z.leb 0 nu) eqn:EB; [|discriminate]; injection EN as <-; apply Qc_is_canon; cbn [this]; rewrite Z2Nat.id by (apply Z.leb_le, EB).
    change (this (Q2Qc (inject_Z nu))) with (Qred (inject_Z nu)); rewrite Qred_int; reflexivity.
Qed.
Section Asset.
Variable U : world.
Variables n t : string.
Hypothesis SO : storing U n t.

Lemma asset_at k : k < steps U -> exists p, whole U p /\ p "nodes" = n /\ p "techs" = t /\ p "timesteps" = step_label U k /\ is_true (a_at (n_matrix (u_env U)) p) = true.
Proof.
  intros LT; destruct (so_here _ _ _ SO) as (c & IC & MX); destruct (so_proper _ _ _ SO) as (SD & ND).
  set (l := [("nodes", n); ("techs", t); ("carriers", c); ("timesteps", step_label U k)]).
  assert (NL : NoDup (map fst l)) by (cbn; repeat constructor; cbn; intuition discriminate).
  destruct (whole_at U l ND (so_populated _ _ _ SO)) as (p & WP & HP).
  - split; [exact NL|]; intros d x IN; split; [apply (so_dims _ _ _ SO); destruct IN as [E|[E|[E|[E|[]]]]]; injection E as <- _; cbn; auto|].
    destruct IN as [E|[E|[E|[E|[]]]]]; injection E as <- <-; [apply (so_node _ _ _ SO)|apply (so_tech _ _ _ SO)|exact IC|apply nth_In, LT].
  - exists p; split; [exact WP|]; split; [apply HP; cbn; auto|]; split; [apply HP; cbn; auto|]; split; [apply HP; cbn; auto 6|].
    assert (E : a_at (n_matrix (u_env U)) p = a_at (n_matrix (u_env U)) (spot [("nodes", n); ("techs", t); ("carriers", c)])).
    { destruct SD as (_ & _ & _ & _ & _ & LM); apply LM; intros d ID; apply (so_matrix_dims _ _ _ SO) in ID.
      destruct ID as [<- |[<- |[<- |[]]]]; [rewrite (HP "nodes" n) by (cbn; auto)|rewrite (HP "techs" t) by (cbn; auto)|rewrite (HP "carriers" c) by (cbn; auto)]; reflexivity. }
    rewrite E, MX; reflexivity.
Qed.
Lemma asset_value s p : within_dims U s ["nodes"; "techs"] -> p "nodes" = n -> p "techs" = t -> value_in U s p = value_at U s (asset n t).
Proof.
  intros WD PN PT; apply value_spot; [apply (so_proper _ _ _ SO)| |cbn; repeat constructor; cbn; intuition discriminate|exact WD].
  intros d x [E|[E|[]]]; injection E as <- <-; assumption.
Qed.
Lemma step_value s p k : within_dims U s ["timesteps"] -> p "timesteps" = step_label U k -> value_in U s p = value_at U s [("timesteps", step_label U k)].
Proof.
  intros WD PT; apply value_spot; [apply (so_proper _ _ _ SO)| |cbn; repeat constructor; cbn; intuition discriminate|exact WD].
  intros d x [E|[]]; injection E as <- <-; assumption.
Qed.
Lemma asset_step_value s p k : within_dims U s ["nodes"; "techs"; "timesteps"] -> p "nodes" = n -> p "techs" = t -> p "timesteps" = step_label U k ->
  value_in U s p = value_at U s (asset_step U n t k).
Proof.
  intros WD PN PT PK; apply value_spot; [apply (so_proper _ _ _ SO)| |cbn; repeat constructor; cbn; intuition discriminate|exact WD].
  intros d x [E|[E|[E|[]]]]; injection E as <- <-; assumption.
Qed.
Lemma flow_step_value s p c k : within_dims U s ["nodes"; "techs"; "carriers"; "timesteps"] -> p "nodes" = n -> p "techs" = t -> p "carriers" = c -> p "timesteps" = step_label U k ->
  value_in U s p = value_at U s (flow_step U n t c k).
Proof.
  intros WD PN PT PC PK; apply value_spot; [apply (so_proper _ _ _ SO)| |cbn; repeat constructor; cbn; intuition discriminate|exact WD].
  intros d x [E|[E|[E|[E|[]]]]]; injection E as <- <-; assumption.
Qed.
Lemma asset_number s p : In s ["storage_loss"; "storage_initial"; "storage_cap"] -> p "nodes" = n -> p "techs" = t -> value_in U s p = Val (amount U s (asset n t)).
Proof.
  intros IS PN PT; rewrite asset_value by (try assumption; apply (so_asset _ _ _ SO); destruct IS as [<- |[<- |[<- |[]]]]; cbn; auto 10).
  apply number_amount, (so_numbers _ _ _ SO), IS.
Qed.

(** Sums of flows. *)
Lemma flow_sum D w s p k : n_labels D = n_labels (u_env U) -> n_array D = n_array (u_env U) -> n_default D = n_default (u_env U) ->
  s = "flow_in_inc_eff" \/ s = "flow_out_inc_eff" -> p "nodes" = n -> p "techs" = t -> p "timesteps" = step_label U k -> k < steps U ->
  cell_of D w (carrier_sum s) p = Val (sum_over (labels U "carriers") (fun c => amount U s (flow_step U n t c k))).
Proof.
  intros EL EA ED HS PN PT PK LT; destruct (so_flow _ _ _ SO s HS) as (WD & IC & NU).
  unfold labels; rewrite <- EL; unfold carrier_sum; apply cell_sum_one.
  - reflexivity.
  - exists (named D s); split; [reflexivity|]; cbn [named a_dims]; rewrite EA; exact IC.
  - intros c ICC; rewrite EL in ICC; rewrite cell_name, EA, ED; change (fill _ _) with (value_in U s (put p "carriers" c)).
    rewrite (flow_step_value s _ c k WD) by (unfold put; cbn [String.eqb]; first [exact PN|exact PT|exact PK|reflexivity]).
    apply number_amount, NU; assumption.
  - rewrite EL; apply (so_populated _ _ _ SO), (so_dims _ _ _ SO); cbn; auto.
Qed.
End Asset.

(** * The balance at a timestep *)
Section Balance.
Variable U : world.
Variables n t : string.
Hypothesis SO : storing U n t.
Variable fade : nat -> Qc.
Hypothesis FA : fading U n t fade.
Variables files : list math_file.
Hypothesis IF : In files chronological.
Let m := layered files.
Let N := math_names m.

Lemma inputs_here s : In s ["base_tech"; "include_storage"; "cyclic_storage"; "cluster_first_timestep"] ->
  smem s (LangModel.n_dims N) = false /\ smem s (n_inputs N) = true.
Proof.
  intros IS; pose proof storage_inputs as H; rewrite forallb_forall in H; specialize (H files IF); unfold inputs_known in H; apply andb_true_iff in H as (_ & H).
  rewrite forallb_forall in H; specialize (H s IS); apply andb_true_iff in H as (H1 & H2); apply negb_true_iff in H1; split; assumption.
Qed.
Lemma timesteps_here : smem "timesteps" (LangModel.n_dims N) = true.
Proof. pose proof storage_inputs as H; rewrite forallb_forall in H; specialize (H files IF); unfold inputs_known in H; apply andb_true_iff in H as (H & _); exact H. Qed.
Lemma steps_there : labels U "timesteps" <> [].
Proof. apply (so_populated _ _ _ SO), (so_dims _ _ _ SO); cbn; auto. Qed.
Lemma storage_where_holds p : p "nodes" = n -> p "techs" = t -> weval (world_where N U) storage_where p = true.
Proof.
  intros PN PT; pose proof (so_asset _ _ _ SO) as SA.
  destruct (inputs_here "base_tech") as (B1 & B2); [cbn; auto|]; destruct (inputs_here "include_storage") as (I1 & I2); [cbn; auto|].
  pose proof (fun s => tech_says N U s p B1 B2) as TS; pose proof (says_yes N U "include_storage" p I1 I2) as IS.
  rewrite (asset_value U n t SO "base_tech" p) in TS by (try assumption; apply SA; cbn; auto 10).
  rewrite (asset_value U n t SO "include_storage" p) in IS by (try assumption; apply SA; cbn; auto 10).
  assert (GOAL : (weval (world_where N U) (says "include_storage") p || weval (world_where N U) (tech_is "storage") p) &&
                 negb (weval (world_where N U) (tech_is "supply") p || weval (world_where N U) (tech_is "demand") p) = true); [|exact GOAL].
  apply andb_true_iff; rewrite negb_true_iff, orb_true_iff, orb_false_iff, <- !not_true_iff_false, IS, !TS.
  destruct (so_kind _ _ _ SO) as [E|(Y & E1 & E2)]; [rewrite E; split; [auto|split; discriminate]|split; auto].
Qed.
Lemma first_here k p : k < steps U -> p "timesteps" = step_label U k -> weval (world_where N U) first_step p = (k =? 0)%nat.
Proof.
  intros LT PT; apply eq_true_iff_eq; rewrite (first_says N U p timesteps_here steps_there), PT, Nat.eqb_eq; split; [|intros ->; reflexivity].
  intros E; unfold step_label in E; apply (NoDup_nth (labels U "timesteps") "") in E; auto; [apply (so_proper _ _ _ SO)|unfold steps in LT; lia].
Qed.
Lemma cyclic_here p : p "nodes" = n -> p "techs" = t -> weval (world_where N U) (says "cyclic_storage") p = true <-> cyclic U n t.
Proof.
  intros PN PT; destruct (inputs_here "cyclic_storage") as (B1 & B2); [cbn; auto|]; rewrite (says_yes N U _ p B1 B2).
  rewrite (asset_value U n t SO "cyclic_storage" p); [reflexivity| | |]; try assumption; apply (so_asset _ _ _ SO); cbn; auto.
Qed.
Lemma cluster_here p k : k < steps U -> p "timesteps" = step_label U k -> weval (world_where N U) (says "cluster_first_timestep") p = false.
Proof.
  intros LT PT; destruct (inputs_here "cluster_first_timestep") as (B1 & B2); [cbn; auto 6|]; apply not_true_iff_false; rewrite (says_yes N U _ p B1 B2).
  rewrite (step_value U n t SO _ p k (proj1 (so_step _ _ _ SO)) PT); apply (so_chronological _ _ _ SO), LT.
Qed.

(** The level of the previous timestep, as it remains. *)
Definition before (k : nat) : nat := match k with 0 => final U | S j => j end.
Lemma before_lt k : k < steps U -> before k < steps U.
Proof. unfold before, final; destruct k; lia. Qed.

Lemma side_at D w prev x k : n_labels D = n_labels (u_env U) -> n_array D = n_array (u_env U) -> n_default D = n_default (u_env U) ->
  m_at w x = true -> x "nodes" = n -> x "techs" = t -> x "timesteps" = step_label U k -> k < steps U ->
  deval (subs_in D [("storage_previous_step", prev)]) w storage_side <> None ->
  deval D w prev <> None /\ forall q, cell_of D w prev x = Val q ->
    cell_of (subs_in D [("storage_previous_step", prev)]) w storage_side x = Val (q - discharged U n t k + charged U n t k)%Qc.
Proof.
  intros EL EA ED MX XN XT XK LT NN; unfold storage_side in NN |- *; destruct (chain_at _ w _ _ x MX NN) as (E & NR & _); split.
  - exact NR.
  - intros q EQ; rewrite E; cbn [fold_left fst snd]; rewrite (cell_ref D [("storage_previous_step", prev)] w "storage_previous_step" prev x eq_refl), EQ.
    rewrite (flow_sum U n t SO _ w "flow_out_inc_eff" x k), (flow_sum U n t SO _ w "flow_in_inc_eff" x k); auto.
Qed.
Lemma previous_at D w x k : n_labels D = n_labels (u_env U) -> n_array D = n_array (u_env U) -> n_default D = n_default (u_env U) -> n_odd D = n_odd (u_env U) ->
  m_at w x = true -> x "nodes" = n -> x "techs" = t -> x "timesteps" = step_label U k -> k < steps U ->
  deval D w from_previous <> None -> cell_of D w from_previous x = Val (fade (before k) * level U n t (before k))%Qc.
Proof.
  intros EL EA ED EO MX XN XT XK LT NN; pose proof (before_lt k LT) as LB.
  assert (ND : NoDup (n_labels D "timesteps")) by (rewrite EL; apply (so_proper _ _ _ SO)).
  assert (LTD : k < List.length (n_labels D "timesteps")) by (rewrite EL; exact LT).
  assert (XKD : x "timesteps" = nth k (n_labels D "timesteps") "") by (rewrite EL; exact XK).
  assert (LOC : forall s, local (n_array D s)) by (intros s; rewrite EA; apply (so_proper _ _ _ SO)).
  assert (NA : "timesteps" <> "array") by discriminate.
  assert (EB : match k with 0 => List.length (n_labels D "timesteps") - 1 | S j => j end = before k) by (rewrite EL; destruct k; reflexivity).
  unfold from_previous in NN |- *; destruct (chain_at D w _ _ x MX NN) as (E & N1 & N2); rewrite E; cbn [fold_left fst snd].
  specialize (N2 _ (or_introl eq_refl)); cbn [snd] in N2.
  destruct (chain_at D w _ _ x MX N1) as (E1 & N3 & N4); rewrite E1; cbn [fold_left fst snd]; specialize (N4 _ (or_introl eq_refl)); cbn [snd] in N4.
  destruct (chain_at D w _ _ x MX N3) as (E2 & _ & _); rewrite E2; cbn [fold_left fst snd]; rewrite cell_num, cell_name, EA, ED.
  change (fill _ _) with (value_in U "storage_loss" x); rewrite (asset_number U n t SO "storage_loss" x) by (try assumption; cbn; auto).
  assert (ONE : number_cell false "1" = Val 1%Qc) by (vm_compute; f_equal; apply Qc_is_canon; reflexivity); rewrite ONE.
  destruct (cell_roll_one D w "timestep_resolution" "timesteps" x k NA ND (LOC _) N4 LTD XKD) as (_ & R1); unfold rolled_by_one; rewrite R1; clear R1.
  destruct (cell_roll_one D w "storage" "timesteps" x k NA ND (LOC _) N2 LTD XKD) as (_ & R2); rewrite R2; clear R2; rewrite EB, EL, EA, ED.
  change (fill (n_default (u_env U) "timestep_resolution") _) with (value_in U "timestep_resolution" (put x "timesteps" (step_label U (before k)))).
  change (fill (n_default (u_env U) "storage") _) with (value_in U "storage" (put x "timesteps" (step_label U (before k)))).
  rewrite (step_value U n t SO "timestep_resolution" _ (before k) (proj2 (so_step _ _ _ SO))) by reflexivity.
  rewrite (number_amount _ _ _ (so_hours _ _ _ SO (before k) LB)).
  rewrite (asset_step_value U n t SO "storage" _ (before k) (proj1 (so_level _ _ _ SO))) by (first [exact XN|exact XT|reflexivity]).
  rewrite (number_amount _ _ _ (proj2 (so_level _ _ _ SO) (before k) LB)).
  rewrite op_sub; fold (loss U n t) (hours U (before k)) (level U n t (before k)); rewrite (remains_pow D U _ _ (fade (before k)) EO (FA (before k) LB)); reflexivity.
Qed.

Variable order : list string -> list string.
Hypothesis OR : lists_set order.
Variable c : component.
Hypothesis FC : find_in (h_constraints m) "balance_storage" = Some c.
Hypothesis HO : holds_in order m U c.

Lemma storage_step k : k < steps U ->
  ((k <> 0 \/ cyclic U n t) -> level U n t k = (fade (before k) * level U n t (before k) - discharged U n t k + charged U n t k)%Qc) /\
  (k = 0 -> ~ cyclic U n t ->
     level U n t k = (amount U "storage_initial" (asset n t) * amount U "storage_cap" (asset n t) - discharged U n t k + charged U n t k)%Qc).
Proof.
  intros LT; destruct (storage_reads files IF) as (c' & FC' & FE & RD); fold m in FC', RD; rewrite FC in FC'; injection FC' as <-.
  destruct (asset_at U n t SO k LT) as (p & WP & PN & PT & PK & MX).
  assert (ND : NoDup (c_foreach c)) by (rewrite FE; repeat constructor; cbn; intuition discriminate).
  assert (SUB : forall s, In s (c_foreach c) -> In s (u_dims U)) by (rewrite FE; intros s IS; apply (so_dims _ _ _ SO); destruct IS as [<- |[<- |[<- |[]]]]; cbn; auto).
  pose proof (at_map (c_foreach c) p ND) as SX; rewrite FE in SX.
  assert (XN : at_index ["nodes"; "techs"; "timesteps"] (map p ["nodes"; "techs"; "timesteps"]) "nodes" = n) by (rewrite <- PN; apply SX; cbn; auto).
  assert (XT : at_index ["nodes"; "techs"; "timesteps"] (map p ["nodes"; "techs"; "timesteps"]) "techs" = t) by (rewrite <- PT; apply SX; cbn; auto).
  assert (XK : at_index ["nodes"; "techs"; "timesteps"] (map p ["nodes"; "techs"; "timesteps"]) "timesteps" = step_label U k) by (rewrite <- PK; apply SX; cbn; auto).
  pose proof (first_here k p LT PK) as F; pose proof (cluster_here p k LT PK) as K; pose proof (cyclic_here p PN PT) as C.
  assert (REL : forall i w prev, In (storage_eq i w prev) storage_eqs -> weval (world_where N U) w p = true ->
    exists v, let x := at_index ["nodes"; "techs"; "timesteps"] (map p ["nodes"; "techs"; "timesteps"]) in
      m_at v x = true /\ deval (slices_in (u_env U) []) v prev <> None /\
      forall q, cell_of (slices_in (u_env U) []) v prev x = Val q -> level U n t k = (q - discharged U n t k + charged U n t k)%Qc).
  { intros i w prev IQ HW; destruct (holds_entry order m U c storage_where storage_eqs p (storage_eq i w prev) (EName "storage") CEq storage_side HO OR RD ND SUB WP MX (storage_where_holds p PN PT) IQ) as (wd & MA & N1 & N2 & R).
    - unfold applies; cbn [storage_eq q_where forallb weval]; fold N; rewrite HW; reflexivity.
    - reflexivity.
    - rewrite FE in MA, N1, N2, R; exists (mask_of ["nodes"; "techs"; "timesteps"] wd); cbv zeta; split; [exact MA|].
      change (eq_denv (u_env U) (storage_eq i w prev)) with (subs_in (slices_in (u_env U) []) [("storage_previous_step", prev)]) in *.
      destruct (side_at (slices_in (u_env U) []) _ prev _ k eq_refl eq_refl eq_refl MA XN XT XK LT N2) as (NP & SI); split; [exact NP|].
      intros q EQ; rewrite (SI q EQ), cell_name in R.
      change (fill _ _) with (value_in U "storage" (at_index ["nodes"; "techs"; "timesteps"] (map p ["nodes"; "techs"; "timesteps"]))) in R.
      rewrite (asset_step_value U n t SO "storage" _ k (proj1 (so_level _ _ _ SO)) XN XT XK), (number_amount _ _ _ (proj2 (so_level _ _ _ SO) k LT)) in R; exact R. }
  split.
  - intros HK; destruct (REL "1" when_previous from_previous) as (v & MA & NP & E); [cbn; auto| |].
    + assert (G : ((weval (world_where N U) first_step p && weval (world_where N U) (says "cyclic_storage") p) || negb (weval (world_where N U) first_step p)) &&
                  negb (weval (world_where N U) (says "cluster_first_timestep") p) = true); [|exact G].
      rewrite F, K; destruct k; cbn [Nat.eqb]; [|reflexivity]; destruct HK as [HK|HK]; [congruence|]; apply C in HK; rewrite HK; reflexivity.
    + apply E, previous_at; auto.
  - intros -> NC; destruct (REL "0" when_initial from_initial) as (v & MA & NP & E); [cbn; auto| |].
    + assert (G : weval (world_where N U) first_step p && negb (weval (world_where N U) (says "cyclic_storage") p) = true); [|exact G].
      rewrite F; cbn [Nat.eqb andb]; apply negb_true_iff, not_true_iff_false; rewrite C; exact NC.
    + apply E; unfold from_initial in NP |- *; destruct (chain_at _ v _ _ _ MA NP) as (EC & _ & _); rewrite EC; cbn [fold_left fst snd]; rewrite !cell_name.
      match goal with |- op_cell _ _ ?a ?b = _ => change a with (value_in U "storage_initial" (at_index ["nodes"; "techs"; "timesteps"] (map p ["nodes"; "techs"; "timesteps"])));
        change b with (value_in U "storage_cap" (at_index ["nodes"; "techs"; "timesteps"] (map p ["nodes"; "techs"; "timesteps"]))) end.
      rewrite !(asset_number U n t SO) by (try assumption; cbn; auto); reflexivity.
Qed.
End Balance.

(** * Other constraints on storage *)
Definition limit_where : wexpr := WName "storage".
Definition limit_eqs : list peq :=
  [{| q_name := "constraints:storage_max:0"; q_where := [WBool true]; q_expr := PEq (EName "storage") CLe (EName "storage_cap"); q_subs := []; q_slices := [] |}].
Lemma limit_reads files : In files chronological ->
  exists c, find_in (h_constraints (layered files)) "storage_max" = Some c /\ c_foreach c = ["nodes"; "techs"; "timesteps"] /\
    reads (layered files) "constraints" c limit_where limit_eqs.
Proof.
  intros H; repeat (destruct H as [<- |H]; [eexists; split; [vm_compute; reflexivity|split; [reflexivity|split; [vm_compute; reflexivity|split; vm_compute; reflexivity]]]|]); destruct H.
Qed.
Definition final_of (s : string) : expr := EIndex s [("timesteps", ESlice "final_step")].
Definition initial_where : wexpr := WChain (WName "storage") [(true, WName "storage_initial"); (true, says "cyclic_storage")].
Definition initial_side : expr :=
  EChain (final_of "storage") [(OMul, EChain (EChain (ENum false "1") [(OSub, EName "storage_loss")]) [(OPow, final_of "timestep_resolution")])].
Definition initial_eq : peq :=
  {| q_name := "constraints:set_storage_initial:0-final_step:0"; q_where := [WBool true; WBool true]; q_expr := PEq initial_side CEq from_initial; q_subs := [];
     q_slices := [("final_step", PArith (EFun "get_val_at_index" [] [("timesteps", ENum true "1")]))] |}.
Lemma initial_reads files : In files chronological ->
  exists c, find_in (h_constraints (layered files)) "set_storage_initial" = Some c /\ c_foreach c = ["nodes"; "techs"] /\
    reads (layered files) "constraints" c initial_where [initial_eq].
Proof.
  intros H; repeat (destruct H as [<- |H]; [eexists; split; [vm_compute; reflexivity|split; [reflexivity|split; [vm_compute; reflexivity|split; vm_compute; reflexivity]]]|]); destruct H.
Qed.
Definition roles (m : math_file) : bool := negb (smem "storage" (n_inputs (math_names m))) && smem "storage_initial" (n_inputs (math_names m)).
Lemma storage_roles : forallb (fun files => roles (layered files)) chronological = true.
Proof. vm_compute; reflexivity. Qed.
Lemma roles_of files : In files chronological -> smem "storage" (n_inputs (math_names (layered files))) = false /\ smem "storage_initial" (n_inputs (math_names (layered files))) = true.
Proof.
  intros IF; pose proof storage_roles as H; rewrite forallb_forall in H; specialize (H files IF); unfold roles in H; apply andb_true_iff in H as (H1 & H2); apply negb_true_iff in H1; split; assumption.
Qed.
Lemma name_there N U s p : smem s (n_inputs N) = false -> weval (world_where N U) (WName s) p = true <-> a_at (n_array (u_env U) s) p <> Miss.
Proof.
  intros H; cbn [weval]; unfold defined_at; cbn [world_where w_inputs w_result]; rewrite H; destruct (a_at (n_array (u_env U) s) p); cbn [missing negb]; split; congruence.
Qed.
Lemma input_there N U s p q : smem s (n_inputs N) = true -> u_bool U s = false -> a_at (n_array (u_env U) s) p = Val q -> weval (world_where N U) (WName s) p = true.
Proof. intros H B E; cbn [weval]; unfold defined_at; cbn [world_where w_inputs w_input w_bool]; rewrite H, B, E; reflexivity. Qed.
Lemma last_call D d : n_labels D d <> [] ->
  deval D no_mask (EFun "get_val_at_index" [] [(d, ENum true "1")]) = Some (scalar (Txt (nth (List.length (n_labels D d) - 1) (n_labels D d) ""))).
Proof.
  intros NE; cbn [deval map fst snd]; unfold call.
  change (String.eqb "get_val_at_index" "get_val_at_index") with true.
  change (String.eqb "get_val_at_index" "sum") with false; change (String.eqb "get_val_at_index" "any") with false; change (String.eqb "get_val_at_index" "where") with false;
  change (String.eqb "get_val_at_index" "reduce_carrier_dim") with false; change (String.eqb "get_val_at_index" "roll") with false; change (String.eqb "get_val_at_index" "sum_next_n") with false;
  change (String.eqb "get_val_at_index" "group_sum") with false; change (String.eqb "get_val_at_index" "group_datetime") with false; change (String.eqb "get_val_at_index" "select_from_lookup_arrays") with false; cbv iota.
  unfold bind; cbn [bind_pos filter app smem existsb negb map fst snd all_in forallb andb orb].
  assert (EI : int_of (Some (scalar (number_cell true "1"))) = Some (-1)%Z) by (apply int_literal; vm_compute; f_equal; apply Qc_is_canon; reflexivity).
  rewrite EI; unfold h_val; cbn [Z.ltb Z.compare]; destruct (n_labels D d) as [|x l] eqn:EL; [congruence|].
  set (L := x :: l) in *; assert (LE : (0 < List.length L)%nat) by (subst L; cbn; lia).
  assert (LT : Z.leb 0 (Z.of_nat (List.length L) + -1) && Z.ltb (Z.of_nat (List.length L) + -1) (Z.of_nat (List.length L)) = true) by (apply andb_true_iff; split; [apply Z.leb_le; lia|apply Z.ltb_lt; lia]).
  rewrite LT; assert (EN : Z.to_nat (Z.of_nat (List.length L) + -1) = List.length L - 1) by lia; rewrite EN; reflexivity.
Qed.
Lemma cell_final D w s x : n_labels D "timesteps" <> [] ->
  let E := subs_in (slices_in D [("final_step", EFun "get_val_at_index" [] [("timesteps", ENum true "1")])]) [] in
  deval E w (final_of s) <> None ->
  cell_of E w (final_of s) x = fill (n_default D s) (a_at (n_array D s) (put x "timesteps" (nth (List.length (n_labels D "timesteps") - 1) (n_labels D "timesteps") ""))).
Proof.
  intros NE E NN; assert (SL : n_slice E "final_step" = Some (scalar (Txt (nth (List.length (n_labels D "timesteps") - 1) (n_labels D "timesteps") "")))) by (exact (last_call D "timesteps" NE)).
  unfold cell_of; unfold final_of in *; cbn [deval fold_right fst snd] in *; unfold slice_dim in *; destruct (negb (smem "timesteps" (a_dims (named E s)))); [congruence|].
  rewrite SL; cbn [a_at slice_at plain_env e_slice named]; rewrite SL; reflexivity.
Qed.

Section Others.
Variable U : world.
Variables n t : string.
Hypothesis SO : storing U n t.
Variable fade : nat -> Qc.
Hypothesis FA : fading U n t fade.
Variables files : list math_file.
Hypothesis IF : In files chronological.
Variable order : list string -> list string.
Hypothesis OR : lists_set order.

Lemma storage_below c k : find_in (h_constraints (layered files)) "storage_max" = Some c -> holds_in order (layered files) U c ->
  k < steps U -> is_there U "storage" (asset_step U n t k) -> (level U n t k <= amount U "storage_cap" (asset n t))%Qc.
Proof.
  intros FC HO LT TH; destruct (limit_reads files IF) as (c' & FC' & FE & RD); rewrite FC in FC'; injection FC' as <-.
  destruct (asset_at U n t SO k LT) as (p & WP & PN & PT & PK & MX).
  assert (ND : NoDup (c_foreach c)) by (rewrite FE; repeat constructor; cbn; intuition discriminate).
  assert (SUB : forall s, In s (c_foreach c) -> In s (u_dims U)) by (rewrite FE; intros s IS; apply (so_dims _ _ _ SO); destruct IS as [<- |[<- |[<- |[]]]]; cbn; auto).
  pose proof (at_map (c_foreach c) p ND) as SX; rewrite FE in SX.
  set (x := at_index ["nodes"; "techs"; "timesteps"] (map p ["nodes"; "techs"; "timesteps"])) in *.
  assert (XN : x "nodes" = n) by (rewrite <- PN; apply SX; cbn; auto).
  assert (XT : x "techs" = t) by (rewrite <- PT; apply SX; cbn; auto).
  assert (XK : x "timesteps" = step_label U k) by (rewrite <- PK; apply SX; cbn; auto).
  destruct (holds_entry order (layered files) U c limit_where limit_eqs p (hd initial_eq limit_eqs) (EName "storage") CLe (EName "storage_cap") HO OR RD ND SUB WP MX) as (wd & MA & N1 & N2 & R).
  - apply name_there; [apply roles_of, IF|]; intros M; apply TH; rewrite <- M; apply there_local; [apply (so_proper _ _ _ SO)|].
    intros d ID; apply (so_level _ _ _ SO) in ID; destruct ID as [<- |[<- |[<- |[]]]]; symmetry; assumption.
  - left; reflexivity.
  - reflexivity.
  - reflexivity.
  - rewrite FE in R; fold x in R; rewrite !cell_name in R.
    change (related CLe (value_in U "storage" x) (value_in U "storage_cap" x)) in R.
    rewrite (asset_step_value U n t SO "storage" _ k (proj1 (so_level _ _ _ SO)) XN XT XK), (number_amount _ _ _ (proj2 (so_level _ _ _ SO) k LT)) in R.
    rewrite (asset_number U n t SO "storage_cap" x) in R by (try assumption; cbn; auto); exact R.
Qed.
Lemma storage_returns c : find_in (h_constraints (layered files)) "set_storage_initial" = Some c -> holds_in order (layered files) U c ->
  cyclic U n t -> is_there U "storage" (asset_step U n t 0) -> u_bool U "storage_initial" = false -> is_there U "storage_initial" (asset n t) ->
  (fade (final U) * level U n t (final U))%Qc = (amount U "storage_initial" (asset n t) * amount U "storage_cap" (asset n t))%Qc.
Proof.
  intros FC HO CY TH UB TI; destruct (initial_reads files IF) as (c' & FC' & FE & RD); rewrite FC in FC'; injection FC' as <-.
  pose proof (steps_there U n t SO) as NE; assert (LT : 0 < steps U) by (unfold steps; destruct (labels U "timesteps"); [congruence|cbn; lia]).
  assert (LF : final U < steps U) by (unfold final; lia).
  destruct (asset_at U n t SO 0 LT) as (p & WP & PN & PT & PK & MX).
  assert (ND : NoDup (c_foreach c)) by (rewrite FE; repeat constructor; cbn; intuition discriminate).
  assert (SUB : forall s, In s (c_foreach c) -> In s (u_dims U)) by (rewrite FE; intros s IS; apply (so_dims _ _ _ SO); destruct IS as [<- |[<- |[]]]; cbn; auto).
  pose proof (at_map (c_foreach c) p ND) as SX; rewrite FE in SX.
  set (x := at_index ["nodes"; "techs"] (map p ["nodes"; "techs"])) in *.
  assert (XN : x "nodes" = n) by (rewrite <- PN; apply SX; cbn; auto).
  assert (XT : x "techs" = t) by (rewrite <- PT; apply SX; cbn; auto).
  destruct (holds_entry order (layered files) U c initial_where [initial_eq] p initial_eq initial_side CEq from_initial HO OR RD ND SUB WP MX) as (wd & MA & N1 & N2 & R).
  - assert (G : weval (world_where (math_names (layered files)) U) (WName "storage") p && weval (world_where (math_names (layered files)) U) (WName "storage_initial") p &&
                weval (world_where (math_names (layered files)) U) (says "cyclic_storage") p = true); [|exact G].
    assert (G1 : weval (world_where (math_names (layered files)) U) (WName "storage") p = true).
    { apply name_there; [apply roles_of, IF|]; intros M; apply TH; rewrite <- M; apply there_local; [apply (so_proper _ _ _ SO)|].
      intros d ID; apply (so_level _ _ _ SO) in ID; destruct ID as [<- |[<- |[<- |[]]]]; symmetry; assumption. }
    assert (G2 : weval (world_where (math_names (layered files)) U) (WName "storage_initial") p = true).
    { pose proof (asset_number U n t SO "storage_initial" p (or_intror (or_introl eq_refl)) PN PT) as V; unfold value_in in V.
      assert (E : a_at (n_array (u_env U) "storage_initial") p = a_at (n_array (u_env U) "storage_initial") (spot (asset n t))).
      { apply there_local; [apply (so_proper _ _ _ SO)|]; intros d ID; apply (so_asset _ _ _ SO) in ID; [|cbn; auto 10]; destruct ID as [<- |[<- |[]]]; assumption. }
      unfold is_there in TI; rewrite <- E in TI; destruct (a_at (n_array (u_env U) "storage_initial") p) as [|q|b|b|s] eqn:A; try discriminate V; [congruence|].
      exact (input_there _ U "storage_initial" p q (proj2 (roles_of files IF)) UB A). }
    rewrite G1, G2; apply (cyclic_here U n t SO files IF p PN PT), CY.
  - left; reflexivity.
  - reflexivity.
  - reflexivity.
  - rewrite FE in MA, N1, N2, R; fold x in R, MA; set (v := mask_of ["nodes"; "techs"] wd) in *.
    change (eq_denv (u_env U) initial_eq) with (subs_in (slices_in (u_env U) [("final_step", EFun "get_val_at_index" [] [("timesteps", ENum true "1")])]) []) in *.
    set (D := subs_in (slices_in (u_env U) [("final_step", EFun "get_val_at_index" [] [("timesteps", ENum true "1")])]) []) in *.
    assert (RI : cell_of D v from_initial x = Val (amount U "storage_initial" (asset n t) * amount U "storage_cap" (asset n t))%Qc).
    { destruct (chain_at D v _ _ x MA N2) as (E & _ & _); unfold from_initial; rewrite E; cbn [fold_left fst snd]; rewrite !cell_name.
      change (op_cell D OMul (value_in U "storage_initial" x) (value_in U "storage_cap" x) = Val (amount U "storage_initial" (asset n t) * amount U "storage_cap" (asset n t))%Qc).
      rewrite !(asset_number U n t SO) by (try assumption; cbn; auto); reflexivity. }
    assert (LE : cell_of D v initial_side x = Val (level U n t (final U) * fade (final U))%Qc).
    { unfold initial_side in *; destruct (chain_at D v _ _ x MA N1) as (E & N3 & N4); rewrite E; cbn [fold_left fst snd]; specialize (N4 _ (or_introl eq_refl)); cbn [snd] in N4.
      destruct (chain_at D v _ _ x MA N4) as (E1 & N5 & N6); rewrite E1; cbn [fold_left fst snd]; specialize (N6 _ (or_introl eq_refl)); cbn [snd] in N6.
      destruct (chain_at D v _ _ x MA N5) as (E2 & _ & _); rewrite E2; cbn [fold_left fst snd]; rewrite cell_num, cell_name.
      change (fill (n_default D "storage_loss") _) with (value_in U "storage_loss" x); rewrite (asset_number U n t SO "storage_loss" x) by (try assumption; cbn; auto).
      pose proof (cell_final (u_env U) v "storage" x NE N3) as C1; pose proof (cell_final (u_env U) v "timestep_resolution" x NE N6) as C2; fold D in C1, C2; rewrite C1, C2.
      change (fill (n_default (u_env U) "timestep_resolution") _) with (value_in U "timestep_resolution" (put x "timesteps" (step_label U (final U)))).
      change (fill (n_default (u_env U) "storage") _) with (value_in U "storage" (put x "timesteps" (step_label U (final U)))).
      rewrite (step_value U n t SO "timestep_resolution" _ (final U) (proj2 (so_step _ _ _ SO))) by reflexivity.
      rewrite (number_amount _ _ _ (so_hours _ _ _ SO (final U) LF)).
      rewrite (asset_step_value U n t SO "storage" _ (final U) (proj1 (so_level _ _ _ SO))) by (first [exact XN|exact XT|reflexivity]).
      rewrite (number_amount _ _ _ (proj2 (so_level _ _ _ SO) (final U) LF)).
      assert (ONE : number_cell false "1" = Val 1%Qc) by (vm_compute; f_equal; apply Qc_is_canon; reflexivity); rewrite ONE, op_sub; fold (loss U n t) (hours U (final U)) (level U n t (final U)).
      rewrite (remains_pow D U _ _ (fade (final U)) eq_refl (FA (final U) LF)); reflexivity. }
    rewrite LE, RI in R; cbn [related in_order] in R; rewrite Qcmult_comm; exact R.
Qed.
End Others.
