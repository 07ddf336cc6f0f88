(** Lemmas on storage in linked representative days. *)
From Coq Require Import QArith Qcanon Lia.
From Verif Require Import Base BaseProofs LangModel MathText EvalModel EvalSpec BuildModel BuildSpec BuildProofs BuildEqs
  HelperModel HelperSpec HelperProofs HelperLocal HelperLaws ShipModel ShipSpec ShipProofs ShipEntry ShipStorage ShipNumbers NetSpec NetProofs PlaceSpec ShipPlace RuleText RuleProofs StepText LinkSpec LinkText.
Local Open Scope nat_scope.
Local Open Scope string_scope.
Local Open Scope list_scope.
Local Arguments String.eqb : simpl never.

Lemma linked_shipped files : In files linked_lists -> In files shipped.
Proof. intros H; repeat (destruct H as [<- |H]; [cbn; tauto|]); destruct H. Qed.
Lemma linked_dates : forallb (fun files => smem "datesteps" (LangModel.n_dims (math_names (layered files))) && smem "timesteps" (LangModel.n_dims (math_names (layered files)))) linked_lists = true.
Proof. vm_compute; reflexivity. Qed.
Lemma far_one D e o a x : entry_far D (EChain e [(o, a)]) x = op_cell D o (entry_far D e x) (entry_far D a x).
Proof. reflexivity. Qed.
Lemma far_two D e o a o' a' x : entry_far D (EChain e [(o, a); (o', a')]) x = op_cell D o' (op_cell D o (entry_far D e x) (entry_far D a x)) (entry_far D a' x).
Proof. reflexivity. Qed.
Lemma far_roll D e d x : entry_far D (EFun "roll" [e] [(d, ENum false "1")]) x = entry_of D e (put x d (before_in D d (x d))).
Proof. reflexivity. Qed.
Lemma far_name D s x : entry_far D (EName s) x = entry_of D (EName s) x.
Proof. reflexivity. Qed.
Lemma far_num D b z x : entry_far D (ENum b z) x = number_cell b z.
Proof. reflexivity. Qed.
Lemma far_sum D s x : entry_far D (EFun "sum" [EName s] [("over", EName "carriers")]) x = entry_of D (EFun "sum" [EName s] [("over", EName "carriers")]) x.
Proof. reflexivity. Qed.
Lemma slice_op D sl o a b : op_cell (slices_in D sl) o a b = op_cell D o a b.
Proof. reflexivity. Qed.
Lemma slice_name D sl s x : entry_of (slices_in D sl) (EName s) x = entry_of D (EName s) x.
Proof. reflexivity. Qed.
Lemma slice_sum D sl s o x : entry_of (slices_in D sl) (EFun "sum" [EName s] [("over", o)]) x = entry_of D (EFun "sum" [EName s] [("over", o)]) x.
Proof. reflexivity. Qed.
Lemma slice_before D sl d v : before_in (slices_in D sl) d v = before_in D d v.
Proof. reflexivity. Qed.
(** A label from a table at this very position. *)
Lemma far_look D s d r y sl x : d_get r sl = Some (EName y) ->
  entry_far (slices_in D sl) (EIndex s [(d, ESlice r)]) x = entry_of D (EName s) (put x d (label (entry_of D (EName y) x))).
Proof. intros E; cbn [entry_far slices_in n_slice n_default n_array]; rewrite E; reflexivity. Qed.
(** A label from a table on the date before. *)
Lemma far_look_back D s d r y sl x : NoDup (n_labels D "datesteps") -> In "datesteps" (a_dims (n_array D y)) -> In (x "datesteps") (n_labels D "datesteps") ->
  d_get r sl = Some (EFun "roll" [EName y] [("datesteps", ENum false "1")]) ->
  entry_far (slices_in D sl) (EIndex s [(d, ESlice r)]) x = entry_of D (EName s) (put x d (label (entry_of D (EName y) (put x "datesteps" (before_in D "datesteps" (x "datesteps")))))).
Proof.
  intros ND ID IX E; cbn [entry_far slices_in n_slice n_default n_array]; rewrite E.
  assert (NA : "datesteps" <> "array") by discriminate; pose proof (roll_call D no_mask (EName y) "datesteps" false "1" 1%Z NA is_one) as RC; unfold c_roll in RC; rewrite RC.
  change (deval D no_mask (EName y)) with (Some (named D y)); cbv iota; rewrite (h_roll_one D (named D y) "datesteps" 1%Z ID); cbn [a_at].
  unfold rolled, before_in; destruct (In_nth _ _ "" IX) as (i & LT & EK); rewrite <- EK, (place_nth _ ND i LT).
  assert (EJ : Z.to_nat ((Z.of_nat i - 1) mod Z.of_nat (List.length (n_labels D "datesteps"))) = match i with 0 => List.length (n_labels D "datesteps") - 1 | S j => j end).
  { destruct i as [|i]; [rewrite <- (Z_mod_plus_full _ 1), Z.mod_small by lia; lia|rewrite Z.mod_small by lia; lia]. }
  rewrite EJ; destruct i; reflexivity.
Qed.
Lemma roll_needs D y : deval D no_mask (EFun "roll" [EName y] [("datesteps", ENum false "1")]) <> None -> In "datesteps" (a_dims (n_array D y)).
Proof.
  intros NN; destruct (in_dec string_dec "datesteps" (a_dims (n_array D y))) as [I|NI]; [exact I|exfalso; apply NN].
  assert (NA : "datesteps" <> "array") by discriminate; pose proof (roll_call D no_mask (EName y) "datesteps" false "1" 1%Z NA is_one) as RC; unfold c_roll in RC; rewrite RC.
  change (deval D no_mask (EName y)) with (Some (named D y)); cbv iota; apply h_roll_none; exact NI.
Qed.
Lemma number_24 : number_cell false "24" = Val (Q2Qc (inject_Z (Z.of_nat 24))).
Proof. vm_compute; f_equal; apply Qc_is_canon; reflexivity. Qed.
Lemma day_pow D a : op_cell D OPow (Val a) (number_cell false "24") = Val (Qcpower a 24).
Proof. rewrite number_24; unfold op_cell; cbn [operate]; assert (EN : natural (Q2Qc (inject_Z (Z.of_nat 24))) = Some 24) by (vm_compute; reflexivity); rewrite EN; reflexivity. Qed.

Section Link.
Variable order : list string -> list string.
Hypothesis OR : lists_set order.
Variable files : list math_file.
Hypothesis IL : In files linked_lists.
Variable U : world.
Variable plan : string -> day.
Variables (n t c : string) (cy : bool).
Hypothesis LI : linked U plan n t c cy.
Variable fade : nat -> Qc.
Hypothesis FA : fading U n t fade.
Let m := layered files.
Let W := world_where (math_names m) U.
Definition link_text (i : nat) : text := nth i link_texts no_text.
Lemma link_told i s co : nth_error link_names i = Some s -> find_in (h_constraints m) s = Some co ->
  told order m "constraints" co (fe_of (link_text i)) (where_of (link_text i)) (eqs_of (link_text i)).
Proof. exact (listed_told order OR files "constraints" link_names link_texts linked_lists 9 i s co link_read eq_refl IL). Qed.
Lemma inter_told co : find_in (h_constraints m) "balance_storage_inter" = Some co ->
  told order m "constraints" co (fe_of inter_text) (where_of inter_text) (eqs_of inter_text) \/
  told order m "constraints" co (fe_of inter_text') (where_of inter_text') (eqs_of inter_text').
Proof.
  intros FC; assert (E : (pair_in m "balance_storage_inter" (nodup string_dec), pair_in m "balance_storage_inter" backwards) = (Some inter_text, Some inter_text')).
  { apply (repeat_spec 9 _ _); rewrite <- inter_read; exact (in_map (fun files => (pair_in (layered files) "balance_storage_inter" (nodup string_dec), pair_in (layered files) "balance_storage_inter" backwards)) _ _ IL). }
  injection E as E1 E2; unfold pair_in in E1, E2; rewrite FC in E1, E2.
  exact (pair_told order m "constraints" co _ _ _ _ _ _ OR E1 E2).
Qed.
Lemma date_dim : smem "datesteps" (LangModel.n_dims (math_names m)) = true /\ smem "timesteps" (LangModel.n_dims (math_names m)) = true.
Proof. pose proof linked_dates as H; rewrite forallb_forall in H; specialize (H files IL); rewrite andb_true_iff in H; exact H. Qed.
Lemma known s : In s shared_inputs -> smem s (LangModel.n_dims (math_names m)) = false /\ smem s (n_inputs (math_names m)) = true.
Proof. apply input_of, linked_shipped, IL. Qed.
Lemma at_moment k d p s v : fits (moment n t c k d) p -> sound (u_env U) -> reads_as U s (asset n t) v -> In s shared_inputs -> aeval (cmp_env W) everywhere (EName s) p = v.
Proof.
  intros FP SD (WD & E) IS; destruct (known s IS) as (K1 & K2); unfold W; rewrite (cond_input _ U s p K1 K2), <- E; apply value_spot; [exact SD| |apart|exact WD].
  intros d' x IN; apply FP; cbn in IN |- *; tauto.
Qed.
Lemma first_in d v p : smem d (LangModel.n_dims (math_names m)) = true -> labels U d <> [] -> p d = v -> weval W (first_of d) p = String.eqb v (nth 0 (labels U d) "").
Proof. intros DM NE E; unfold first_of, W; cbn [weval compare]; rewrite cond_dim, cond_first by assumption; rewrite E; reflexivity. Qed.
Definition va (b : bool) : list (string * cell) := [("base_tech", Txt "storage"); ("cyclic_storage", Boo b)].
Lemma va_holds b k d p s v : cy = b -> sound (u_env U) -> fits (moment n t c k d) p -> d_get s (va b) = Some v -> aeval (cmp_env W) everywhere (EName s) p = v.
Proof.
  intros EB SD FP; unfold va; cbn [d_get]; destruct (String.eqb s "base_tech") eqn:E1; [apply String.eqb_eq in E1; subst s; intros H; injection H as <-; apply (at_moment k d); auto; [apply LI|cbn; tauto]|].
  destruct (String.eqb s "cyclic_storage") eqn:E2; [apply String.eqb_eq in E2; subst s; intros H; injection H as <-; apply (at_moment k d); auto; [rewrite <- EB; apply LI|cbn; tauto]|discriminate].
Qed.

(** ** Within a day *)
Lemma step_first k d p b : k < steps U -> In d (labels U "datesteps") -> fits (moment n t c (step_label U k) d) p -> b = (k =? 0)%nat ->
  forall e b', d_get e [("timesteps", b)] = Some b' -> weval W (first_of e) p = b'.
Proof.
  intros LT ID FP -> e b'; cbn [d_get]; destruct (String.eqb e "timesteps") eqn:E; [|discriminate]; apply String.eqb_eq in E; subst; intros H; injection H as <-.
  pose proof (li_sited _ _ _ _ _ _ LI k d LT ID) as SI; rewrite (first_in "timesteps" (step_label U k) p (proj2 date_dim)); [|apply (site_labels U _ _ SI); cbn; tauto|apply FP; cbn; tauto].
  apply eq_true_iff_eq; rewrite String.eqb_eq, Nat.eqb_eq; unfold step_label; split; [|intros ->; reflexivity].
  intros E; apply (NoDup_nth (labels U "timesteps") "") in E; auto; [apply SI|unfold steps in LT; lia].
Qed.
Lemma date_first i d k p b : k < steps U -> nth_error (labels U "datesteps") i = Some d -> fits (moment n t c (step_label U k) d) p -> b = (i =? 0)%nat ->
  forall e b', d_get e [("datesteps", b)] = Some b' -> weval W (first_of e) p = b'.
Proof.
  intros LT EI FP -> e b'; cbn [d_get]; destruct (String.eqb e "datesteps") eqn:E; [|discriminate]; apply String.eqb_eq in E; subst; intros H; injection H as <-.
  pose proof (nth_error_In _ _ EI) as ID; pose proof (li_sited _ _ _ _ _ _ LI k d LT ID) as SI; rewrite (first_in "datesteps" d p (proj1 date_dim)); [|apply (site_labels U _ _ SI); cbn; tauto|apply FP; cbn; tauto].
  apply eq_true_iff_eq; rewrite String.eqb_eq, Nat.eqb_eq; assert (LI' : i < List.length (labels U "datesteps")) by (apply nth_error_Some; rewrite EI; discriminate).
  assert (EN : nth i (labels U "datesteps") "" = d) by (apply nth_error_nth; exact EI); rewrite <- EN; split; [|intros ->; reflexivity].
  intros E; apply (NoDup_nth (labels U "datesteps") "") in E; auto; [apply SI|lia].
Qed.
Lemma reset_holds k d p b : k < steps U -> In d (labels U "datesteps") -> fits (moment n t c (step_label U k) d) p ->
  (if b : bool then within_dims U "lookup_cluster_last_timestep" ["timesteps"] /\ u_bool U "lookup_cluster_last_timestep" = false /\
      exists v, a_at (n_array (u_env U) "lookup_cluster_last_timestep") (spot (at_step (step_label U k))) = Txt v
   else absent U "lookup_cluster_last_timestep" (at_step (step_label U k))) ->
  forall s b', d_get s [("lookup_cluster_last_timestep", b)] = Some b' -> weval W (WName s) p = b'.
Proof.
  intros LT ID FP H s b'; cbn [d_get]; destruct (String.eqb s "lookup_cluster_last_timestep") eqn:E; [|discriminate]; apply String.eqb_eq in E; subst; intros E; injection E as <-.
  pose proof (li_sited _ _ _ _ _ _ LI k d LT ID) as SI; pose proof (proj1 (proj1 SI)) as SD; assert (FS : fits (at_step (step_label U k)) p) by (apply (fits_incl _ _ _ FP); inside).
  assert (RA : forall e, within_dims U e ["timesteps"] -> a_at (n_array (u_env U) e) p = a_at (n_array (u_env U) e) (spot (at_step (step_label U k)))) by (intros e WD; apply (raw_at U (at_step (step_label U k))); [exact SD|apart|exact FS|exact WD]).
  cbn [weval]; unfold defined_at, W; cbn [world_where w_inputs w_input w_bool w_result].
  destruct b.
  - destruct H as (WD & B & v & EV); specialize (RA _ WD); rewrite EV in RA; destruct (smem _ _); rewrite ?B, RA; reflexivity.
  - destruct H as (WD & EV); specialize (RA _ WD); rewrite EV in RA; destruct (smem _ _); [destruct (u_bool U _)|]; rewrite RA; reflexivity.
Qed.
Lemma no_names (p : pos) : forall s b, d_get s (@nil (string * bool)) = Some b -> weval W (WName s) p = b.
Proof. discriminate. Qed.
Lemma no_firsts (p : pos) : forall s b, d_get s (@nil (string * bool)) = Some b -> weval W (first_of s) p = b.
Proof. discriminate. Qed.
Ltac far SI SD EB HE HF ex b fi TO HO tx i x FX R :=
  match type of SI with sited ?V ?l =>
    match type of TO with told ?order ?mm _ ?co _ _ _ =>
      let res := eval vm_compute in (far_sides l ex (va b) fi tx i) in
      match res with Some (?a, ?o, ?e, ?sl) =>
        destruct (far_says V order mm l SI ex (va b) fi HE (fun pp ss vv FP => va_holds b _ _ pp ss vv EB SD FP) HF tx i co a o e sl TO HO ltac:(vm_compute; reflexivity)) as (x & FX & R)
      end
    end
  end; rewrite ?far_two, ?far_one, ?far_roll, ?far_sum, ?far_name, ?far_num in R; rewrite ?slice_op, ?slice_name, ?slice_sum, ?slice_before in R; place_of FX.
Lemma look s l x v : sound (u_env U) -> NoDup (map fst l) -> fits l x -> reads_as U s l v -> entry_of (u_env U) (EName s) x = v.
Proof. intros SD ND FX (WD & E); rewrite <- E; apply value_spot; assumption. Qed.
Lemma date_steps d : In d (labels U "datesteps") -> 0 < steps U.
Proof. intros ID; pose proof (re_steps _ _ _ (li_dates _ _ _ _ _ _ LI d ID)); lia. Qed.
Lemma step_level k d b : k < steps U -> In d (labels U "datesteps") ->
  (if b : bool then within_dims U "lookup_cluster_last_timestep" ["timesteps"] /\ u_bool U "lookup_cluster_last_timestep" = false /\
      exists v, a_at (n_array (u_env U) "lookup_cluster_last_timestep") (spot (at_step (step_label U k))) = Txt v
   else absent U "lookup_cluster_last_timestep" (at_step (step_label U k))) ->
  constraint_holds order m U "balance_storage" ->
  level U n t k = ((if (k =? 0)%nat && negb cy then amount U "storage_initial" (asset n t) * amount U "storage_cap" (asset n t) else if b then 0 else fade (before U k) * level U n t (before U k)) -
                   taken_out U n t k + put_in U n t k)%Qc.
Proof.
  intros LT ID RE (co & FC & HO); pose proof (link_told 0 _ _ eq_refl FC) as TO; pose proof (li_sited _ _ _ _ _ _ LI k d LT ID) as SI; pose proof (proj1 (proj1 SI)) as SD; assert (NL : NoDup (labels U "timesteps")) by apply SI.
  pose proof (fun p b' FP => reset_holds k d p b LT ID FP RE b') as HE; pose proof (fun p e b' FP => step_first k d p _ LT ID FP eq_refl e b') as HF.
  pose proof (li_level _ _ _ _ _ _ LI k LT) as NV; pose proof (before_lt U k LT) as LB; pose proof (li_level _ _ _ _ _ _ LI _ LB) as NB; pose proof (li_hours _ _ _ _ _ _ LI _ LB) as NH.
  pose proof (fun s H => li_flows _ _ _ _ _ _ LI s k H LT) as NF; pose proof (li_numbers _ _ _ _ _ _ LI) as BN.
  assert (NC : labels U "carriers" <> []) by (apply (site_labels U _ _ SI); cbn; tauto).
  remember (step_label U k) as v eqn:EV; remember (step_label U (before U k)) as u eqn:EU.
  assert (PL : place v (labels U "timesteps") = Some k) by (rewrite EV; unfold step_label; apply place_nth; assumption).
  assert (PV : before_in (u_env U) "timesteps" v = u) by (unfold before_in; fold (labels U "timesteps"); rewrite PL, EU; unfold before, final, step_label, steps; destruct k; reflexivity).
  assert (END : forall x q, fits (use_at n t v) x ->
    related CEq (entry_of (u_env U) (EName "storage") x)
      (op_cell (u_env U) OAdd (op_cell (u_env U) OSub q (entry_of (u_env U) (EFun "sum" [EName "flow_out_inc_eff"] [("over", EName "carriers")]) x)) (entry_of (u_env U) (EFun "sum" [EName "flow_in_inc_eff"] [("over", EName "carriers")]) x)) ->
    forall a, q = Val a -> level U n t k = (a - taken_out U n t k + put_in U n t k)%Qc).
  { unfold level, taken_out, put_in; change (asset_step U n t k) with (use_at n t (step_label U k)); rewrite <- EV; intros x q FX R a ->.
    rewrite (numeric_entry U "storage" (use_at n t v) x SD ltac:(apart) FX NV) in R.
    rewrite (numeric_sum U "flow_out_inc_eff" "carriers" (EName "carriers") (use_at n t v) x SD ltac:(apart) FX ltac:(cbn; intuition discriminate) NC eq_refl (NF _ (or_intror eq_refl))) in R.
    rewrite (numeric_sum U "flow_in_inc_eff" "carriers" (EName "carriers") (use_at n t v) x SD ltac:(apart) FX ltac:(cbn; intuition discriminate) NC eq_refl (NF _ (or_introl eq_refl))), op_sub, op_add in R; exact R. }
  assert (PAST : forall x, fits (use_at n t v) x ->
    op_cell (u_env U) OMul (op_cell (u_env U) OPow (op_cell (u_env U) OSub (number_cell false "1") (entry_of (u_env U) (EName "storage_loss") x))
        (entry_of (u_env U) (EName "timestep_resolution") (put x "timesteps" u)))
      (entry_of (u_env U) (EName "storage") (put x "timesteps" u)) = Val (fade (before U k) * level U n t (before U k))%Qc).
  { intros x FX; assert (FY : fits (use_at n t u) (put x "timesteps" u)).
    { intros d' y [E|[E|[E|[]]]]; injection E as <- <-; unfold put; cbn [String.eqb Ascii.eqb Bool.eqb]; try (apply FX; cbn; tauto); reflexivity. }
    rewrite one_number, (numeric_entry U "storage_loss" (asset n t) x SD ltac:(apart) ltac:(apply (fits_incl _ _ _ FX); inside) (BN _ ltac:(cbn; tauto))).
    rewrite (numeric_entry U "timestep_resolution" (at_step u) _ SD ltac:(apart) ltac:(apply (fits_incl _ _ _ FY); inside) NH), (numeric_entry U "storage" (use_at n t u) _ SD ltac:(apart) FY NB), op_sub.
    unfold level; change (asset_step U n t (before U k)) with (use_at n t (step_label U (before U k))); rewrite <- EU; fold (loss U n t); rewrite EU.
    change (amount U "timestep_resolution" (at_step (step_label U (before U k)))) with (hours U (before U k)); rewrite (remains_pow (u_env U) U _ _ (fade (before U k)) eq_refl (FA (before U k) LB)); reflexivity. }
  assert (BACK : forall x, fits (use_at n t v) x -> before_in (u_env U) "timesteps" (x "timesteps") = u) by (intros x FX; rewrite (FX "timesteps" v) by (cbn; tauto); exact PV).
  assert (CY : cy = true \/ cy = false) by (destruct cy; auto).
  destruct (k =? 0)%nat eqn:K0; cbn [andb]; destruct CY as [EB|EB].
  - replace (negb cy) with false by (rewrite EB; reflexivity); destruct b.
    + far SI SD EB (fun p s b' FP => HE p s FP b') HF [("lookup_cluster_last_timestep", true)] true [("timesteps", true)] TO HO (link_text 0) 2 x FX R.
      exact (END x _ FX R _ zero_number).
    + far SI SD EB (fun p s b' FP => HE p s FP b') HF [("lookup_cluster_last_timestep", false)] true [("timesteps", true)] TO HO (link_text 0) 1 x FX R.
      rewrite (BACK x FX) in R; exact (END x _ FX R _ (PAST x FX)).
  - replace (negb cy) with true by (rewrite EB; reflexivity).
    assert (R : exists x, fits (use_at n t v) x /\ related CEq (entry_of (u_env U) (EName "storage") x)
      (op_cell (u_env U) OAdd (op_cell (u_env U) OSub (op_cell (u_env U) OMul (entry_of (u_env U) (EName "storage_initial") x) (entry_of (u_env U) (EName "storage_cap") x))
         (entry_of (u_env U) (EFun "sum" [EName "flow_out_inc_eff"] [("over", EName "carriers")]) x)) (entry_of (u_env U) (EFun "sum" [EName "flow_in_inc_eff"] [("over", EName "carriers")]) x))).
    { destruct b.
      - far SI SD EB (fun p s b' FP => HE p s FP b') HF [("lookup_cluster_last_timestep", true)] false [("timesteps", true)] TO HO (link_text 0) 0 x FX R; exists x; split; [exact FX|exact R].
      - far SI SD EB (fun p s b' FP => HE p s FP b') HF [("lookup_cluster_last_timestep", false)] false [("timesteps", true)] TO HO (link_text 0) 0 x FX R; exists x; split; [exact FX|exact R]. }
    destruct R as (x & FX & R); apply (END x _ FX R).
    rewrite (numeric_entry U "storage_initial" (asset n t) x SD ltac:(apart) ltac:(apply (fits_incl _ _ _ FX); inside) (BN "storage_initial" ltac:(cbn; tauto))).
    rewrite (numeric_entry U "storage_cap" (asset n t) x SD ltac:(apart) ltac:(apply (fits_incl _ _ _ FX); inside) (BN "storage_cap" ltac:(cbn; tauto))); apply op_mul.
  - destruct b.
    + far SI SD EB (fun p s b' FP => HE p s FP b') HF [("lookup_cluster_last_timestep", true)] true [("timesteps", false)] TO HO (link_text 0) 2 x FX R.
      exact (END x _ FX R _ zero_number).
    + far SI SD EB (fun p s b' FP => HE p s FP b') HF [("lookup_cluster_last_timestep", false)] true [("timesteps", false)] TO HO (link_text 0) 1 x FX R.
      rewrite (BACK x FX) in R; exact (END x _ FX R _ (PAST x FX)).
  - destruct b.
    + far SI SD EB (fun p s b' FP => HE p s FP b') HF [("lookup_cluster_last_timestep", true)] false [("timesteps", false)] TO HO (link_text 0) 2 x FX R.
      exact (END x _ FX R _ zero_number).
    + far SI SD EB (fun p s b' FP => HE p s FP b') HF [("lookup_cluster_last_timestep", false)] false [("timesteps", false)] TO HO (link_text 0) 1 x FX R.
      rewrite (BACK x FX) in R; exact (END x _ FX R _ (PAST x FX)).
Qed.

(** ** From date to date *)
Lemma next_at d d' : next_date U cy d d' -> proper U -> exists i i', nth_error (labels U "datesteps") i' = Some d' /\ nth_error (labels U "datesteps") i = Some d /\
  before_in (u_env U) "datesteps" d' = d /\ ((i' =? 0)%nat && negb cy = false).
Proof.
  intros (i & EI & H) PR; assert (NL : NoDup (labels U "datesteps")) by apply PR.
  assert (PL : forall j y, nth_error (labels U "datesteps") j = Some y -> place y (labels U "datesteps") = Some j).
  { intros j y E; rewrite <- (nth_error_nth _ _ "" E); apply place_nth; [exact NL|apply nth_error_Some; rewrite E; discriminate]. }
  destruct H as [ES|(CY & SI & E0)].
  - exists i, (S i); split; [exact ES|]; split; [exact EI|]; split; [|reflexivity]; unfold before_in; fold (labels U "datesteps"); rewrite (PL _ _ ES); exact (nth_error_nth _ _ "" EI).
  - exists i, 0; split; [exact E0|]; split; [exact EI|]; split; [|rewrite CY; reflexivity]; unfold before_in; fold (labels U "datesteps"); rewrite (PL _ _ E0), <- SI; cbn; rewrite Nat.sub_0_r; exact (nth_error_nth _ _ "" EI).
Qed.
Lemma put_fits x (a b v w : string) : fits (date_at a b v) x -> fits (date_at a b w) (put x "datesteps" w).
Proof. intros FX d' y [E|[E|[E|[]]]]; injection E as <- <-; unfold put; cbn [String.eqb Ascii.eqb Bool.eqb]; try (apply FX; cbn; tauto); reflexivity. Qed.
Lemma step_fits x (a b v w : string) : fits (date_at a b v) x -> fits (use_at a b w) (put x "timesteps" w).
Proof. intros FX d' y [E|[E|[E|[]]]]; injection E as <- <-; unfold put; cbn [String.eqb Ascii.eqb Bool.eqb]; try (apply FX; cbn; tauto); reflexivity. Qed.
Lemma cluster_fits x (a b v : string) : fits (asset a b) x -> fits (cluster_at a b v) (put x "clusters" v).
Proof. intros FX d' y [E|[E|[E|[]]]]; injection E as <- <-; unfold put; cbn [String.eqb Ascii.eqb Bool.eqb]; try (apply FX; cbn; tauto); reflexivity. Qed.
Lemma inter_next d d' : next_date U cy d d' -> constraint_holds order m U "balance_storage_inter" ->
  carried U n t d' = (Qcpower (1 - loss U n t) 24 * carried U n t d + level U n t (y_last (plan d)))%Qc.
Proof.
  intros ND (co & FC & HO); assert (PR : proper U).
  { destruct ND as (i & EI & _); apply nth_error_In in EI; apply (li_sited _ _ _ _ _ _ LI 0 d (date_steps d EI) EI). }
  destruct (next_at d d' ND PR) as (i & i' & EI' & EI & BE & NF); pose proof (nth_error_In _ _ EI') as ID'; pose proof (nth_error_In _ _ EI) as ID.
  pose proof (date_steps d ID) as LT; pose proof (li_sited _ _ _ _ _ _ LI 0 d' LT ID') as SI; pose proof (proj1 (proj1 SI)) as SD; assert (NL : NoDup (labels U "datesteps")) by apply SI.
  pose proof (fun p e b' FP => date_first i' d' 0 p _ LT EI' FP eq_refl e b') as HF; pose proof (li_carried _ _ _ _ _ _ LI d ID) as NC; pose proof (li_carried _ _ _ _ _ _ LI d' ID') as NC'.
  pose proof (li_dates _ _ _ _ _ _ LI d ID) as RP; pose proof (li_level _ _ _ _ _ _ LI _ (re_steps _ _ _ RP)) as NV; pose proof (re_last _ _ _ RP) as RL; pose proof (li_numbers _ _ _ _ _ _ LI "storage_loss" ltac:(cbn; tauto)) as BN.
  remember (step_label U 0) as v eqn:EV; remember (step_label U (y_last (plan d))) as u eqn:EU.
  assert (END : forall x sl, sl = [("final_step", EFun "roll" [EName "lookup_datestep_last_cluster_timestep"] [("datesteps", ENum false "1")])] -> fits (date_at n t d') x ->
    related CEq (entry_of (u_env U) (EName "storage_inter_cluster") x)
      (op_cell (u_env U) OAdd (op_cell (u_env U) OMul (op_cell (u_env U) OPow (op_cell (u_env U) OSub (number_cell false "1") (entry_of (u_env U) (EName "storage_loss") x)) (number_cell false "24"))
          (entry_of (u_env U) (EName "storage_inter_cluster") (put x "datesteps" (before_in (u_env U) "datesteps" (x "datesteps")))))
        (entry_far (slices_in (u_env U) sl) (EIndex "storage" [("timesteps", ESlice "final_step")]) x)) ->
    carried U n t d' = (Qcpower (1 - loss U n t) 24 * carried U n t d + level U n t (y_last (plan d)))%Qc).
  { intros x sl ES FX R; pose proof (FX "datesteps" d' ltac:(cbn; tauto)) as XD.
    assert (IB : In "datesteps" (a_dims (n_array (u_env U) "lookup_datestep_last_cluster_timestep"))).
    { apply roll_needs; intros DN; assert (EG : d_get "final_step" sl = Some (EFun "roll" [EName "lookup_datestep_last_cluster_timestep"] [("datesteps", ENum false "1")])) by (rewrite ES; reflexivity).
      cbn [entry_far slices_in n_slice] in R; rewrite EG, DN in R.
      rewrite (numeric_entry U _ (date_at n t d') x SD ltac:(apart) FX NC') in R; cbn [related] in R; revert R; unfold op_cell at 1; destruct (op_cell _ OMul _ _); cbn [operate]; exact id. }
    rewrite (far_look_back (u_env U) "storage" "timesteps" "final_step" "lookup_datestep_last_cluster_timestep" sl x NL IB) in R; [|rewrite XD; exact ID'|rewrite ES; reflexivity].
    rewrite XD, BE in R; pose proof (put_fits x n t d' d FX) as FY.
    rewrite (look _ (on_date d) (put x "datesteps" d) _ SD ltac:(apart) ltac:(apply (fits_incl _ _ _ FY); inside) RL) in R; cbn [label] in R.
    rewrite (numeric_entry U _ (date_at n t d') x SD ltac:(apart) FX NC'), (numeric_entry U _ (date_at n t d) _ SD ltac:(apart) FY NC), (numeric_entry U _ (use_at n t u) _ SD ltac:(apart) (step_fits x n t d' u FX) NV) in R.
    rewrite one_number, (numeric_entry U "storage_loss" (asset n t) x SD ltac:(apart) ltac:(apply (fits_incl _ _ _ FX); inside) BN), op_sub, day_pow, op_mul, op_add in R.
    unfold level; change (asset_step U n t (y_last (plan d))) with (use_at n t (step_label U (y_last (plan d)))); rewrite <- EU; exact R. }
  assert (CY : cy = true \/ cy = false) by (destruct cy; auto); destruct (inter_told co FC) as [TO|TO]; destruct CY as [EB|EB]; destruct (i' =? 0)%nat eqn:K0; try (rewrite EB in NF; discriminate NF).
  - far SI SD EB (fun (p : pos) s b' (FP : fits (moment n t c v d') p) => no_names p s b') HF (@nil (string * bool)) true [("datesteps", true)] TO HO inter_text 3 x FX R; exact (END x _ eq_refl FX R).
  - far SI SD EB (fun (p : pos) s b' (FP : fits (moment n t c v d') p) => no_names p s b') HF (@nil (string * bool)) true [("datesteps", false)] TO HO inter_text 3 x FX R; exact (END x _ eq_refl FX R).
  - far SI SD EB (fun (p : pos) s b' (FP : fits (moment n t c v d') p) => no_names p s b') HF (@nil (string * bool)) false [("datesteps", false)] TO HO inter_text 3 x FX R; exact (END x _ eq_refl FX R).
  - far SI SD EB (fun (p : pos) s b' (FP : fits (moment n t c v d') p) => no_names p s b') HF (@nil (string * bool)) true [("datesteps", true)] TO HO inter_text' 3 x FX R; exact (END x _ eq_refl FX R).
  - far SI SD EB (fun (p : pos) s b' (FP : fits (moment n t c v d') p) => no_names p s b') HF (@nil (string * bool)) true [("datesteps", false)] TO HO inter_text' 3 x FX R; exact (END x _ eq_refl FX R).
  - far SI SD EB (fun (p : pos) s b' (FP : fits (moment n t c v d') p) => no_names p s b') HF (@nil (string * bool)) false [("datesteps", false)] TO HO inter_text' 3 x FX R; exact (END x _ eq_refl FX R).
Qed.
(** The first date, if storage is not cyclic. *)
Lemma inter_first d : cy = false -> nth_error (labels U "datesteps") 0 = Some d -> constraint_holds order m U "balance_storage_inter" -> carried U n t d = amount U "storage_initial" (asset n t).
Proof.
  intros EB EI (co & FC & HO); pose proof (nth_error_In _ _ EI) as ID; pose proof (date_steps d ID) as LT; pose proof (li_sited _ _ _ _ _ _ LI 0 d LT ID) as SI; pose proof (proj1 (proj1 SI)) as SD.
  pose proof (fun p e b' FP => date_first 0 d 0 p _ LT EI FP eq_refl e b') as HF; pose proof (li_carried _ _ _ _ _ _ LI d ID) as NC; pose proof (li_numbers _ _ _ _ _ _ LI "storage_initial" ltac:(cbn; tauto)) as BN.
  remember (step_label U 0) as v eqn:EV; change (0 =? 0)%nat with true in HF.
  assert (END : forall x, fits (date_at n t d) x -> related CEq (entry_of (u_env U) (EName "storage_inter_cluster") x) (op_cell (u_env U) OAdd (entry_of (u_env U) (EName "storage_initial") x) (number_cell false "0")) ->
    carried U n t d = amount U "storage_initial" (asset n t)).
  { intros x FX R; rewrite (numeric_entry U _ (date_at n t d) x SD ltac:(apart) FX NC), (numeric_entry U _ (asset n t) x SD ltac:(apart) ltac:(apply (fits_incl _ _ _ FX); inside) BN), zero_number, op_add in R.
    cbn [related in_order] in R; rewrite Qcplus_0_r in R; exact R. }
  destruct (inter_told co FC) as [TO|TO].
  - far SI SD EB (fun (p : pos) s b' (FP : fits (moment n t c v d) p) => no_names p s b') HF (@nil (string * bool)) false [("datesteps", true)] TO HO inter_text 0 x FX R; exact (END x FX R).
  - far SI SD EB (fun (p : pos) s b' (FP : fits (moment n t c v d) p) => no_names p s b') HF (@nil (string * bool)) false [("datesteps", true)] TO HO inter_text' 0 x FX R; exact (END x FX R).
Qed.

(** ** Limits *)
Definition range (s : string) (d : string) : Qc := amount U s (cluster_at n t (y_cluster (plan d))).
Ltac plainly_far SI SD EB TO HO v d tx i x FX R :=
  match type of EB with cy = ?b =>
    far SI SD EB (fun (p : pos) s b' (FP : fits (moment n t c v d) p) => no_names p s b') (fun (p : pos) s b' (FP : fits (moment n t c v d) p) => no_firsts p s b') (@nil (string * bool)) b (@nil (string * bool)) TO HO tx i x FX R
  end.
Lemma intra_max d j : In d (labels U "datesteps") -> j <= y_more (plan d) -> constraint_holds order m U "storage_intra_max" -> (level U n t (y_first (plan d) + j) <= range "storage_intra_cluster_max" d)%Qc.
Proof.
  intros ID LJ (co & FC & HO); pose proof (link_told 1 _ _ eq_refl FC) as TO; pose proof (li_dates _ _ _ _ _ _ LI d ID) as RP.
  assert (LT : y_first (plan d) + j < steps U) by (pose proof (re_steps _ _ _ RP); unfold y_last in *; lia).
  pose proof (li_sited _ _ _ _ _ _ LI _ d LT ID) as SI; pose proof (proj1 (proj1 SI)) as SD; pose proof (li_level _ _ _ _ _ _ LI _ LT) as NV; pose proof (re_own _ _ _ RP j LJ) as RO.
  pose proof (li_range _ _ _ _ _ _ LI "storage_intra_cluster_max" _ ltac:(tauto) (re_known _ _ _ RP)) as NR.
  unfold level; change (asset_step U n t (y_first (plan d) + j)) with (use_at n t (step_label U (y_first (plan d) + j))); remember (step_label U (y_first (plan d) + j)) as v eqn:EV.
  assert (END : forall x sl, sl = [("cluster", EName "timestep_cluster")] -> fits (use_at n t v) x ->
    related CLe (entry_of (u_env U) (EName "storage") x) (entry_far (slices_in (u_env U) sl) (EIndex "storage_intra_cluster_max" [("clusters", ESlice "cluster")]) x) -> (amount U "storage" (use_at n t v) <= range "storage_intra_cluster_max" d)%Qc).
  { intros x sl -> FX R; rewrite (far_look _ _ _ _ "timestep_cluster") in R by reflexivity.
    rewrite (look _ (at_step v) x _ SD ltac:(apart) ltac:(apply (fits_incl _ _ _ FX); inside) RO) in R; cbn [label] in R.
    rewrite (numeric_entry U _ (use_at n t v) x SD ltac:(apart) FX NV), (numeric_entry U _ (cluster_at n t (y_cluster (plan d))) _ SD ltac:(apart) (cluster_fits x n t _ ltac:(apply (fits_incl _ _ _ FX); inside)) NR) in R; exact R. }
  assert (CY : cy = true \/ cy = false) by (destruct cy; auto); destruct CY as [EB|EB]; plainly_far SI SD EB TO HO v d (link_text 1) 0 x FX R; exact (END x _ eq_refl FX R).
Qed.
Lemma intra_min d j : In d (labels U "datesteps") -> j <= y_more (plan d) -> constraint_holds order m U "storage_intra_min" -> (range "storage_intra_cluster_min" d <= level U n t (y_first (plan d) + j))%Qc.
Proof.
  intros ID LJ (co & FC & HO); pose proof (link_told 2 _ _ eq_refl FC) as TO; pose proof (li_dates _ _ _ _ _ _ LI d ID) as RP.
  assert (LT : y_first (plan d) + j < steps U) by (pose proof (re_steps _ _ _ RP); unfold y_last in *; lia).
  pose proof (li_sited _ _ _ _ _ _ LI _ d LT ID) as SI; pose proof (proj1 (proj1 SI)) as SD; pose proof (li_level _ _ _ _ _ _ LI _ LT) as NV; pose proof (re_own _ _ _ RP j LJ) as RO.
  pose proof (li_range _ _ _ _ _ _ LI "storage_intra_cluster_min" _ ltac:(tauto) (re_known _ _ _ RP)) as NR.
  unfold level; change (asset_step U n t (y_first (plan d) + j)) with (use_at n t (step_label U (y_first (plan d) + j))); remember (step_label U (y_first (plan d) + j)) as v eqn:EV.
  assert (END : forall x sl, sl = [("cluster", EName "timestep_cluster")] -> fits (use_at n t v) x ->
    related CGe (entry_of (u_env U) (EName "storage") x) (entry_far (slices_in (u_env U) sl) (EIndex "storage_intra_cluster_min" [("clusters", ESlice "cluster")]) x) -> (range "storage_intra_cluster_min" d <= amount U "storage" (use_at n t v))%Qc).
  { intros x sl -> FX R; rewrite (far_look _ _ _ _ "timestep_cluster") in R by reflexivity.
    rewrite (look _ (at_step v) x _ SD ltac:(apart) ltac:(apply (fits_incl _ _ _ FX); inside) RO) in R; cbn [label] in R.
    rewrite (numeric_entry U _ (use_at n t v) x SD ltac:(apart) FX NV), (numeric_entry U _ (cluster_at n t (y_cluster (plan d))) _ SD ltac:(apart) (cluster_fits x n t _ ltac:(apply (fits_incl _ _ _ FX); inside)) NR) in R; exact R. }
  assert (CY : cy = true \/ cy = false) by (destruct cy; auto); destruct CY as [EB|EB]; plainly_far SI SD EB TO HO v d (link_text 2) 0 x FX R; exact (END x _ eq_refl FX R).
Qed.
Lemma inter_max d : In d (labels U "datesteps") -> constraint_holds order m U "storage_inter_max" -> (carried U n t d + range "storage_intra_cluster_max" d <= amount U "storage_cap" (asset n t))%Qc.
Proof.
  intros ID (co & FC & HO); pose proof (link_told 3 _ _ eq_refl FC) as TO; pose proof (li_dates _ _ _ _ _ _ LI d ID) as RP; pose proof (date_steps d ID) as LT.
  pose proof (li_sited _ _ _ _ _ _ LI _ d LT ID) as SI; pose proof (proj1 (proj1 SI)) as SD; pose proof (li_carried _ _ _ _ _ _ LI d ID) as NC; pose proof (re_cluster _ _ _ RP) as RO.
  pose proof (li_range _ _ _ _ _ _ LI "storage_intra_cluster_max" _ ltac:(tauto) (re_known _ _ _ RP)) as NR; pose proof (li_numbers _ _ _ _ _ _ LI "storage_cap" ltac:(cbn; tauto)) as BN; remember (step_label U 0) as v eqn:EV.
  assert (END : forall x sl, sl = [("cluster", EName "lookup_datestep_cluster")] -> fits (date_at n t d) x ->
    related CLe (op_cell (u_env U) OAdd (entry_of (u_env U) (EName "storage_inter_cluster") x) (entry_far (slices_in (u_env U) sl) (EIndex "storage_intra_cluster_max" [("clusters", ESlice "cluster")]) x)) (entry_of (u_env U) (EName "storage_cap") x) ->
    (carried U n t d + range "storage_intra_cluster_max" d <= amount U "storage_cap" (asset n t))%Qc).
  { intros x sl -> FX R; rewrite (far_look _ _ _ _ "lookup_datestep_cluster") in R by reflexivity.
    rewrite (look _ (on_date d) x _ SD ltac:(apart) ltac:(apply (fits_incl _ _ _ FX); inside) RO) in R; cbn [label] in R.
    rewrite (numeric_entry U _ (date_at n t d) x SD ltac:(apart) FX NC), (numeric_entry U _ (cluster_at n t (y_cluster (plan d))) _ SD ltac:(apart) (cluster_fits x n t _ ltac:(apply (fits_incl _ _ _ FX); inside)) NR) in R.
    rewrite (numeric_entry U _ (asset n t) x SD ltac:(apart) ltac:(apply (fits_incl _ _ _ FX); inside) BN), op_add in R; exact R. }
  assert (CY : cy = true \/ cy = false) by (destruct cy; auto); destruct CY as [EB|EB]; plainly_far SI SD EB TO HO v d (link_text 3) 0 x FX R; exact (END x _ eq_refl FX R).
Qed.
Lemma inter_min d : In d (labels U "datesteps") -> constraint_holds order m U "storage_inter_min" -> (0 <= carried U n t d * Qcpower (1 - loss U n t) 24 + range "storage_intra_cluster_min" d)%Qc.
Proof.
  intros ID (co & FC & HO); pose proof (link_told 4 _ _ eq_refl FC) as TO; pose proof (li_dates _ _ _ _ _ _ LI d ID) as RP; pose proof (date_steps d ID) as LT.
  pose proof (li_sited _ _ _ _ _ _ LI _ d LT ID) as SI; pose proof (proj1 (proj1 SI)) as SD; pose proof (li_carried _ _ _ _ _ _ LI d ID) as NC; pose proof (re_cluster _ _ _ RP) as RO.
  pose proof (li_range _ _ _ _ _ _ LI "storage_intra_cluster_min" _ ltac:(tauto) (re_known _ _ _ RP)) as NR; pose proof (li_numbers _ _ _ _ _ _ LI "storage_loss" ltac:(cbn; tauto)) as BN; remember (step_label U 0) as v eqn:EV.
  assert (END : forall x sl, sl = [("cluster", EName "lookup_datestep_cluster")] -> fits (date_at n t d) x ->
    related CGe (op_cell (u_env U) OAdd (op_cell (u_env U) OMul (entry_of (u_env U) (EName "storage_inter_cluster") x) (op_cell (u_env U) OPow (op_cell (u_env U) OSub (number_cell false "1") (entry_of (u_env U) (EName "storage_loss") x)) (number_cell false "24")))
      (entry_far (slices_in (u_env U) sl) (EIndex "storage_intra_cluster_min" [("clusters", ESlice "cluster")]) x)) (number_cell false "0") ->
    (0 <= carried U n t d * Qcpower (1 - loss U n t) 24 + range "storage_intra_cluster_min" d)%Qc).
  { intros x sl -> FX R; rewrite (far_look _ _ _ _ "lookup_datestep_cluster") in R by reflexivity.
    rewrite (look _ (on_date d) x _ SD ltac:(apart) ltac:(apply (fits_incl _ _ _ FX); inside) RO) in R; cbn [label] in R.
    rewrite (numeric_entry U _ (date_at n t d) x SD ltac:(apart) FX NC), (numeric_entry U _ (cluster_at n t (y_cluster (plan d))) _ SD ltac:(apart) (cluster_fits x n t _ ltac:(apply (fits_incl _ _ _ FX); inside)) NR) in R.
    rewrite one_number, zero_number, (numeric_entry U _ (asset n t) x SD ltac:(apart) ltac:(apply (fits_incl _ _ _ FX); inside) BN), op_sub, day_pow, op_mul, op_add in R; exact R. }
  assert (CY : cy = true \/ cy = false) by (destruct cy; auto); destruct CY as [EB|EB]; plainly_far SI SD EB TO HO v d (link_text 4) 0 x FX R; exact (END x _ eq_refl FX R).
Qed.
End Link.
