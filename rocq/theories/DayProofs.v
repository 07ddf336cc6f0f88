(** Lemmas on storage in representative days that are not linked. *)
From Coq Require Import QArith Qcanon Lia.
From Verif Require Import Base BaseProofs LangModel MathText EvalModel EvalSpec BuildModel BuildSpec BuildProofs BuildEqs
  HelperModel HelperSpec HelperProofs HelperLocal HelperLaws ShipModel ShipSpec ShipProofs ShipEntry ShipStorage ShipNumbers NetSpec NetProofs PlaceSpec ShipPlace RuleText RuleProofs StepText LinkSpec LinkText LinkProofs DaySpec.
Local Open Scope nat_scope.
Local Open Scope string_scope.
Local Open Scope list_scope.
Local Arguments String.eqb : simpl never.

Definition day_text : text := Eval vm_compute in or_none (hd None (texts_in (layered []) "constraints" ["balance_storage"])).
Lemma day_read : map (fun files => texts_in (layered files) "constraints" ["balance_storage"]) chronological = repeat (map Some [day_text]) 6.
Proof. vm_compute; reflexivity. Qed.
Lemma day_shipped files : In files chronological -> In files shipped.
Proof. intros H; repeat (destruct H as [<- |H]; [cbn; tauto|]); destruct H. Qed.
Lemma day_dims : forallb (fun files => smem "timesteps" (LangModel.n_dims (math_names (layered files)))) chronological = true.
Proof. vm_compute; reflexivity. Qed.
Lemma far_select D s d y x : entry_far D (EFun "select_from_lookup_arrays" [EName s] [(d, EName y)]) x =
  match a_at (n_array D y) x with Txt l => if smem l (n_labels D d) then entry_of D (EName s) (put x d l) else Miss | _ => Miss end.
Proof. reflexivity. Qed.
Lemma slice_select D sl s d y x : entry_far (slices_in D sl) (EFun "select_from_lookup_arrays" [EName s] [(d, EName y)]) x = entry_far D (EFun "select_from_lookup_arrays" [EName s] [(d, EName y)]) x.
Proof. rewrite !far_select; cbn [slices_in n_array n_labels]; destruct (a_at (n_array D y) x); reflexivity. Qed.

Section Day.
Variable order : list string -> list string.
Hypothesis OR : lists_set order.
Variable files : list math_file.
Hypothesis IL : In files chronological.
Variable U : world.
Variables (n t c : string) (cy : bool).
Hypothesis KE : kept U n t c cy.
Variable fade : nat -> Qc.
Hypothesis FA : fading U n t fade.
Let m := layered files.
Let W := world_where (math_names m) U.
Lemma day_told co : find_in (h_constraints m) "balance_storage" = Some co -> told order m "constraints" co (fe_of day_text) (where_of day_text) (eqs_of day_text).
Proof. exact (listed_told order OR files "constraints" ["balance_storage"] [day_text] chronological 6 0 _ co day_read eq_refl IL eq_refl). Qed.
Lemma step_dim : smem "timesteps" (LangModel.n_dims (math_names m)) = true.
Proof. pose proof day_dims as H; rewrite forallb_forall in H; exact (H files IL). Qed.
Lemma reads_here l l' p s v : fits l p -> (forall d x, In (d, x) l' -> In (d, x) l) -> NoDup (map fst l') -> sound (u_env U) -> reads_as U s l' v -> In s shared_inputs -> aeval (cmp_env W) everywhere (EName s) p = v.
Proof.
  intros FP SUB ND SD (WD & E) IS; destruct (input_of files s (day_shipped files IL) IS) as (K1 & K2); unfold W, m; rewrite (cond_input _ U s p K1 K2), <- E; apply value_spot; [exact SD| |exact ND|exact WD].
  intros d' x IN; apply FP, SUB, IN.
Qed.
Definition da (b b' : bool) : list (string * cell) := [("base_tech", Txt "storage"); ("cyclic_storage", Boo b); ("cluster_first_timestep", Boo b')].
Lemma da_holds b b' k p s v : cy = b -> sound (u_env U) -> reads_as U "cluster_first_timestep" (at_step k) (Boo b') -> fits (flow_at n t c k) p -> d_get s (da b b') = Some v -> aeval (cmp_env W) everywhere (EName s) p = v.
Proof.
  intros EB SD RC FP; unfold da; cbn [d_get].
  destruct (String.eqb s "base_tech") eqn:E1; [apply String.eqb_eq in E1; subst s; intros H; injection H as <-; apply (reads_here _ (asset n t) p _ _ FP); [inside|apart|exact SD|apply KE|cbn; tauto]|].
  destruct (String.eqb s "cyclic_storage") eqn:E2; [apply String.eqb_eq in E2; subst s; intros H; injection H as <-; apply (reads_here _ (asset n t) p _ _ FP); [inside|apart|exact SD|rewrite <- EB; apply KE|cbn; tauto]|].
  destruct (String.eqb s "cluster_first_timestep") eqn:E3; [|discriminate].
  apply String.eqb_eq in E3; subst s; intros H; injection H as <-; apply (reads_here _ (at_step k) p _ _ FP); [inside|apart|exact SD|exact RC|cbn; tauto].
Qed.
Lemma first_step_is k p b : k < steps U -> fits (flow_at n t c (step_label U k)) p -> b = (k =? 0)%nat ->
  forall e b', d_get e [("timesteps", b)] = Some b' -> weval W (first_of e) p = b'.
Proof.
  intros LT FP -> e b'; cbn [d_get]; destruct (String.eqb e "timesteps") eqn:E; [|discriminate]; apply String.eqb_eq in E; subst; intros H; injection H as <-.
  pose proof (ke_sited _ _ _ _ _ KE k LT) as SI; unfold W, m; unfold first_of; cbn [weval compare]; rewrite cond_dim by exact step_dim; rewrite cond_first by (apply (site_labels U _ _ SI); cbn; tauto).
  rewrite (FP "timesteps" (step_label U k)) by (cbn; tauto); cbn [same].
  apply eq_true_iff_eq; rewrite String.eqb_eq, Nat.eqb_eq; unfold step_label; split; [|intros ->; reflexivity].
  intros E; apply (NoDup_nth (labels U "timesteps") "") in E; auto; [apply SI|unfold steps in LT; lia].
Qed.
Lemma no_name (p : pos) : forall s b, d_get s (@nil (string * bool)) = Some b -> weval W (WName s) p = b.
Proof. discriminate. Qed.
Ltac near SI SD EB RC HF b b' fi TO HO i x FX R :=
  match type of SI with sited ?V ?l =>
    match type of TO with told ?order ?mm _ ?co _ _ _ =>
      let res := eval vm_compute in (far_sides l [] (da b b') fi day_text i) in
      match res with Some (?a, ?o, ?e, ?sl) =>
        destruct (far_says V order mm l SI [] (da b b') fi (fun pp ss bb FP => no_name pp ss bb) (fun pp ss vv FP => da_holds b b' _ pp ss vv EB SD RC FP) HF day_text i co a o e sl TO HO ltac:(vm_compute; reflexivity)) as (x & FX & R)
      end
    end
  end; rewrite ?far_two, ?far_one, ?far_roll, ?slice_select, ?far_select, ?far_sum, ?far_name, ?far_num in R; rewrite ?slice_op, ?slice_name, ?slice_sum, ?slice_before in R; place_of FX.

(** Where the level of a timestep comes from: the timestep before, or the last one of the day. *)
Lemma day_level k b u : k < steps U -> reads_as U "cluster_first_timestep" (at_step (step_label U k)) (Boo b) -> u < steps U ->
  (if b : bool then within_dims U "lookup_cluster_last_timestep" ["timesteps"] /\ a_at (n_array (u_env U) "lookup_cluster_last_timestep") (spot (at_step (step_label U k))) = Txt (step_label U u) else u = before U k) ->
  constraint_holds order m U "balance_storage" ->
  level U n t k = ((if (k =? 0)%nat && negb cy then amount U "storage_initial" (asset n t) * amount U "storage_cap" (asset n t) else fade u * level U n t u) - taken_out U n t k + put_in U n t k)%Qc.
Proof.
  intros LT RC LB HU (co & FC & HO); pose proof (day_told _ FC) as TO; pose proof (ke_sited _ _ _ _ _ KE k LT) as SI; pose proof (proj1 (proj1 SI)) as SD; assert (NL : NoDup (labels U "timesteps")) by apply SI.
  pose proof (fun p e b' FP => first_step_is k p _ LT FP eq_refl e b') as HF.
  pose proof (ke_level _ _ _ _ _ KE k LT) as NV; pose proof (ke_level _ _ _ _ _ KE _ LB) as NB; pose proof (ke_hours _ _ _ _ _ KE _ LB) as NH.
  pose proof (fun s H => ke_flows _ _ _ _ _ KE s k H LT) as NF; pose proof (ke_numbers _ _ _ _ _ KE) as BN.
  assert (NC : labels U "carriers" <> []) by (apply (site_labels U _ _ SI); cbn; tauto).
  remember (step_label U k) as v eqn:EV; remember (step_label U u) as w eqn:EU.
  assert (PL : place v (labels U "timesteps") = Some k) by (rewrite EV; unfold step_label; apply place_nth; assumption).
  assert (END : forall x q, fits (use_at n t v) x ->
    related CEq (entry_of (u_env U) (EName "storage") x)
      (op_cell (u_env U) OAdd (op_cell (u_env U) OSub q (entry_of (u_env U) (EFun "sum" [EName "flow_out_inc_eff"] [("over", EName "carriers")]) x)) (entry_of (u_env U) (EFun "sum" [EName "flow_in_inc_eff"] [("over", EName "carriers")]) x)) ->
    forall a, q = Val a -> level U n t k = (a - taken_out U n t k + put_in U n t k)%Qc).
  { unfold level, taken_out, put_in; change (asset_step U n t k) with (use_at n t (step_label U k)); rewrite <- EV; intros x q FX R a ->.
    rewrite (numeric_entry U "storage" (use_at n t v) x SD ltac:(apart) FX NV) in R.
    rewrite (numeric_sum U "flow_out_inc_eff" "carriers" (EName "carriers") (use_at n t v) x SD ltac:(apart) FX ltac:(cbn; intuition discriminate) NC eq_refl (NF _ (or_intror eq_refl))) in R.
    rewrite (numeric_sum U "flow_in_inc_eff" "carriers" (EName "carriers") (use_at n t v) x SD ltac:(apart) FX ltac:(cbn; intuition discriminate) NC eq_refl (NF _ (or_introl eq_refl))), op_sub, op_add in R; exact R. }
  assert (PAST : forall x, fits (use_at n t v) x ->
    op_cell (u_env U) OMul (op_cell (u_env U) OPow (op_cell (u_env U) OSub (number_cell false "1") (entry_of (u_env U) (EName "storage_loss") x))
        (entry_of (u_env U) (EName "timestep_resolution") (put x "timesteps" w)))
      (entry_of (u_env U) (EName "storage") (put x "timesteps" w)) = Val (fade u * level U n t u)%Qc).
  { intros x FX; assert (FY : fits (use_at n t w) (put x "timesteps" w)).
    { intros d' y [E|[E|[E|[]]]]; injection E as <- <-; unfold put; cbn [String.eqb Ascii.eqb Bool.eqb]; try (apply FX; cbn; tauto); reflexivity. }
    rewrite one_number, (numeric_entry U "storage_loss" (asset n t) x SD ltac:(apart) ltac:(apply (fits_incl _ _ _ FX); inside) (BN _ ltac:(cbn; tauto))).
    rewrite (numeric_entry U "timestep_resolution" (at_step w) _ SD ltac:(apart) ltac:(apply (fits_incl _ _ _ FY); inside) NH), (numeric_entry U "storage" (use_at n t w) _ SD ltac:(apart) FY NB), op_sub.
    unfold level; change (asset_step U n t u) with (use_at n t (step_label U u)); rewrite <- EU; fold (loss U n t); rewrite EU.
    change (amount U "timestep_resolution" (at_step (step_label U u))) with (hours U u); rewrite (remains_pow (u_env U) U _ _ (fade u) eq_refl (FA u LB)); reflexivity. }
  assert (INIT : forall x, fits (use_at n t v) x -> op_cell (u_env U) OMul (entry_of (u_env U) (EName "storage_initial") x) (entry_of (u_env U) (EName "storage_cap") x) =
    Val (amount U "storage_initial" (asset n t) * amount U "storage_cap" (asset n t))%Qc).
  { intros x FX; rewrite (numeric_entry U "storage_initial" (asset n t) x SD ltac:(apart) ltac:(apply (fits_incl _ _ _ FX); inside) (BN "storage_initial" ltac:(cbn; tauto))).
    rewrite (numeric_entry U "storage_cap" (asset n t) x SD ltac:(apart) ltac:(apply (fits_incl _ _ _ FX); inside) (BN "storage_cap" ltac:(cbn; tauto))); apply op_mul. }
  assert (CY : cy = true \/ cy = false) by (destruct cy; auto).
  destruct b.
  - destruct HU as (WD & EL).
    assert (LOOK : forall x, fits (use_at n t v) x -> a_at (n_array (u_env U) "lookup_cluster_last_timestep") x = Txt w).
    { intros x FX; rewrite <- EL; apply (raw_at U (at_step v)); [exact SD|apart|apply (fits_incl _ _ _ FX); inside|exact WD]. }
    assert (IW : smem w (n_labels (u_env U) "timesteps") = true) by (apply smem_in; rewrite EU; unfold step_label; apply nth_In; exact LB).
    destruct (k =? 0)%nat eqn:K0; cbn [andb]; destruct CY as [EB|EB]; try (rewrite EB); cbn [negb].
    + near SI SD EB RC HF true true [("timesteps", true)] TO HO 2 x FX R; rewrite (LOOK x FX), IW in R; exact (END x _ FX R _ (PAST x FX)).
    + near SI SD EB RC HF false true [("timesteps", true)] TO HO 0 x FX R; exact (END x _ FX R _ (INIT x FX)).
    + near SI SD EB RC HF true true [("timesteps", false)] TO HO 2 x FX R; rewrite (LOOK x FX), IW in R; exact (END x _ FX R _ (PAST x FX)).
    + near SI SD EB RC HF false true [("timesteps", false)] TO HO 2 x FX R; rewrite (LOOK x FX), IW in R; exact (END x _ FX R _ (PAST x FX)).
  - assert (PV : before_in (u_env U) "timesteps" v = w) by (unfold before_in; fold (labels U "timesteps"); rewrite PL, EU, HU; unfold before, final, step_label, steps; destruct k; reflexivity).
    assert (BACK : forall x, fits (use_at n t v) x -> before_in (u_env U) "timesteps" (x "timesteps") = w) by (intros x FX; rewrite (FX "timesteps" v) by (cbn; tauto); exact PV).
    destruct (k =? 0)%nat eqn:K0; cbn [andb]; destruct CY as [EB|EB]; try (rewrite EB); cbn [negb].
    + near SI SD EB RC HF true false [("timesteps", true)] TO HO 1 x FX R; rewrite (BACK x FX) in R; exact (END x _ FX R _ (PAST x FX)).
    + near SI SD EB RC HF false false [("timesteps", true)] TO HO 0 x FX R; exact (END x _ FX R _ (INIT x FX)).
    + near SI SD EB RC HF true false [("timesteps", false)] TO HO 1 x FX R; rewrite (BACK x FX) in R; exact (END x _ FX R _ (PAST x FX)).
    + near SI SD EB RC HF false false [("timesteps", false)] TO HO 1 x FX R; rewrite (BACK x FX) in R; exact (END x _ FX R _ (PAST x FX)).
Qed.
End Day.
