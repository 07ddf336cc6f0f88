(** Lemmas on ramping and on supply technologies with a store. *)
From Coq Require Import QArith Qcanon Lia.
From Verif Require Import Base BaseProofs LangModel MathText EvalModel EvalSpec BuildModel BuildSpec BuildProofs BuildEqs
  HelperModel HelperSpec HelperProofs HelperLocal HelperLaws ShipModel ShipSpec ShipProofs ShipEntry ShipStorage ShipNumbers NetSpec NetProofs PlaceSpec ShipPlace RuleText RuleProofs CostSpec StepText StepSpec.
Local Open Scope nat_scope.
Local Open Scope string_scope.
Local Open Scope list_scope.
Local Arguments String.eqb : simpl never.

Lemma previous_of U j k : NoDup (labels U "timesteps") -> follows U j k -> previous (u_env U) k = j /\ k <> nth 0 (labels U "timesteps") "" /\ In j (labels U "timesteps") /\ In k (labels U "timesteps").
Proof.
  intros ND (i & EJ & EK); pose proof (nth_error_In _ _ EJ) as IJ; pose proof (nth_error_In _ _ EK) as IK.
  assert (LT : S i < List.length (labels U "timesteps")) by (apply nth_error_Some; rewrite EK; discriminate).
  assert (NK : nth (S i) (labels U "timesteps") "" = k) by (apply nth_error_nth; exact EK); assert (NJ : nth i (labels U "timesteps") "" = j) by (apply nth_error_nth; exact EJ).
  split; [|split; [|auto]].
  - unfold previous; fold (labels U "timesteps"); rewrite <- NK, (place_nth _ ND (S i) LT); exact NJ.
  - intros E; rewrite <- NK in E; apply (NoDup_nth (labels U "timesteps") "") in E; auto; [discriminate|lia].
Qed.
Lemma times_known files : In files shipped -> smem "timesteps" (LangModel.n_dims (math_names (layered files))) = true.
Proof. intros IF; pose proof shared_inputs_known as H; rewrite forallb_forall in H; specialize (H files IF); unfold inputs_known in H; rewrite andb_true_iff in H; apply H. Qed.
Lemma start_of U files l k b : In files shipped -> sited U l -> In ("timesteps", k) l -> b = String.eqb k (nth 0 (labels U "timesteps") "") ->
  forall p b', fits l p -> Some b = Some b' -> weval (world_where (math_names (layered files)) U) first_step p = b'.
Proof.
  intros IF SI IN EB p b' FP E; injection E as <-; apply (start_in U (math_names (layered files)) l p); [apply times_known, IF| |exact FP|exists k; auto].
  apply (site_labels U "timesteps" l SI), (in_map fst _ _ IN).
Qed.
Section Steps.
Variable order : list string -> list string.
Hypothesis OR : lists_set order.
Variable files : list math_file.
Variable U : world.
Definition step_text (i : nat) : text := nth i step_texts no_text.
Definition buffer_text : text := nth 0 buffer_texts no_text.
Lemma step_told i s c : In files shipped -> nth_error step_names i = Some s -> find_in (h_constraints (layered files)) s = Some c ->
  told order (layered files) "constraints" c (fe_of (step_text i)) (where_of (step_text i)) (eqs_of (step_text i)).
Proof. intros IF; exact (listed_told order OR files "constraints" step_names step_texts shipped 15 i s c step_read eq_refl IF). Qed.
Lemma buffer_told c : In files chronological -> find_in (h_constraints (layered files)) "balance_supply_with_storage" = Some c ->
  told order (layered files) "constraints" c (fe_of buffer_text) (where_of buffer_text) (eqs_of buffer_text).
Proof. intros IF; exact (listed_told order OR files "constraints" buffer_names buffer_texts chronological _ 0 _ c buffer_read eq_refl IF eq_refl). Qed.

Lemma named_at s l x : sound (u_env U) -> NoDup (map fst l) -> fits l x -> numeric U s l -> entry_of (u_env U) (EName s) x = Val (amount U s l).
Proof. apply numeric_entry. Qed.
Lemma fits_at n t c k x : fits (flow_at n t c k) x -> fits (cap_at n t c) x /\ fits (step_at k) x /\ fits (use_at n t k) x /\ fits (asset n t) x.
Proof. intros FX; repeat split; apply (fits_incl _ _ _ FX); inside. Qed.
Lemma fits_back n t c k j x : fits (flow_at n t c k) x -> fits (flow_at n t c j) (put x "timesteps" j).
Proof.
  intros FX d v [E|[E|[E|[E|[]]]]]; injection E as <- <-; unfold put; [change (String.eqb "nodes" "timesteps") with false|change (String.eqb "techs" "timesteps") with false|change (String.eqb "carriers" "timesteps") with false|rewrite String.eqb_refl; reflexivity];
    cbv iota; apply FX; cbn; tauto.
Qed.
Ltac back SI IF F st FS TO HO t i x FX R :=
  match type of SI with sited ?V ?l =>
    match type of TO with told ?order ?m _ ?co _ _ _ =>
      let s := eval vm_compute in (back_sides F st t (map fst l) i) in
      match s with Some (?a, ?o, ?b) =>
        destruct (step_says V order m l SI F st ltac:(facts (proj1 (proj1 SI))) ltac:(knowns IF) FS t i co a o b TO HO ltac:(vm_compute; reflexivity)) as (x & FX & R)
      end
    end
  end; place_of FX; rewrite ?back_two, ?back_one, ?back_two, ?back_one, ?back_roll, ?back_name, ?back_num, ?back_minus in R.

Lemma minus_one : op_cell (u_env U) OMul (Val (- (1))%Qc) (number_cell false "1") = Val (- (1))%Qc.
Proof. rewrite one_number, op_mul; f_equal; ring. Qed.
(** * Ramping *)
Section Ramp.
Variables (n t c j k : string) (rate : string -> Qc).
Hypothesis IF : In files shipped.
Hypothesis SI : sited U (flow_at n t c k).
Hypothesis FO : follows U j k.
Hypothesis LJ : lasts U j.
Hypothesis LK : lasts U k.
Hypothesis RU : running U n t c rate.
Hypothesis GR : given U "flow_ramping" (flow_at n t c k).
Hypothesis NC : numeric U "flow_cap" (cap_at n t c).
Let limit := (amount U "flow_ramping" (flow_at n t c k) * amount U "flow_cap" (cap_at n t c))%Qc.
Lemma ramp_limits :
  (constraint_holds order (layered files) U "ramping_up" -> (rate k - rate j <= limit)%Qc) /\
  (constraint_holds order (layered files) U "ramping_down" -> (- (1) * amount U "flow_ramping" (flow_at n t c k) * amount U "flow_cap" (cap_at n t c) <= rate k - rate j)%Qc).
Proof.
  pose proof (proj1 (proj1 SI)) as SD; assert (NL : NoDup (labels U "timesteps")) by apply SI; destruct (previous_of U j k NL FO) as (PK & NF & IJ & IK).
  assert (FS : forall p b, fits (flow_at n t c k) p -> Some false = Some b -> weval (world_where (math_names (layered files)) U) first_step p = b).
  { apply (start_of U files (flow_at n t c k) k false IF SI); [cbn; tauto|symmetry; apply String.eqb_neq, NF]. }
  assert (AT : forall s x v, fits (flow_at n t c v) x -> numeric U s (flow_at n t c v) -> entry_of (u_env U) (EName s) x = Val (amount U s (flow_at n t c v))) by (intros s x v FX NU; apply numeric_entry; auto; apart).
  assert (HR : forall x v, fits (flow_at n t c v) x -> lasts U v -> entry_of (u_env U) (EName "timestep_resolution") x = Val (lasting U v)) by (intros x v FX (NU & _); apply numeric_entry; auto; [apart|apply (fits_at n t c v x FX)]).
  assert (CA : forall x v, fits (flow_at n t c v) x -> entry_of (u_env U) (EName "flow_cap") x = Val (amount U "flow_cap" (cap_at n t c))) by (intros x v FX; apply numeric_entry; auto; [apart|apply (fits_at n t c v x FX)]).
  pose proof (given_numeric _ _ _ GR) as NR; pose proof (proj2 LJ) as ZJ; pose proof (proj2 LK) as ZK.
  split; intros (co & FC & HO); [pose proof (step_told 0 _ _ IF eq_refl FC) as TO|pose proof (step_told 1 _ _ IF eq_refl FC) as TO].
  all: destruct RU as [(ON & OFF & NU & ER)|[(ON & OFF & NU & ER)|(ON & ON2 & NU & ER)]]; rewrite (ER j), (ER k).
  all: match goal with
    | TO : told _ _ _ _ (fe_of (step_text 0)) _ _, ON : switched_on U "carrier_out" _, OFF : switched_off U "carrier_in" _ |- _ =>
        back SI IF [("flow_ramping", Given); ("carrier_out", On); ("carrier_in", Off)] (Some false) FS TO HO (step_text 0) 0 x FX R
    | TO : told _ _ _ _ (fe_of (step_text 0)) _ _, ON : switched_on U "carrier_in" _, OFF : switched_off U "carrier_out" _ |- _ =>
        back SI IF [("flow_ramping", Given); ("carrier_in", On); ("carrier_out", Off)] (Some false) FS TO HO (step_text 0) 1 x FX R
    | TO : told _ _ _ _ (fe_of (step_text 0)) _ _ |- _ =>
        back SI IF [("flow_ramping", Given); ("carrier_in", On); ("carrier_out", On)] (Some false) FS TO HO (step_text 0) 2 x FX R
    | TO : told _ _ _ _ (fe_of (step_text 1)) _ _, ON : switched_on U "carrier_out" _, OFF : switched_off U "carrier_in" _ |- _ =>
        back SI IF [("flow_ramping", Given); ("carrier_out", On); ("carrier_in", Off)] (Some false) FS TO HO (step_text 1) 0 x FX R
    | TO : told _ _ _ _ (fe_of (step_text 1)) _ _, ON : switched_on U "carrier_in" _, OFF : switched_off U "carrier_out" _ |- _ =>
        back SI IF [("flow_ramping", Given); ("carrier_in", On); ("carrier_out", Off)] (Some false) FS TO HO (step_text 1) 1 x FX R
    | TO : told _ _ _ _ (fe_of (step_text 1)) _ _ |- _ =>
        back SI IF [("flow_ramping", Given); ("carrier_in", On); ("carrier_out", On)] (Some false) FS TO HO (step_text 1) 2 x FX R
    end.
  all: rewrite ?(FX "timesteps" k) in R by (cbn; tauto); rewrite ?PK in R; pose proof (fits_back n t c k j x FX) as FY.
  all: rewrite ?entry_chain, ?(HR x k FX LK), ?(HR _ j FY LJ), ?(CA x k FX), ?(AT "flow_ramping" x k FX NR), ?minus_one in R.
  all: try (rewrite (AT _ _ _ FX (NU k IK)), (AT _ _ _ FY (NU j IJ)) in R).
  all: try (rewrite (AT _ _ _ FX (proj1 (NU k IK))), (AT _ _ _ FX (proj2 (NU k IK))), (AT _ _ _ FY (proj1 (NU j IJ))), (AT _ _ _ FY (proj2 (NU j IJ))), ?op_sub in R).
  all: rewrite ?op_mul, ?op_sub, !op_div, ?op_mul, ?op_sub in R by assumption; exact R.
Qed.
End Ramp.

(** * Stores of supply technologies *)
Section Buffer.
Variables (n t c : string) (cy : bool) (fade : nat -> Qc).
Hypothesis IC : In files chronological.
Hypothesis BU : buffered U n t c cy.
Hypothesis FA : fading U n t fade.
Hypothesis HB : constraint_holds order (layered files) U "balance_supply_with_storage".
Lemma chronological_shipped : In files shipped.
Proof. revert IC; clear; intros H; repeat (destruct H as [<- |H]; [cbn; tauto|]); destruct H. Qed.
Lemma buffer_step k : k < steps U ->
  stored U n t k = ((if (k =? 0)%nat && negb cy then amount U "storage_initial" (asset n t) * amount U "storage_cap" (asset n t) else fade (before U k) * stored U n t (before U k)) +
                    gathered U n t k - given_out U n t c k)%Qc.
Proof.
  intros LT; pose proof (bu_sited _ _ _ _ _ BU k LT) as SI; pose proof (proj1 (proj1 SI)) as SD; assert (NL : NoDup (labels U "timesteps")) by apply SI; pose proof chronological_shipped as IF.
  remember (step_label U k) as v eqn:EV; pose proof (bu_supply _ _ _ _ _ BU) as BS; pose proof (bu_level _ _ _ _ _ BU k LT) as GL; rewrite <- EV in GL; pose proof (bu_cyclic _ _ _ _ _ BU) as CY.
  destruct (bu_source _ _ _ _ _ BU k LT) as (NS & NE); rewrite <- EV in NS, NE; pose proof (bu_out _ _ _ _ _ BU k LT) as NO; rewrite <- EV in NO.
  pose proof (before_lt U k LT) as LB; pose proof (given_numeric _ _ _ GL) as NV; pose proof (given_numeric _ _ _ (bu_level _ _ _ _ _ BU _ LB)) as NB; pose proof (bu_hours _ _ _ _ _ BU _ LB) as NH.
  pose proof (bu_numbers _ _ _ _ _ BU) as BN; pose proof (bu_chronological _ _ _ _ _ BU k LT) as CH; rewrite <- EV in CH.
  assert (PL : place v (labels U "timesteps") = Some k) by (rewrite EV; unfold step_label; apply place_nth; assumption).
  assert (PV : previous (u_env U) v = step_label U (before U k)) by (unfold previous; fold (labels U "timesteps"); rewrite PL; unfold before, final, step_label, steps; destruct k; reflexivity).
  assert (EB : (k =? 0)%nat = String.eqb v (nth 0 (labels U "timesteps") "")).
  { symmetry; apply eq_true_iff_eq; rewrite String.eqb_eq, Nat.eqb_eq, EV; unfold step_label; split; [|intros ->; reflexivity].
    intros E; apply (NoDup_nth (labels U "timesteps") "") in E; auto; unfold steps in LT; lia. }
  pose proof (fun b H => start_of U files (flow_at n t c v) v b IF SI ltac:(cbn; tauto) H) as FS.
  assert (AT : forall s l x, NoDup (map fst l) -> fits l x -> numeric U s l -> entry_of (u_env U) (EName s) x = Val (amount U s l)) by (intros s l x ND FX NU; apply numeric_entry; auto).
  destruct HB as (co & FC & HO); pose proof (buffer_told co IC FC) as TO.
  assert (END : forall x q, fits (flow_at n t c v) x ->
    related CEq (entry_of (u_env U) (EName "storage") x)
      (op_cell (u_env U) OSub (op_cell (u_env U) OAdd q (op_cell (u_env U) OMul (entry_of (u_env U) (EName "source_use") x) (entry_of (u_env U) (EName "source_eff") x))) (entry_of (u_env U) (EName "flow_out_inc_eff") x)) ->
    forall a, q = Val a -> stored U n t k = (a + gathered U n t k - given_out U n t c k)%Qc).
  { unfold stored, gathered, given_out; rewrite <- EV; intros x q FX R a ->; destruct (fits_at n t c v x FX) as (_ & _ & FU & _).
    rewrite (AT _ (use_at n t v) x ltac:(apart) FU NV), (AT _ (use_at n t v) x ltac:(apart) FU NS), (AT _ (use_at n t v) x ltac:(apart) FU NE), (AT _ (flow_at n t c v) x ltac:(apart) FX NO), op_mul, op_add, op_sub in R; exact R. }
  assert (PAST : forall x, fits (flow_at n t c v) x ->
    op_cell (u_env U) OMul (op_cell (u_env U) OPow (op_cell (u_env U) OSub (entry_of (u_env U) (ENum false "1") x) (entry_of (u_env U) (EName "storage_loss") x))
        (entry_of (u_env U) (EName "timestep_resolution") (put x "timesteps" (step_label U (before U k)))))
      (entry_of (u_env U) (EName "storage") (put x "timesteps" (step_label U (before U k)))) = Val (fade (before U k) * stored U n t (before U k))%Qc).
  { intros x FX; destruct (fits_at n t c v x FX) as (_ & _ & _ & FN); pose proof (fits_back n t c v (step_label U (before U k)) x FX) as FY; destruct (fits_at _ _ _ _ _ FY) as (_ & F1 & F2 & _).
    change (entry_of (u_env U) (ENum false "1") x) with (number_cell false "1"); rewrite one_number.
    rewrite (AT "storage_loss" (asset n t) x ltac:(apart) FN) by (apply BN; cbn; tauto); rewrite (AT _ (step_at (step_label U (before U k))) _ ltac:(apart) F1 NH), (AT _ (use_at n t (step_label U (before U k))) _ ltac:(apart) F2 NB), op_sub.
    fold (loss U n t); change (amount U "timestep_resolution" (step_at (step_label U (before U k)))) with (hours U (before U k)); rewrite (remains_pow (u_env U) U _ _ (fade (before U k)) eq_refl (FA (before U k) LB)); reflexivity. }
  destruct (k =? 0)%nat eqn:K0; cbn [andb]; [destruct cy; cbn [negb]|].
  - destruct CH as [CH|CH].
    + back SI IF [("storage", Given); ("base_tech", Is (Txt "supply")); ("cyclic_storage", Is (Boo true)); ("cluster_first_timestep", Is (Boo false))] (Some true) (FS true EB) TO HO buffer_text 1 x FX R.
      rewrite (FX "timesteps" v), PV in R by (cbn; tauto); apply (END x _ FX R), (PAST x FX).
    + back SI IF [("storage", Given); ("base_tech", Is (Txt "supply")); ("cyclic_storage", Is (Boo true)); ("cluster_first_timestep", Is Miss)] (Some true) (FS true EB) TO HO buffer_text 1 x FX R.
      rewrite (FX "timesteps" v), PV in R by (cbn; tauto); apply (END x _ FX R), (PAST x FX).
  - back SI IF [("storage", Given); ("base_tech", Is (Txt "supply")); ("cyclic_storage", Is (Boo false))] (Some true) (FS true EB) TO HO buffer_text 0 x FX R.
    apply (END x _ FX R); destruct (fits_at n t c v x FX) as (_ & _ & _ & FN); rewrite (AT "storage_initial" (asset n t) x ltac:(apart) FN), (AT "storage_cap" (asset n t) x ltac:(apart) FN) by (apply BN; cbn; tauto); apply op_mul.
  - destruct CH as [CH|CH].
    + back SI IF [("storage", Given); ("base_tech", Is (Txt "supply")); ("cluster_first_timestep", Is (Boo false))] (Some false) (FS false EB) TO HO buffer_text 1 x FX R.
      rewrite (FX "timesteps" v), PV in R by (cbn; tauto); apply (END x _ FX R), (PAST x FX).
    + back SI IF [("storage", Given); ("base_tech", Is (Txt "supply")); ("cluster_first_timestep", Is Miss)] (Some false) (FS false EB) TO HO buffer_text 1 x FX R.
      rewrite (FX "timesteps" v), PV in R by (cbn; tauto); apply (END x _ FX R), (PAST x FX).
Qed.
End Buffer.
End Steps.
