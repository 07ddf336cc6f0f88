(** Lemmas on results calculated after solving, and on annual payments. *)
From Coq Require Import QArith Qcanon Lia.
From Verif Require Import Base BaseProofs LangModel MathText EvalModel EvalSpec BuildModel BuildSpec BuildProofs BuildEqs
  HelperModel HelperSpec ShipModel ShipSpec ShipProofs ShipEntry ShipStorage ShipNumbers NetSpec NetProofs PlaceSpec ShipPlace RuleText RuleProofs CostSpec CostText CostProofs CostTotals CostYear CostGoal.
From Verif Require CliModel CliProofs.
Local Open Scope nat_scope.
Local Open Scope string_scope.
Local Open Scope list_scope.
Local Arguments String.eqb : simpl never.

(** Payments at the end of every year are worth the investment. *)
Lemma present_more i pay y : present_value i pay (S y) = (present_value i pay y + pay / Qcpower (1 + i) (S y))%Qc.
Proof.
  unfold present_value; rewrite seq_S, fold_right_app; cbn [fold_right]; rewrite Qcplus_0_r; replace (1 + y) with (S y) by lia.
  generalize (pay / Qcpower (1 + i) (S y))%Qc; intros z; induction (seq 1 y) as [|j l IH]; cbn [fold_right]; [ring|rewrite IH; ring].
Qed.
Lemma power_nonzero a n : a <> 0%Qc -> Qcpower a n <> 0%Qc.
Proof. intros NZ; induction n as [|n IH]; cbn [Qcpower]; [discriminate|]; intros E; destruct (Qcmult_integral _ _ E); contradiction. Qed.
Lemma present_geometric i pay y : (1 + i)%Qc <> 0%Qc -> (i * Qcpower (1 + i) y * present_value i pay y = pay * (Qcpower (1 + i) y - 1))%Qc.
Proof.
  intros NZ; induction y as [|y IH]; [cbn; ring|]; rewrite present_more.
  replace (i * Qcpower (1 + i) (S y) * (present_value i pay y + pay / Qcpower (1 + i) (S y)))%Qc with
    ((1 + i) * (i * Qcpower (1 + i) y * present_value i pay y) + i * pay * (Qcpower (1 + i) (S y) * / Qcpower (1 + i) (S y)))%Qc by (cbn [Qcpower]; unfold Qcdiv; ring).
  rewrite IH, (Qcmult_inv_r _ (power_nonzero _ (S y) NZ)); cbn [Qcpower]; ring.
Qed.
Lemma annuity_pays i invested y : (0 < i)%Qc -> Qcpower (1 + i) y <> 1%Qc -> present_value i (invested * (i * Qcpower (1 + i) y / (Qcpower (1 + i) y - 1))) y = invested.
Proof.
  intros PI NX; assert (NI : i <> 0%Qc) by (intros ->; discriminate PI).
  assert (N1 : (1 + i)%Qc <> 0%Qc) by (intros E; assert (L : (0 < 1 + i)%Qc) by (apply (Qclt_trans _ i); [exact PI|]; apply Qclt_minus_iff; replace (1 + i + - i)%Qc with 1%Qc by ring; reflexivity); rewrite E in L; discriminate L).
  assert (ND : (Qcpower (1 + i) y - 1)%Qc <> 0%Qc) by (intros E; apply NX; replace (Qcpower (1 + i) y) with (Qcpower (1 + i) y - 1 + 1)%Qc by ring; rewrite E; ring).
  assert (NP : (i * Qcpower (1 + i) y)%Qc <> 0%Qc) by (intros E; destruct (Qcmult_integral _ _ E) as [E'|E']; [contradiction|exact (power_nonzero _ _ N1 E')]).
  pose proof (present_geometric i (invested * (i * Qcpower (1 + i) y / (Qcpower (1 + i) y - 1))) y N1) as G.
  assert (G' : (invested * (i * Qcpower (1 + i) y / (Qcpower (1 + i) y - 1)) * (Qcpower (1 + i) y - 1) = i * Qcpower (1 + i) y * invested)%Qc) by (unfold Qcdiv; transitivity (i * Qcpower (1 + i) y * invested * (/ (Qcpower (1 + i) y - 1) * (Qcpower (1 + i) y - 1)))%Qc; [ring|rewrite (Qcmult_inv_l _ ND); ring]).
  rewrite G' in G; clear G'; revert NP G; generalize (i * Qcpower (1 + i) y)%Qc at 1 2 4; intros z NP G.
  match type of G with (_ * ?v = _)%Qc => transitivity (/ z * z * v)%Qc; [rewrite (Qcmult_inv_l _ NP); ring|transitivity (/ z * (z * v))%Qc; [ring|rewrite G; transitivity (/ z * z * invested)%Qc; [ring|rewrite (Qcmult_inv_l _ NP); ring]]] end.
Qed.
Lemma equal_pays invested y : y <> 0 -> present_value 0 (invested * (1 / Q2Qc (inject_Z (Z.of_nat y)))) y = invested.
Proof.
  intros NZ; assert (P : forall pay z, present_value 0 pay z = (pay * Q2Qc (inject_Z (Z.of_nat z)))%Qc).
  { intros pay; assert (ON : forall j, Qcpower (1 + 0) j = 1%Qc) by (induction j as [|j IH]; [reflexivity|]; cbn [Qcpower]; rewrite IH; reflexivity).
    induction z as [|z IH]; [unfold present_value; cbn [seq fold_right]; change (Q2Qc (inject_Z (Z.of_nat 0))) with 0%Qc; ring|].
    rewrite present_more, IH, ON; replace (Q2Qc (inject_Z (Z.of_nat (S z)))) with (Q2Qc (inject_Z (Z.of_nat z)) + 1)%Qc; [unfold Qcdiv; change (/ 1)%Qc with 1%Qc; ring|].
    apply Qc_is_canon; rewrite Nat2Z.inj_succ; unfold Z.succ; rewrite inject_Z_plus; unfold Qcplus; cbn [this Q2Qc]; rewrite !Qred_correct; reflexivity. }
  rewrite P; assert (NQ : Q2Qc (inject_Z (Z.of_nat y)) <> 0%Qc).
  { intros E; assert (Q : Qeq (inject_Z (Z.of_nat y)) 0) by (rewrite <- (Qred_correct (inject_Z (Z.of_nat y))); change (Qred (inject_Z (Z.of_nat y))) with (this (Q2Qc (inject_Z (Z.of_nat y)))); rewrite E; reflexivity).
    unfold Qeq in Q; cbn in Q; lia. }
  unfold Qcdiv; transitivity (invested * (/ Q2Qc (inject_Z (Z.of_nat y)) * Q2Qc (inject_Z (Z.of_nat y))))%Qc; [ring|rewrite (Qcmult_inv_l _ NQ); ring].
Qed.

Section Post.
Variable order : list string -> list string.
Hypothesis OR : lists_set order.
Variable files : list math_file.
Hypothesis IF : In files shipped.
Variable U : world.
Let m := layered files.
Definition post_text (i : nat) : text := nth i post_texts no_text.

Lemma post_told i s c : nth_error post_names i = Some s -> find_in (h_post m) s = Some c -> told order (post_view m) "postprocessed" c (fe_of (post_text i)) (where_of (post_text i)) (eqs_of (post_text i)).
Proof.
  intros EN FC; apply (read_told order OR); apply (read_found _ (rules_of (post_view m) "postprocessed") _ s); [exact FC|].
  assert (ET : nth_error post_texts i = Some (post_text i)).
  { apply nth_error_nth'; replace (List.length post_texts) with (List.length post_names) by reflexivity; apply nth_error_Some; rewrite EN; discriminate. }
  assert (R : texts_in (post_view m) "postprocessed" post_names = map Some post_texts).
  { assert (E := post_read); assert (IM : In (texts_in (post_view m) "postprocessed" post_names) (map (fun files => texts_in (post_view (layered files)) "postprocessed" post_names) shipped)) by (apply (in_map (fun files => texts_in (post_view (layered files)) "postprocessed" post_names)), IF).
    rewrite E in IM; apply repeat_spec in IM; exact IM. }
  unfold texts_in in R; apply (f_equal (fun l => nth_error l i)) in R; rewrite !nth_error_map, EN, ET in R; cbn [option_map] in R; injection R as R.
  unfold text_in in R; rewrite R; destruct (post_text i) as [[fe w] qs]; reflexivity.
Qed.
Lemma index_of l f : NoDup (map fst l) -> In f (CliModel.product (map (n_labels (u_env U)) (map fst l))) -> fits l (at_index (map fst l) f) -> f = map snd l.
Proof.
  intros ND IF' FX; apply CliProofs.product_in in IF'; assert (LE : List.length f = List.length (map fst l)) by (rewrite <- (map_length (n_labels (u_env U)) (map fst l)); clear FX; induction IF' as [|? ? ? ? ? ? IH]; [reflexivity|]; cbn; f_equal; exact IH).
  rewrite <- (at_index_self (map fst l) ND f LE), map_map; apply map_ext_in; intros (d & v) IN; exact (FX d v IN).
Qed.
Lemma post_value l l' F i j s c r e q : sited U l -> (forall p, fits l p -> Forall (fact_in U p) F) -> Forall (fact_known (math_names (post_view m))) F ->
  nth_error post_names i = Some s -> find_in (h_post m) s = Some c -> build_post order m U c = Built r -> value_of F None (post_text i) (map fst l) j = Some e ->
  cut (fe_of (post_text i)) l = l' -> map fst l' = fe_of (post_text i) -> (forall x, fits l' x -> entry_of (u_env U) e x = Val q) -> post_is order m U s l' q.
Proof.
  intros SI FI FK EN FC HB VO <- FE EV; exists c, r; split; [exact FC|split; [exact HB|]].
  destruct (rule_built U order (post_view m) l SI F None FI FK ltac:(no_start) "postprocessed" (post_text i) j c r e (post_told i s c EN FC) HB VO) as (x & f & FX & EX & FP & R).
  rewrite <- (index_of (cut (fe_of (post_text i)) l) f); [rewrite R, (EV x FX); reflexivity| | |].
  - apply cut_nodup, (proj1 (proj1 (proj2 (proj2 SI)))).
  - rewrite FE; exact FP.
  - rewrite FE, <- EX; exact FX.
Qed.
Lemma more_zero q : (0 < q)%Qc -> more (Val q) (number_cell false "0") = Some true.
Proof. intros H; rewrite zero_number; cbn [more]; rewrite (proj1 (Qclt_alt 0 q) H); reflexivity. Qed.
Ltac shown MO := match goal with |- value_of ?F None ?t ?k ?j = _ => let t' := eval vm_compute in t in change t with t' end; cbv -[more number_cell]; rewrite ?MO; reflexivity.
Definition plant_keys : list string := ["nodes"; "techs"; "carriers"; "timesteps"].
Definition post_expr (i j : nat) (F : list (string * fact)) : expr := value_text F (post_text i) plant_keys j.
Ltac shows F i j := let b := eval vm_compute in (post_expr i j F) in change (post_expr i j F) with b.
Lemma given_has s l : given U s l -> a_at (n_array (u_env U) s) (spot l) = Val (amount U s l).
Proof. intros (_ & _ & q & E); unfold amount, value_at; rewrite E; reflexivity. Qed.

Definition used (q : Qc) : list (string * fact) := [("flow_out", Given); ("flow_cap", Has (Val q))].
Lemma factor_shown q : (0 < q)%Qc -> value_of (used q) None (post_text 0) plant_keys 0 = Some (post_expr 0 0 (used 1)) /\ value_of (used q) None (post_text 1) plant_keys 0 = Some (post_expr 1 0 (used 1)).
Proof. intros PQ; pose proof (more_zero q PQ) as MO; split; [shows (used 1) 0 0|shows (used 1) 1 0]; shown MO. Qed.
Lemma factor_is n t c k : sited U (flow_at n t c k) -> given U "flow_out" (flow_at n t c k) -> given U "flow_cap" (cap_at n t c) -> (0 < amount U "flow_cap" (cap_at n t c))%Qc -> numeric U "timestep_resolution" (step_at k) ->
  amount U "timestep_resolution" (step_at k) <> 0%Qc -> post_built order m U "capacity_factor" ->
  post_is order m U "capacity_factor" (flow_at n t c k) (amount U "flow_out" (flow_at n t c k) / (amount U "flow_cap" (cap_at n t c) * amount U "timestep_resolution" (step_at k)))%Qc.
Proof.
  intros SI GO GC PC NR NZ (co & r & FC & HB); pose proof (proj1 (proj1 SI)) as SD; pose proof (given_has _ _ GC) as HC.
  pose proof (given_numeric _ _ _ GO) as N1; pose proof (given_numeric _ _ _ GC) as N2.
  assert (NZ' : (amount U "flow_cap" (cap_at n t c) * amount U "timestep_resolution" (step_at k))%Qc <> 0%Qc).
  { intros E; destruct (Qcmult_integral _ _ E) as [E'|E']; [rewrite E' in PC; discriminate PC|contradiction]. }
  refine (post_value (flow_at n t c k) (flow_at n t c k) (used (amount U "flow_cap" (cap_at n t c))) 0 0 _ co r _ _ SI _ _ eq_refl FC HB (proj1 (factor_shown _ PC)) eq_refl eq_refl _).
  - intros p FP; apply Forall_cons; [eapply fact_given; [exact SD| |exact FP|exact GO]; apart|]; apply Forall_cons; [|apply Forall_nil].
    eapply fact_has; [exact SD| | |discriminate|exact (proj1 GC)|exact HC]; [apart|apply (fits_incl _ _ _ FP); inside].
  - knowns IF.
  - intros x FX; shows (used 1) 0 0; vals SD FX.
Qed.
Lemma average_is n t c k : sited U (flow_at n t c k) -> given U "flow_out" (flow_at n t c k) -> given U "flow_cap" (cap_at n t c) -> (0 < amount U "flow_cap" (cap_at n t c))%Qc ->
  everywhere U "flow_out" t c -> capacities U t c -> weighed U -> (capacity_of U t c * represented U)%Qc <> 0%Qc -> post_built order m U "systemwide_capacity_factor" ->
  post_is order m U "systemwide_capacity_factor" (carrier_of t c) (generated U t c / (capacity_of U t c * represented U))%Qc.
Proof.
  intros SI GO GC PC ((D1 & D2) & N1) (D3 & N2) (NR & NW) NZ (co & r & FC & HB); pose proof (proj1 (proj1 SI)) as SD; pose proof (given_has _ _ GC) as HC; pose proof (proj1 NR) as D4.
  assert (LN : labels U "nodes" <> []) by (apply (site_labels U _ _ SI); cbn; tauto); assert (LT : labels U "timesteps" <> []) by (apply (site_labels U _ _ SI); cbn; tauto).
  refine (post_value (flow_at n t c k) (carrier_of t c) (used (amount U "flow_cap" (cap_at n t c))) 1 0 _ co r _ _ SI _ _ eq_refl FC HB (proj2 (factor_shown _ PC)) eq_refl eq_refl _).
  - intros p FP; apply Forall_cons; [eapply fact_given; [exact SD| |exact FP|exact GO]; apart|]; apply Forall_cons; [|apply Forall_nil].
    eapply fact_has; [exact SD| | |discriminate|exact (proj1 GC)|exact HC]; [apart|apply (fits_incl _ _ _ FP); inside].
  - knowns IF.
  - intros x FX; shows (used 1) 1 0; clear HB FC HC PC GC GO; unfold generated, capacity_of, represented in *; vals SD FX.
Qed.
Definition no_load (b : string) : list (string * fact) := [("flow_out", Given); ("base_tech", Is (Txt b))].
Lemma total_shown b : In b makers -> value_of (no_load b) None (post_text 2) plant_keys 0 = Some (post_expr 2 0 (no_load "supply")).
Proof. intros IB; repeat (destruct IB as [<- |IB]; [vm_compute; reflexivity|]); destruct IB. Qed.
Lemma total_is n t b c k : sited U (flow_at n t c k) -> given U "flow_out" (flow_at n t c k) -> In b makers -> reads_as U "base_tech" (tech_at t) (Txt b) ->
  everywhere U "flow_out" t c -> (forall n k, In n (labels U "nodes") -> In k (labels U "timesteps") -> numeric U "flow_export" (flow_at n t c k)) -> (forall k, In k (labels U "timesteps") -> numeric U "timestep_weights" (step_at k)) ->
  post_built order m U "total_generation" ->
  post_is order m U "total_generation" (carrier_of t c)
    (sum_over (labels U "nodes") (fun n => sum_over (labels U "timesteps") (fun k => amount U "flow_out" (flow_at n t c k) + amount U "flow_export" (flow_at n t c k) * amount U "timestep_weights" (step_at k))))%Qc.
Proof.
  intros SI GO IB BT ((D1 & D2) & N1) N2 NW (co & r & FC & HB); pose proof (proj1 (proj1 SI)) as SD.
  assert (LN : labels U "nodes" <> []) by (apply (site_labels U _ _ SI); cbn; tauto); assert (LT : labels U "timesteps" <> []) by (apply (site_labels U _ _ SI); cbn; tauto).
  refine (post_value (flow_at n t c k) (carrier_of t c) (no_load b) 2 0 _ co r _ _ SI _ _ eq_refl FC HB (total_shown b IB) eq_refl eq_refl _).
  - unfold no_load; facts SD.
  - unfold no_load; knowns IF.
  - intros x FX; shows (no_load "supply") 2 0; vals SD FX.
Qed.
(** Curtailment. *)
Definition limited (f : string) (q q' : Qc) : list (string * fact) := [("base_tech", Is (Txt "supply")); ("source_use_max", Has (Val q)); ("source_cap", Has (Val q')); ("source_unit", Is (Txt f))].
Definition unit_rule (f : string) : nat := if String.eqb f "per_area" then 0 else if String.eqb f "per_cap" then 1 else 2.
Lemma no_end q : number_cell false "inf" = Inf false /\ same (Val q) (Inf false) = false.
Proof. split; reflexivity. Qed.
Lemma limited_shown f q q' : In f ["per_area"; "per_cap"; "absolute"] -> (0 < q)%Qc -> (0 < q')%Qc -> value_of (limited f q q') None (post_text 6) plant_keys (unit_rule f) = Some (post_expr 6 (unit_rule f) (limited f 1 1)).
Proof.
  intros IN PQ PQ'; pose proof (more_zero q PQ) as M1; pose proof (more_zero q' PQ') as M2; pose proof (proj1 (no_end q)) as NE.
  repeat (destruct IN as [<- |IN]; [match goal with |- _ = Some (post_expr ?i ?j ?F) => let b := eval vm_compute in (post_expr i j F) in change (post_expr i j F) with b end; match goal with |- value_of ?F None ?t ?k ?j = _ => let t' := eval vm_compute in t in change t with t' end; cbv -[more number_cell]; rewrite ?M1, ?M2, ?NE; reflexivity|]); destruct IN.
Qed.
Lemma curtailed_is n t c k f : sited U (flow_at n t c k) -> reads_as U "base_tech" (tech_at t) (Txt "supply") -> given U "source_use_max" (use_at n t k) -> (0 < amount U "source_use_max" (use_at n t k))%Qc ->
  given U "source_cap" (asset n t) -> (0 < amount U "source_cap" (asset n t))%Qc -> per_unit U "source_unit" n t f \/ per_capacity U "source_unit" n t f -> f <> 0%Qc -> numeric U "source_use" (use_at n t k) ->
  post_built order m U "curtailment" ->
  post_is order m U "curtailment" (use_at n t k) (1 - amount U "source_use" (use_at n t k) / (amount U "source_use_max" (use_at n t k) * f))%Qc.
Proof.
  intros SI BT GM PM GC PC PF FZ NU (co & r & FC & HB); pose proof (proj1 (proj1 SI)) as SD; pose proof (given_has _ _ GC) as HC; pose proof (given_has _ _ GM) as HM; pose proof (given_numeric _ _ _ GM) as NM.
  assert (LC : labels U "carriers" <> []) by (apply (site_labels U _ _ SI); cbn; tauto).
  assert (NZ : (amount U "source_use_max" (use_at n t k) * f)%Qc <> 0%Qc) by (intros E; destruct (Qcmult_integral _ _ E) as [E'|E']; [rewrite E' in PM; discriminate PM|contradiction]).
  assert (FI : forall u, reads_as U "source_unit" (asset n t) (Txt u) -> forall p, fits (flow_at n t c k) p -> Forall (fact_in U p) (limited u (amount U "source_use_max" (use_at n t k)) (amount U "source_cap" (asset n t)))).
  { intros u RU p FP; apply Forall_cons; [eapply fact_is; [exact SD| | |exact BT]; [apart|apply (fits_incl _ _ _ FP); inside]|].
    apply Forall_cons; [eapply fact_has; [exact SD| | |discriminate|exact (proj1 GM)|exact HM]; [apart|apply (fits_incl _ _ _ FP); inside]|].
    apply Forall_cons; [eapply fact_has; [exact SD| | |discriminate|exact (proj1 GC)|exact HC]; [apart|apply (fits_incl _ _ _ FP); inside]|].
    apply Forall_cons; [eapply fact_is; [exact SD| | |exact RU]; [apart|apply (fits_incl _ _ _ FP); inside]|apply Forall_nil]. }
  assert (FK : forall u q q', Forall (fact_known (math_names (post_view m))) (limited u q q')) by (intros u q q'; unfold limited; knowns IF).
  assert (GO : forall u, In u ["per_area"; "per_cap"; "absolute"] -> reads_as U "source_unit" (asset n t) (Txt u) ->
    (forall x, fits (use_at n t k) x -> entry_of (u_env U) (post_expr 6 (unit_rule u) (limited u 1 1)) x = Val (1 - amount U "source_use" (use_at n t k) / (amount U "source_use_max" (use_at n t k) * f))%Qc) ->
    post_is order m U "curtailment" (use_at n t k) (1 - amount U "source_use" (use_at n t k) / (amount U "source_use_max" (use_at n t k) * f))%Qc).
  { intros u IU RU EV; exact (post_value (flow_at n t c k) (use_at n t k) _ 6 (unit_rule u) _ co r _ _ SI (FI u RU) (FK u _ _) eq_refl FC HB (limited_shown u _ _ IU PM PC) eq_refl eq_refl EV). }
  destruct PF as [[(RU & ->)|(RU & NA & ->)]|(RU & NC & ->)].
  - apply (GO "absolute" ltac:(cbn; tauto) RU); intros x FX; match goal with |- entry_of _ ?e _ = _ => let b := eval vm_compute in e in change e with b end; vals SD FX.
  - apply (GO "per_area" ltac:(cbn; tauto) RU); intros x FX; match goal with |- entry_of _ ?e _ = _ => let b := eval vm_compute in e in change e with b end; vals SD FX.
  - apply (GO "per_cap" ltac:(cbn; tauto) RU); intros x FX; pose proof (proj1 NC) as DC; match goal with |- entry_of _ ?e _ = _ => let b := eval vm_compute in e in change e with b end; vals SD FX.
Qed.
End Post.
