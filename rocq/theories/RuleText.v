(** What the texts of single components say, in all formulations of the shipped math. *)
From Coq Require Import QArith Qcanon Lia.
From Verif Require Import Base BaseProofs LangModel MathText EvalModel EvalSpec BuildModel BuildSpec BuildProofs BuildEqs
  HelperModel HelperSpec ShipModel ShipSpec ShipProofs ShipEntry ShipStorage ShipNumbers NetSpec NetProofs PlaceSpec ShipPlace.
Local Open Scope nat_scope.
Local Open Scope string_scope.
Local Open Scope list_scope.
Local Arguments String.eqb : simpl never.

Definition text := (list string * wexpr * list peq)%type.
Definition fe_of (t : text) : list string := fst (fst t).
Definition where_of (t : text) : wexpr := snd (fst t).
Definition eqs_of (t : text) : list peq := snd t.
Definition no_text : text := ([], WBool false, []).
Definition no_eq : peq := plain_eq "" (ENum false "0") CEq (ENum false "0").
Definition eq_of (t : text) (i : nat) : peq := nth i (eqs_of t) no_eq.
Definition rules_of (m : math_file) (group : string) : list component :=
  if String.eqb group "constraints" then h_constraints m else if String.eqb group "objectives" then h_objectives m else
  if String.eqb group "postprocessed" then h_post m else h_expressions m.
Definition text_in (m : math_file) (group s : string) : option text := read_in m (rules_of m group) group s.
Definition texts_in (m : math_file) (group : string) (l : list string) : list (option text) := map (text_in m group) l.
Definition or_none (x : option text) : text := match x with Some t => t | None => no_text end.

(** Formulations with integer units. *)
Definition milp_lists : list (list math_file) := flat_map (fun mode => map (app mode) [[milp_file]; [milp_file; inter_file]; [inter_file; milp_file]]) [[]; [operate_file]; [spores_file]].
Definition plain_lists : list (list math_file) := flat_map (fun mode => map (app mode) [[]; [inter_file]]) [[]; [operate_file]; [spores_file]].

Definition shared_names : list string :=
  ["balance_demand"; "balance_demand_min_use"; "balance_supply_no_storage"; "source_availability_supply"; "balance_supply_min_use"; "source_max";
   "balance_conversion"; "export_balance"; "storage_discharge_depth_limit"; "flow_capacity_systemwide_max"; "area_use_per_flow_capacity"; "area_use_capacity_per_loc";
   "flow_capacity_per_storage_capacity_min"; "flow_capacity_per_storage_capacity_max"; "source_capacity_equals_flow_capacity"; "symmetric_transmission"].
Definition shared_texts : list text := Eval vm_compute in map or_none (texts_in (layered []) "constraints" shared_names).
Lemma shared_read : map (fun files => texts_in (layered files) "constraints" shared_names) shipped = repeat (map Some shared_texts) 15.
Proof. vm_compute; reflexivity. Qed.
Lemma rule_read group names (texts : list text) lists n files i s t : map (fun files => texts_in (layered files) group names) lists = repeat (map Some texts) n ->
  In files lists -> nth_error names i = Some s -> nth_error texts i = Some t -> text_in (layered files) group s = Some t.
Proof.
  intros E IF EN ET; apply (in_map (fun files => texts_in (layered files) group names)) in IF; rewrite E in IF; apply repeat_spec in IF.
  apply (f_equal (fun l => nth_error l i)) in IF; unfold texts_in in IF; rewrite !nth_error_map, EN, ET in IF; injection IF as IF; exact IF.
Qed.
(** Inputs of all formulations. *)
Definition shared_inputs : list string :=
  ["base_tech"; "sink_unit"; "source_unit"; "include_storage"; "cyclic_storage"; "cluster_first_timestep"; "source_cap_equals_flow_cap"; "cost_interest_rate"; "cost_depreciation_rate"; "carrier_in"; "carrier_out"].
Lemma shared_inputs_known : forallb (fun files => inputs_known (layered files) shared_inputs) shipped = true.
Proof. vm_compute; reflexivity. Qed.
Lemma input_of files s : In files shipped -> In s shared_inputs -> smem s (LangModel.n_dims (math_names (layered files))) = false /\ smem s (n_inputs (math_names (layered files))) = true.
Proof.
  intros IF IS; pose proof shared_inputs_known as H; rewrite forallb_forall in H; specialize (H files IF); unfold inputs_known in H; rewrite andb_true_iff in H; destruct H as (_ & H).
  rewrite forallb_forall in H; specialize (H s IS); apply andb_true_iff in H as (H1 & H2); rewrite negb_true_iff in H1; auto.
Qed.
Lemma milp_shipped files : In files milp_lists -> In files shipped.
Proof. intros H; repeat (destruct H as [<- |H]; [cbn; tauto|]); destruct H. Qed.
Lemma plain_shipped files : In files plain_lists -> In files shipped.
Proof. intros H; repeat (destruct H as [<- |H]; [cbn; tauto|]); destruct H. Qed.
Definition plain_names : list string := ["flow_out_max"; "flow_out_min"; "flow_in_max"; "flow_capacity_systemwide_min"].
Definition plain_texts : list text := Eval vm_compute in map or_none (texts_in (layered []) "constraints" plain_names).
Lemma plain_read : map (fun files => texts_in (layered files) "constraints" plain_names) plain_lists = repeat (map Some plain_texts) 6.
Proof. vm_compute; reflexivity. Qed.
Definition milp_names : list string :=
  ["flow_out_max"; "flow_out_min"; "flow_in_max"; "unit_commitment_milp"; "flow_out_max_milp"; "flow_in_max_milp"; "flow_out_min_milp"; "storage_capacity_units_milp"; "flow_capacity_units_milp";
   "flow_capacity_max_purchase_milp"; "storage_capacity_max_purchase_milp"; "unit_capacity_max_systemwide_milp"; "unit_capacity_min_systemwide_milp"; "async_flow_in_milp"; "async_flow_out_milp";
   "available_flow_cap_continuous"; "available_flow_cap_binary"; "available_flow_cap_max_binary_continuous_switch"; "flow_capacity_minimum"; "storage_capacity_minimum"; "area_use_minimum"; "source_capacity_minimum"].
Definition milp_texts : list text := Eval vm_compute in map or_none (texts_in (layered [milp_file]) "constraints" milp_names).
Lemma milp_read : map (fun files => texts_in (layered files) "constraints" milp_names) milp_lists = repeat (map Some milp_texts) 9.
Proof. vm_compute; reflexivity. Qed.
