(** How the conditions of the input checks are read.  *)
From Coq Require Import QArith Qcanon Lia.
From Verif Require Import Base BaseProofs LangModel MathText EvalModel EvalSpec BuildModel BuildSpec HelperModel HelperSpec HelperProofs ShipModel ShipSpec ShipProofs CostAny GuardModel GuardSpec.
From Verif Require CliModel HelperProps.
Local Open Scope nat_scope.
Local Open Scope string_scope.
Local Open Scope list_scope.
Local Arguments String.eqb : simpl never.

(** * The texts of the checks *)
Definition readings : list (string * wexpr) :=
  [("must_have_base", WNot (WName "base_tech"));
   ("distance_only_for_transmission", WChain (WNot (WCmp (EName "base_tech") CEq (EStr "transmission")))
      [(true, WChain (WName "distance") [(false, WName "flow_in_eff_per_distance"); (false, WName "flow_out_eff_per_distance"); (false, WName "cost_flow_cap_per_distance")])]);
   ("unbounded_flow_cap_cost", WChain (WCmp (EName "cost_flow_cap") CLt (ENum false "0")) [(true, WNot (WName "flow_cap_max"))]);
   ("unbounded_storage_cap_cost", WChain (WCmp (EName "cost_storage_cap") CLt (ENum false "0")) [(true, WNot (WName "storage_cap_max"))]);
   ("unbounded_area_use_cost", WChain (WCmp (EName "cost_area_use") CLt (ENum false "0")) [(true, WNot (WName "area_use_max"))]);
   ("unbounded_source_use_cost", WChain (WCmp (EName "cost_source_cap") CLt (ENum false "0")) [(true, WNot (WName "source_cap_max"))]);
   ("finite_source_use", WChain (WCmp (EName "source_use_equals") CEq (ENum false "inf")) [(false, WCmp (EName "sink_use_equals") CEq (ENum false "inf"))]);
   ("all_or_nothing_lat_lon", WChain (WChain (WFun (EFun "any" [EName "latitude"] [("over", EName "nodes")])) [(false, WFun (EFun "any" [EName "longitude"] [("over", EName "nodes")]))])
      [(true, WNot (WChain (WName "latitude") [(false, WName "longitude")]))]);
   ("export_only_for_outflows", WChain (WName "carrier_export") [(true, WNot (WFun (EFun "any" [EName "carrier_out"] [("over", EName "nodes")])))]);
   ("storage_initial_max", WChain (WName "storage_initial") [(true, WChain (WCmp (EName "storage_initial") CLt (ENum false "0")) [(false, WCmp (EName "storage_initial") CGt (ENum false "1"))])]);
   ("flow_in_for_supply_tech", WChain (WCmp (EName "base_tech") CEq (EStr "supply")) [(true, WName "cost_flow_in")]);
   ("flow_out_for_demand_tech", WChain (WCmp (EName "base_tech") CEq (EStr "demand")) [(true, WName "cost_flow_out")]);
   ("no_storage_discharge_depth_when_clustering", WChain (WName "storage_discharge_depth") [(true, WName "lookup_cluster_last_timestep")]);
   ("cyclic_storage_needs_inter_cluster", WChain (WName "cyclic_storage") [(true, WName "lookup_cluster_last_timestep")]);
   ("distance_only_for_transmission_milp", WChain (WNot (WCmp (EName "base_tech") CEq (EStr "transmission"))) [(true, WName "cost_purchase_per_distance")]);
   ("conflicting_flow_caps", WChain (WChain (WName "flow_cap_max") [(false, WName "flow_cap_min")]) [(true, WName "flow_cap_per_unit")]);
   ("unit_commitment_only_for_units", WChain (WCmp (EName "integer_dispatch") CEq (EBool true)) [(true, WNot (WCmp (EName "cap_method") CEq (EStr "integer")))]);
   ("conflicting_storage_caps", WChain (WChain (WName "storage_cap_max") [(false, WName "storage_cap_min")]) [(true, WName "storage_cap_per_unit")]);
   ("operate_mode_cyclic_storage", WChain (WCmp (EName "cyclic_storage") CEq (EBool true)) [(true, WChain (WCmp (EName "base_tech") CEq (EStr "storage")) [(false, WCmp (EName "include_storage") CEq (EBool true))])])].
Lemma all_read : forall fs, In fs choices ->
  map (fun x => (fst x, parse_where_text (names_of fs) (k_where (snd x)))) (checks fs) = map (fun x => (fst x, d_get (fst x) readings)) (checks fs) /\
  forallb (fun x => match d_get (fst x) readings with Some _ => true | None => false end) (checks fs) = true.
Proof. intros fs H; vm_compute in H; repeat (destruct H as [<- |H]; [split; vm_compute; reflexivity|]); destruct H. Qed.
(** The names in the checks are inputs, not dimensions. *)
Definition base_read : list string := ["base_tech"; "distance"; "flow_in_eff_per_distance"; "flow_out_eff_per_distance"; "cost_flow_cap_per_distance"; "cost_flow_cap"; "flow_cap_max"; "cost_storage_cap"; "storage_cap_max";
  "cost_area_use"; "area_use_max"; "cost_source_cap"; "source_cap_max"; "source_use_equals"; "sink_use_equals"; "latitude"; "longitude"; "carrier_export"; "carrier_out"; "storage_initial"; "cost_flow_in"; "cost_flow_out";
  "storage_discharge_depth"; "lookup_cluster_last_timestep"; "cyclic_storage"; "flow_cap_min"; "storage_cap_min"; "include_storage"].
Definition milp_read : list string := ["cost_purchase_per_distance"; "flow_cap_per_unit"; "integer_dispatch"; "cap_method"; "storage_cap_per_unit"].
Lemma all_inputs : forall fs, In fs choices ->
  forallb (fun s => negb (smem s (LangModel.n_dims (names_of fs))) && smem s (n_inputs (names_of fs))) (base_read ++ if existsb (fun f => match f with Milp => true | _ => false end) fs then milp_read else []) = true.
Proof. intros fs H; vm_compute in H; repeat (destruct H as [<- |H]; [vm_compute; reflexivity|]); destruct H. Qed.
