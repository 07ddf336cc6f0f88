(** The input checks that come with the package: the sections "checks" of src/calliope/math/*.yaml, layered as a model
    uses them, and their evaluation on the inputs of a model (joins BuildModel.v, [check_inputs], and ShipModel.v). *)
From Verif Require Import Base LangModel MathText EvalModel BuildModel ShipModel.
Local Open Scope string_scope.
Local Open Scope list_scope.

(** The files besides base.yaml: those of the modes "operate" and "spores" and the extra math. *)
Inductive file := Milp | Operate | Spores | Inter.
Definition math_of (f : file) : math_file :=
  match f with Milp => milp_file | Operate => operate_file | Spores => spores_file | Inter => inter_file end.

(** Severity ([true]: "raise", [false]: "warn") and message of each check: base.yaml:1350-1421, milp.yaml:471-490,
    operate.yaml:87-93.  The conditions are in MathText.v. *)
Definition base_says : list (string * (bool * string)) :=
  [("must_have_base", (true, "An abstract `base_tech` must be defined for every technology at every node."));
   ("distance_only_for_transmission", (true, "Only transmission technologies can define `distance` or `..._per_distance`."));
   ("unbounded_flow_cap_cost", (true, "Cannot have a negative `cost_flow_cap` as there is an unset corresponding `flow_cap_max` constraint"));
   ("unbounded_storage_cap_cost", (true, "Cannot have a negative `cost_storage_cap` as there is an unset corresponding `storage_cap_max` constraint"));
   ("unbounded_area_use_cost", (true, "Cannot have a negative `cost_area_use` as there is an unset corresponding `area_use_max` constraint"));
   ("unbounded_source_use_cost", (true, "Cannot have a negative `cost_source_cap` as there is an unset corresponding `source_cap_max` constraint"));
   ("finite_source_use", (true, "Cannot include infinite values in `source_use_equals`/`sink_use_equals`"));
   ("all_or_nothing_lat_lon", (true, "Must define node latitude and longitude for _all_ nodes or _no_ nodes."));
   ("export_only_for_outflows", (true, "Export carriers must be one of the technology outflow carriers."));
   ("storage_initial_max", (true, "storage_initial is a fraction, requiring values within the interval [0, 1]."));
   ("flow_in_for_supply_tech", (false, "`cost_flow_in` does not apply to `supply` technologies. Use `cost_source_use` instead."));
   ("flow_out_for_demand_tech", (false, "`cost_flow_out` does not apply to `demand` technologies. Use `cost_flow_in` instead."));
   ("no_storage_discharge_depth_when_clustering", (false, "storage_discharge_depth will currently have no effect when time clustering is active."));
   ("cyclic_storage_needs_inter_cluster", (true, "Include the `storage_inter_cluster_storage` pre-defined math to allow cyclic storage alongside timeseries clustering."))].
Definition milp_says : list (string * (bool * string)) :=
  [("distance_only_for_transmission_milp", (true, "Only transmission technologies can define `distance` or `..._per_distance`."));
   ("conflicting_flow_caps", (true, "Cannot define both `flow_cap_per_unit` and `flow_cap_max`/`flow_cap_min`"));
   ("unit_commitment_only_for_units", (true, "Cannot use the integer `integer_dispatch` unless the technology is using an integer unit capacities (`cap_method=integer`)."));
   ("conflicting_storage_caps", (true, "Cannot define both `storage_cap_per_unit` and `storage_cap_max`/`storage_cap_min`"))].
Definition operate_says : list (string * (bool * string)) :=
  [("operate_mode_cyclic_storage", (true, "Cyclic storage should be switched off in operate mode. Since the parameter defaults to True, make sure you explicitly set `cyclic_storage: false` for all your technologies with storage."))].

Definition join (conditions : list (string * string)) (says : list (string * (bool * string))) : list (string * check) :=
  flat_map (fun x => match d_get (fst x) says with
                     | Some (r, m) => [(fst x, {| k_where := snd x; k_message := m; k_raise := r; k_active := true |})]
                     | None => []
                     end) conditions.
Definition file_checks (f : file) : list (string * check) :=
  match f with Milp => join milp_checks milp_says | Operate => join operate_checks operate_says | Spores | Inter => [] end.
(** storage_inter_cluster.yaml:163-165: "active: false". *)
Definition file_off (f : file) : list string := match f with Inter => ["cyclic_storage_needs_inter_cluster"] | _ => [] end.

(** The layered checks (preprocess/model_math.py:66-110; no file changes a condition of another one). *)
Definition checks (fs : list file) : list (string * check) :=
  map (fun x => (fst x, {| k_where := k_where (snd x); k_message := k_message (snd x); k_raise := k_raise (snd x);
                           k_active := negb (smem (fst x) (flat_map file_off fs)) |}))
    (join base_checks base_says ++ flat_map file_checks fs).
Definition names_of (fs : list file) : names := math_names (layered (map math_of fs)).

(** [_check_inputs], backend_model.py:597-623, for a model with these math files. *)
Definition checked (fs : list file) (U : world) : option (option string * option string) :=
  check_inputs (world_data (names_of fs) U) (names_of fs) (map snd (checks fs)) "model build" "* ".
