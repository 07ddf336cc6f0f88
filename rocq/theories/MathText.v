(** The conditions and expressions of the shipped math files, src/calliope/math/*.yaml, copied
    as text.  Folded YAML scalars are joined with spaces, anchors are expanded, everything
    but "foreach", "where", "equations", "sub_expressions" and "slices" is left out (titles,
    units, defaults, bounds, domains). *)
From Verif Require Import Base.
Local Open Scope string_scope.
Local Open Scope list_scope.

(** One entry of a math file; an absent condition is "True" (math_schema.py). *)
Record component := {
  c_name : string; c_foreach : list string; c_where : string;
  c_equations : list (string * string);
  c_subs : list (string * list (string * string));
  c_slices : list (string * list (string * string)) }.

(** src/calliope/math/base.yaml, section "dimensions": the names. *)
Definition base_dimensions : list string :=
  ["carriers"; "costs"; "nodes"; "techs"; "timesteps"; "clusters"; "datesteps"].

(** src/calliope/math/base.yaml, section "parameters": the names. *)
Definition base_parameters : list string :=
  ["area_use_max"; "area_use_min"; "area_use_per_flow_cap"; "available_area"; "bigM"; "cost_flow_cap_per_distance"; "cost_flow_cap"; "cost_export"; "cost_interest_rate"; "cost_om_annual"; "cost_om_annual_investment_fraction"; "cost_flow_in"; "cost_source_use"; "cost_flow_out"; "cost_area_use"; "cost_source_cap"; "cost_storage_cap"; "cost_depreciation_rate"; "distance"; "export_max"; "export_min"; "flow_cap_per_storage_cap_min"; "flow_cap_per_storage_cap_max"; "flow_cap_max"; "flow_cap_max_systemwide"; "flow_cap_min"; "flow_cap_min_systemwide"; "flow_out_min_relative"; "flow_in_eff"; "flow_in_eff_per_distance"; "flow_out_eff"; "flow_out_eff_per_distance"; "flow_out_parasitic_eff"; "flow_ramping"; "lifetime"; "objective_cost_weights"; "sink_use_min"; "sink_use_max"; "sink_use_equals"; "source_eff"; "source_use_min"; "source_use_max"; "source_use_equals"; "source_cap_max"; "source_cap_min"; "storage_cap_max"; "storage_cap_min"; "storage_discharge_depth"; "storage_initial"; "storage_loss"; "timestep_resolution"; "timestep_weights"].

(** src/calliope/math/base.yaml, section "lookups": the names. *)
Definition base_lookups : list string :=
  ["base_tech"; "carrier_in"; "carrier_out"; "carrier_export"; "cluster_first_timestep"; "definition_matrix"; "include_storage"; "cyclic_storage"; "sink_unit"; "source_unit"; "source_cap_equals_flow_cap"; "one_way"; "lookup_cluster_last_timestep"; "latitude"; "longitude"].

(** src/calliope/math/base.yaml, section "variables"; components that are only switched off are left out. *)
Definition base_variables : list component :=
  [{| c_name := "flow_cap"; c_foreach := ["nodes"; "techs"; "carriers"]; c_where := "True";
    c_equations := [];
    c_subs := [];
    c_slices := [] |};
   {| c_name := "link_flow_cap"; c_foreach := ["techs"]; c_where := "base_tech==transmission";
    c_equations := [];
    c_subs := [];
    c_slices := [] |};
   {| c_name := "flow_out"; c_foreach := ["nodes"; "techs"; "carriers"; "timesteps"]; c_where := "carrier_out";
    c_equations := [];
    c_subs := [];
    c_slices := [] |};
   {| c_name := "flow_in"; c_foreach := ["nodes"; "techs"; "carriers"; "timesteps"]; c_where := "carrier_in";
    c_equations := [];
    c_subs := [];
    c_slices := [] |};
   {| c_name := "flow_export"; c_foreach := ["nodes"; "techs"; "carriers"; "timesteps"]; c_where := "carrier_export";
    c_equations := [];
    c_subs := [];
    c_slices := [] |};
   {| c_name := "area_use"; c_foreach := ["nodes"; "techs"]; c_where := "(area_use_min OR area_use_max OR area_use_per_flow_cap OR sink_unit==per_area OR source_unit==per_area)";
    c_equations := [];
    c_subs := [];
    c_slices := [] |};
   {| c_name := "source_use"; c_foreach := ["nodes"; "techs"; "timesteps"]; c_where := "base_tech==supply";
    c_equations := [];
    c_subs := [];
    c_slices := [] |};
   {| c_name := "source_cap"; c_foreach := ["nodes"; "techs"]; c_where := "base_tech==supply";
    c_equations := [];
    c_subs := [];
    c_slices := [] |};
   {| c_name := "storage_cap"; c_foreach := ["nodes"; "techs"]; c_where := "include_storage==True OR base_tech==storage";
    c_equations := [];
    c_subs := [];
    c_slices := [] |};
   {| c_name := "storage"; c_foreach := ["nodes"; "techs"; "timesteps"]; c_where := "include_storage==True OR base_tech==storage";
    c_equations := [];
    c_subs := [];
    c_slices := [] |};
   {| c_name := "unmet_demand"; c_foreach := ["nodes"; "carriers"; "timesteps"]; c_where := "config.ensure_feasibility==True";
    c_equations := [];
    c_subs := [];
    c_slices := [] |};
   {| c_name := "unused_supply"; c_foreach := ["nodes"; "carriers"; "timesteps"]; c_where := "config.ensure_feasibility==True";
    c_equations := [];
    c_subs := [];
    c_slices := [] |}].

(** src/calliope/math/base.yaml, section "global_expressions"; components that are only switched off are left out. *)
Definition base_global_expressions : list component :=
  [{| c_name := "flow_out_inc_eff"; c_foreach := ["nodes"; "techs"; "carriers"; "timesteps"]; c_where := "flow_out";
    c_equations := [("base_tech==transmission", "flow_out / ( flow_out_eff * flow_out_parasitic_eff * flow_out_eff_per_distance ** distance )");
      ("NOT base_tech==transmission", "flow_out / (flow_out_eff * flow_out_parasitic_eff)")];
    c_subs := [];
    c_slices := [] |};
   {| c_name := "flow_in_inc_eff"; c_foreach := ["nodes"; "techs"; "carriers"; "timesteps"]; c_where := "flow_in";
    c_equations := [("base_tech==transmission", "flow_in * flow_in_eff * flow_in_eff_per_distance ** distance");
      ("NOT base_tech==transmission", "flow_in * flow_in_eff")];
    c_subs := [];
    c_slices := [] |};
   {| c_name := "cost_operation_variable"; c_foreach := ["nodes"; "techs"; "costs"; "timesteps"]; c_where := "cost_export OR cost_flow_in OR cost_flow_out OR cost_source_use";
    c_equations := [("True", "timestep_weights * ($cost_export + $cost_flow_out + $cost_flow_in)")];
    c_subs := [("cost_export", [("True", "sum(cost_export * flow_export, over=carriers)")]);
    ("cost_flow_in", [("base_tech==supply", "cost_source_use * source_use");
      ("NOT base_tech==supply", "sum(cost_flow_in * flow_in, over=carriers)")]);
    ("cost_flow_out", [("True", "sum(cost_flow_out * flow_out, over=carriers)")])];
    c_slices := [] |};
   {| c_name := "cost_investment_flow_cap"; c_foreach := ["nodes"; "techs"; "carriers"; "costs"]; c_where := "flow_cap AND (cost_flow_cap OR cost_flow_cap_per_distance)";
    c_equations := [("True", "$cost_sum * flow_cap")];
    c_subs := [("cost_sum", [("base_tech==transmission", "(cost_flow_cap + cost_flow_cap_per_distance * distance) * 0.5");
      ("NOT base_tech==transmission", "cost_flow_cap")])];
    c_slices := [] |};
   {| c_name := "cost_investment_storage_cap"; c_foreach := ["nodes"; "techs"; "costs"]; c_where := "cost_storage_cap AND storage_cap";
    c_equations := [("True", "cost_storage_cap * storage_cap")];
    c_subs := [];
    c_slices := [] |};
   {| c_name := "cost_investment_source_cap"; c_foreach := ["nodes"; "techs"; "costs"]; c_where := "cost_source_cap AND source_cap";
    c_equations := [("True", "cost_source_cap * source_cap")];
    c_subs := [];
    c_slices := [] |};
   {| c_name := "cost_investment_area_use"; c_foreach := ["nodes"; "techs"; "costs"]; c_where := "cost_area_use AND area_use";
    c_equations := [("True", "cost_area_use * area_use")];
    c_subs := [];
    c_slices := [] |};
   {| c_name := "cost_investment"; c_foreach := ["nodes"; "techs"; "costs"]; c_where := "cost_investment_flow_cap OR cost_investment_storage_cap OR cost_investment_source_cap OR cost_investment_area_use";
    c_equations := [("True", "sum(cost_investment_flow_cap, over=carriers) + cost_investment_storage_cap + cost_investment_source_cap + cost_investment_area_use")];
    c_subs := [];
    c_slices := [] |};
   {| c_name := "cost_investment_annualised"; c_foreach := ["nodes"; "techs"; "costs"]; c_where := "cost_investment";
    c_equations := [("True", "$annualisation_weight * $depreciation_rate * cost_investment")];
    c_subs := [("annualisation_weight", [("True", "sum(timestep_resolution * timestep_weights, over=timesteps) / 8760")]);
    ("depreciation_rate", [("cost_depreciation_rate", "cost_depreciation_rate");
      ("NOT cost_depreciation_rate AND (NOT cost_interest_rate OR cost_interest_rate==0)", "1 / lifetime");
      ("NOT cost_depreciation_rate AND cost_interest_rate>0", "(cost_interest_rate * ((1 + cost_interest_rate) ** lifetime)) / (((1 + cost_interest_rate) ** lifetime) - 1)")])];
    c_slices := [] |};
   {| c_name := "cost_operation_fixed"; c_foreach := ["nodes"; "techs"; "costs"]; c_where := "(cost_om_annual AND flow_cap) OR (cost_investment AND cost_om_annual_investment_fraction)";
    c_equations := [("True", "$annualisation_weight * ( sum(cost_om_annual * flow_cap, over=carriers) + cost_investment * cost_om_annual_investment_fraction )")];
    c_subs := [("annualisation_weight", [("True", "sum(timestep_resolution * timestep_weights, over=timesteps) / 8760")])];
    c_slices := [] |};
   {| c_name := "cost"; c_foreach := ["nodes"; "techs"; "costs"]; c_where := "cost_investment_annualised OR cost_operation_variable OR cost_operation_fixed";
    c_equations := [("True", "cost_investment_annualised + sum(cost_operation_variable, over=timesteps) + cost_operation_fixed")];
    c_subs := [];
    c_slices := [] |}].

(** src/calliope/math/base.yaml, section "constraints"; components that are only switched off are left out. *)
Definition base_constraints : list component :=
  [{| c_name := "flow_capacity_per_storage_capacity_min"; c_foreach := ["nodes"; "techs"; "carriers"]; c_where := "storage_cap AND flow_cap_per_storage_cap_min";
    c_equations := [("True", "flow_cap >= storage_cap * flow_cap_per_storage_cap_min")];
    c_subs := [];
    c_slices := [] |};
   {| c_name := "flow_capacity_per_storage_capacity_max"; c_foreach := ["nodes"; "techs"; "carriers"]; c_where := "storage_cap AND flow_cap_per_storage_cap_max";
    c_equations := [("True", "flow_cap <= storage_cap * flow_cap_per_storage_cap_max")];
    c_subs := [];
    c_slices := [] |};
   {| c_name := "source_capacity_equals_flow_capacity"; c_foreach := ["nodes"; "techs"; "carriers"]; c_where := "source_cap AND source_cap_equals_flow_cap==True";
    c_equations := [("True", "source_cap == flow_cap")];
    c_subs := [];
    c_slices := [] |};
   {| c_name := "force_zero_area_use"; c_foreach := ["nodes"; "techs"]; c_where := "area_use AND flow_cap_max==0";
    c_equations := [("True", "area_use == 0")];
    c_subs := [];
    c_slices := [] |};
   {| c_name := "area_use_per_flow_capacity"; c_foreach := ["nodes"; "techs"; "carriers"]; c_where := "area_use AND area_use_per_flow_cap";
    c_equations := [("True", "area_use == flow_cap * area_use_per_flow_cap")];
    c_subs := [];
    c_slices := [] |};
   {| c_name := "area_use_capacity_per_loc"; c_foreach := ["nodes"]; c_where := "area_use AND available_area";
    c_equations := [("True", "sum(area_use, over=techs) <= available_area")];
    c_subs := [];
    c_slices := [] |};
   {| c_name := "flow_capacity_systemwide_max"; c_foreach := ["techs"; "carriers"]; c_where := "flow_cap_max_systemwide";
    c_equations := [("True", "sum(flow_cap, over=nodes) <= flow_cap_max_systemwide")];
    c_subs := [];
    c_slices := [] |};
   {| c_name := "flow_capacity_systemwide_min"; c_foreach := ["techs"; "carriers"]; c_where := "flow_cap_min_systemwide";
    c_equations := [("True", "sum(flow_cap, over=nodes) >= flow_cap_min_systemwide")];
    c_subs := [];
    c_slices := [] |};
   {| c_name := "balance_conversion"; c_foreach := ["nodes"; "techs"; "timesteps"]; c_where := "base_tech==conversion AND NOT include_storage==true";
    c_equations := [("True", "sum(flow_out_inc_eff, over=carriers) == sum(flow_in_inc_eff, over=carriers)")];
    c_subs := [];
    c_slices := [] |};
   {| c_name := "flow_out_max"; c_foreach := ["nodes"; "techs"; "carriers"; "timesteps"]; c_where := "carrier_out";
    c_equations := [("True", "flow_out <= flow_cap * timestep_resolution * flow_out_parasitic_eff")];
    c_subs := [];
    c_slices := [] |};
   {| c_name := "flow_out_min"; c_foreach := ["nodes"; "techs"; "carriers"; "timesteps"]; c_where := "flow_out_min_relative";
    c_equations := [("True", "flow_out >= flow_cap * timestep_resolution * flow_out_min_relative")];
    c_subs := [];
    c_slices := [] |};
   {| c_name := "flow_in_max"; c_foreach := ["nodes"; "techs"; "carriers"; "timesteps"]; c_where := "carrier_in";
    c_equations := [("True", "flow_in <= flow_cap * timestep_resolution")];
    c_subs := [];
    c_slices := [] |};
   {| c_name := "source_max"; c_foreach := ["nodes"; "techs"; "timesteps"]; c_where := "source_cap";
    c_equations := [("True", "source_use <= timestep_resolution * source_cap")];
    c_subs := [];
    c_slices := [] |};
   {| c_name := "storage_max"; c_foreach := ["nodes"; "techs"; "timesteps"]; c_where := "storage";
    c_equations := [("True", "storage <= storage_cap")];
    c_subs := [];
    c_slices := [] |};
   {| c_name := "storage_discharge_depth_limit"; c_foreach := ["nodes"; "techs"; "timesteps"]; c_where := "storage AND storage_discharge_depth";
    c_equations := [("True", "storage - storage_discharge_depth * storage_cap >= 0")];
    c_subs := [];
    c_slices := [] |};
   {| c_name := "system_balance"; c_foreach := ["nodes"; "carriers"; "timesteps"]; c_where := "True";
    c_equations := [("True", "sum(flow_out, over=techs) - sum(flow_in, over=techs) - sum(flow_export, over=techs) + (unmet_demand + unused_supply) == 0")];
    c_subs := [];
    c_slices := [] |};
   {| c_name := "balance_demand"; c_foreach := ["nodes"; "techs"; "carriers"; "timesteps"]; c_where := "base_tech==demand";
    c_equations := [("sink_use_equals", "flow_in_inc_eff == sink_use_equals * $sink_scaler");
      ("NOT sink_use_equals AND sink_use_max", "flow_in_inc_eff <= sink_use_max * $sink_scaler")];
    c_subs := [("sink_scaler", [("sink_unit==per_area", "area_use");
      ("sink_unit==per_cap", "sum(flow_cap, over=carriers)");
      ("sink_unit==absolute", "1")])];
    c_slices := [] |};
   {| c_name := "balance_demand_min_use"; c_foreach := ["nodes"; "techs"; "carriers"; "timesteps"]; c_where := "sink_use_min AND NOT sink_use_equals AND base_tech==demand";
    c_equations := [("True", "flow_in_inc_eff >= sink_use_min * $sink_scaler")];
    c_subs := [("sink_scaler", [("sink_unit==per_area", "area_use");
      ("sink_unit==per_cap", "sum(flow_cap, over=carriers)");
      ("sink_unit==absolute", "1")])];
    c_slices := [] |};
   {| c_name := "balance_supply_no_storage"; c_foreach := ["nodes"; "techs"; "carriers"; "timesteps"]; c_where := "base_tech==supply AND NOT include_storage==True";
    c_equations := [("True", "flow_out_inc_eff == source_use * source_eff")];
    c_subs := [];
    c_slices := [] |};
   {| c_name := "balance_supply_with_storage"; c_foreach := ["nodes"; "techs"; "carriers"; "timesteps"]; c_where := "storage AND base_tech==supply";
    c_equations := [("True", "storage == $storage_previous_step + source_use * source_eff - flow_out_inc_eff")];
    c_subs := [("storage_previous_step", [("timesteps==get_val_at_index(timesteps=0) AND NOT cyclic_storage==True", "storage_initial * storage_cap");
      ("( (timesteps==get_val_at_index(timesteps=0) AND cyclic_storage==True) OR NOT timesteps==get_val_at_index(timesteps=0) ) AND NOT cluster_first_timestep==True", "(1 - storage_loss) ** roll(timestep_resolution, timesteps=1) * roll(storage, timesteps=1)");
      ("cluster_first_timestep==True AND NOT (timesteps==get_val_at_index(timesteps=0) AND NOT cyclic_storage==True)", "(1 - storage_loss) ** select_from_lookup_arrays(timestep_resolution, timesteps=lookup_cluster_last_timestep) * select_from_lookup_arrays(storage, timesteps=lookup_cluster_last_timestep)")])];
    c_slices := [] |};
   {| c_name := "source_availability_supply"; c_foreach := ["nodes"; "techs"; "timesteps"]; c_where := "source_use AND (source_use_equals OR source_use_max)";
    c_equations := [("source_use_equals", "source_use == source_use_equals * $source_scaler");
      ("NOT source_use_equals AND source_use_max", "source_use <= source_use_max * $source_scaler")];
    c_subs := [("source_scaler", [("source_unit==per_area", "area_use");
      ("source_unit==per_cap", "sum(flow_cap, over=carriers)");
      ("source_unit==absolute", "1")])];
    c_slices := [] |};
   {| c_name := "balance_supply_min_use"; c_foreach := ["nodes"; "techs"; "timesteps"]; c_where := "source_use_min AND NOT source_use_equals AND base_tech==supply";
    c_equations := [("True", "source_use >= source_use_min * $source_scaler")];
    c_subs := [("source_scaler", [("source_unit==per_area", "area_use");
      ("source_unit==per_cap", "sum(flow_cap, over=carriers)");
      ("source_unit==absolute", "1")])];
    c_slices := [] |};
   {| c_name := "balance_storage"; c_foreach := ["nodes"; "techs"; "timesteps"]; c_where := "(include_storage==true or base_tech==storage) AND NOT (base_tech==supply OR base_tech==demand)";
    c_equations := [("True", "storage == $storage_previous_step - sum(flow_out_inc_eff, over=carriers) + sum(flow_in_inc_eff, over=carriers)")];
    c_subs := [("storage_previous_step", [("timesteps==get_val_at_index(timesteps=0) AND NOT cyclic_storage==True", "storage_initial * storage_cap");
      ("( (timesteps==get_val_at_index(timesteps=0) AND cyclic_storage==True) OR NOT timesteps==get_val_at_index(timesteps=0) ) AND NOT cluster_first_timestep==True", "(1 - storage_loss) ** roll(timestep_resolution, timesteps=1) * roll(storage, timesteps=1)");
      ("cluster_first_timestep==True AND NOT (timesteps==get_val_at_index(timesteps=0) AND NOT cyclic_storage==True)", "(1 - storage_loss) ** select_from_lookup_arrays(timestep_resolution, timesteps=lookup_cluster_last_timestep) * select_from_lookup_arrays(storage, timesteps=lookup_cluster_last_timestep)")])];
    c_slices := [] |};
   {| c_name := "set_storage_initial"; c_foreach := ["nodes"; "techs"]; c_where := "storage AND storage_initial AND cyclic_storage==True";
    c_equations := [("True", "storage[timesteps=$final_step] * ( (1 - storage_loss) ** timestep_resolution[timesteps=$final_step] ) == storage_initial * storage_cap")];
    c_subs := [];
    c_slices := [("final_step", [("True", "get_val_at_index(timesteps=-1)")])] |};
   {| c_name := "balance_transmission"; c_foreach := ["techs"; "timesteps"]; c_where := "base_tech==transmission";
    c_equations := [("True", "sum(flow_out_inc_eff, over=[nodes, carriers]) == sum(flow_in_inc_eff, over=[nodes, carriers])")];
    c_subs := [];
    c_slices := [] |};
   {| c_name := "symmetric_transmission"; c_foreach := ["nodes"; "techs"]; c_where := "base_tech==transmission";
    c_equations := [("True", "sum(flow_cap, over=carriers) == link_flow_cap")];
    c_subs := [];
    c_slices := [] |};
   {| c_name := "export_balance"; c_foreach := ["nodes"; "techs"; "carriers"; "timesteps"]; c_where := "flow_export";
    c_equations := [("True", "flow_out >= flow_export")];
    c_subs := [];
    c_slices := [] |};
   {| c_name := "ramping_up"; c_foreach := ["nodes"; "techs"; "carriers"; "timesteps"]; c_where := "flow_ramping AND NOT timesteps==get_val_at_index(timesteps=0)";
    c_equations := [("True", "$flow - roll($flow, timesteps=1) <= flow_ramping * flow_cap")];
    c_subs := [("flow", [("carrier_out AND NOT carrier_in", "flow_out / timestep_resolution");
      ("carrier_in AND NOT carrier_out", "flow_in / timestep_resolution");
      ("carrier_in AND carrier_out", "(flow_out - flow_in) / timestep_resolution")])];
    c_slices := [] |};
   {| c_name := "ramping_down"; c_foreach := ["nodes"; "techs"; "carriers"; "timesteps"]; c_where := "flow_ramping AND NOT timesteps==get_val_at_index(timesteps=0)";
    c_equations := [("True", "-1 * flow_ramping * flow_cap <= $flow - roll($flow, timesteps=1)")];
    c_subs := [("flow", [("carrier_out AND NOT carrier_in", "flow_out / timestep_resolution");
      ("carrier_in AND NOT carrier_out", "flow_in / timestep_resolution");
      ("carrier_in AND carrier_out", "(flow_out - flow_in) / timestep_resolution")])];
    c_slices := [] |}].

(** src/calliope/math/base.yaml, section "objectives"; components that are only switched off are left out. *)
Definition base_objectives : list component :=
  [{| c_name := "min_cost_optimisation"; c_foreach := []; c_where := "True";
    c_equations := [("True", "sum( sum(cost, over=[nodes, techs]) * objective_cost_weights, over=costs ) + $unmet_demand")];
    c_subs := [("unmet_demand", [("True", "sum( sum(unmet_demand - unused_supply, over=[carriers, nodes]) * timestep_weights, over=timesteps ) * bigM")])];
    c_slices := [] |}].

(** src/calliope/math/base.yaml, section "postprocessed"; components that are only switched off are left out. *)
Definition base_postprocessed : list component :=
  [{| c_name := "capacity_factor"; c_foreach := ["nodes"; "techs"; "carriers"; "timesteps"]; c_where := "flow_out AND flow_cap>0";
    c_equations := [("True", "flow_out / (flow_cap * timestep_resolution)")];
    c_subs := [];
    c_slices := [] |};
   {| c_name := "systemwide_capacity_factor"; c_foreach := ["techs"; "carriers"]; c_where := "flow_out AND flow_cap>0";
    c_equations := [("True", "sum(flow_out * timestep_weights, over=[nodes, timesteps]) / (sum(flow_cap, over=nodes) * sum(timestep_resolution * timestep_weights, over=timesteps))")];
    c_subs := [];
    c_slices := [] |};
   {| c_name := "total_generation"; c_foreach := ["techs"; "carriers"]; c_where := "flow_out AND NOT base_tech==demand";
    c_equations := [("True", "sum(flow_out + flow_export * timestep_weights, over=[nodes, timesteps])")];
    c_subs := [];
    c_slices := [] |};
   {| c_name := "systemwide_levelised_cost"; c_foreach := ["techs"; "carriers"; "costs"]; c_where := "total_generation>0 AND any(cost, over=nodes)";
    c_equations := [("True", "sum(cost, over=nodes) / total_generation")];
    c_subs := [];
    c_slices := [] |};
   {| c_name := "total_levelised_cost"; c_foreach := ["carriers"; "costs"]; c_where := "sum(total_generation, over=techs)>0";
    c_equations := [("True", "sum(cost, over=[nodes, techs]) / sum(total_generation, over=techs)")];
    c_subs := [];
    c_slices := [] |};
   {| c_name := "unmet_sum"; c_foreach := ["nodes"; "carriers"; "timesteps"]; c_where := "config.ensure_feasibility == True";
    c_equations := [("True", "unmet_demand + unused_supply")];
    c_subs := [];
    c_slices := [] |};
   {| c_name := "curtailment"; c_foreach := ["nodes"; "techs"; "timesteps"]; c_where := "base_tech==supply AND source_use_max>0 AND NOT source_use_max==inf AND source_cap>0";
    c_equations := [("True", "1 - (source_use / (source_use_max * $source_scaler))")];
    c_subs := [("source_scaler", [("source_unit==per_area", "area_use");
      ("source_unit==per_cap", "sum(flow_cap, over=carriers)");
      ("source_unit==absolute", "1")])];
    c_slices := [] |};
   {| c_name := "total_curtailment"; c_foreach := ["nodes"; "techs"]; c_where := "base_tech==supply AND source_use_max AND source_cap>0";
    c_equations := [("True", "1 - (sum(source_use, over=timesteps) / sum(source_use_max * $source_scaler, over=timesteps))")];
    c_subs := [("source_scaler", [("source_unit==per_area", "area_use");
      ("source_unit==per_cap", "sum(flow_cap, over=carriers)");
      ("source_unit==absolute", "1")])];
    c_slices := [] |}].

(** src/calliope/math/base.yaml, section "checks": the conditions. *)
Definition base_checks : list (string * string) :=
  [("must_have_base", "NOT base_tech");
   ("distance_only_for_transmission", "NOT base_tech==transmission AND (distance or flow_in_eff_per_distance or flow_out_eff_per_distance or cost_flow_cap_per_distance)");
   ("unbounded_flow_cap_cost", "cost_flow_cap<0 AND NOT flow_cap_max");
   ("unbounded_storage_cap_cost", "cost_storage_cap<0 AND NOT storage_cap_max");
   ("unbounded_area_use_cost", "cost_area_use<0 AND NOT area_use_max");
   ("unbounded_source_use_cost", "cost_source_cap<0 AND NOT source_cap_max");
   ("finite_source_use", "source_use_equals==inf or sink_use_equals==inf");
   ("all_or_nothing_lat_lon", "(any(latitude, over=nodes) or any(longitude, over=nodes)) AND NOT (latitude or longitude)");
   ("export_only_for_outflows", "carrier_export AND NOT any(carrier_out, over=nodes)");
   ("storage_initial_max", "storage_initial AND (storage_initial<0 OR storage_initial>1)");
   ("flow_in_for_supply_tech", "base_tech==supply AND cost_flow_in");
   ("flow_out_for_demand_tech", "base_tech==demand AND cost_flow_out");
   ("no_storage_discharge_depth_when_clustering", "storage_discharge_depth AND lookup_cluster_last_timestep");
   ("cyclic_storage_needs_inter_cluster", "cyclic_storage AND lookup_cluster_last_timestep")].

(** src/calliope/math/milp.yaml, section "parameters": the names. *)
Definition milp_parameters : list string :=
  ["flow_cap_per_unit"; "purchased_units_min_systemwide"; "purchased_units_max_systemwide"; "purchased_units_min"; "purchased_units_max"; "storage_cap_per_unit"; "cost_purchase_per_distance"; "cost_purchase"; "flow_cap_min"; "flow_cap_min_systemwide"; "flow_out_min_relative"].

(** src/calliope/math/milp.yaml, section "lookups": the names. *)
Definition milp_lookups : list string :=
  ["cap_method"; "integer_dispatch"; "force_async_flow"].

(** src/calliope/math/milp.yaml, section "variables"; components that are only switched off are left out. *)
Definition milp_variables : list component :=
  [{| c_name := "purchased_units"; c_foreach := ["nodes"; "techs"]; c_where := "cap_method==integer";
    c_equations := [];
    c_subs := [];
    c_slices := [] |};
   {| c_name := "operating_units"; c_foreach := ["nodes"; "techs"; "timesteps"]; c_where := "integer_dispatch==True AND cap_method==integer";
    c_equations := [];
    c_subs := [];
    c_slices := [] |};
   {| c_name := "async_flow_switch"; c_foreach := ["nodes"; "techs"; "timesteps"]; c_where := "force_async_flow==True";
    c_equations := [];
    c_subs := [];
    c_slices := [] |};
   {| c_name := "available_flow_cap"; c_foreach := ["nodes"; "techs"; "carriers"; "timesteps"]; c_where := "integer_dispatch==True AND flow_cap_max AND NOT flow_cap_per_unit";
    c_equations := [];
    c_subs := [];
    c_slices := [] |};
   {| c_name := "flow_cap"; c_foreach := []; c_where := "True";
    c_equations := [];
    c_subs := [];
    c_slices := [] |};
   {| c_name := "area_use"; c_foreach := []; c_where := "True";
    c_equations := [];
    c_subs := [];
    c_slices := [] |};
   {| c_name := "source_cap"; c_foreach := []; c_where := "True";
    c_equations := [];
    c_subs := [];
    c_slices := [] |};
   {| c_name := "storage_cap"; c_foreach := []; c_where := "True";
    c_equations := [];
    c_subs := [];
    c_slices := [] |}].

(** src/calliope/math/milp.yaml, section "global_expressions"; components that are only switched off are left out. *)
Definition milp_global_expressions : list component :=
  [{| c_name := "cost_investment_purchase"; c_foreach := ["nodes"; "techs"; "costs"]; c_where := "cost_purchase AND purchased_units";
    c_equations := [("base_tech==transmission", "(cost_purchase + cost_purchase_per_distance * distance) * purchased_units * 0.5");
      ("NOT base_tech==transmission", "cost_purchase * purchased_units")];
    c_subs := [];
    c_slices := [] |};
   {| c_name := "cost_investment"; c_foreach := []; c_where := "cost_investment_flow_cap OR cost_investment_storage_cap OR cost_investment_source_cap OR cost_investment_area_use OR cost_investment_purchase";
    c_equations := [("True", "sum(cost_investment_flow_cap, over=carriers) + cost_investment_storage_cap + cost_investment_source_cap + cost_investment_area_use + cost_investment_purchase")];
    c_subs := [];
    c_slices := [] |}].

(** src/calliope/math/milp.yaml, section "constraints"; components that are only switched off are left out. *)
Definition milp_constraints : list component :=
  [{| c_name := "unit_commitment_milp"; c_foreach := ["nodes"; "techs"; "timesteps"]; c_where := "operating_units AND purchased_units";
    c_equations := [("True", "operating_units <= purchased_units")];
    c_subs := [];
    c_slices := [] |};
   {| c_name := "flow_out_max_milp"; c_foreach := ["nodes"; "techs"; "carriers"; "timesteps"]; c_where := "flow_out AND operating_units AND flow_cap_per_unit";
    c_equations := [("True", "flow_out <= operating_units * timestep_resolution * flow_cap_per_unit * flow_out_parasitic_eff")];
    c_subs := [];
    c_slices := [] |};
   {| c_name := "flow_in_max_milp"; c_foreach := ["nodes"; "techs"; "carriers"; "timesteps"]; c_where := "flow_in AND operating_units AND flow_cap_per_unit";
    c_equations := [("True", "flow_in <= operating_units * timestep_resolution * flow_cap_per_unit")];
    c_subs := [];
    c_slices := [] |};
   {| c_name := "flow_out_min_milp"; c_foreach := ["nodes"; "techs"; "carriers"; "timesteps"]; c_where := "flow_out AND operating_units AND flow_out_min_relative";
    c_equations := [("flow_cap_per_unit", "flow_out >= operating_units * timestep_resolution * flow_cap_per_unit * flow_out_min_relative");
      ("available_flow_cap", "flow_out >= available_flow_cap * timestep_resolution * flow_out_min_relative")];
    c_subs := [];
    c_slices := [] |};
   {| c_name := "storage_capacity_units_milp"; c_foreach := ["nodes"; "techs"]; c_where := "storage AND purchased_units AND storage_cap_per_unit";
    c_equations := [("True", "storage_cap == purchased_units * storage_cap_per_unit")];
    c_subs := [];
    c_slices := [] |};
   {| c_name := "flow_capacity_units_milp"; c_foreach := ["nodes"; "techs"; "carriers"]; c_where := "purchased_units AND flow_cap_per_unit";
    c_equations := [("True", "flow_cap == purchased_units * flow_cap_per_unit")];
    c_subs := [];
    c_slices := [] |};
   {| c_name := "flow_capacity_max_purchase_milp"; c_foreach := ["nodes"; "techs"; "carriers"]; c_where := "purchased_units";
    c_equations := [("flow_cap_max", "flow_cap <= flow_cap_max * purchased_units");
      ("NOT flow_cap_max", "flow_cap <= bigM * purchased_units")];
    c_subs := [];
    c_slices := [] |};
   {| c_name := "storage_capacity_max_purchase_milp"; c_foreach := ["nodes"; "techs"]; c_where := "purchased_units AND storage_cap_max";
    c_equations := [("True", "storage_cap <= storage_cap_max * purchased_units")];
    c_subs := [];
    c_slices := [] |};
   {| c_name := "unit_capacity_max_systemwide_milp"; c_foreach := ["techs"]; c_where := "purchased_units AND purchased_units_max_systemwide";
    c_equations := [("True", "sum(purchased_units, over=nodes) <= purchased_units_max_systemwide")];
    c_subs := [];
    c_slices := [] |};
   {| c_name := "unit_capacity_min_systemwide_milp"; c_foreach := ["techs"]; c_where := "purchased_units AND purchased_units_max_systemwide";
    c_equations := [("True", "sum(purchased_units, over=nodes) >= purchased_units_min_systemwide")];
    c_subs := [];
    c_slices := [] |};
   {| c_name := "async_flow_in_milp"; c_foreach := ["nodes"; "techs"; "timesteps"]; c_where := "async_flow_switch";
    c_equations := [("True", "sum(flow_in, over=carriers) <= (1 - async_flow_switch) * bigM")];
    c_subs := [];
    c_slices := [] |};
   {| c_name := "async_flow_out_milp"; c_foreach := ["nodes"; "techs"; "timesteps"]; c_where := "async_flow_switch";
    c_equations := [("True", "sum(flow_out, over=carriers) <= async_flow_switch * bigM")];
    c_subs := [];
    c_slices := [] |};
   {| c_name := "available_flow_cap_continuous"; c_foreach := ["nodes"; "techs"; "carriers"; "timesteps"]; c_where := "available_flow_cap";
    c_equations := [("True", "available_flow_cap <= flow_cap")];
    c_subs := [];
    c_slices := [] |};
   {| c_name := "available_flow_cap_binary"; c_foreach := ["nodes"; "techs"; "carriers"; "timesteps"]; c_where := "available_flow_cap";
    c_equations := [("True", "available_flow_cap <= flow_cap_max * operating_units")];
    c_subs := [];
    c_slices := [] |};
   {| c_name := "available_flow_cap_max_binary_continuous_switch"; c_foreach := ["nodes"; "techs"; "carriers"; "timesteps"]; c_where := "available_flow_cap";
    c_equations := [("True", "available_flow_cap >= flow_cap + ((operating_units - purchased_units) * flow_cap_max)")];
    c_subs := [];
    c_slices := [] |};
   {| c_name := "flow_capacity_minimum"; c_foreach := ["nodes"; "techs"; "carriers"]; c_where := "flow_cap_min";
    c_equations := [("NOT purchased_units", "flow_cap >= flow_cap_min");
      ("purchased_units", "flow_cap >= flow_cap_min * purchased_units")];
    c_subs := [];
    c_slices := [] |};
   {| c_name := "storage_capacity_minimum"; c_foreach := ["nodes"; "techs"]; c_where := "storage_cap_min";
    c_equations := [("NOT purchased_units", "storage_cap >= storage_cap_min");
      ("purchased_units", "storage_cap >= storage_cap_min * purchased_units")];
    c_subs := [];
    c_slices := [] |};
   {| c_name := "area_use_minimum"; c_foreach := ["nodes"; "techs"]; c_where := "area_use_min";
    c_equations := [("NOT purchased_units", "area_use >= area_use_min");
      ("purchased_units", "area_use >= area_use_min * purchased_units")];
    c_subs := [];
    c_slices := [] |};
   {| c_name := "source_capacity_minimum"; c_foreach := ["nodes"; "techs"]; c_where := "base_tech==supply AND source_cap_min";
    c_equations := [("NOT purchased_units", "source_cap >= source_cap_min");
      ("purchased_units", "source_cap >= source_cap_min * purchased_units")];
    c_subs := [];
    c_slices := [] |};
   {| c_name := "flow_out_max"; c_foreach := []; c_where := "carrier_out AND NOT operating_units";
    c_equations := [];
    c_subs := [];
    c_slices := [] |};
   {| c_name := "flow_out_min"; c_foreach := []; c_where := "flow_out_min_relative AND NOT operating_units";
    c_equations := [];
    c_subs := [];
    c_slices := [] |};
   {| c_name := "flow_in_max"; c_foreach := []; c_where := "carrier_in AND NOT operating_units";
    c_equations := [];
    c_subs := [];
    c_slices := [] |};
   {| c_name := "flow_capacity_systemwide_min"; c_foreach := ["techs"; "carriers"]; c_where := "flow_cap_min_systemwide";
    c_equations := [("any(purchased_units, over=nodes)", "sum(flow_cap, over=nodes) >= flow_cap_min_systemwide * sum(purchased_units, over=nodes)");
      ("NOT any(purchased_units, over=nodes)", "sum(flow_cap, over=nodes) >= flow_cap_min_systemwide")];
    c_subs := [];
    c_slices := [] |}].

(** src/calliope/math/milp.yaml, section "checks": the conditions. *)
Definition milp_checks : list (string * string) :=
  [("distance_only_for_transmission_milp", "not base_tech==transmission and cost_purchase_per_distance");
   ("conflicting_flow_caps", "(flow_cap_max OR flow_cap_min) AND flow_cap_per_unit");
   ("unit_commitment_only_for_units", "integer_dispatch==True AND NOT cap_method==integer");
   ("conflicting_storage_caps", "(storage_cap_max OR storage_cap_min) AND storage_cap_per_unit")].

(** src/calliope/math/operate.yaml, section "parameters": the names. *)
Definition operate_parameters : list string :=
  ["area_use"; "storage_cap"; "purchased_units"; "source_cap"; "flow_cap"; "link_flow_cap"].

(** src/calliope/math/operate.yaml, section "variables"; components that are only switched off are left out. *)
Definition operate_variables : list component :=
  [].

Definition operate_variables_off : list string := ["flow_cap"; "link_flow_cap"; "area_use"; "source_cap"; "storage_cap"; "purchased_units"].

(** src/calliope/math/operate.yaml, section "global_expressions"; components that are only switched off are left out. *)
Definition operate_global_expressions : list component :=
  [{| c_name := "cost"; c_foreach := []; c_where := "cost_operation_variable";
    c_equations := [("True", "sum(cost_operation_variable, over=timesteps)")];
    c_subs := [];
    c_slices := [] |}].

Definition operate_global_expressions_off : list string := ["cost_investment"; "cost_investment_annualised"; "cost_investment_flow_cap"; "cost_investment_storage_cap"; "cost_investment_source_cap"; "cost_investment_area_use"; "cost_investment_purchase"; "cost_operation_fixed"].

(** src/calliope/math/operate.yaml, section "constraints"; components that are only switched off are left out. *)
Definition operate_constraints : list component :=
  [].

Definition operate_constraints_off : list string := ["flow_capacity_per_storage_capacity_min"; "flow_capacity_per_storage_capacity_max"; "source_capacity_equals_flow_capacity"; "force_zero_area_use"; "area_use_per_flow_capacity"; "area_use_capacity_per_loc"; "flow_capacity_systemwide_max"; "flow_capacity_systemwide_min"; "symmetric_transmission"; "storage_capacity_units_milp"; "flow_capacity_units_milp"; "unit_capacity_max_systemwide_milp"; "unit_capacity_min_systemwide_milp"].

(** src/calliope/math/operate.yaml, section "checks": the conditions. *)
Definition operate_checks : list (string * string) :=
  [("operate_mode_cyclic_storage", "cyclic_storage==True AND (base_tech==storage OR include_storage==True)")].

(** src/calliope/math/spores.yaml, section "parameters": the names. *)
Definition spores_parameters : list string :=
  ["spores_baseline_cost"; "spores_slack"; "spores_score"].

(** src/calliope/math/spores.yaml, section "constraints"; components that are only switched off are left out. *)
Definition spores_constraints : list component :=
  [{| c_name := "total_system_cost_max"; c_foreach := []; c_where := "True";
    c_equations := [("any(cost, over=[nodes, techs, costs])", "sum( sum(cost, over=[nodes, techs]) * objective_cost_weights, over=costs ) + $unmet_demand <= spores_baseline_cost * (1 + spores_slack)");
      ("NOT any(cost, over=[nodes, techs, costs])", "$unmet_demand <= spores_baseline_cost * (1 + spores_slack)")];
    c_subs := [("unmet_demand", [("True", "sum( sum(unmet_demand - unused_supply, over=[carriers, nodes]) * timestep_weights, over=timesteps ) * bigM")])];
    c_slices := [] |}].

(** src/calliope/math/spores.yaml, section "objectives"; components that are only switched off are left out. *)
Definition spores_objectives : list component :=
  [{| c_name := "min_spores"; c_foreach := []; c_where := "True";
    c_equations := [("True", "sum(flow_cap * spores_score, over=[nodes, techs, carriers]) + $unmet_demand")];
    c_subs := [("unmet_demand", [("True", "sum( sum(unmet_demand - unused_supply, over=[carriers, nodes]) * timestep_weights, over=timesteps ) * bigM")])];
    c_slices := [] |}].

(** src/calliope/math/spores.yaml, section "postprocessed"; components that are only switched off are left out. *)
Definition spores_postprocessed : list component :=
  [{| c_name := "spores_score_cumulative"; c_foreach := ["nodes"; "techs"; "carriers"]; c_where := "True";
    c_equations := [("True", "spores_score")];
    c_subs := [];
    c_slices := [] |};
   {| c_name := "spores_baseline_cost_tracked"; c_foreach := []; c_where := "True";
    c_equations := [("True", "spores_baseline_cost")];
    c_subs := [];
    c_slices := [] |}].

(** src/calliope/math/storage_inter_cluster.yaml, section "lookups": the names. *)
Definition inter_lookups : list string :=
  ["timestep_cluster"; "lookup_datestep_cluster"; "lookup_datestep_last_cluster_timestep"].

(** src/calliope/math/storage_inter_cluster.yaml, section "variables"; components that are only switched off are left out. *)
Definition inter_variables : list component :=
  [{| c_name := "storage"; c_foreach := []; c_where := "True";
    c_equations := [];
    c_subs := [];
    c_slices := [] |};
   {| c_name := "storage_inter_cluster"; c_foreach := ["nodes"; "techs"; "datesteps"]; c_where := "include_storage==True OR base_tech==storage";
    c_equations := [];
    c_subs := [];
    c_slices := [] |};
   {| c_name := "storage_intra_cluster_max"; c_foreach := ["nodes"; "techs"; "clusters"]; c_where := "include_storage==True OR base_tech==storage";
    c_equations := [];
    c_subs := [];
    c_slices := [] |};
   {| c_name := "storage_intra_cluster_min"; c_foreach := ["nodes"; "techs"; "clusters"]; c_where := "include_storage==True OR base_tech==storage";
    c_equations := [];
    c_subs := [];
    c_slices := [] |}].

(** src/calliope/math/storage_inter_cluster.yaml, section "constraints"; components that are only switched off are left out. *)
Definition inter_constraints : list component :=
  [{| c_name := "balance_supply_with_storage"; c_foreach := []; c_where := "True";
    c_equations := [];
    c_subs := [("storage_previous_step", [("timesteps==get_val_at_index(timesteps=0) AND NOT cyclic_storage==True", "storage_initial * storage_cap");
      ("( (timesteps==get_val_at_index(timesteps=0) AND cyclic_storage==True) OR NOT timesteps==get_val_at_index(timesteps=0) ) AND NOT lookup_cluster_last_timestep", "(1 - storage_loss) ** roll(timestep_resolution, timesteps=1) * roll(storage, timesteps=1)");
      ("lookup_cluster_last_timestep AND NOT (timesteps==get_val_at_index(timesteps=0) AND NOT cyclic_storage==True)", "0")])];
    c_slices := [] |};
   {| c_name := "balance_storage"; c_foreach := []; c_where := "True";
    c_equations := [];
    c_subs := [("storage_previous_step", [("timesteps==get_val_at_index(timesteps=0) AND NOT cyclic_storage==True", "storage_initial * storage_cap");
      ("( (timesteps==get_val_at_index(timesteps=0) AND cyclic_storage==True) OR NOT timesteps==get_val_at_index(timesteps=0) ) AND NOT lookup_cluster_last_timestep", "(1 - storage_loss) ** roll(timestep_resolution, timesteps=1) * roll(storage, timesteps=1)");
      ("lookup_cluster_last_timestep AND NOT (timesteps==get_val_at_index(timesteps=0) AND NOT cyclic_storage==True)", "0")])];
    c_slices := [] |};
   {| c_name := "set_storage_initial"; c_foreach := []; c_where := "True";
    c_equations := [("True", "storage_inter_cluster[datesteps=$final_step] * ((1 - storage_loss) ** 24) == storage_initial * storage_cap")];
    c_subs := [];
    c_slices := [("final_step", [("True", "get_val_at_index(datesteps=-1)")])] |};
   {| c_name := "storage_intra_max"; c_foreach := ["nodes"; "techs"; "timesteps"]; c_where := "include_storage==True OR base_tech==storage";
    c_equations := [("True", "storage <= storage_intra_cluster_max[clusters=$cluster]")];
    c_subs := [];
    c_slices := [("cluster", [("True", "timestep_cluster")])] |};
   {| c_name := "storage_intra_min"; c_foreach := ["nodes"; "techs"; "timesteps"]; c_where := "include_storage==True OR base_tech==storage";
    c_equations := [("True", "storage >= storage_intra_cluster_min[clusters=$cluster]")];
    c_subs := [];
    c_slices := [("cluster", [("True", "timestep_cluster")])] |};
   {| c_name := "storage_inter_max"; c_foreach := ["nodes"; "techs"; "datesteps"]; c_where := "include_storage==True OR base_tech==storage";
    c_equations := [("True", "storage_inter_cluster + storage_intra_cluster_max[clusters=$cluster] <= storage_cap")];
    c_subs := [];
    c_slices := [("cluster", [("True", "lookup_datestep_cluster")])] |};
   {| c_name := "storage_inter_min"; c_foreach := ["nodes"; "techs"; "datesteps"]; c_where := "include_storage==True OR base_tech==storage";
    c_equations := [("True", "storage_inter_cluster * ((1 - storage_loss) ** 24) + storage_intra_cluster_min[clusters=$cluster] >= 0")];
    c_subs := [];
    c_slices := [("cluster", [("True", "lookup_datestep_cluster")])] |};
   {| c_name := "balance_storage_inter"; c_foreach := ["nodes"; "techs"; "datesteps"]; c_where := "include_storage==True OR base_tech==storage";
    c_equations := [("True", "storage_inter_cluster == $storage_previous_step + $storage_intra")];
    c_subs := [("storage_previous_step", [("datesteps==get_val_at_index(datesteps=0) AND NOT cyclic_storage==True", "storage_initial");
      ("(datesteps==get_val_at_index(datesteps=0) AND cyclic_storage==True) OR NOT datesteps==get_val_at_index(datesteps=0)", "((1 - storage_loss) ** 24) * roll(storage_inter_cluster, datesteps=1)")]);
    ("storage_intra", [("datesteps==get_val_at_index(datesteps=0) AND NOT cyclic_storage==True", "0");
      ("NOT (datesteps==get_val_at_index(datesteps=0) AND NOT cyclic_storage==True)", "storage[timesteps=$final_step]")])];
    c_slices := [("final_step", [("True", "roll(lookup_datestep_last_cluster_timestep, datesteps=1)")])] |}].

Definition inter_constraints_off : list string := ["storage_max"].

(** src/calliope/math/storage_inter_cluster.yaml, section "checks": the conditions. *)
Definition inter_checks : list (string * string) :=
  [].
