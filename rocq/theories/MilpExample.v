(** Small systems with integer units for the examples.  They are not code of the package; they only provide data. *)
From Coq Require Import QArith Qcanon.
From Verif Require Import Base BaseProofs LangModel MathText EvalModel EvalSpec BuildModel BuildSpec HelperModel HelperSpec ShipModel ShipSpec ShipExample NetSpec NetExample PlaceSpec ShipPlace RuleText RuleProofs MilpProofs ShipFast BoundSpec BoundFast RuleExample.
Local Open Scope nat_scope.
Local Open Scope string_scope.
Local Open Scope list_scope.

Definition unit_math : list math_file := [milp_file].
Lemma unit_listed : In unit_math milp_lists.
Proof. left; reflexivity. Qed.
Definition unit_names : names := math_names (layered unit_math).

(** ** Engines bought in units, a turbine of any size that can be off, a battery that cannot charge and discharge at once. *)
Definition works_labels : list (string * list string) := [("nodes", ["here"]); ("techs", ["engine"; "turbine"; "battery"]); ("carriers", ["power"]); ("timesteps", ["t0"])].
Definition works_placed : list (list string * cell) := map (fun t => (["here"; t; "power"], Boo true)) ["engine"; "turbine"; "battery"].
Definition works_arrays : list (string * darr) :=
  [("base_tech", rows_of ["techs"] [(["engine"], Txt "conversion"); (["turbine"], Txt "supply"); (["battery"], Txt "storage")]);
   ("carrier_out", rows_of three works_placed);
   ("carrier_in", rows_of three [(["here"; "engine"; "power"], Boo true); (["here"; "battery"; "power"], Boo true)]);
   ("timestep_resolution", rows_of ["timesteps"] [(["t0"], num 2)]);
   ("flow_cap", rows_of three [(["here"; "engine"; "power"], num 15); (["here"; "turbine"; "power"], num 12); (["here"; "battery"; "power"], num 3)]);
   ("flow_out", rows_of four (flow_rows [("engine", "power", num 18); ("turbine", "power", num 6); ("battery", "power", num 0)]));
   ("flow_in", rows_of four (flow_rows [("engine", "power", num 19); ("battery", "power", num 3)]));
   ("purchased_units", rows_of site_dims [(["here"; "engine"], num 3); (["here"; "turbine"], num 1); (["here"; "battery"], num 2)]);
   ("operating_units", rows_of use_dims [(["here"; "engine"; "t0"], num 2); (["here"; "turbine"; "t0"], num 1)]);
   ("flow_cap_per_unit", rows_of three [(["here"; "engine"; "power"], num 5)]);
   ("flow_out_min_relative", rows_of ["techs"] [(["engine"], Val half); (["turbine"], Val quarter)]);
   ("available_flow_cap", rows_of four (flow_rows [("turbine", "power", num 12)]));
   ("flow_cap_max", rows_of ["techs"] [(["turbine"], num 20)]);
   ("flow_cap_min", rows_of ["techs"] [(["turbine"], num 10); (["battery"], num 1)]);
   ("async_flow_switch", rows_of use_dims [(["here"; "battery"; "t0"], num 0)]);
   ("storage", rows_of use_dims [(["here"; "battery"; "t0"], num 5)]);
   ("storage_cap", rows_of site_dims [(["here"; "battery"], num 8)]);
   ("storage_cap_per_unit", rows_of ["techs"] [(["battery"], num 4)]);
   ("storage_cap_max", rows_of ["techs"] [(["battery"], num 10)]);
   ("purchased_units_max_systemwide", rows_of ["techs"] [(["engine"], num 4)]);
   ("purchased_units_min_systemwide", rows_of ["techs"] [(["engine"], num 2)])].
Definition works_defaults : list (string * cell) :=
  map (fun s => (s, num 0)) ["flow_in"; "flow_out"; "flow_cap"; "purchased_units"; "operating_units"; "available_flow_cap"; "storage"; "storage_cap"] ++ [("flow_out_parasitic_eff", num 1); ("bigM", num 1000)].
Definition works : world := system works_labels works_arrays works_defaults (rows_of three works_placed).
Lemma works_proper : proper works.
Proof. proper_system. Qed.
Lemma works_flow t : In t ["engine"; "turbine"; "battery"] -> sited works (flow_at "here" t "power" "t0").
Proof. intros H; repeat (destruct H as [<- |H]; [sited_by works_proper|]); destruct H. Qed.
Lemma works_cap t : In t ["engine"; "turbine"; "battery"] -> sited works (cap_at "here" t "power").
Proof. intros H; repeat (destruct H as [<- |H]; [sited_by works_proper|]); destruct H. Qed.
Lemma works_checked : forallb (holds_text unit_names works) milp_texts = true.
Proof. vm_compute; reflexivity. Qed.
Lemma works_rules s : In s milp_names -> constraint_holds as_listed (layered unit_math) works s.
Proof.
  intros IS; assert (FN : find_in (h_constraints (layered unit_math)) s <> None) by (repeat (destruct IS as [<- |IS]; [vm_compute; discriminate|]); destruct IS).
  apply In_nth_error in IS as (i & EN); destruct (find_in _ s) as [c|] eqn:FC; [|destruct (FN eq_refl)]; exists c; split; [exact FC|].
  apply (holds_text_sound _ _ _ _ _ (milp_told as_listed as_listed_set unit_math i s c unit_listed EN FC)); pose proof works_checked as OK; rewrite forallb_forall in OK; apply OK, nth_In.
  replace (List.length milp_texts) with (List.length milp_names) by reflexivity; apply nth_error_Some; rewrite EN; discriminate.
Qed.

(** ** A plant that can be off, of any size up to a limit, and a load. *)
Definition runaway_labels : list (string * list string) := [("nodes", ["here"]); ("techs", ["plant"; "load"]); ("carriers", ["power"]); ("timesteps", ["t0"]); ("costs", ["monetary"])].
Definition runaway_placed : list (list string * cell) := map (fun t => (["here"; t; "power"], Boo true)) ["plant"; "load"].
Definition cost_site : list string := ["nodes"; "techs"; "costs"].
Definition runaway_arrays : list (string * darr) :=
  [("base_tech", rows_of ["techs"] [(["plant"], Txt "supply"); (["load"], Txt "demand")]);
   ("carrier_out", rows_of three [(["here"; "plant"; "power"], Boo true)]);
   ("carrier_in", rows_of three [(["here"; "load"; "power"], Boo true)]);
   ("cap_method", rows_of ["techs"] [(["plant"], Txt "integer")]);
   ("integer_dispatch", rows_of ["techs"] [(["plant"], Boo true)]);
   ("timestep_resolution", rows_of ["timesteps"] [(["t0"], num 1)]);
   ("timestep_weights", rows_of ["timesteps"] [(["t0"], num 1)]);
   ("flow_cap_max", rows_of ["techs"] [(["plant"], num 10)]);
   ("purchased_units_min_systemwide", rows_of ["techs"] [(["plant"], num 2)]);
   ("sink_use_equals", rows_of use_dims [(["here"; "load"; "t0"], num 50)]);
   ("flow_cap", rows_of three [(["here"; "plant"; "power"], num 10); (["here"; "load"; "power"], num 50)]);
   ("purchased_units", rows_of site_dims [(["here"; "plant"], num 1)]);
   ("operating_units", rows_of use_dims [(["here"; "plant"; "t0"], num 1)]);
   ("available_flow_cap", rows_of four (flow_rows [("plant", "power", num 10)]));
   ("source_cap", rows_of site_dims [(["here"; "plant"], num 50)]);
   ("source_use", rows_of use_dims [(["here"; "plant"; "t0"], num 50)]);
   ("flow_out", rows_of four (flow_rows [("plant", "power", num 50)]));
   ("flow_in", rows_of four (flow_rows [("load", "power", num 50)]));
   ("flow_out_inc_eff", rows_of four (flow_rows [("plant", "power", num 50)]));
   ("flow_in_inc_eff", rows_of four (flow_rows [("load", "power", num 50)]));
   ("cost_operation_variable", rows_of ["nodes"; "techs"; "costs"; "timesteps"] []);
   ("cost_investment_flow_cap", rows_of ["nodes"; "techs"; "carriers"; "costs"] [])] ++
  map (fun s => (s, rows_of cost_site [])) ["cost_investment_storage_cap"; "cost_investment_source_cap"; "cost_investment_area_use"; "cost_investment"; "cost_investment_annualised"; "cost_operation_fixed"; "cost"; "cost_investment_purchase"].
Definition runaway_defaults : list (string * cell) :=
  map (fun s => (s, num 0)) (flows ++ slacks ++ ["flow_out_inc_eff"; "flow_in_inc_eff"; "flow_cap"; "area_use"; "source_use"; "storage"; "storage_cap"; "purchased_units"; "operating_units"; "available_flow_cap"]) ++
  map (fun s => (s, num 1)) ["flow_out_eff"; "flow_out_parasitic_eff"; "flow_out_eff_per_distance"; "distance"; "flow_in_eff"; "flow_in_eff_per_distance"; "source_eff"] ++
  [("sink_unit", Txt "absolute"); ("source_unit", Txt "absolute"); ("include_storage", Boo false); ("source_cap_equals_flow_cap", Boo false); ("cyclic_storage", Boo true); ("integer_dispatch", Boo false); ("cap_method", Txt "continuous"); ("bigM", num 1000000)].
Definition runaway : world := system runaway_labels runaway_arrays runaway_defaults (rows_of three runaway_placed).
Lemma runaway_proper : proper runaway.
Proof. proper_system. Qed.
Lemma runaway_cap : sited runaway (cap_at "here" "plant" "power").
Proof. sited_by runaway_proper. Qed.
Lemma runaway_flow : sited runaway (flow_at "here" "plant" "power" "t0").
Proof. sited_by runaway_proper. Qed.
Lemma runaway_checked : feasible_check as_listed (layered unit_math) runaway = true.
Proof. vm_compute; reflexivity. Qed.
Lemma runaway_feasible : feasible as_listed (layered unit_math) runaway.
Proof. apply feasible_sound, runaway_checked. Qed.
Lemma runaway_solution : solution as_listed unit_math runaway.
Proof. apply solution_sound; [exact runaway_feasible|vm_compute; reflexivity]. Qed.
