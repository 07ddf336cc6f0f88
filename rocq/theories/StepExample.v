(** Small systems for the examples on ramping and on supply technologies with a store.  They are not
    code of the package; they only provide data. *)
From Coq Require Import QArith Qcanon.
From Verif Require Import Base BaseProofs LangModel MathText EvalModel EvalSpec BuildModel BuildSpec HelperModel HelperSpec ShipModel ShipSpec ShipExample NetSpec NetExample PlaceSpec ShipPlace RuleText RuleProofs ShipFast BoundSpec BoundFast RuleExample MilpExample CostSpec StepText StepSpec StepProofs.
Local Open Scope nat_scope.
Local Open Scope string_scope.
Local Open Scope list_scope.

Definition during (t c : string) (l : list (string * cell)) : list (list string * cell) := map (fun x => (["here"; t; c; fst x], snd x)) l.
Definition meanwhile (t : string) (l : list (string * cell)) : list (list string * cell) := map (fun x => (["here"; t; fst x], snd x)) l.
Definition no_costs : list (string * darr) :=
  [("cost_operation_variable", rows_of ["nodes"; "techs"; "costs"; "timesteps"] []); ("cost_investment_flow_cap", rows_of ["nodes"; "techs"; "carriers"; "costs"] [])] ++
  map (fun s => (s, rows_of cost_site [])) ["cost_investment_storage_cap"; "cost_investment_source_cap"; "cost_investment_area_use"; "cost_investment"; "cost_investment_annualised"; "cost_operation_fixed"; "cost"].
Definition step_defaults : list (string * cell) :=
  map (fun s => (s, num 0)) (flows ++ slacks ++ ["flow_out_inc_eff"; "flow_in_inc_eff"; "flow_cap"; "area_use"; "source_use"; "storage"; "storage_cap"; "storage_loss"; "storage_initial"]) ++
  map (fun s => (s, num 1)) ["flow_out_eff"; "flow_out_parasitic_eff"; "flow_out_eff_per_distance"; "distance"; "flow_in_eff"; "flow_in_eff_per_distance"; "source_eff"; "timestep_weights"; "timestep_resolution"] ++
  [("sink_unit", Txt "absolute"); ("source_unit", Txt "absolute"); ("include_storage", Boo false); ("source_cap_equals_flow_cap", Boo false); ("cyclic_storage", Boo true); ("bigM", num 1000)].

(** ** A plant that changes its output within half an hour; a battery that is charged and discharged. *)
Definition hill_times : list string := ["t0"; "t1"; "t2"].
Definition hill_flow (a b c : cell) : list (string * cell) := [("t0", a); ("t1", b); ("t2", c)].
Definition hill_labels : list (string * list string) := [("nodes", ["here"]); ("techs", ["plant"; "battery"; "load"]); ("carriers", ["power"]); ("timesteps", hill_times); ("costs", ["monetary"])].
Definition hill_placed : list (list string * cell) := map (fun t => (["here"; t; "power"], Boo true)) ["plant"; "battery"; "load"].
Definition hill_arrays : list (string * darr) :=
  [("base_tech", rows_of ["techs"] [(["plant"], Txt "supply"); (["battery"], Txt "storage"); (["load"], Txt "demand")]);
   ("carrier_out", rows_of three [(["here"; "plant"; "power"], Boo true); (["here"; "battery"; "power"], Boo true)]);
   ("carrier_in", rows_of three [(["here"; "battery"; "power"], Boo true); (["here"; "load"; "power"], Boo true)]);
   ("flow_ramping", rows_of ["techs"] [(["plant"], Val half); (["battery"], num 1); (["load"], num 1)]);
   ("timestep_resolution", rows_of ["timesteps"] (map (fun k => ([k], Val half)) hill_times));
   ("flow_cap", rows_of three [(["here"; "plant"; "power"], num 12); (["here"; "battery"; "power"], num 8); (["here"; "load"; "power"], num 10)]);
   ("storage_cap", rows_of site_dims [(["here"; "battery"], num 4)]);
   ("sink_use_equals", rows_of use_dims (meanwhile "load" (hill_flow (num 1) (num 4) (num 5))));
   ("source_cap", rows_of site_dims [(["here"; "plant"], num 12)]);
   ("source_use", rows_of use_dims (meanwhile "plant" (hill_flow (num 2) (num 5) (num 3))));
   ("storage", rows_of use_dims (meanwhile "battery" (hill_flow (num 1) (num 2) (num 0))));
   ("flow_out", rows_of four (during "plant" "power" (hill_flow (num 2) (num 5) (num 3)) ++ during "battery" "power" (hill_flow (num 0) (num 0) (num 2))));
   ("flow_in", rows_of four (during "load" "power" (hill_flow (num 1) (num 4) (num 5)) ++ during "battery" "power" (hill_flow (num 1) (num 1) (num 0))));
   ("flow_out_inc_eff", rows_of four (during "plant" "power" (hill_flow (num 2) (num 5) (num 3)) ++ during "battery" "power" (hill_flow (num 0) (num 0) (num 2))));
   ("flow_in_inc_eff", rows_of four (during "load" "power" (hill_flow (num 1) (num 4) (num 5)) ++ during "battery" "power" (hill_flow (num 1) (num 1) (num 0))))] ++ no_costs.
Definition hill_system : world := system hill_labels hill_arrays step_defaults (rows_of three hill_placed).
(** Powers with exponents that are not whole numbers: only those of 1 are needed. *)
Definition hill : world :=
  let D := u_env hill_system in
  {| u_dims := u_dims hill_system;
     u_env := {| n_labels := n_labels D; n_array := n_array D; n_default := n_default D; n_config := n_config D; n_ref := n_ref D; n_slice := n_slice D;
                 n_odd := fun _ _ _ => Val 1%Qc; n_calendar := n_calendar D; n_carrier := n_carrier D; n_matrix := n_matrix D |};
     u_bool := u_bool hill_system; u_less := u_less hill_system |}.
Lemma hill_proper : proper hill.
Proof. assert (P : proper hill_system) by proper_system; exact P. Qed.
Lemma hill_flow_at t k : In t ["plant"; "battery"; "load"] -> In k hill_times -> sited hill (flow_at "here" t "power" k).
Proof. intros H K; repeat (destruct H as [<- |H]; [repeat (destruct K as [<- |K]; [sited_by hill_proper|]); destruct K|]); destruct H. Qed.
Lemma hill_checked : feasible_check as_listed (layered base_math) hill = true.
Proof. vm_compute; reflexivity. Qed.
Lemma hill_feasible : feasible as_listed (layered base_math) hill.
Proof. apply feasible_sound, hill_checked. Qed.
Lemma hill_solution : solution as_listed base_math hill.
Proof. apply solution_sound; [exact hill_feasible|vm_compute; reflexivity]. Qed.

(** ** A solar tower with a store that gives out power and heat. *)
Definition tower_flow (a b : cell) : list (string * cell) := [("t0", a); ("t1", b)].
Definition tower_labels : list (string * list string) := [("nodes", ["here"]); ("techs", ["tower"; "town"; "baths"]); ("carriers", ["power"; "heat"]); ("timesteps", ["t0"; "t1"]); ("costs", ["monetary"])].
Definition tower_placed : list (list string * cell) := [(["here"; "tower"; "power"], Boo true); (["here"; "tower"; "heat"], Boo true); (["here"; "town"; "power"], Boo true); (["here"; "baths"; "heat"], Boo true)].
Definition tower_arrays : list (string * darr) :=
  [("base_tech", rows_of ["techs"] [(["tower"], Txt "supply"); (["town"], Txt "demand"); (["baths"], Txt "demand")]);
   ("include_storage", rows_of ["techs"] [(["tower"], Boo true)]);
   ("cyclic_storage", rows_of ["techs"] [(["tower"], Boo false)]);
   ("carrier_out", rows_of three [(["here"; "tower"; "power"], Boo true); (["here"; "tower"; "heat"], Boo true)]);
   ("carrier_in", rows_of three [(["here"; "town"; "power"], Boo true); (["here"; "baths"; "heat"], Boo true)]);
   ("timestep_resolution", rows_of ["timesteps"] [(["t0"], num 1); (["t1"], num 1)]);
   ("storage_loss", rows_of ["techs"] [(["tower"], Val half)]);
   ("storage_initial", rows_of ["techs"] [(["tower"], Val half)]);
   ("source_eff", rows_of ["techs"] [(["tower"], Val half)]);
   ("flow_cap", rows_of three [(["here"; "tower"; "power"], num 10); (["here"; "tower"; "heat"], num 10); (["here"; "town"; "power"], num 10); (["here"; "baths"; "heat"], num 10)]);
   ("storage_cap", rows_of site_dims [(["here"; "tower"], num 8)]);
   ("sink_use_equals", rows_of use_dims (meanwhile "town" (tower_flow (num 3) (num 4)) ++ meanwhile "baths" (tower_flow (num 3) (num 4))));
   ("source_cap", rows_of site_dims [(["here"; "tower"], num 12)]);
   ("source_use", rows_of use_dims (meanwhile "tower" (tower_flow (num 6) (num 4))));
   ("storage", rows_of use_dims (meanwhile "tower" (tower_flow (num 4) (num 0))));
   ("flow_out", rows_of four (during "tower" "power" (tower_flow (num 3) (num 4)) ++ during "tower" "heat" (tower_flow (num 3) (num 4))));
   ("flow_in", rows_of four (during "town" "power" (tower_flow (num 3) (num 4)) ++ during "baths" "heat" (tower_flow (num 3) (num 4))));
   ("flow_out_inc_eff", rows_of four (during "tower" "power" (tower_flow (num 3) (num 4)) ++ during "tower" "heat" (tower_flow (num 3) (num 4))));
   ("flow_in_inc_eff", rows_of four (during "town" "power" (tower_flow (num 3) (num 4)) ++ during "baths" "heat" (tower_flow (num 3) (num 4))))] ++ no_costs.
Definition tower : world := system tower_labels tower_arrays step_defaults (rows_of three tower_placed).
Lemma tower_proper : proper tower.
Proof. proper_system. Qed.
Lemma tower_checked : feasible_check as_listed (layered base_math) tower = true.
Proof. vm_compute; reflexivity. Qed.
Lemma tower_feasible : feasible as_listed (layered base_math) tower.
Proof. apply feasible_sound, tower_checked. Qed.
Lemma tower_solution : solution as_listed base_math tower.
Proof. apply solution_sound; [exact tower_feasible|vm_compute; reflexivity]. Qed.
