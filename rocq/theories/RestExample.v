(** Small systems for the examples on the remaining components.  They are not code of the package;
    they only provide data. *)
From Coq Require Import QArith Qcanon.
From Verif Require Import Base BaseProofs LangModel MathText EvalModel EvalSpec BuildModel BuildSpec HelperModel HelperSpec ShipModel ShipSpec ShipExample NetSpec NetExample PlaceSpec ShipPlace RuleText RuleProofs MilpProofs ShipFast BoundSpec BoundFast RuleExample MilpExample CostSpec CostExample StepExample RestSpec.
Local Open Scope nat_scope.
Local Open Scope string_scope.
Local Open Scope list_scope.

(** ** A solar park and a boiler; timesteps that stand for one and for three hours; some demand is not met. *)
Definition farm_flow (a b : cell) : list (string * cell) := [("t0", a); ("t1", b)].
Definition farm_labels : list (string * list string) := [("nodes", ["here"]); ("techs", ["sun"; "boiler"; "field"; "town"; "baths"]); ("carriers", ["power"; "heat"]); ("timesteps", ["t0"; "t1"]); ("costs", ["monetary"])].
Definition farm_placed : list (list string * cell) := map (fun x => (["here"; fst x; snd x], Boo true)) [("sun", "power"); ("boiler", "heat"); ("field", "power"); ("town", "power"); ("baths", "heat")].
Definition farm_out : list (list string * cell) := during "sun" "power" (farm_flow (num 10) (num 5)) ++ during "boiler" "heat" (farm_flow (num 4) (num 4)) ++ during "field" "power" (farm_flow (num 0) (num 0)).
Definition farm_in : list (list string * cell) := during "town" "power" (farm_flow (num 12) (num 5)) ++ during "baths" "heat" (farm_flow (num 4) (num 4)).
Definition farm_arrays (steady : bool) : list (string * darr) :=
  [("base_tech", rows_of ["techs"] [(["sun"], Txt "supply"); (["boiler"], Txt "supply"); (["field"], Txt "supply"); (["town"], Txt "demand"); (["baths"], Txt "demand")]);
   ("carrier_out", rows_of three (map (fun x => (["here"; fst x; snd x], Boo true)) [("sun", "power"); ("boiler", "heat"); ("field", "power")]));
   ("carrier_in", rows_of three [(["here"; "town"; "power"], Boo true); (["here"; "baths"; "heat"], Boo true)]);
   ("timestep_weights", rows_of ["timesteps"] [(["t0"], num 1); (["t1"], num 3)]);
   ("timestep_resolution", rows_of ["timesteps"] [(["t0"], num 1); (["t1"], num 1)]);
   ("flow_cap", rows_of three (map (fun x => (["here"; fst x; snd x], num (if String.eqb (fst x) "field" then 0 else 20))) [("sun", "power"); ("boiler", "heat"); ("field", "power"); ("town", "power"); ("baths", "heat")]));
   ("flow_cap_max", rows_of ["techs"] [(["field"], num 0)]);
   ("area_use", rows_of site_dims [(["here"; "field"], num 0)]);
   ("source_cap", rows_of site_dims [(["here"; "sun"], num 20); (["here"; "boiler"], num 20); (["here"; "field"], num 0)]);
   ("area_use_max", rows_of ["techs"] [(["field"], num 5)]);
   ("source_use_max", if steady then rows_of ["techs"] [(["sun"], num 10)] else rows_of ["techs"; "timesteps"] [(["sun"; "t0"], num 10); (["sun"; "t1"], num 10)]);
   ("sink_use_equals", rows_of use_dims (meanwhile "town" (farm_flow (num 12) (num 5)) ++ meanwhile "baths" (farm_flow (num 4) (num 4))));
   ("source_use", rows_of use_dims (meanwhile "sun" (farm_flow (num 10) (num 5)) ++ meanwhile "boiler" (farm_flow (num 4) (num 4)) ++ meanwhile "field" (farm_flow (num 0) (num 0))));
   ("unmet_demand", rows_of ["nodes"; "carriers"; "timesteps"] [(["here"; "power"; "t0"], num 2); (["here"; "power"; "t1"], num 0); (["here"; "heat"; "t0"], num 0); (["here"; "heat"; "t1"], num 0)]);
   ("unused_supply", rows_of ["nodes"; "carriers"; "timesteps"] [(["here"; "power"; "t0"], num 0); (["here"; "power"; "t1"], num 0); (["here"; "heat"; "t0"], num 0); (["here"; "heat"; "t1"], num 0)]);
   ("flow_out", rows_of four farm_out); ("flow_in", rows_of four farm_in); ("flow_out_inc_eff", rows_of four farm_out); ("flow_in_inc_eff", rows_of four farm_in);
   ("cost_flow_out", rows_of ["techs"; "costs"] [(["sun"; "monetary"], num 1); (["boiler"; "monetary"], num 2)]);
   ("cost_operation_variable", rows_of ["nodes"; "techs"; "costs"; "timesteps"]
      [(["here"; "sun"; "monetary"; "t0"], num 10); (["here"; "sun"; "monetary"; "t1"], num 15); (["here"; "boiler"; "monetary"; "t0"], num 8); (["here"; "boiler"; "monetary"; "t1"], num 24)]);
   ("cost", rows_of cost_site [(["here"; "sun"; "monetary"], num 25); (["here"; "boiler"; "monetary"], num 32)]);
   ("total_generation", rows_of ["techs"; "carriers"] [(["sun"; "power"], num 15); (["boiler"; "heat"], num 8)])] ++ no_costs.
Definition farm_defaults : list (string * cell) :=
  map (fun s => (s, num 0)) ["total_generation"; "cost"; "cost_operation_variable"; "cost_investment_annualised"; "cost_operation_fixed"; "cost_export"; "cost_flow_out"; "cost_flow_in"; "cost_source_use"] ++ step_defaults.
Definition farm_system (steady : bool) : world := system farm_labels (farm_arrays steady) farm_defaults (rows_of three farm_placed).
(** Demand need not be met. *)
Definition farm (steady : bool) : world :=
  let D := u_env (farm_system steady) in
  {| u_dims := u_dims (farm_system steady);
     u_env := {| n_labels := n_labels D; n_array := n_array D; n_default := n_default D; n_config := fun s => if String.eqb s "ensure_feasibility" then Boo true else Miss; n_ref := n_ref D; n_slice := n_slice D;
                 n_odd := n_odd D; n_calendar := n_calendar D; n_carrier := n_carrier D; n_matrix := n_matrix D |};
     u_bool := u_bool (farm_system steady); u_less := u_less (farm_system steady) |}.
Lemma farm_proper steady : proper (farm steady).
Proof. assert (P : proper (farm_system steady)) by (destruct steady; proper_system); exact P. Qed.
Lemma farm_checked steady : feasible_check as_listed (layered base_math) (farm steady) = true.
Proof. destruct steady; vm_compute; reflexivity. Qed.
Lemma farm_feasible steady : feasible as_listed (layered base_math) (farm steady).
Proof. apply feasible_sound, farm_checked. Qed.
Lemma farm_solution steady : solution as_listed base_math (farm steady).
Proof. apply solution_sound; [exact (farm_feasible steady)|destruct steady; vm_compute; reflexivity]. Qed.
Lemma farm_network : network (farm false).
Proof.
  constructor.
  - apply farm_proper.
  - intros d H E; vm_compute in H; repeat (destruct H as [<- |H]; [vm_compute in E; discriminate|]); destruct H.
  - intros d H; vm_compute in H |- *; intuition.
  - intros d H; exact H.
  - intros s H; repeat (destruct H as [<- |H]; [reflexivity|]); destruct H.
  - intros s H; destruct H as [<- |[<- |[<- |[]]]]; [left|left|right; intros p; reflexivity]; split; intros ID; exact ID.
  - intros s H; destruct H as [<- |[<- |[]]]; intros d ID; vm_compute in ID |- *; intuition.
  - intros s p H; repeat (destruct H as [<- |H]; [first [left; reflexivity|apply rows_number; reflexivity]|]); destruct H.
  - intros s n t c k H TH; destruct H as [<- |[<- |[<- |[]]]]; [| |destruct (TH eq_refl)].
    all: apply look_in in TH as (v & IV & _); repeat (destruct IV as [E|IV]; [cbn in E; injection E as <- <- <- <- <-; reflexivity|]); destruct IV.
  - intros s n c k H TH; destruct H as [<- |[<- |[]]].
    all: apply look_in in TH as (v & IV & _); destruct IV as [E|[E|[E|[E|[]]]]]; cbn in E; injection E as <- <- <- <-; [exists "sun"|exists "sun"|exists "boiler"|exists "boiler"]; (split; [vm_compute; auto|reflexivity]).
Qed.
Lemma farm_at steady t c k : In (t, c) [("sun", "power"); ("boiler", "heat"); ("field", "power")] -> In k ["t0"; "t1"] -> sited (farm steady) (flow_at "here" t c k).
Proof.
  intros H K; destruct steady; [pose proof (farm_proper true) as FP|pose proof (farm_proper false) as FP].
  all: repeat (destruct H as [E|H]; [injection E as <- <-; repeat (destruct K as [<- |K]; [sited_by FP|]); destruct K|]); destruct H.
Qed.

(** ** A solar park for a town; both timesteps stand for two hours. *)
Definition park_labels : list (string * list string) := [("nodes", ["here"]); ("techs", ["sun"; "town"]); ("carriers", ["power"]); ("timesteps", ["t0"; "t1"]); ("costs", ["monetary"])].
Definition park_placed : list (list string * cell) := [(["here"; "sun"; "power"], Boo true); (["here"; "town"; "power"], Boo true)].
Definition park_out : list (list string * cell) := during "sun" "power" (farm_flow (num 10) (num 5)).
Definition park_in : list (list string * cell) := during "town" "power" (farm_flow (num 10) (num 5)).
Definition park_arrays : list (string * darr) :=
  [("base_tech", rows_of ["techs"] [(["sun"], Txt "supply"); (["town"], Txt "demand")]);
   ("carrier_out", rows_of three [(["here"; "sun"; "power"], Boo true)]);
   ("carrier_in", rows_of three [(["here"; "town"; "power"], Boo true)]);
   ("timestep_weights", rows_of ["timesteps"] [(["t0"], num 2); (["t1"], num 2)]);
   ("timestep_resolution", rows_of ["timesteps"] [(["t0"], num 1); (["t1"], num 1)]);
   ("flow_cap", rows_of three [(["here"; "sun"; "power"], num 20); (["here"; "town"; "power"], num 20)]);
   ("source_cap", rows_of site_dims [(["here"; "sun"], num 20)]);
   ("source_use_max", rows_of ["techs"; "timesteps"] [(["sun"; "t0"], num 10); (["sun"; "t1"], num 15)]);
   ("sink_use_equals", rows_of use_dims (meanwhile "town" (farm_flow (num 10) (num 5))));
   ("source_use", rows_of use_dims (meanwhile "sun" (farm_flow (num 10) (num 5))));
   ("flow_out", rows_of four park_out); ("flow_in", rows_of four park_in); ("flow_out_inc_eff", rows_of four park_out); ("flow_in_inc_eff", rows_of four park_in);
   ("cost_flow_out", rows_of ["techs"; "costs"] [(["sun"; "monetary"], num 1)]);
   ("cost_operation_variable", rows_of ["nodes"; "techs"; "costs"; "timesteps"] [(["here"; "sun"; "monetary"; "t0"], num 20); (["here"; "sun"; "monetary"; "t1"], num 10)]);
   ("cost", rows_of cost_site [(["here"; "sun"; "monetary"], num 30)]);
   ("total_generation", rows_of ["techs"; "carriers"] [(["sun"; "power"], num 15)])] ++ no_costs.
Definition park : world := system park_labels park_arrays farm_defaults (rows_of three park_placed).
Lemma park_proper : proper park. Proof. proper_system. Qed.
Lemma park_checked : feasible_check as_listed (layered base_math) park = true.
Proof. vm_compute; reflexivity. Qed.
Lemma park_feasible : feasible as_listed (layered base_math) park.
Proof. apply feasible_sound, park_checked. Qed.
Lemma park_solution : solution as_listed base_math park.
Proof. apply solution_sound; [exact park_feasible|vm_compute; reflexivity]. Qed.
Lemma park_at t k : In t ["sun"; "town"] -> In k ["t0"; "t1"] -> sited park (flow_at "here" t "power" k).
Proof. pose proof park_proper as PP; intros IT IK; repeat (destruct IT as [<- |IT]; [repeat (destruct IK as [<- |IK]; [sited_by PP|]); destruct IK|]); destruct IT. Qed.
Lemma park_class : sited park (class_cap "here" "sun" "power" "monetary").
Proof. pose proof park_proper as PP; sited_by PP. Qed.

(** ** Technologies bought in units and others, with lower limits. *)
Definition yard_labels : list (string * list string) := [("nodes", ["here"]); ("techs", ["mill"; "kiln"; "silo"; "shed"]); ("carriers", ["power"]); ("timesteps", ["t0"])].
Definition yard_placed : list (list string * cell) := map (fun t => (["here"; t; "power"], Boo true)) ["mill"; "kiln"; "silo"; "shed"].
Definition yard_arrays : list (string * darr) :=
  [("base_tech", rows_of ["techs"] [(["mill"], Txt "supply"); (["kiln"], Txt "supply"); (["silo"], Txt "storage"); (["shed"], Txt "storage")]);
   ("purchased_units", rows_of site_dims [(["here"; "mill"], num 2); (["here"; "silo"], num 3)]);
   ("source_cap_min", rows_of ["techs"] [(["mill"], num 4); (["kiln"], num 5)]);
   ("source_cap", rows_of site_dims [(["here"; "mill"], num 9); (["here"; "kiln"], num 6)]);
   ("area_use_min", rows_of ["techs"] [(["mill"], num 1); (["kiln"], num 2)]);
   ("area_use", rows_of site_dims [(["here"; "mill"], num 2); (["here"; "kiln"], num 2)]);
   ("storage_cap_min", rows_of ["techs"] [(["silo"], num 10); (["shed"], num 7)]);
   ("storage_cap", rows_of site_dims [(["here"; "silo"], num 40); (["here"; "shed"], num 7)])].
Definition yard_defaults : list (string * cell) := map (fun s => (s, num 0)) ["flow_in"; "flow_out"; "flow_cap"; "purchased_units"; "operating_units"; "available_flow_cap"; "storage"; "storage_cap"; "source_cap"; "area_use"] ++ [("flow_out_parasitic_eff", num 1); ("bigM", num 1000)].
Definition yard : world := system yard_labels yard_arrays yard_defaults (rows_of three yard_placed).
Lemma yard_proper : proper yard.
Proof. proper_system. Qed.
Lemma yard_cap t : In t ["mill"; "kiln"; "silo"; "shed"] -> sited yard (cap_at "here" t "power").
Proof. intros H; repeat (destruct H as [<- |H]; [sited_by yard_proper|]); destruct H. Qed.
Lemma yard_checked : forallb (holds_text unit_names yard) milp_texts = true.
Proof. vm_compute; reflexivity. Qed.
Lemma yard_rules s : In s milp_names -> constraint_holds as_listed (layered unit_math) yard s.
Proof.
  intros IS; assert (FN : find_in (h_constraints (layered unit_math)) s <> None) by (repeat (destruct IS as [<- |IS]; [vm_compute; discriminate|]); destruct IS).
  apply In_nth_error in IS as (i & EN); destruct (find_in _ s) as [c|] eqn:FC; [|destruct (FN eq_refl)]; exists c; split; [exact FC|].
  apply (holds_text_sound _ _ _ _ _ (milp_told as_listed as_listed_set unit_math i s c unit_listed EN FC)); pose proof yard_checked as OK; rewrite forallb_forall in OK; apply OK, nth_In.
  replace (List.length milp_texts) with (List.length milp_names) by reflexivity; apply nth_error_Some; rewrite EN; discriminate.
Qed.
