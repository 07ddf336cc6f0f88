(** A small system with units and a switch for the examples on decision variables.  It is not code of the package; it only provides data. *)
From Coq Require Import QArith Qcanon.
From Verif Require Import Base BaseProofs LangModel MathText EvalModel EvalSpec BuildModel BuildSpec HelperModel HelperSpec ShipModel ShipSpec ShipExample NetSpec NetExample PlaceSpec ShipPlace RuleText RuleProofs
  MilpProofs ShipFast BoundSpec BoundFast RuleExample MilpExample CostSpec CostExample StepExample RestExample.
Local Open Scope nat_scope.
Local Open Scope string_scope.
Local Open Scope list_scope.

(** ** Engines bought in units, a battery that does not charge and discharge at once, a load. *)
Definition dock_flow (a b : cell) : list (string * cell) := [("t0", a); ("t1", b)].
Definition dock_labels : list (string * list string) := [("nodes", ["here"]); ("techs", ["engine"; "battery"; "load"]); ("carriers", ["power"; "heat"]); ("timesteps", ["t0"; "t1"]); ("costs", ["monetary"])].
Definition dock_placed : list (list string * cell) := map (fun t => (["here"; t; "power"], Boo true)) ["engine"; "battery"; "load"].
Definition dock_out : list (list string * cell) := during "engine" "power" (dock_flow (num 3) (num 4)) ++ during "battery" "power" (dock_flow (num 0) (num 1)).
Definition dock_in : list (list string * cell) := during "load" "power" (dock_flow (num 2) (num 5)) ++ during "battery" "power" (dock_flow (num 1) (num 0)).
Definition dock_arrays : list (string * darr) :=
  [("base_tech", rows_of ["techs"] [(["engine"], Txt "supply"); (["battery"], Txt "storage"); (["load"], Txt "demand")]);
   ("carrier_out", rows_of three [(["here"; "engine"; "power"], Boo true); (["here"; "battery"; "power"], Boo true)]);
   ("carrier_in", rows_of three [(["here"; "battery"; "power"], Boo true); (["here"; "load"; "power"], Boo true)]);
   ("cap_method", rows_of ["techs"] [(["engine"], Txt "integer")]);
   ("integer_dispatch", rows_of ["techs"] [(["engine"], Boo true)]);
   ("force_async_flow", rows_of ["techs"] [(["battery"], Boo true)]);
   ("timestep_resolution", rows_of ["timesteps"] [(["t0"], num 1); (["t1"], num 1)]);
   ("timestep_weights", rows_of ["timesteps"] [(["t0"], num 1); (["t1"], num 1)]);
   ("flow_cap_per_unit", rows_of ["techs"] [(["engine"], num 4)]);
   ("flow_cap_max", rows_of ["techs"] [(["engine"], num 14)]);
   ("purchased_units_max", rows_of ["techs"] [(["engine"], num 5)]);
   ("flow_cap", rows_of three [(["here"; "engine"; "power"], num 12); (["here"; "battery"; "power"], num 8); (["here"; "load"; "power"], num 10)]);
   ("storage_cap", rows_of site_dims [(["here"; "battery"], num 4)]);
   ("source_cap", rows_of site_dims [(["here"; "engine"], num 12)]);
   ("purchased_units", rows_of site_dims [(["here"; "engine"], num 3)]);
   ("operating_units", rows_of use_dims (meanwhile "engine" (dock_flow (num 1) (num 2))));
   ("async_flow_switch", rows_of use_dims (meanwhile "battery" (dock_flow (num 0) (num 1))));
   ("sink_use_equals", rows_of use_dims (meanwhile "load" (dock_flow (num 2) (num 5))));
   ("source_use", rows_of use_dims (meanwhile "engine" (dock_flow (num 3) (num 4))));
   ("storage", rows_of use_dims (meanwhile "battery" (dock_flow (num 1) (num 0))));
   ("flow_out", rows_of four dock_out); ("flow_in", rows_of four dock_in); ("flow_out_inc_eff", rows_of four dock_out); ("flow_in_inc_eff", rows_of four dock_in);
   ("cost_investment_purchase", rows_of cost_site [])] ++ no_costs.
Definition dock_defaults : list (string * cell) :=
  map (fun s => (s, num 0)) ["purchased_units"; "operating_units"; "available_flow_cap"; "async_flow_switch"; "purchased_units_min"] ++ step_defaults ++
  [("integer_dispatch", Boo false); ("cap_method", Txt "continuous"); ("force_async_flow", Boo false); ("flow_cap_min", num 0)] ++ map (fun s => (s, Inf false)) ["flow_cap_max"; "purchased_units_max"; "source_cap_max"; "storage_cap_max"].
Definition dock : world := system dock_labels dock_arrays dock_defaults (rows_of three dock_placed).
Lemma dock_proper : proper dock.
Proof. proper_system. Qed.
Lemma dock_checked : feasible_check as_listed (layered unit_math) dock = true.
Proof. vm_compute; reflexivity. Qed.
Lemma dock_solution : solution as_listed unit_math dock.
Proof. apply solution_sound; [apply feasible_sound, dock_checked|vm_compute; reflexivity]. Qed.
Lemma dock_at t k : In t ["engine"; "battery"; "load"] -> In k ["t0"; "t1"] -> sited dock (flow_at "here" t "power" k).
Proof. intros H K; repeat (destruct H as [<- |H]; [repeat (destruct K as [<- |K]; [sited_by dock_proper|]); destruct K|]); destruct H. Qed.
Lemma dock_cap t : In t ["engine"; "battery"; "load"] -> sited dock (cap_at "here" t "power").
Proof. intros H; repeat (destruct H as [<- |H]; [sited_by dock_proper|]); destruct H. Qed.

(** ** A link with two carriers: power enters in the north, heat leaves in the south. *)
Definition pipe_labels : list (string * list string) :=
  [("nodes", ["north"; "south"]); ("techs", ["plant"; "line"; "warmth"]); ("carriers", ["power"; "heat"]); ("timesteps", ["t0"]); ("costs", ["monetary"])].
Definition pipe_ends : list (list string * cell) := [(["north"; "line"; "power"], Boo true); (["south"; "line"; "power"], Boo true); (["north"; "line"; "heat"], Boo true); (["south"; "line"; "heat"], Boo true)].
Definition pipe_placed : list (list string * cell) := [(["north"; "plant"; "power"], Boo true); (["south"; "warmth"; "heat"], Boo true)] ++ pipe_ends.
Definition pipe_out : list (list string * cell) :=
  [(["north"; "plant"; "power"; "t0"], num 8); (["south"; "line"; "heat"; "t0"], num 8); (["north"; "line"; "heat"; "t0"], num 0);
   (["north"; "line"; "power"; "t0"], num 0); (["south"; "line"; "power"; "t0"], num 0)].
Definition pipe_in : list (list string * cell) :=
  [(["south"; "warmth"; "heat"; "t0"], num 8); (["north"; "line"; "power"; "t0"], num 8); (["south"; "line"; "power"; "t0"], num 0);
   (["north"; "line"; "heat"; "t0"], num 0); (["south"; "line"; "heat"; "t0"], num 0)].
Definition pipe_arrays : list (string * darr) :=
  [("base_tech", rows_of ["techs"] [(["plant"], Txt "supply"); (["warmth"], Txt "demand"); (["line"], Txt "transmission")]);
   ("carrier_out", rows_of three ((["north"; "plant"; "power"], Boo true) :: pipe_ends));
   ("carrier_in", rows_of three ((["south"; "warmth"; "heat"], Boo true) :: pipe_ends));
   ("flow_cap", rows_of three (map (fun x => (fst x, num 8)) pipe_placed));
   ("link_flow_cap", rows_of ["techs"] [(["line"], num 16)]);
   ("source_cap", rows_of site_dims [(["north"; "plant"], num 8)]);
   ("source_use", rows_of use_dims [(["north"; "plant"; "t0"], num 8)]);
   ("sink_use_equals", rows_of use_dims [(["south"; "warmth"; "t0"], num 8)]);
   ("flow_out", rows_of four pipe_out); ("flow_in", rows_of four pipe_in); ("flow_out_inc_eff", rows_of four pipe_out); ("flow_in_inc_eff", rows_of four pipe_in)] ++ no_costs.
Definition pipe : world := system pipe_labels pipe_arrays step_defaults (rows_of three pipe_placed).
Lemma pipe_proper : proper pipe.
Proof. proper_system. Qed.
Lemma pipe_network : network pipe.
Proof.
  constructor.
  - apply pipe_proper.
  - intros d H E; vm_compute in H; repeat (destruct H as [<- |H]; [vm_compute in E; discriminate|]); destruct H.
  - intros d H; vm_compute in H |- *; intuition.
  - intros d H; exact H.
  - intros s H; repeat (destruct H as [<- |H]; [reflexivity|]); destruct H.
  - intros s H; destruct H as [<- |[<- |[<- |[]]]]; [left|left|right; intros p; reflexivity]; split; intros ID; exact ID.
  - intros s H; destruct H as [<- |[<- |[]]]; intros d [].
  - intros s p H; repeat (destruct H as [<- |H]; [first [left; reflexivity|apply rows_number; reflexivity]|]); destruct H.
  - intros s n t c k H TH; destruct H as [<- |[<- |[<- |[]]]]; [| |destruct (TH eq_refl)].
    all: apply look_in in TH as (v & IV & _); repeat (destruct IV as [E|IV]; [cbn in E; injection E as <- <- <- <- <-; reflexivity|]); destruct IV.
  - intros s n c k H TH; destruct H as [<- |[<- |[]]]; destruct (TH eq_refl).
Qed.
Lemma pipe_links : links pipe grid_ishare grid_ishare.
Proof.
  constructor.
  - intros d ID; vm_compute in ID |- *; intuition.
  - intros s H; repeat (destruct H as [<- |H]; [intros d ID; vm_compute in ID |- *; intuition|]); destruct H.
  - intros n t c k I1 I2 I3 I4 IL TH; split; [|vm_compute; discriminate]; split.
    + intros s H; repeat (destruct H as [<- |H]; [eexists; vm_compute; reflexivity|]); destruct H.
    + exists 1%Qc; split; [left; exists 1%nat; split|]; apply Qc_is_canon; vm_compute; reflexivity.
  - intros n t c k I1 I2 I3 I4 IL TH; split.
    + intros s H; repeat (destruct H as [<- |H]; [eexists; vm_compute; reflexivity|]); destruct H.
    + exists 1%Qc; split; [left; exists 1%nat; split|]; apply Qc_is_canon; vm_compute; reflexivity.
Qed.
Lemma pipe_solution : solution as_listed base_math pipe.
Proof. apply solution_sound; [apply feasible_sound|]; vm_compute; reflexivity. Qed.

(** ** Two days that are both represented by one day of two timesteps.  The battery starts half full
    with 4 of 8 units and discharges 4 units in the first timestep. *)
Definition days_labels : list (string * list string) :=
  [("nodes", ["here"]); ("techs", ["battery"; "load"]); ("carriers", ["power"]); ("timesteps", ["t0"; "t1"]); ("clusters", ["0"]); ("datesteps", ["d0"; "d1"]); ("costs", ["monetary"])].
Definition days_arrays : list (string * darr) :=
  [("base_tech", rows_of ["techs"] [(["battery"], Txt "storage"); (["load"], Txt "demand")]);
   ("carrier_out", rows_of three [(["here"; "battery"; "power"], Boo true)]);
   ("carrier_in", rows_of three [(["here"; "battery"; "power"], Boo true); (["here"; "load"; "power"], Boo true)]);
   ("cyclic_storage", rows_of ["techs"] [(["battery"], Boo false)]); ("storage_initial", rows_of ["techs"] [(["battery"], Val half)]);
   ("timestep_resolution", rows_of ["timesteps"] [(["t0"], num 1); (["t1"], num 1)]); ("timestep_weights", rows_of ["timesteps"] [(["t0"], num 2); (["t1"], num 2)]);
   ("lookup_cluster_last_timestep", rows_of ["timesteps"] [(["t0"], Txt "t1")]);
   ("timestep_cluster", rows_of ["timesteps"] [(["t0"], Txt "0"); (["t1"], Txt "0")]); ("lookup_datestep_cluster", rows_of ["datesteps"] [(["d0"], Txt "0"); (["d1"], Txt "0")]);
   ("lookup_datestep_last_cluster_timestep", rows_of ["datesteps"] [(["d0"], Txt "t1"); (["d1"], Txt "t1")]);
   ("flow_cap", rows_of three [(["here"; "battery"; "power"], num 5); (["here"; "load"; "power"], num 5)]);
   ("storage_cap", rows_of site_dims [(["here"; "battery"], num 8)]);
   ("storage", rows_of use_dims (meanwhile "battery" (dock_flow (num 0) (num 0))));
   ("storage_inter_cluster", rows_of ["nodes"; "techs"; "datesteps"] [(["here"; "battery"; "d0"], Val half); (["here"; "battery"; "d1"], Val half)]);
   ("storage_intra_cluster_max", rows_of ["nodes"; "techs"; "clusters"] [(["here"; "battery"; "0"], num 0)]); ("storage_intra_cluster_min", rows_of ["nodes"; "techs"; "clusters"] [(["here"; "battery"; "0"], num 0)]);
   ("sink_use_equals", rows_of use_dims (meanwhile "load" (dock_flow (num 4) (num 0))));
   ("flow_out", rows_of four (during "battery" "power" (dock_flow (num 4) (num 0)))); ("flow_out_inc_eff", rows_of four (during "battery" "power" (dock_flow (num 4) (num 0))));
   ("flow_in", rows_of four (during "battery" "power" (dock_flow (num 0) (num 0)) ++ during "load" "power" (dock_flow (num 4) (num 0))));
   ("flow_in_inc_eff", rows_of four (during "battery" "power" (dock_flow (num 0) (num 0)) ++ during "load" "power" (dock_flow (num 4) (num 0))))] ++ no_costs.
Definition days : world := system days_labels days_arrays step_defaults (rows_of three [(["here"; "battery"; "power"], Boo true); (["here"; "load"; "power"], Boo true)]).
Definition cluster_math : list math_file := [inter_file].
Lemma days_proper : proper days.
Proof. proper_system. Qed.
Lemma days_solution : solution as_listed cluster_math days.
Proof. apply solution_sound; [apply feasible_sound|]; vm_compute; reflexivity. Qed.
