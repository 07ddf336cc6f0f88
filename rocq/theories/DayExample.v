(** Small systems with representative days that are not linked, for the examples and refutations.  They are not code of the package; they only provide data. *)
From Coq Require Import QArith Qcanon Lia.
From Verif Require Import Base BaseProofs LangModel MathText EvalModel EvalSpec BuildModel BuildSpec HelperModel HelperSpec ShipModel ShipSpec ShipExample NetSpec NetExample PlaceSpec ShipPlace RuleText RuleProofs
  MilpProofs ShipFast BoundSpec BoundFast RuleExample MilpExample CostSpec CostExample StepExample RestExample BoundExample LinkSpec LinkExample DaySpec.
Local Open Scope nat_scope.
Local Open Scope string_scope.
Local Open Scope list_scope.

Definition pair_labels : list (string * list string) :=
  [("nodes", ["here"]); ("techs", ["plant"; "battery"; "load"]); ("carriers", ["power"]); ("timesteps", week_steps); ("costs", ["monetary"])].
(** A day of two timesteps that stands for two dates, and a day of one timestep for one date.  Given are flows into and out of the battery and its levels. *)
Definition pair_arrays (cy : bool) (into out levels : list cell) : list (string * darr) :=
  [("base_tech", rows_of ["techs"] [(["plant"], Txt "supply"); (["battery"], Txt "storage"); (["load"], Txt "demand")]);
   ("carrier_out", rows_of three [(["here"; "battery"; "power"], Boo true); (["here"; "plant"; "power"], Boo true)]);
   ("carrier_in", rows_of three [(["here"; "battery"; "power"], Boo true); (["here"; "load"; "power"], Boo true)]);
   ("cyclic_storage", rows_of ["techs"] [(["battery"], Boo cy)]); ("storage_initial", rows_of ["techs"] [(["battery"], Val half)]); ("storage_loss", rows_of ["techs"] [(["battery"], num 0)]);
   ("timestep_resolution", each_step [num 12; num 12; num 24]); ("timestep_weights", each_step [num 2; num 2; num 1]);
   ("cluster_first_timestep", each_step [Boo true; Boo false; Boo true]);
   ("lookup_cluster_last_timestep", rows_of ["timesteps"] [(["a0"], Txt "a1"); (["b0"], Txt "b0")]);
   ("flow_cap", rows_of three [(["here"; "battery"; "power"], num 5); (["here"; "load"; "power"], num 5); (["here"; "plant"; "power"], num 5)]);
   ("storage_cap", rows_of site_dims [(["here"; "battery"], num 4)]); ("source_cap", rows_of site_dims [(["here"; "plant"], num 5)]);
   ("storage", rows_of use_dims (meanwhile "battery" (along levels)));
   ("source_use", rows_of use_dims (meanwhile "plant" (along into))); ("sink_use_equals", rows_of use_dims (meanwhile "load" (along out)));
   ("flow_out", rows_of four (during "battery" "power" (along out) ++ during "plant" "power" (along into))); ("flow_out_inc_eff", rows_of four (during "battery" "power" (along out) ++ during "plant" "power" (along into)));
   ("flow_in", rows_of four (during "battery" "power" (along into) ++ during "load" "power" (along out))); ("flow_in_inc_eff", rows_of four (during "battery" "power" (along into) ++ during "load" "power" (along out)))] ++ no_costs.

(** ** 2 units are stored in the first half of the first day and taken out in its second half. *)
Definition cycle : world := system pair_labels (pair_arrays true [num 2; num 0; num 0] [num 0; num 2; num 0] [num 2; num 0; num 2]) step_defaults week_matrix.
Lemma cycle_proper : proper cycle.
Proof. proper_system. Qed.
Lemma cycle_checked : feasible_check as_listed (layered []) cycle = true.
Proof. vm_cast_no_check (eq_refl true). Qed.
Lemma cycle_solution : solution as_listed [] cycle.
Proof. apply solution_sound; [apply feasible_sound, cycle_checked|]; vm_compute; reflexivity. Qed.

(** ** 2 units are there initially; they are taken out in the second half of the first day. *)
Definition spent : world := system pair_labels (pair_arrays false [num 0; num 0; num 0] [num 0; num 2; num 0] [num 2; num 0; num 0]) step_defaults week_matrix.
Lemma spent_proper : proper spent.
Proof. proper_system. Qed.
Lemma spent_checked : feasible_check as_listed (layered []) spent = true.
Proof. vm_cast_no_check (eq_refl true). Qed.
Lemma spent_solution : solution as_listed [] spent.
Proof. apply solution_sound; [apply feasible_sound, spent_checked|]; vm_compute; reflexivity. Qed.
Definition pair_days : list (nat * nat) := [(0, 1); (2, 0)].
