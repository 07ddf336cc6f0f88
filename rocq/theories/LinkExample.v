(** Small systems with linked representative days, for the examples and refutations.  They are not code of the package; they only provide data. *)
From Coq Require Import QArith Qcanon Lia.
From Verif Require Import Base BaseProofs LangModel MathText EvalModel EvalSpec BuildModel BuildSpec HelperModel HelperSpec ShipModel ShipSpec ShipExample NetSpec NetExample PlaceSpec ShipPlace RuleText RuleProofs
  MilpProofs ShipFast BoundSpec BoundFast RuleExample MilpExample CostSpec CostExample StepExample RestExample BoundExample LinkSpec.
Local Open Scope nat_scope.
Local Open Scope string_scope.
Local Open Scope list_scope.

Definition week_steps : list string := ["a0"; "a1"; "b0"].
Definition along (f : list cell) : list (string * cell) := List.combine week_steps f.
Definition each_step (f : list cell) : darr := rows_of ["timesteps"] (map (fun x => ([fst x], snd x)) (along f)).
Definition each_date (dates : list string) (f : list cell) : darr := rows_of ["datesteps"] (map (fun x => ([fst x], snd x)) (List.combine dates f)).
Definition week_labels (dates : list string) : list (string * list string) :=
  [("nodes", ["here"]); ("techs", ["plant"; "battery"; "load"]); ("carriers", ["power"]); ("timesteps", week_steps); ("clusters", ["0"; "1"]); ("datesteps", dates); ("costs", ["monetary"])].
(** Two representative days: the day [0] has two timesteps of twelve hours, [a0] and [a1], the day [1] one of 24 hours, [b0].  Given are the days of the dates, what is carried over, flows into and out of the battery, its levels and their ranges. *)
Definition week_arrays (dates days' : list string) (over into out levels max min : list cell) (loss' first : cell) : list (string * darr) :=
  [("base_tech", rows_of ["techs"] [(["plant"], Txt "supply"); (["battery"], Txt "storage"); (["load"], Txt "demand")]);
   ("carrier_out", rows_of three [(["here"; "battery"; "power"], Boo true); (["here"; "plant"; "power"], Boo true)]);
   ("carrier_in", rows_of three [(["here"; "battery"; "power"], Boo true); (["here"; "load"; "power"], Boo true)]);
   ("cyclic_storage", rows_of ["techs"] [(["battery"], Boo true)]); ("storage_initial", rows_of ["techs"] [(["battery"], first)]); ("storage_loss", rows_of ["techs"] [(["battery"], loss')]);
   ("timestep_resolution", each_step [num 12; num 12; num 24]); ("timestep_weights", each_step (repeat (num 1) 3));
   ("lookup_cluster_last_timestep", rows_of ["timesteps"] [(["a0"], Txt "a1"); (["b0"], Txt "b0")]);
   ("timestep_cluster", each_step [Txt "0"; Txt "0"; Txt "1"]); ("lookup_datestep_cluster", each_date dates (map Txt days'));
   ("lookup_datestep_last_cluster_timestep", each_date dates (map (fun x => Txt (if String.eqb x "0" then "a1" else "b0")) days'));
   ("flow_cap", rows_of three [(["here"; "battery"; "power"], num 5); (["here"; "load"; "power"], num 5); (["here"; "plant"; "power"], num 5)]);
   ("storage_cap", rows_of site_dims [(["here"; "battery"], num 4)]); ("source_cap", rows_of site_dims [(["here"; "plant"], num 5)]);
   ("storage", rows_of use_dims (meanwhile "battery" (along levels)));
   ("storage_inter_cluster", rows_of ["nodes"; "techs"; "datesteps"] (map (fun x => (["here"; "battery"; fst x], snd x)) (List.combine dates over)));
   ("storage_intra_cluster_max", rows_of ["nodes"; "techs"; "clusters"] (map (fun x => (["here"; "battery"; fst x], snd x)) (List.combine ["0"; "1"] max)));
   ("storage_intra_cluster_min", rows_of ["nodes"; "techs"; "clusters"] (map (fun x => (["here"; "battery"; fst x], snd x)) (List.combine ["0"; "1"] min)));
   ("source_use", rows_of use_dims (meanwhile "plant" (along into))); ("sink_use_equals", rows_of use_dims (meanwhile "load" (along out)));
   ("flow_out", rows_of four (during "battery" "power" (along out) ++ during "plant" "power" (along into))); ("flow_out_inc_eff", rows_of four (during "battery" "power" (along out) ++ during "plant" "power" (along into)));
   ("flow_in", rows_of four (during "battery" "power" (along into) ++ during "load" "power" (along out))); ("flow_in_inc_eff", rows_of four (during "battery" "power" (along into) ++ during "load" "power" (along out)))] ++ no_costs.
Definition week_matrix : darr := rows_of three (map (fun t => (["here"; t; "power"], Boo true)) ["plant"; "battery"; "load"]).

(** ** Two dates: 2 units are stored on the first and taken out on the second. *)
Definition week : world := system (week_labels ["d0"; "d1"])
  (week_arrays ["d0"; "d1"] ["0"; "1"] [num 0; num 2] [num 2; num 0; num 0] [num 0; num 0; num 2] [num 2; num 2; Val (- (1 + 1))%Qc] [num 2; Val (- (1 + 1))%Qc] [num 0; Val (- (1 + 1))%Qc] (num 0) (Val half))
  step_defaults week_matrix.
Lemma week_proper : proper week.
Proof. proper_system. Qed.
Lemma week_checked : feasible_check as_listed (layered cluster_math) week = true.
Proof. vm_cast_no_check (eq_refl true). Qed.
Lemma week_solution : solution as_listed cluster_math week.
Proof. apply solution_sound; [apply feasible_sound, week_checked|]; vm_compute; reflexivity. Qed.

(** ** Two dates; one unit is stored on the first; half of what is stored is lost in an hour. *)
Definition r12 : Qc := Qcpower half 12.
Definition r24 : Qc := Qcpower half 24.
Definition over_b : Qc := (r12 / (1 - r24 * r24))%Qc.
Definition leaky : world := system (week_labels ["d0"; "d1"])
  (week_arrays ["d0"; "d1"] ["0"; "1"] [Val (r24 * over_b)%Qc; Val over_b] [num 1; num 0; num 0] [num 0; num 0; num 0] [num 1; Val r12; num 0] [num 1; num 0] [num 0; num 0] (Val half) Miss)
  step_defaults week_matrix.
Lemma leaky_proper : proper leaky.
Proof. proper_system. Qed.
Lemma leaky_checked : feasible_check as_listed (layered cluster_math) leaky = true.
Proof. vm_cast_no_check (eq_refl true). Qed.
Lemma leaky_solution : solution as_listed cluster_math leaky.
Proof. apply solution_sound; [apply feasible_sound, leaky_checked|]; vm_compute; reflexivity. Qed.
(** The days of the dates. *)
Definition week_plan (d : string) : day := if String.eqb d "d0" then {| y_cluster := "0"; y_first := 0; y_more := 1 |} else {| y_cluster := "1"; y_first := 2; y_more := 0 |}.
Definition days_plan (d : string) : day := {| y_cluster := "0"; y_first := 0; y_more := 1 |}.
