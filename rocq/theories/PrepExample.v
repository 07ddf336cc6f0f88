(** Small systems with data as time clustering prepares them, for the examples and refutations.  They are not code of the package; they only provide data. *)
From Coq Require Import QArith Qcanon Lia.
From Verif Require Import Base BaseProofs LangModel MathText EvalModel EvalSpec BuildModel BuildSpec HelperModel HelperSpec ShipModel ShipSpec ShipExample NetSpec NetExample PlaceSpec ShipPlace RuleText RuleProofs
  MilpProofs ShipFast BoundSpec BoundFast RuleExample MilpExample CostSpec CostExample StepExample RestExample BoundExample LinkSpec LinkExample DaySpec PrepSpec.
From Verif Require TimeModel TimeSpec.
Local Open Scope nat_scope.
Local Open Scope string_scope.
Local Open Scope list_scope.

(** Three dates; the first day represents itself and the second. *)
Definition trio_days : list (Z * Z) := [(0, 0); (1, 0); (2, 2)]%Z.
(** Times in minutes, twice a day, once on the last; the first is half past midnight. *)
Definition late_times : list Z := [30; 750; 1470; 2190; 2910]%Z.
Definition day_time (z : Z) : string := if (z <? 720)%Z then "a0" else if (z <? 1440)%Z then "a1" else "b0".
Definition day_date (z : Z) : string := if (z =? 0)%Z then "d0" else if (z =? 1)%Z then "d1" else "d2".
Definition day_group (k : nat) : string := if (k =? 0)%nat then "0" else "1".

Definition trio_arrays (starts : list (list string * cell)) (over into out levels max min : list cell) : list (string * darr) :=
  [("base_tech", rows_of ["techs"] [(["plant"], Txt "supply"); (["battery"], Txt "storage"); (["load"], Txt "demand")]);
   ("carrier_out", rows_of three [(["here"; "battery"; "power"], Boo true); (["here"; "plant"; "power"], Boo true)]);
   ("carrier_in", rows_of three [(["here"; "battery"; "power"], Boo true); (["here"; "load"; "power"], Boo true)]);
   ("cyclic_storage", rows_of ["techs"] [(["battery"], Boo true)]); ("storage_loss", rows_of ["techs"] [(["battery"], num 0)]);
   ("timestep_resolution", each_step [num 12; num 12; num 24]); ("timestep_weights", each_step [num 2; num 2; num 1]);
   ("cluster_first_timestep", each_step [Boo true; Boo false; Boo true]);
   ("lookup_cluster_last_timestep", rows_of ["timesteps"] starts);
   ("timestep_cluster", each_step [Txt "0"; Txt "0"; Txt "1"]); ("lookup_datestep_cluster", each_date ["d0"; "d1"; "d2"] [Txt "0"; Txt "0"; Txt "1"]);
   ("lookup_datestep_last_cluster_timestep", each_date ["d0"; "d1"; "d2"] [Txt "a1"; Txt "a1"; Txt "b0"]);
   ("flow_cap", rows_of three [(["here"; "battery"; "power"], num 5); (["here"; "load"; "power"], num 5); (["here"; "plant"; "power"], num 5)]);
   ("storage_cap", rows_of site_dims [(["here"; "battery"], num 4)]); ("source_cap", rows_of site_dims [(["here"; "plant"], num 5)]);
   ("storage", rows_of use_dims (meanwhile "battery" (along levels)));
   ("storage_inter_cluster", rows_of ["nodes"; "techs"; "datesteps"] (map (fun x => (["here"; "battery"; fst x], snd x)) (List.combine ["d0"; "d1"; "d2"] over)));
   ("storage_intra_cluster_max", rows_of ["nodes"; "techs"; "clusters"] (map (fun x => (["here"; "battery"; fst x], snd x)) (List.combine ["0"; "1"] max)));
   ("storage_intra_cluster_min", rows_of ["nodes"; "techs"; "clusters"] (map (fun x => (["here"; "battery"; fst x], snd x)) (List.combine ["0"; "1"] min)));
   ("source_use", rows_of use_dims (meanwhile "plant" (along into))); ("sink_use_equals", rows_of use_dims (meanwhile "load" (along out)));
   ("flow_out", rows_of four (during "battery" "power" (along out) ++ during "plant" "power" (along into))); ("flow_out_inc_eff", rows_of four (during "battery" "power" (along out) ++ during "plant" "power" (along into)));
   ("flow_in", rows_of four (during "battery" "power" (along into) ++ during "load" "power" (along out))); ("flow_in_inc_eff", rows_of four (during "battery" "power" (along into) ++ during "load" "power" (along out)))] ++ no_costs.

(** ** Two dates, both represented by the first day.  2 units are stored in its first half and taken out in its second half. *)
Definition duo_days : list (Z * Z) := [(0, 0); (1, 0)]%Z.
Definition duo_times : list Z := [0; 720; 1440; 2160]%Z.
Definition duo_labels : list (string * list string) :=
  [("nodes", ["here"]); ("techs", ["plant"; "battery"; "load"]); ("carriers", ["power"]); ("timesteps", ["a0"; "a1"]); ("clusters", ["0"]); ("datesteps", ["d0"; "d1"]); ("costs", ["monetary"])].
Definition duo : world := system duo_labels
  (trio_arrays [(["a0"], Txt "a1")] [num 0; num 0] [num 2; num 0] [num 0; num 2] [num 2; num 0] [num 2] [num 0]) step_defaults week_matrix.
Lemma duo_proper : proper duo.
Proof. proper_system. Qed.
Lemma duo_checked : feasible_check as_listed (layered cluster_math) duo = true.
Proof. vm_cast_no_check (eq_refl true). Qed.
Lemma duo_solution : solution as_listed cluster_math duo.
Proof. apply solution_sound; [apply feasible_sound, duo_checked|]; vm_compute; reflexivity. Qed.
Lemma duo_alone_checked : feasible_check as_listed (layered []) duo = true.
Proof. vm_cast_no_check (eq_refl true). Qed.
Lemma duo_alone : solution as_listed [] duo.
Proof. apply solution_sound; [apply feasible_sound, duo_alone_checked|]; vm_compute; reflexivity. Qed.

(** ** No day starts at midnight: 2 units are taken out on the first two dates each, 2 are stored on the third. *)
Definition third : Qc := Q2Qc (1 # 3).
Definition late : world := system (week_labels ["d0"; "d1"; "d2"])
  (trio_arrays [] [num 2; Val (Q2Qc 4 * third)%Qc; Val (Q2Qc 2 * third)%Qc] [num 0; num 0; num 2] [num 0; num 2; num 0] [Val (Q2Qc 4 * third)%Qc; Val (- (Q2Qc 2 * third))%Qc; Val (Q2Qc 4 * third)%Qc]
    [Val (Q2Qc 4 * third)%Qc; Val (Q2Qc 4 * third)%Qc] [Val (- (Q2Qc 2 * third))%Qc; Val (Q2Qc 4 * third)%Qc]) step_defaults week_matrix.
Lemma late_proper : proper late.
Proof. proper_system. Qed.
Lemma late_checked : feasible_check as_listed (layered cluster_math) late = true.
Proof. vm_cast_no_check (eq_refl true). Qed.
Lemma late_solution : solution as_listed cluster_math late.
Proof. apply solution_sound; [apply feasible_sound, late_checked|]; vm_compute; reflexivity. Qed.
