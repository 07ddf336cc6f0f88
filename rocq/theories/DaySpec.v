(** Storage in representative days that are not linked: each day stands for itself. *)
From Coq Require Import QArith Qcanon.
From Verif Require Import Base LangModel MathText EvalModel EvalSpec HelperModel HelperSpec ShipModel ShipSpec NetSpec PlaceSpec LinkSpec.
Local Open Scope nat_scope.
Local Open Scope string_scope.
Local Open Scope list_scope.

(** A day: timesteps [f], ..., [f + m]; the data say where it starts and which timestep is its last. *)
Record day_from (U : world) (f m : nat) : Prop := {
  da_steps : f + m < steps U;
  da_first : reads_as U "cluster_first_timestep" (at_step (step_label U f)) (Boo true);
  da_last : within_dims U "lookup_cluster_last_timestep" ["timesteps"] /\
    a_at (n_array (u_env U) "lookup_cluster_last_timestep") (spot (at_step (step_label U f))) = Txt (step_label U (f + m));
  da_goes_on : forall j, 0 < j -> j <= m -> reads_as U "cluster_first_timestep" (at_step (step_label U (f + j))) (Boo false) }.

(** A storage technology whose data are numbers on the documented dimensions; [cy] tells whether its storage is cyclic. *)
Record kept (U : world) (n t c : string) (cy : bool) : Prop := {
  ke_sited : forall k, k < steps U -> sited U (flow_at n t c (step_label U k));
  ke_kind : reads_as U "base_tech" (asset n t) (Txt "storage");
  ke_cyclic : reads_as U "cyclic_storage" (asset n t) (Boo cy);
  ke_level : forall k, k < steps U -> numeric U "storage" (use_at n t (step_label U k));
  ke_flows : forall s k, s = "flow_in_inc_eff" \/ s = "flow_out_inc_eff" -> k < steps U -> numeric_over U s "carriers" (use_at n t (step_label U k));
  ke_numbers : forall s, In s ["storage_loss"; "storage_initial"; "storage_cap"] -> numeric U s (asset n t);
  ke_hours : forall k, k < steps U -> numeric U "timestep_resolution" (at_step (step_label U k)) }.

(** A sum over a day. *)
Definition over_day (f m : nat) (g : nat -> Qc) : Qc := sum_steps (S m) (fun j => g (f + j)).
(** The timesteps are those of the days, one after the other. *)
Definition all_days (U : world) (days : list (nat * nat)) : Prop :=
  flat_map (fun d => seq (fst d) (S (snd d))) days = seq 0 (steps U) /\ forall d, In d days -> day_from U (fst d) (snd d).
(** How many dates a timestep stands for; all timesteps of a day stand for the same number. *)
Definition weight (U : world) (k : nat) : Qc := amount U "timestep_weights" (at_step (step_label U k)).
Definition weighted (U : world) (days : list (nat * nat)) : Prop :=
  forall d j, In d days -> j <= snd d -> weight U (fst d + j) = weight U (fst d).
