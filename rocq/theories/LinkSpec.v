(** Storage in a year of representative days that are linked: what is carried from one date to the
    next, and what is in store at a time of a date. *)
From Coq Require Import QArith Qcanon.
From Verif Require Import Base LangModel MathText EvalModel EvalSpec HelperModel HelperSpec ShipModel ShipSpec PlaceSpec.
Local Open Scope nat_scope.
Local Open Scope string_scope.
Local Open Scope list_scope.

(** The math with linked clusters: alone, with integer units, in any mode. *)
Definition linked_lists : list (list math_file) :=
  flat_map (fun mode => map (app mode) [[inter_file]; [milp_file; inter_file]; [inter_file; milp_file]]) [[]; [operate_file]; [spores_file]].

Definition date_at (n t d : string) : list (string * string) := [("nodes", n); ("techs", t); ("datesteps", d)].
Definition cluster_at (n t v : string) : list (string * string) := [("nodes", n); ("techs", t); ("clusters", v)].
Definition on_date (d : string) : list (string * string) := [("datesteps", d)].
Definition at_step (k : string) : list (string * string) := [("timesteps", k)].
(** A timestep and a date together. *)
Definition moment (n t c k d : string) : list (string * string) := [("nodes", n); ("techs", t); ("carriers", c); ("timesteps", k); ("datesteps", d)].

(** The day that represents a date: its cluster, its first timestep, how many more it has. *)
Record day := { y_cluster : string; y_first : nat; y_more : nat }.
Definition y_last (y : day) : nat := y_first y + y_more y.
(** The data that link dates and clusters, as time clustering prepares them: [plan] gives the day of each date. *)
Record represented (U : world) (plan : string -> day) (d : string) : Prop := {
  re_steps : y_last (plan d) < steps U;
  re_cluster : reads_as U "lookup_datestep_cluster" (on_date d) (Txt (y_cluster (plan d)));
  re_known : In (y_cluster (plan d)) (labels U "clusters");
  re_last : reads_as U "lookup_datestep_last_cluster_timestep" (on_date d) (Txt (step_label U (y_last (plan d))));
  re_own : forall j, j <= y_more (plan d) -> reads_as U "timestep_cluster" (at_step (step_label U (y_first (plan d) + j))) (Txt (y_cluster (plan d)));
  re_starts : within_dims U "lookup_cluster_last_timestep" ["timesteps"] /\ u_bool U "lookup_cluster_last_timestep" = false /\
    a_at (n_array (u_env U) "lookup_cluster_last_timestep") (spot (at_step (step_label U (y_first (plan d))))) = Txt (step_label U (y_last (plan d)));
  re_goes_on : forall j, 0 < j -> j <= y_more (plan d) -> absent U "lookup_cluster_last_timestep" (at_step (step_label U (y_first (plan d) + j))) }.

(** A storage technology whose data are numbers on the documented dimensions; [cy] tells whether its storage is cyclic. *)
Record linked (U : world) (plan : string -> day) (n t c : string) (cy : bool) : Prop := {
  li_sited : forall k d, k < steps U -> In d (labels U "datesteps") -> sited U (moment n t c (step_label U k) d);
  li_kind : reads_as U "base_tech" (asset n t) (Txt "storage");
  li_cyclic : reads_as U "cyclic_storage" (asset n t) (Boo cy);
  li_level : forall k, k < steps U -> numeric U "storage" (use_at n t (step_label U k));
  li_flows : forall s k, s = "flow_in_inc_eff" \/ s = "flow_out_inc_eff" -> k < steps U -> numeric_over U s "carriers" (use_at n t (step_label U k));
  li_numbers : forall s, In s ["storage_loss"; "storage_initial"; "storage_cap"] -> numeric U s (asset n t);
  li_hours : forall k, k < steps U -> numeric U "timestep_resolution" (at_step (step_label U k));
  li_carried : forall d, In d (labels U "datesteps") -> numeric U "storage_inter_cluster" (date_at n t d);
  li_range : forall s v, s = "storage_intra_cluster_max" \/ s = "storage_intra_cluster_min" -> In v (labels U "clusters") -> numeric U s (cluster_at n t v);
  li_dates : forall d, In d (labels U "datesteps") -> represented U plan d }.

(** Energy put in and taken out during a timestep. *)
Definition put_in (U : world) (n t : string) (k : nat) : Qc := sum_over (labels U "carriers") (fun c => amount U "flow_in_inc_eff" (("carriers", c) :: use_at n t (step_label U k))).
Definition taken_out (U : world) (n t : string) (k : nat) : Qc := sum_over (labels U "carriers") (fun c => amount U "flow_out_inc_eff" (("carriers", c) :: use_at n t (step_label U k))).
(** What a date starts with. *)
Definition carried (U : world) (n t d : string) : Qc := amount U "storage_inter_cluster" (date_at n t d).
(** What is in store at the end of the [j]-th timestep of a date: what remains of what it started with, and what its day adds. *)
Definition in_store (U : world) (plan : string -> day) (n t : string) (fade : nat -> Qc) (d : string) (j : nat) : Qc :=
  (compound fade (y_first (plan d)) (y_first (plan d) + j) * carried U n t d + level U n t (y_first (plan d) + j))%Qc.
(** [d'] comes after [d]; after the last date comes the first if storage is cyclic. *)
Definition next_date (U : world) (cy : bool) (d d' : string) : Prop :=
  exists i, nth_error (labels U "datesteps") i = Some d /\
    (nth_error (labels U "datesteps") (S i) = Some d' \/
     cy = true /\ S i = List.length (labels U "datesteps") /\ nth_error (labels U "datesteps") 0 = Some d').
(** A sum over the timesteps of the day that represents a date. *)
Definition sum_day (y : day) (f : nat -> Qc) : Qc := sum_steps (S (y_more y)) (fun j => f (y_first y + j)).
(** Timesteps of whole hours, 24 in each day. *)
Definition full_days (U : world) (plan : string -> day) (hs : nat -> nat) : Prop :=
  (forall k, k < steps U -> hours U k = Q2Qc (inject_Z (Z.of_nat (hs k)))) /\
  forall d, In d (labels U "datesteps") -> fold_right Nat.add 0 (map hs (seq (y_first (plan d)) (S (y_more (plan d))))) = 24.
