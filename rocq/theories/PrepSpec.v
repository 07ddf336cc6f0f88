(** What time clustering hands over to the math: time.py:131-173 and 260-293 (see [TimeModel.cluster]) as inputs of a world. *)
From Coq Require Import QArith Qcanon.
From Verif Require Import Base LangModel MathText EvalModel EvalSpec HelperModel HelperSpec ShipModel ShipSpec NetSpec PlaceSpec LinkSpec DaySpec.
From Verif Require TimeModel TimeSpec.
Local Open Scope nat_scope.
Local Open Scope string_scope.
Local Open Scope list_scope.

(** A label, or nothing. *)
Definition named {A} (f : A -> string) (o : option A) : cell := match o with Some x => Txt (f x) | None => Miss end.

(** The arrays that clustering adds hold what it computes; [at_time], [on_day] and [group] write labels of timesteps, dates and clusters. *)
Record prepared (U : world) (a : list (Z * Z)) (ts : list Z) (at_time on_day : Z -> string) (group : nat -> string) : Prop := {
  pr_steps : labels U "timesteps" = map at_time (map fst (TimeModel.c_cluster (TimeModel.cluster a ts)));
  pr_dates : labels U "datesteps" = map on_day (map fst a);
  pr_groups : forall t k, In (t, Some k) (TimeModel.c_cluster (TimeModel.cluster a ts)) -> In (group k) (labels U "clusters");
  pr_cluster : forall t o, In (t, o) (TimeModel.c_cluster (TimeModel.cluster a ts)) -> reads_as U "timestep_cluster" (at_step (at_time t)) (named group o);
  pr_weight : forall t w, In (t, w) (TimeModel.c_weight (TimeModel.cluster a ts)) -> reads_as U "timestep_weights" (at_step (at_time t)) (Val (Q2Qc (inject_Z (Z.of_nat w))));
  pr_first : forall t b, In (t, b) (TimeModel.c_first (TimeModel.cluster a ts)) -> reads_as U "cluster_first_timestep" (at_step (at_time t)) (Boo b);
  pr_last : within_dims U "lookup_cluster_last_timestep" ["timesteps"] /\ u_bool U "lookup_cluster_last_timestep" = false /\
    forall t o, In (t, o) (TimeModel.c_last (TimeModel.cluster a ts)) -> a_at (n_array (u_env U) "lookup_cluster_last_timestep") (spot (at_step (at_time t))) = named at_time o;
  pr_date_cluster : forall d o, In (d, o) (TimeModel.c_date_cluster (TimeModel.cluster a ts)) -> reads_as U "lookup_datestep_cluster" (on_date (on_day d)) (named group o);
  pr_date_last : forall d o, In (d, o) (TimeModel.c_date_last (TimeModel.cluster a ts)) -> reads_as U "lookup_datestep_last_cluster_timestep" (on_date (on_day d)) (named at_time o) }.

(** Every representative day is in the data, from midnight on. *)
Definition from_midnight (a : list (Z * Z)) (ts : list Z) : Prop := forall d r, In (d, r) a -> In (TimeModel.midnight r) ts.
(** The times of a day. *)
Definition times_of (r : Z) (ts : list Z) : list Z := filter (fun t => (t / 1440 =? r)%Z) ts.
(** A flow of a technology, over all dates: each date has the flows of the times of its representative day. *)
Definition over_dates (U : world) (a : list (Z * Z)) (ts : list Z) (at_time : Z -> string) (s n t : string) : Qc :=
  fold_right (fun dr x => fold_right (fun k y => sum_over (labels U "carriers") (fun c => amount U s (("carriers", c) :: use_at n t (at_time k))) + y) 0 (times_of (snd dr) ts) + x)%Qc 0%Qc a.
