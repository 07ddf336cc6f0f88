(** Results of whole carriers and technologies, stated on values at labels. *)
From Coq Require Import QArith Qcanon.
From Verif Require Import Base LangModel MathText EvalModel EvalSpec HelperModel HelperSpec ShipModel ShipSpec NetSpec PlaceSpec CostSpec.
Local Open Scope nat_scope.
Local Open Scope string_scope.
Local Open Scope list_scope.

(** Numbers in every timestep. *)
Definition over_time (U : world) (s n t : string) : Prop := In "timesteps" (a_dims (n_array (u_env U) s)) /\ forall k, In k (labels U "timesteps") -> numeric U s (use_at n t k).
Definition paid_for (c o : string) : list (string * string) := [("carriers", c); ("costs", o)].
(** What a source of [n], [t] could provide and what is taken, in the hours the timesteps stand for. *)
Definition weight (U : world) (k : string) : Qc := amount U "timestep_weights" (step_at k).
Definition available (U : world) (n t : string) (f : Qc) (w : string -> Qc) : Qc := sum_over (labels U "timesteps") (fun k => w k * (amount U "source_use_max" (use_at n t k) * f))%Qc.
Definition taken (U : world) (n t : string) (w : string -> Qc) : Qc := sum_over (labels U "timesteps") (fun k => w k * amount U "source_use" (use_at n t k))%Qc.
(** Costs of technologies, of all or of those that put out [c]. *)
Definition costs_of (U : world) (ts : list string) (o : string) : Qc := sum_over (labels U "nodes") (fun n => sum_over ts (fun t => amount U "cost" (class_at n t o))).
Definition puts_out (U : world) (c : string) : list string :=
  filter (fun t => existsb (fun n => is_true (a_at (n_array (u_env U) "carrier_out") (spot (cap_at n t c)))) (labels U "nodes")) (labels U "techs").
Definition reported (U : world) (c : string) : Qc := sum_over (labels U "techs") (fun t => amount U "total_generation" (carrier_of t c)).
