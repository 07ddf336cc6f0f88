(** What looking back by one timestep means: rates of flows and stores of supply technologies. *)
From Coq Require Import QArith Qcanon.
From Verif Require Import Base LangModel MathText EvalModel EvalSpec HelperModel HelperSpec ShipModel ShipSpec NetSpec PlaceSpec CostSpec.
Local Open Scope nat_scope.
Local Open Scope string_scope.
Local Open Scope list_scope.

(** [k] comes right after [j]. *)
Definition follows (U : world) (j k : string) : Prop :=
  exists i, nth_error (labels U "timesteps") i = Some j /\ nth_error (labels U "timesteps") (S i) = Some k.
(** Hours of a timestep. *)
Definition lasting (U : world) (k : string) : Qc := amount U "timestep_resolution" (step_at k).
Definition lasts (U : world) (k : string) : Prop := numeric U "timestep_resolution" (step_at k) /\ lasting U k <> 0%Qc.
(** The rate at which [t] running: what it puts out, takes in, or the difference, per hour. *)
Definition running (U : world) (n t c : string) (rate : string -> Qc) : Prop :=
  let out := fun k => amount U "flow_out" (flow_at n t c k) in
  let into := fun k => amount U "flow_in" (flow_at n t c k) in
  (switched_on U "carrier_out" (cap_at n t c) /\ switched_off U "carrier_in" (cap_at n t c) /\ (forall k, In k (labels U "timesteps") -> numeric U "flow_out" (flow_at n t c k)) /\
     forall k, rate k = (out k / lasting U k)%Qc) \/
  (switched_on U "carrier_in" (cap_at n t c) /\ switched_off U "carrier_out" (cap_at n t c) /\ (forall k, In k (labels U "timesteps") -> numeric U "flow_in" (flow_at n t c k)) /\
     forall k, rate k = (into k / lasting U k)%Qc) \/
  (switched_on U "carrier_in" (cap_at n t c) /\ switched_on U "carrier_out" (cap_at n t c) /\
     (forall k, In k (labels U "timesteps") -> numeric U "flow_out" (flow_at n t c k) /\ numeric U "flow_in" (flow_at n t c k)) /\
     forall k, rate k = ((out k - into k) / lasting U k)%Qc).

(** A supply technology with a store, seen from its output [c]; timesteps are not clustered. *)
Definition stored (U : world) (n t : string) (k : nat) : Qc := amount U "storage" (use_at n t (step_label U k)).
Definition gathered (U : world) (n t : string) (k : nat) : Qc :=
  (amount U "source_use" (use_at n t (step_label U k)) * amount U "source_eff" (use_at n t (step_label U k)))%Qc.
Definition given_out (U : world) (n t c : string) (k : nat) : Qc := amount U "flow_out_inc_eff" (flow_at n t c (step_label U k)).
Record buffered (U : world) (n t c : string) (cy : bool) : Prop := {
  bu_sited : forall k, k < steps U -> sited U (flow_at n t c (step_label U k));
  bu_supply : reads_as U "base_tech" (tech_at t) (Txt "supply");
  bu_cyclic : reads_as U "cyclic_storage" (asset n t) (Boo cy);
  bu_level : forall k, k < steps U -> given U "storage" (use_at n t (step_label U k));
  bu_source : forall k, k < steps U -> numeric U "source_use" (use_at n t (step_label U k)) /\ numeric U "source_eff" (use_at n t (step_label U k));
  bu_out : forall k, k < steps U -> numeric U "flow_out_inc_eff" (flow_at n t c (step_label U k));
  bu_numbers : forall s, In s ["storage_loss"; "storage_initial"; "storage_cap"] -> numeric U s (asset n t);
  bu_hours : forall k, k < steps U -> numeric U "timestep_resolution" (step_at (step_label U k));
  bu_chronological : forall k, k < steps U -> reads_as U "cluster_first_timestep" (step_at (step_label U k)) (Boo false) \/ reads_as U "cluster_first_timestep" (step_at (step_label U k)) Miss }.
(** What is in the store before the first timestep. *)
Definition filled (U : world) (n t : string) (cy : bool) (fade : nat -> Qc) (s : Qc) : Prop :=
  if cy then s = (fade (final U) * stored U n t (final U))%Qc else s = (amount U "storage_initial" (asset n t) * amount U "storage_cap" (asset n t))%Qc.
