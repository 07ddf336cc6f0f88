(** Costs of technologies and of the system, stated on values at labels. *)
From Coq Require Import QArith Qcanon.
From Verif Require Import Base LangModel MathText EvalModel EvalSpec BuildModel BuildSpec HelperModel HelperSpec ShipModel ShipSpec NetSpec PlaceSpec.
Local Open Scope nat_scope.
Local Open Scope string_scope.
Local Open Scope list_scope.

(** Places: with a cost class. *)
Definition class_at (n t o : string) : list (string * string) := [("nodes", n); ("techs", t); ("costs", o)].
Definition class_cap (n t c o : string) : list (string * string) := [("nodes", n); ("techs", t); ("carriers", c); ("costs", o)].
Definition class_step (n t o k : string) : list (string * string) := [("nodes", n); ("techs", t); ("costs", o); ("timesteps", k)].
Definition class_flow (n t c o k : string) : list (string * string) := [("nodes", n); ("techs", t); ("carriers", c); ("costs", o); ("timesteps", k)].
Definition step_at (k : string) : list (string * string) := [("timesteps", k)].

(** A price and what it is paid for, over the labels of a dimension: numbers; if neither depends on
    the dimension nothing is used. *)
Definition billed (U : world) (price use d : string) (l : list (string * string)) : Prop :=
  (forall v, In v (labels U d) -> numeric U price ((d, v) :: l) /\ numeric U use ((d, v) :: l)) /\
  (In d (a_dims (n_array (u_env U) price)) \/ In d (a_dims (n_array (u_env U) use)) \/ forall v, In v (labels U d) -> amount U use ((d, v) :: l) = 0%Qc).
Definition bill (U : world) (price use d : string) (l : list (string * string)) : Qc :=
  sum_over (labels U d) (fun v => amount U price ((d, v) :: l) * amount U use ((d, v) :: l))%Qc.
(** Kinds of technologies. *)
Definition base_kinds : list string := ["supply"; "demand"; "conversion"; "storage"; "transmission"].
Definition kind (U : world) (t b : string) : Prop := In b base_kinds /\ reads_as U "base_tech" (tech_at t) (Txt b).
(** Hours that the timesteps stand for. *)
Definition weighed (U : world) : Prop :=
  numeric_over U "timestep_resolution" "timesteps" [] /\ forall k, In k (labels U "timesteps") -> numeric U "timestep_weights" (step_at k).
Definition represented (U : world) : Qc :=
  sum_over (labels U "timesteps") (fun k => amount U "timestep_resolution" (step_at k) * amount U "timestep_weights" (step_at k))%Qc.
Definition years (U : world) : Qc := (represented U / Q2Qc 8760)%Qc.

(** Operation in one timestep: what goes through the technology, what is taken from the source. *)
Definition metered (U : world) (n t b o k : string) : Prop :=
  numeric U "timestep_weights" (step_at k) /\ billed U "cost_export" "flow_export" "carriers" (class_step n t o k) /\ billed U "cost_flow_out" "flow_out" "carriers" (class_step n t o k) /\
  (if String.eqb b "supply" then numeric U "cost_source_use" (class_step n t o k) /\ numeric U "source_use" (use_at n t k)
   else billed U "cost_flow_in" "flow_in" "carriers" (class_step n t o k)).
Definition running_cost (U : world) (n t b o k : string) : Qc :=
  (amount U "timestep_weights" (step_at k) *
    (bill U "cost_export" "flow_export" "carriers" (class_step n t o k) + bill U "cost_flow_out" "flow_out" "carriers" (class_step n t o k) +
     (if String.eqb b "supply" then amount U "cost_source_use" (class_step n t o k) * amount U "source_use" (use_at n t k)
      else bill U "cost_flow_in" "flow_in" "carriers" (class_step n t o k))))%Qc.
Definition running_prices : list string := ["cost_export"; "cost_flow_in"; "cost_flow_out"; "cost_source_use"].

(** Results that are numbers where they are there, zero elsewhere. *)
Definition ledger (U : world) (s : string) : Prop :=
  n_default (u_env U) s = Val 0%Qc /\ u_bool U s = false /\ forall p, a_at (n_array (u_env U) s) p = Miss \/ is_number (a_at (n_array (u_env U) s) p).
(** The technology is there in every timestep, with a carrier and a cost class. *)
Definition on_duty (U : world) (n t c o : string) : Prop :=
  labels U "timesteps" <> [] /\ forall k, In k (labels U "timesteps") -> sited U (class_flow n t c o k).
(** A price and what is bought: both given, or one left out. *)
Definition charged (U : world) (price what : string) (l : list (string * string)) (q : Qc) : Prop :=
  (given U price l /\ given U what l /\ q = (amount U price l * amount U what l)%Qc) \/
  ((absent U price l \/ absent U what l) /\ q = 0%Qc).
(** A link is paid for half at each end. *)
Definition capacity_charge (U : world) (n t b c o : string) (q : Qc) : Prop :=
  (given U "flow_cap" (class_cap n t c o) /\ (given U "cost_flow_cap" (class_cap n t c o) \/ given U "cost_flow_cap_per_distance" (class_cap n t c o)) /\ numeric U "cost_flow_cap" (class_cap n t c o) /\
   (b = "transmission" -> numeric U "cost_flow_cap_per_distance" (class_cap n t c o) /\ numeric U "distance" (tech_at t)) /\
   q = (if String.eqb b "transmission"
        then (amount U "cost_flow_cap" (class_cap n t c o) + amount U "cost_flow_cap_per_distance" (class_cap n t c o) * amount U "distance" (tech_at t)) * Q2Qc (1 # 2) * amount U "flow_cap" (class_cap n t c o)
        else amount U "cost_flow_cap" (class_cap n t c o) * amount U "flow_cap" (class_cap n t c o))%Qc) \/
  ((absent U "flow_cap" (class_cap n t c o) \/ absent U "cost_flow_cap" (class_cap n t c o) /\ absent U "cost_flow_cap_per_distance" (class_cap n t c o)) /\ q = 0%Qc).
Definition unit_charge (U : world) (n t b o : string) (q : Qc) : Prop :=
  (given U "purchased_units" (class_at n t o) /\ given U "cost_purchase" (class_at n t o) /\
   (b = "transmission" -> numeric U "cost_purchase_per_distance" (class_at n t o) /\ numeric U "distance" (tech_at t)) /\
   q = (if String.eqb b "transmission"
        then (amount U "cost_purchase" (class_at n t o) + amount U "cost_purchase_per_distance" (class_at n t o) * amount U "distance" (tech_at t)) * amount U "purchased_units" (class_at n t o) * Q2Qc (1 # 2)
        else amount U "cost_purchase" (class_at n t o) * amount U "purchased_units" (class_at n t o))%Qc) \/
  ((absent U "purchased_units" (class_at n t o) \/ absent U "cost_purchase" (class_at n t o)) /\ q = 0%Qc).

(** The share of an investment that is paid every year: given, or the same amount in every year of
    the lifetime, or the annuity. *)
Definition yearly_share (U : world) (n t o : string) (r : Qc) : Prop :=
  (given U "cost_depreciation_rate" (class_at n t o) /\ r = amount U "cost_depreciation_rate" (class_at n t o)) \/
  (absent U "cost_depreciation_rate" (class_at n t o) /\ numeric U "lifetime" (class_at n t o) /\ amount U "lifetime" (class_at n t o) <> 0%Qc /\
   (absent U "cost_interest_rate" (class_at n t o) \/ given U "cost_interest_rate" (class_at n t o) /\ amount U "cost_interest_rate" (class_at n t o) = 0%Qc) /\
   r = (1 / amount U "lifetime" (class_at n t o))%Qc) \/
  (absent U "cost_depreciation_rate" (class_at n t o) /\ numeric U "lifetime" (class_at n t o) /\
   given U "cost_interest_rate" (class_at n t o) /\ (0 < amount U "cost_interest_rate" (class_at n t o))%Qc /\
   exists x, remains U (1 + amount U "cost_interest_rate" (class_at n t o))%Qc (amount U "lifetime" (class_at n t o)) x /\ x <> 1%Qc /\
     r = (amount U "cost_interest_rate" (class_at n t o) * x / (x - 1))%Qc).
(** What payments at the end of the years 1 .. [y] are worth before the first. *)
Definition present_value (i pay : Qc) (y : nat) : Qc := fold_right (fun j x => pay / Qcpower (1 + i) j + x)%Qc 0%Qc (seq 1 y).

(** Unmet demand and unused supply: numbers on the documented dimensions, or nothing at all. *)
Definition slack_known (U : world) (s : string) : Prop :=
  has_dims U s ["nodes"; "carriers"; "timesteps"] /\
    (forall c n k, In c (labels U "carriers") -> In n (labels U "nodes") -> In k (labels U "timesteps") -> number U s (bus_at n c k)).
Definition slack_none (U : world) (s : string) : Prop := a_dims (n_array (u_env U) s) = [] /\ forall l, value_at U s l = Val 0%Qc.
Definition slack_fits (U : world) : Prop := slack_known U "unmet_demand" /\ slack_known U "unused_supply" \/ slack_none U "unmet_demand" /\ slack_none U "unused_supply".
Definition unmet_total (U : world) : Qc :=
  sum_over (labels U "timesteps") (fun k =>
    sum_over (labels U "carriers") (fun c => sum_over (labels U "nodes") (fun n => amount U "unmet_demand" (bus_at n c k) - amount U "unused_supply" (bus_at n c k))) *
    amount U "timestep_weights" (step_at k))%Qc.
Definition cost_total (U : world) : Qc :=
  sum_over (labels U "costs") (fun o => sum_over (labels U "nodes") (fun n => sum_over (labels U "techs") (fun t => amount U "cost" (class_at n t o))) *
    amount U "objective_cost_weights" [("costs", o)])%Qc.
(** Capacities weighed with the scores of earlier alternatives. *)
Definition score_total (U : world) : Qc :=
  sum_over (labels U "nodes") (fun n => sum_over (labels U "techs") (fun t => sum_over (labels U "carriers") (fun c => amount U "flow_cap" (cap_at n t c) * amount U "spores_score" (cap_at n t c))))%Qc.
(** The value of an objective. *)
Definition objective_is (order : list string -> list string) (m : math_file) (U : world) (s : string) (q : Qc) : Prop :=
  exists c r, find_in (h_objectives m) s = Some c /\ build_all order m U "objectives" c = Built r /\ r [] = VCell (Val q).
(** A result calculated after solving, at labels. *)
Definition post_is (order : list string -> list string) (m : math_file) (U : world) (s : string) (l : list (string * string)) (q : Qc) : Prop :=
  exists c r, find_in (h_post m) s = Some c /\ build_post order m U c = Built r /\ r (map snd l) = VCell (Val q).
(** They can be built. *)
Definition objective_built (order : list string -> list string) (m : math_file) (U : world) (s : string) : Prop :=
  exists c r, find_in (h_objectives m) s = Some c /\ build_all order m U "objectives" c = Built r.
Definition post_built (order : list string -> list string) (m : math_file) (U : world) (s : string) : Prop :=
  exists c r, find_in (h_post m) s = Some c /\ build_post order m U c = Built r.
(** Flow out of a technology over all nodes and timesteps: in the hours that the timesteps stand for. *)
Definition carrier_of (t c : string) : list (string * string) := [("techs", t); ("carriers", c)].
Definition generated (U : world) (t c : string) : Qc :=
  sum_over (labels U "nodes") (fun n => sum_over (labels U "timesteps") (fun k => amount U "flow_out" (flow_at n t c k) * amount U "timestep_weights" (step_at k)))%Qc.
Definition capacity_of (U : world) (t c : string) : Qc := sum_over (labels U "nodes") (fun n => amount U "flow_cap" (cap_at n t c)).
(** Numbers at every node and timestep. *)
Definition everywhere (U : world) (s t c : string) : Prop :=
  (In "nodes" (a_dims (n_array (u_env U) s)) /\ In "timesteps" (a_dims (n_array (u_env U) s))) /\ forall n k, In n (labels U "nodes") -> In k (labels U "timesteps") -> numeric U s (flow_at n t c k).
Definition capacities (U : world) (t c : string) : Prop := In "nodes" (a_dims (n_array (u_env U) "flow_cap")) /\ forall n, In n (labels U "nodes") -> numeric U "flow_cap" (cap_at n t c).
(** Kinds that put something out. *)
Definition makers : list string := ["supply"; "conversion"; "storage"; "transmission"].
(** Names of parts of costs. *)
Definition investment_parts : list string := ["cost_investment_storage_cap"; "cost_investment_source_cap"; "cost_investment_area_use"].
Definition bought_parts : list string := investment_parts ++ ["cost_investment_purchase"].
Definition yearly_parts : list string := ["cost_investment_annualised"; "cost_operation_fixed"].
