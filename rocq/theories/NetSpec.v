(** Flows of carriers between technologies, nodes and links, stated on values at labels. *)
From Coq Require Import QArith Qcanon.
From Verif Require Import Base LangModel MathText EvalModel EvalSpec HelperModel HelperSpec ShipModel ShipSpec.
Local Open Scope nat_scope.
Local Open Scope string_scope.
Local Open Scope list_scope.

(** Places: node, technology, carrier and timestep. *)
Definition flow_at (n t c k : string) : list (string * string) := [("nodes", n); ("techs", t); ("carriers", c); ("timesteps", k)].
Definition bus_at (n c k : string) : list (string * string) := [("nodes", n); ("carriers", c); ("timesteps", k)].
Definition tech_at (t : string) : list (string * string) := [("techs", t)].
(** The technology can use the carrier at the node. *)
Definition placed_at (U : world) (n t c : string) : Prop := is_true (a_at (n_matrix (u_env U)) (spot [("nodes", n); ("techs", t); ("carriers", c)])) = true.

Definition flows : list string := ["flow_out"; "flow_in"; "flow_export"].
Definition slacks : list string := ["unmet_demand"; "unused_supply"].
(** Values of the decision variables of a model with nodes and carriers: numbers on the documented
    dimensions (or no entries at all), only where the technology can use the carrier; zero where
    there is no variable. *)
Record network (U : world) : Prop := {
  ne_proper : proper U;
  ne_populated : populated U;
  ne_dims : forall d, In d ["nodes"; "techs"; "carriers"; "timesteps"] -> In d (u_dims U);
  ne_matrix : forall d, In d (a_dims (n_matrix (u_env U))) -> In d ["nodes"; "techs"; "carriers"];
  ne_default : forall s, In s (flows ++ slacks ++ ["flow_out_inc_eff"; "flow_in_inc_eff"]) -> n_default (u_env U) s = Val 0%Qc;
  ne_flow : forall s, In s flows -> has_dims U s ["nodes"; "techs"; "carriers"; "timesteps"] \/ forall p, a_at (n_array (u_env U) s) p = Miss;
  ne_slack : forall s, In s slacks -> within_dims U s ["nodes"; "carriers"; "timesteps"];
  ne_number : forall s p, In s (flows ++ slacks) -> a_at (n_array (u_env U) s) p = Miss \/ is_number (a_at (n_array (u_env U) s) p);
  ne_where : forall s n t c k, In s flows -> is_there U s (flow_at n t c k) -> placed_at U n t c;
  ne_where_slack : forall s n c k, In s slacks -> is_there U s (bus_at n c k) -> exists t, In t (labels U "techs") /\ placed_at U n t c }.

(** Totals of one technology, of a node, of the system. *)
Definition flow (U : world) (s n t c k : string) : Qc := amount U s (flow_at n t c k).
Definition slack (U : world) (s n c k : string) : Qc := amount U s (bus_at n c k).
Definition over_nodes (U : world) (f : string -> Qc) : Qc := sum_over (labels U "nodes") f.
Definition over_techs (U : world) (f : string -> Qc) : Qc := sum_over (labels U "techs") f.
Definition over_carriers (U : world) (f : string -> Qc) : Qc := sum_over (labels U "carriers") f.

(** Transmission links. *)
Definition is_link (U : world) (t : string) : Prop := value_at U "base_tech" (tech_at t) = Txt "transmission".
Definition plants (U : world) : list string :=
  filter (fun t => match value_at U "base_tech" (tech_at t) with Txt s => negb (String.eqb s "transmission") | _ => true end) (labels U "techs").
(** The share of a unit that comes out of a link, that gets into a link. *)
Definition out_share (U : world) (n t c k : string) (f : Qc) : Prop :=
  (forall s, In s ["flow_out_eff"; "flow_out_parasitic_eff"; "flow_out_eff_per_distance"; "distance"] -> number U s (flow_at n t c k)) /\
  exists x, remains U (amount U "flow_out_eff_per_distance" (flow_at n t c k)) (amount U "distance" (flow_at n t c k)) x /\
    f = (amount U "flow_out_eff" (flow_at n t c k) * amount U "flow_out_parasitic_eff" (flow_at n t c k) * x)%Qc.
Definition in_share (U : world) (n t c k : string) (f : Qc) : Prop :=
  (forall s, In s ["flow_in_eff"; "flow_in_eff_per_distance"; "distance"] -> number U s (flow_at n t c k)) /\
  exists x, remains U (amount U "flow_in_eff_per_distance" (flow_at n t c k)) (amount U "distance" (flow_at n t c k)) x /\
    f = (amount U "flow_in_eff" (flow_at n t c k) * x)%Qc.
Record links (U : world) (oshare ishare : string -> string -> string -> string -> Qc) : Prop := {
  li_base : within_dims U "base_tech" ["techs"];
  li_dims : forall s, In s ["flow_out_eff"; "flow_out_parasitic_eff"; "flow_out_eff_per_distance"; "distance"; "flow_in_eff"; "flow_in_eff_per_distance"] ->
    within_dims U s ["nodes"; "techs"; "carriers"; "timesteps"];
  li_out : forall n t c k, In n (labels U "nodes") -> In t (labels U "techs") -> In c (labels U "carriers") -> In k (labels U "timesteps") -> is_link U t -> is_there U "flow_out" (flow_at n t c k) ->
    out_share U n t c k (oshare n t c k) /\ oshare n t c k <> 0%Qc;
  li_in : forall n t c k, In n (labels U "nodes") -> In t (labels U "techs") -> In c (labels U "carriers") -> In k (labels U "timesteps") -> is_link U t -> is_there U "flow_in" (flow_at n t c k) ->
    in_share U n t c k (ishare n t c k) }.
(** A link that carries [c] carries nothing else. *)
Definition single_carrier (U : world) (c k : string) : Prop :=
  forall t, In t (labels U "techs") -> is_link U t ->
    (forall n c' s, In n (labels U "nodes") -> In c' (labels U "carriers") -> c' <> c -> s = "flow_out" \/ s = "flow_in" -> flow U s n t c' k = 0%Qc) \/
    (forall n s, In n (labels U "nodes") -> s = "flow_out" \/ s = "flow_in" -> flow U s n t c k = 0%Qc).

(** A solution of some of the shipped math: constraints hold, expressions have their values. *)
Definition constraint_holds (order : list string -> list string) (m : math_file) (U : world) (s : string) : Prop :=
  exists c, find_in (h_constraints m) s = Some c /\ holds_in order m U c.
Definition expression_is (order : list string -> list string) (m : math_file) (U : world) (s : string) : Prop :=
  exists c, find_in (h_expressions m) s = Some c /\ defined_in order m U c.
