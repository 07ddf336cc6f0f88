(** What a user understands the input checks of the package to be about. *)
From Coq Require Import QArith Qcanon.
From Verif Require Import Base LangModel EvalModel HelperModel HelperSpec ShipModel ShipSpec GuardModel.
Local Open Scope nat_scope.
Local Open Scope string_scope.
Local Open Scope list_scope.

(** Math files of a model: those of a mode, then extra math in any order. *)
Definition choices : list (list file) :=
  flat_map (fun mode => map (app mode) [[]; [Milp]; [Inter]; [Milp; Inter]; [Inter; Milp]]) [[]; [Operate]; [Spores]].

Definition raw (U : world) (s : string) (p : pos) : cell := a_at (n_array (u_env U) s) p.
(** An input is there: it has a finite number or a text; a switch is on. *)
Definition there (U : world) (s : string) (p : pos) : Prop :=
  if u_bool U s then raw U s p = Boo true else raw U s p <> Miss /\ forall neg, raw U s p <> Inf neg.
(** Its value, the default if there is none. *)
Definition reads (U : world) (s : string) (p : pos) (c : cell) : Prop := value_in U s p = c.
Definition on (U : world) (s : string) (p : pos) : Prop := reads U s p (Boo true) \/ reads U s p (Val 1%Qc).
Definition negative (c : cell) : Prop := (exists x, c = Val x /\ (x < 0)%Qc) \/ c = Inf true.
(** The same position at another node. *)
Definition at_node (p : pos) (n : string) : pos := put p "nodes" n.

(** The violations, by name. *)
Definition unbounded (cost cap : string) (U : world) (p : pos) : Prop := negative (value_in U cost p) /\ ~ there U cap p.
Definition violations : list (string * (world -> pos -> Prop)) :=
  [("must_have_base", fun U p => ~ there U "base_tech" p);
   ("distance_only_for_transmission", fun U p => ~ reads U "base_tech" p (Txt "transmission") /\
      exists s, In s ["distance"; "flow_in_eff_per_distance"; "flow_out_eff_per_distance"; "cost_flow_cap_per_distance"] /\ there U s p);
   ("unbounded_flow_cap_cost", unbounded "cost_flow_cap" "flow_cap_max");
   ("unbounded_storage_cap_cost", unbounded "cost_storage_cap" "storage_cap_max");
   ("unbounded_area_use_cost", unbounded "cost_area_use" "area_use_max");
   ("unbounded_source_use_cost", unbounded "cost_source_cap" "source_cap_max");
   ("finite_source_use", fun U p => exists s, In s ["source_use_equals"; "sink_use_equals"] /\ reads U s p (Inf false));
   ("all_or_nothing_lat_lon", fun U p =>
      (exists n s, In n (labels U "nodes") /\ In s ["latitude"; "longitude"] /\ there U s (at_node p n)) /\
      ~ there U "latitude" p /\ ~ there U "longitude" p);
   ("export_only_for_outflows", fun U p => there U "carrier_export" p /\ forall n, In n (labels U "nodes") -> ~ there U "carrier_out" (at_node p n));
   ("storage_initial_max", fun U p => exists x, raw U "storage_initial" p = Val x /\ ~ (0 <= x <= 1)%Qc);
   ("flow_in_for_supply_tech", fun U p => reads U "base_tech" p (Txt "supply") /\ there U "cost_flow_in" p);
   ("flow_out_for_demand_tech", fun U p => reads U "base_tech" p (Txt "demand") /\ there U "cost_flow_out" p);
   ("no_storage_discharge_depth_when_clustering", fun U p => there U "storage_discharge_depth" p /\ there U "lookup_cluster_last_timestep" p);
   ("cyclic_storage_needs_inter_cluster", fun U p => there U "cyclic_storage" p /\ there U "lookup_cluster_last_timestep" p);
   ("distance_only_for_transmission_milp", fun U p => ~ reads U "base_tech" p (Txt "transmission") /\ there U "cost_purchase_per_distance" p);
   ("conflicting_flow_caps", fun U p => (there U "flow_cap_max" p \/ there U "flow_cap_min" p) /\ there U "flow_cap_per_unit" p);
   ("unit_commitment_only_for_units", fun U p => on U "integer_dispatch" p /\ ~ reads U "cap_method" p (Txt "integer"));
   ("conflicting_storage_caps", fun U p => (there U "storage_cap_max" p \/ there U "storage_cap_min" p) /\ there U "storage_cap_per_unit" p);
   ("operate_mode_cyclic_storage", fun U p => on U "cyclic_storage" p /\ (reads U "base_tech" p (Txt "storage") \/ on U "include_storage" p))].

(** Of the kinds of values the package prepares: infinities compare as usual; the inputs that are compared with numbers
    are numbers. *)
Definition compared : list string := ["cost_flow_cap"; "cost_storage_cap"; "cost_area_use"; "cost_source_cap"; "storage_initial"].
Definition prepared (U : world) : Prop :=
  sound (u_env U) /\ labels U "nodes" <> [] /\
  (forall neg x, u_less U (Inf neg) (Val x) = neg /\ u_less U (Val x) (Inf neg) = negb neg) /\
  (forall s, In s compared -> u_bool U s = false) /\
  (forall s p b x, In s compared -> value_in U s p <> Boo b /\ value_in U s p <> Txt x).
(** A technology of the model is concerned. *)
Definition defined_place (U : world) (p : pos) : Prop := whole U p /\ is_true (a_at (n_matrix (u_env U)) p) = true.
