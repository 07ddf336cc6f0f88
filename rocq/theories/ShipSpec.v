(** Solutions of the shipped math, stated independently of the model's own loops. *)
From Coq Require Import QArith Qcanon.
From Verif Require Import Base LangModel MathText EvalModel EvalSpec BuildModel BuildSpec HelperModel HelperSpec ShipModel.
Local Open Scope nat_scope.
Local Open Scope string_scope.
Local Open Scope list_scope.

(** A constraint between two cells holds; constraints with missing sides never do. *)
Definition related (c : cmp) (a b : cell) : Prop :=
  match a, b with
  | Val x, Val y => in_order c x y
  | Val _, Inf false | Inf true, Val _ | Inf true, Inf false => c = CLe \/ c = CLt
  | Val _, Inf true | Inf false, Val _ | Inf false, Inf true => c = CGe \/ c = CGt
  | Inf false, Inf false | Inf true, Inf true => c = CLe \/ c = CEq \/ c = CGe
  | _, _ => False
  end.
(** All entries of a constraint hold. *)
Definition satisfied (U : world) (sets : list string) (r : index -> entry) : Prop :=
  forall f, In f (CliModel.product (map (n_labels (u_env U)) sets)) ->
    match r f with VRel a c b => related c a b | VCell _ => True end.

(** The component is built and all its constraints hold. *)
Definition holds_in (order : list string -> list string) (m : math_file) (U : world) (c : component) : Prop :=
  exists r, build_all order m U "constraints" c = Built r /\ satisfied U (c_foreach c) r.
(** The values of an expression are those of its definition. *)
Definition defined_in (order : list string -> list string) (m : math_file) (U : world) (c : component) : Prop :=
  exists r, build_all order m U "global_expressions" c = Built r /\
    a_dims (n_array (u_env U) (c_name c)) = c_foreach c /\
    forall f, In f (CliModel.product (map (n_labels (u_env U)) (c_foreach c))) ->
      r f = VCell (a_at (n_array (u_env U) (c_name c)) (at_index (c_foreach c) f)).

(** Labels of some dimensions. *)
Definition spot (l : list (string * string)) : pos := fun d => match d_get d l with Some x => x | None => "" end.
(** The value of a component or input at some labels, the default if there is none. *)
Definition value_at (U : world) (s : string) (l : list (string * string)) : cell :=
  fill (n_default (u_env U) s) (a_at (n_array (u_env U) s) (spot l)).
Definition is_there (U : world) (s : string) (l : list (string * string)) : Prop :=
  a_at (n_array (u_env U) s) (spot l) <> Miss.
Definition labels (U : world) (d : string) : list string := n_labels (u_env U) d.

(** Data as calliope prepares them: arrays depend on their own dimensions, labels are unique. *)
Definition proper (U : world) : Prop := sound (u_env U) /\ NoDup (u_dims U).

(** The component named so. *)
Definition find_in (l : list component) (n : string) : option component := find (fun c => String.eqb (c_name c) n) l.

(** The conditions of a component. *)
Definition condition_texts (c : component) : list string :=
  MathText.c_where c :: map fst (c_equations c) ++ flat_map (fun x => map fst (snd x)) (c_subs c ++ c_slices c).
(** They depend on the dimensions of the component only. *)
Definition conditions_over (m : math_file) (U : world) (c : component) : Prop :=
  forall t w, In t (condition_texts c) -> parse_where_text (math_names m) t = Some w ->
    over (world_where (math_names m) U) (c_foreach c) w.
(** Positions with a label on every dimension. *)
Definition whole (U : world) (p : pos) : Prop :=
  exists i, In i (CliModel.product (map (n_labels (u_env U)) (u_dims U))) /\ p = at_index (u_dims U) i.

(** The math of a model: base, that of the mode, pre-defined extra math in any order. *)
Definition shipped : list (list math_file) :=
  flat_map (fun mode => map (app mode) [[]; [milp_file]; [inter_file]; [milp_file; inter_file]; [inter_file; milp_file]])
    [[]; [operate_file]; [spores_file]].

(** Interest rates are finite numbers or not given. *)
Definition plain_rates (U : world) : Prop :=
  u_bool U "cost_interest_rate" = false /\ n_default (u_env U) "cost_interest_rate" = Val 0%Qc /\
  forall p, whole U p -> match a_at (n_array (u_env U) "cost_interest_rate") p with Miss | Val _ => True | _ => False end.
(** The variable exists only where no unit size is given (its condition in milp.yaml:173). *)
Definition units_apart (U : world) : Prop :=
  u_bool U "flow_cap_per_unit" = false /\
  forall p, whole U p -> a_at (n_array (u_env U) "flow_cap_per_unit") p = Miss \/ is_inf (a_at (n_array (u_env U) "flow_cap_per_unit") p) = true \/
    a_at (n_array (u_env U) "available_flow_cap") p = Miss.

(** Errors that the inputs alone decide: a helper function fails, a dimension is not among those of
    the component, there is no value for a selected entry. *)
Definition input_trouble (t : trouble) : Prop :=
  match t with TBuild (FMissing _) | TCall _ | TDims _ => True | TBuild _ => False end.

(** * Values at labels *)

(** The value of an input or variable at a position, default included. *)
Definition value_in (U : world) (s : string) (p : pos) : cell := fill (n_default (u_env U) s) (a_at (n_array (u_env U) s) p).
(** Its dimensions are among these. *)
Definition within_dims (U : world) (s : string) (ds : list string) : Prop :=
  forall d, In d (a_dims (n_array (u_env U) s)) -> In d ds.
Definition has_dims (U : world) (s : string) (ds : list string) : Prop :=
  forall d, In d (a_dims (n_array (u_env U) s)) <-> In d ds.
(** Numbers. *)
Definition number (U : world) (s : string) (l : list (string * string)) : Prop := exists q, value_at U s l = Val q.
Definition amount (U : world) (s : string) (l : list (string * string)) : Qc := worth (value_at U s l).
Definition sum_over (ls : list string) (f : string -> Qc) : Qc := fold_right (fun x s => f x + s)%Qc 0%Qc ls.
Definition is_number (c : cell) : Prop := exists q, c = Val q.

(** Every dimension has labels. *)
Definition populated (U : world) : Prop := forall d, In d (u_dims U) -> labels U d <> [].
(** Labels that exist, each dimension once. *)
Definition placed (U : world) (l : list (string * string)) : Prop :=
  NoDup (map fst l) /\ forall d x, In (d, x) l -> In d (u_dims U) /\ In x (labels U d).

(** The component is for this position: it is in the definition matrix and the condition holds. *)
Definition is_for (m : math_file) (U : world) (c : component) (p : pos) : Prop :=
  whole U p /\ is_true (a_at (n_matrix (u_env U)) p) = true /\
  exists w, parse_where_text (math_names m) (MathText.c_where c) = Some w /\ weval (world_where (math_names m) U) w p = true.

(** * Storage *)

(** A cell that counts as yes. *)
Definition yes (c : cell) : Prop := c = Boo true \/ c = Val 1%Qc.
(** Formulations without linked clusters. *)
Definition chronological : list (list math_file) :=
  flat_map (fun mode => map (app mode) [[]; [milp_file]]) [[]; [operate_file]; [spores_file]].
(** The [k]-th timestep. *)
Definition step_label (U : world) (k : nat) : string := nth k (labels U "timesteps") "".
Definition steps (U : world) : nat := List.length (labels U "timesteps").
Definition asset (n t : string) : list (string * string) := [("nodes", n); ("techs", t)].
Definition asset_step (U : world) (n t : string) (k : nat) : list (string * string) := [("nodes", n); ("techs", t); ("timesteps", step_label U k)].
Definition flow_step (U : world) (n t c : string) (k : nat) : list (string * string) := [("nodes", n); ("techs", t); ("carriers", c); ("timesteps", step_label U k)].
(** Level at the end of a timestep, energy put in and taken out during it. *)
Definition level (U : world) (n t : string) (k : nat) : Qc := amount U "storage" (asset_step U n t k).
Definition charged (U : world) (n t : string) (k : nat) : Qc := sum_over (labels U "carriers") (fun c => amount U "flow_in_inc_eff" (flow_step U n t c k)).
Definition discharged (U : world) (n t : string) (k : nat) : Qc := sum_over (labels U "carriers") (fun c => amount U "flow_out_inc_eff" (flow_step U n t c k)).
(** [x] is what remains of one unit after [h] hours, [a] after one hour; for hours that are not whole
    numbers it is the power computed by numpy. *)
Definition remains (U : world) (a h x : Qc) : Prop :=
  (exists n : nat, h = Q2Qc (inject_Z (Z.of_nat n)) /\ x = Qcpower a n) \/
  ((forall n : nat, h <> Q2Qc (inject_Z (Z.of_nat n))) /\ n_odd (u_env U) OPow (Val a) (Val h) = Val x).
Definition cyclic (U : world) (n t : string) : Prop := yes (value_at U "cyclic_storage" (asset n t)).

(** The technology [t] at [n] stores energy; the data are numbers on the dimensions documented for
    them; timesteps are not clustered. *)
Record storing (U : world) (n t : string) : Prop := {
  so_proper : proper U;
  so_populated : populated U;
  so_dims : forall d, In d ["nodes"; "techs"; "carriers"; "timesteps"] -> In d (u_dims U);
  so_node : In n (labels U "nodes");
  so_tech : In t (labels U "techs");
  so_matrix_dims : forall d, In d (a_dims (n_matrix (u_env U))) -> In d ["nodes"; "techs"; "carriers"];
  so_here : exists c, In c (labels U "carriers") /\ a_at (n_matrix (u_env U)) (spot [("nodes", n); ("techs", t); ("carriers", c)]) = Boo true;
  so_asset : forall s, In s ["base_tech"; "include_storage"; "cyclic_storage"; "storage_loss"; "storage_initial"; "storage_cap"] -> within_dims U s ["nodes"; "techs"];
  so_kind : value_at U "base_tech" (asset n t) = Txt "storage" \/
    (yes (value_at U "include_storage" (asset n t)) /\ value_at U "base_tech" (asset n t) <> Txt "supply" /\ value_at U "base_tech" (asset n t) <> Txt "demand");
  so_step : within_dims U "cluster_first_timestep" ["timesteps"] /\ within_dims U "timestep_resolution" ["timesteps"];
  so_chronological : forall k, k < steps U -> ~ yes (value_at U "cluster_first_timestep" [("timesteps", step_label U k)]);
  so_level : within_dims U "storage" ["nodes"; "techs"; "timesteps"] /\ forall k, k < steps U -> number U "storage" (asset_step U n t k);
  so_flow : forall s, s = "flow_in_inc_eff" \/ s = "flow_out_inc_eff" ->
    within_dims U s ["nodes"; "techs"; "carriers"; "timesteps"] /\ In "carriers" (a_dims (n_array (u_env U) s)) /\
    forall c k, In c (labels U "carriers") -> k < steps U -> number U s (flow_step U n t c k);
  so_numbers : forall s, In s ["storage_loss"; "storage_initial"; "storage_cap"] -> number U s (asset n t);
  so_hours : forall k, k < steps U -> number U "timestep_resolution" [("timesteps", step_label U k)] }.
Definition hours (U : world) (k : nat) : Qc := amount U "timestep_resolution" [("timesteps", step_label U k)].
Definition loss (U : world) (n t : string) : Qc := amount U "storage_loss" (asset n t).
(** The fractions that remain after each timestep. *)
Definition fading (U : world) (n t : string) (fade : nat -> Qc) : Prop :=
  forall k, k < steps U -> remains U (1 - loss U n t)%Qc (hours U k) (fade k).
(** The fraction that remains from the end of step [i] to the end of step [k]. *)
Definition compound (fade : nat -> Qc) (i k : nat) : Qc := fold_right (fun j x => fade j * x)%Qc 1%Qc (seq i (k - i)).
Definition sum_steps (k : nat) (f : nat -> Qc) : Qc := fold_right (fun i x => f i + x)%Qc 0%Qc (seq 0 k).
(** What is stored before the first timestep. *)
Definition final (U : world) : nat := steps U - 1.
Definition start (U : world) (n t : string) (fade : nat -> Qc) (s : Qc) : Prop :=
  (cyclic U n t -> s = (fade (final U) * level U n t (final U))%Qc) /\
  (~ cyclic U n t -> s = (amount U "storage_initial" (asset n t) * amount U "storage_cap" (asset n t))%Qc).
