(** Data at a place (labels of some dimensions): what is given, left out, chosen; used in the
    statements on single components of the shipped math. *)
From Coq Require Import QArith Qcanon.
From Verif Require Import Base LangModel MathText EvalModel EvalSpec HelperModel HelperSpec ShipModel ShipSpec.
Local Open Scope nat_scope.
Local Open Scope string_scope.
Local Open Scope list_scope.

(** The labels exist and the technology is defined there. *)
Definition sited (U : world) (l : list (string * string)) : Prop :=
  proper U /\ populated U /\ placed U l /\ (forall d, In d (a_dims (n_matrix (u_env U))) -> In d (map fst l)) /\
  is_true (a_at (n_matrix (u_env U)) (spot l)) = true.
(** A number is given; a switch is on; a switch is off or not there; nothing is there; a word or switch, possibly by default. *)
Definition given (U : world) (s : string) (l : list (string * string)) : Prop :=
  within_dims U s (map fst l) /\ u_bool U s = false /\ exists q, a_at (n_array (u_env U) s) (spot l) = Val q.
Definition switched_on (U : world) (s : string) (l : list (string * string)) : Prop :=
  within_dims U s (map fst l) /\ a_at (n_array (u_env U) s) (spot l) = Boo true.
Definition switched_off (U : world) (s : string) (l : list (string * string)) : Prop :=
  within_dims U s (map fst l) /\ ((u_bool U s = true /\ a_at (n_array (u_env U) s) (spot l) = Boo false) \/ a_at (n_array (u_env U) s) (spot l) = Miss).
Definition absent (U : world) (s : string) (l : list (string * string)) : Prop :=
  within_dims U s (map fst l) /\ a_at (n_array (u_env U) s) (spot l) = Miss.
Definition reads_as (U : world) (s : string) (l : list (string * string)) (c : cell) : Prop :=
  within_dims U s (map fst l) /\ value_at U s l = c.
(** Its value is a number, possibly the default. *)
Definition numeric (U : world) (s : string) (l : list (string * string)) : Prop :=
  within_dims U s (map fst l) /\ number U s l.
(** Like [numeric], and it depends on the dimension that is summed over. *)
Definition numeric_over (U : world) (s : string) (d : string) (l : list (string * string)) : Prop :=
  In d (a_dims (n_array (u_env U) s)) /\ forall v, In v (labels U d) -> numeric U s ((d, v) :: l).

(** Dimensions of places. *)
Definition cap_at (n t c : string) : list (string * string) := [("nodes", n); ("techs", t); ("carriers", c)].
Definition use_at (n t k : string) : list (string * string) := [("nodes", n); ("techs", t); ("timesteps", k)].
(** What one unit of a sink or source stands for: itself, the area used, or the installed capacity. *)
Definition per_unit (U : world) (s : string) (n t : string) (f : Qc) : Prop :=
  (reads_as U s (asset n t) (Txt "absolute") /\ f = 1%Qc) \/
  (reads_as U s (asset n t) (Txt "per_area") /\ numeric U "area_use" (asset n t) /\ f = amount U "area_use" (asset n t)).
Definition per_capacity (U : world) (s : string) (n t : string) (f : Qc) : Prop :=
  reads_as U s (asset n t) (Txt "per_cap") /\ numeric_over U "flow_cap" "carriers" (asset n t) /\
  f = sum_over (labels U "carriers") (fun c => amount U "flow_cap" (("carriers", c) :: asset n t)).
(** A solution of a whole model: all active expressions have their values, all active constraints hold. *)
Definition feasible (order : list string -> list string) (m : math_file) (U : world) : Prop :=
  (forall c, In c (active m (h_expressions m)) -> defined_in order m U c) /\ (forall c, In c (active m (h_constraints m)) -> holds_in order m U c).
