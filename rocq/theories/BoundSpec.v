(** Solutions with limits and domains of variables, stated on values at labels. *)
From Coq Require Import QArith Qcanon ZArith.
From Verif Require Import Base LangModel MathText EvalModel EvalSpec BuildModel HelperModel HelperSpec ShipModel ShipSpec PlaceSpec RuleText BoundModel.
From Verif Require CliModel.
Local Open Scope nat_scope.
Local Open Scope string_scope.
Local Open Scope list_scope.

(** A number above (below) a limit; limits that are missing do not limit. *)
Definition above (l : cell) (x : Qc) : Prop := match l with Val a => (a <= x)%Qc | Inf true | Miss => True | _ => False end.
Definition below (x : Qc) (l : cell) : Prop := match l with Val b => (x <= b)%Qc | Inf false | Miss => True | _ => False end.
Definition integral (x : Qc) : Prop := exists z : Z, x = Q2Qc (inject_Z z).
(** The variable has a value exactly where it exists, and it is within its limits and domain. *)
Definition valued_in (m : math_file) (bs : list vbound) (U : world) (c : component) : Prop :=
  exists r, add_variable m bs U c = Built r /\ within_dims U (c_name c) (c_foreach c) /\ u_bool U (c_name c) = false /\
    forall f, In f (CliModel.product (map (n_labels (u_env U)) (c_foreach c))) ->
      match r f with
      | Some e => exists x, a_at (n_array (u_env U) (c_name c)) (at_index (c_foreach c) f) = Val x /\ above (e_lb e) x /\ below x (e_ub e) /\ (e_whole e = true -> integral x)
      | None => a_at (n_array (u_env U) (c_name c)) (at_index (c_foreach c) f) = Miss
      end.
(** What a solver may return. *)
Definition solution (order : list string -> list string) (files : list math_file) (U : world) : Prop :=
  feasible order (layered files) U /\ forall c, In c (active (layered files) (h_variables (layered files))) -> valued_in (layered files) (bounds files) U c.
(** The value of an input or variable lies within the limits that two inputs give. *)
Definition between (U : world) (lo s hi : string) (l : list (string * string)) : Prop :=
  given U s l /\ above (value_at U lo l) (amount U s l) /\ below (amount U s l) (value_at U hi l).
Definition at_most (U : world) (s hi : string) (l : list (string * string)) : Prop :=
  given U s l /\ (0 <= amount U s l)%Qc /\ below (amount U s l) (value_at U hi l).
Definition positive_or_zero (U : world) (s : string) (l : list (string * string)) : Prop := given U s l /\ (0 <= amount U s l)%Qc.
