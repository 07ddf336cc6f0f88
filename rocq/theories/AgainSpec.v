(** Specification vocabulary for time settings and models opened again. *)
From Verif Require Import Base TimeModel TimeSpec AgainModel.
Local Open Scope string_scope.
Local Open Scope list_scope.
Local Open Scope Z_scope.

(** Inputs over one ascending list of time stamps, each array with a value or a gap at each of them. *)
Definition consistent (d : tdata) : Prop :=
  ordered (t_times d) /\ t_times d <> [] /\ NoDup (map fst (t_series d)) /\
  forall n m s, In (n, (m, s)) (t_series d) -> map fst s = t_times d.
Definition value (d : tdata) (n : string) (t : Z) (v : option Q) : Prop :=
  exists m s, In (n, (m, s)) (t_series d) /\ In (t, v) s.
Definition inferred (n : string) : Prop := n = "timestep_resolution" \/ n = "timestep_weights".
(** The total of an array that is summed on resampling, if it has any value. *)
Definition amount (d : tdata) (n : string) (q : Q) : Prop :=
  exists s, In (n, (Some MSum, s)) (t_series d) /\ total (map snd s) q /\ exists t x, In (t, Some x) s.
(** The same time stamps and the same values. *)
Definition same_content (a b : tdata) : Prop :=
  t_times a = t_times b /\ forall n t q, value a n t (Some q) <-> value b n t (Some q).

(** No day of the range from [a] to [b] is a day of the data. *)
Definition apart (ts : list Z) (a b : Z) : Prop :=
  (forall t, In t ts -> date b < date t) \/ (forall t, In t ts -> date t < date a).

(** Settings that resample to [step] and nothing else. *)
Definition resampled (step : Z) : settings := {| s_subset := None; s_resample := Some step; s_cluster := None |}.
Definition limited (l : list period) : settings := {| s_subset := Some l; s_resample := None; s_cluster := None |}.

Inductive same_value : option Q -> option Q -> Prop :=
| sv_none : same_value None None
| sv_some a b : (a == b)%Q -> same_value (Some a) (Some b).
