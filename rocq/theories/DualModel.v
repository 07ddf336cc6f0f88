(** Model of shadow prices: src/calliope/backend/backend_model.py:1421-1445, 1537-1600,
    backend/pyomo_backend_model.py:176-177, 340-385, 497-502, 844-890, gurobi_backend_model.py:490-524, model.py:352. *)
From Verif Require Import Base.
From Coq Require Import QArith.
Local Open Scope string_scope.
Local Open Scope list_scope.

(** Shadow prices by constraint and label. *)
Definition label := list string.
Definition prices := list (string * label * Q).

(** The optimisation problem: labels at which each constraint exists (a constraint may exist nowhere), and whether some
    variable is binary or integer. *)
Record problem := { p_constraints : list (string * list label); p_integer : bool }.
(** The Pyomo interface: the suffix object [dual] (active or not, and its values) and the tracked constraints. *)
Record tracker := { t_active : bool; t_dual : prices; t_tracked : list string }.
(** pyomo_backend_model.py:176-177, 847-851: a suffix without values, deactivated. *)
Definition new_tracker : tracker := {| t_active := false; t_dual := []; t_tracked := [] |}.

(** pyomo_backend_model.py:863-874 and gurobi_backend_model.py:503-511 (both do nothing for Gurobi). *)
Definition activate (p : problem) (t : tracker) : tracker :=
  if p_integer p then t else {| t_active := true; t_dual := t_dual t; t_tracked := t_tracked t |}.
Definition deactivate (t : tracker) : tracker := {| t_active := false; t_dual := t_dual t; t_tracked := t_tracked t |}.
(** backend_model.py:1579-1600; constraints that are not there only cause a warning. *)
Definition track (p : problem) (names : list string) (t : tracker) : tracker :=
  let valid := filter (fun n => smem n (d_keys (p_constraints p))) names in
  let t := match valid with [] => t | _ => activate p t end in
  {| t_active := t_active t; t_dual := t_dual t; t_tracked := valid |}.

(** What a run of the solver gives: whether its status is ok, and the shadow prices of the solution it found. *)
Record outcome := { o_ok : bool; o_prices : prices }.
(** Loading a solution (Pyomo library, [block.load_solution]): active suffixes are cleared and filled with what the
    solver returned for them; others are left as they are. *)
Definition load (o : outcome) (t : tracker) : tracker :=
  {| t_active := t_active t; t_dual := if t_active t then o_prices o else t_dual t; t_tracked := t_tracked t |}.
Fixpoint price_of (n : string) (l : label) (d : prices) : option Q :=
  match d with
  | [] => None
  | (n', l', q) :: r => if String.eqb n n' then if list_eq_dec string_dec l l' then Some q else price_of n l r else price_of n l r
  end.
(** backend_model.py:1421-1424, 1438-1445 and pyomo_backend_model.py:853-861: values at the labels where a tracked
    constraint exists; arrays without any value are left out. *)
Definition prices_of (p : problem) (d : prices) (n : string) : list (label * Q) :=
  match d_get n (p_constraints p) with
  | Some ls => flat_map (fun l => match price_of n l d with Some q => [(l, q)] | None => [] end) ls
  | None => []
  end.
Definition results (p : problem) (t : tracker) : list (string * list (label * Q)) :=
  filter (fun x => match snd x with [] => false | _ => true end)
         (map (fun n => ("shadow_price_" ++ n, prices_of p (t_dual t) n)%string) (t_tracked t)).
(** model.py:352 and pyomo_backend_model.py:340-385: [solve] with the settings [shadow_prices] and [solver]. A solution that
    is not ok gives no results at all and is not loaded. *)
Definition solve (p : problem) (names : list string) (solver : string) (o : outcome) (t : tracker) : tracker * list (string * list (label * Q)) :=
  let t := track p names t in
  let t := if String.eqb solver "cbc" && t_active t then deactivate t else t in
  if o_ok o then let t := load o t in (t, results p t) else (t, []).

(** What a user does with a built model.  Building a constraint again, or changing the problem otherwise, makes new
    objects for the constraints named, which have no values in the suffix. *)
Inductive action :=
| Solve (names : list string) (solver : string) (o : outcome)
| Activate
| Deactivate
| Change (p : problem) (rebuilt : list string).
Definition forget (names : list string) (t : tracker) : tracker :=
  {| t_active := t_active t; t_dual := filter (fun x => negb (smem (fst (fst x)) names)) (t_dual t); t_tracked := t_tracked t |}.
Definition act (s : problem * tracker) (a : action) : problem * tracker :=
  match a with
  | Solve names solver o => (fst s, fst (solve (fst s) names solver o (snd s)))
  | Activate => (fst s, activate (fst s) (snd s))
  | Deactivate => (fst s, deactivate (snd s))
  | Change p rebuilt => (p, forget rebuilt (snd s))
  end.
Definition after (s : problem * tracker) (l : list action) : problem * tracker := fold_left act l s.

(** The Gurobi interface reads the attribute Pi of the constraints of the solved model; there is none with integer
    variables (gurobi_backend_model.py:490-524). *)
Definition results_gurobi (p : problem) (names : list string) (o : outcome) : list (string * list (label * Q)) :=
  let tracked := filter (fun n => smem n (d_keys (p_constraints p))) names in
  if o_ok o then
    filter (fun x => match snd x with [] => false | _ => true end)
           (map (fun n => ("shadow_price_" ++ n, if p_integer p then [] else prices_of p (o_prices o) n)%string) tracked)
  else [].
