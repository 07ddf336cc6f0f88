(** Model of piecewise constraints: src/calliope/backend/backend_model.py:912-992,
    pyomo_backend_model.py:59-117, 504-522, 824-841 and gurobi_backend_model.py:287-302, 393-413. *)
From Verif Require Import Base.
From Coq Require Import QArith.
Local Open Scope string_scope.
Local Open Scope list_scope.

Definition curve := list (Q * Q).

(** pandas: [Series(vals).dropna()]. *)
Fixpoint dropna (l : list (option Q)) : list Q :=
  match l with
  | [] => []
  | Some q :: r => q :: dropna r
  | None :: r => dropna r
  end.
Fixpoint nondecreasing (l : list Q) : bool :=
  match l with
  | a :: ((b :: _) as r) => Qle_bool a b && nondecreasing r
  | _ => true
  end.

(** What a solver makes of a curve.  Pyomo (library): [piecewise_sos2], a weight per breakpoint, of which at most
    two are not zero, and these are neighbours. *)
Definition qdot (ws xs : list Q) : Q := fold_right Qplus 0 (map (fun wx => fst wx * snd wx) (combine ws xs)).
Definition weighted (c : curve) (x y : Q) : Prop :=
  exists ws, List.length ws = List.length c /\ (forall w, In w ws -> 0 <= w) /\ fold_right Qplus 0 ws == 1 /\
    (forall i j, ~ nth i ws 0 == 0 -> ~ nth j ws 0 == 0 -> (i <= S j)%nat /\ (j <= S i)%nat) /\
    qdot ws (map fst c) == x /\ qdot ws (map snd c) == y.
(** Gurobi (library): [addGenConstrPWL], the function through the points, continued before the first and behind the last one.
    For ascending x. *)
Definition line (a b : Q * Q) (x : Q) : Q := snd a + (snd b - snd a) / (fst b - fst a) * (x - fst a).
Fixpoint through (c : curve) (x : Q) : option Q :=
  match c with
  | a :: ((b :: r) as t) => match r with
                            | [] => Some (line a b x)
                            | _ => if Qle_bool x (fst b) then Some (line a b x) else through t x
                            end
  | _ => None
  end.

Section Backend.
(** Labels of the dimensions in [foreach]. *)
Context {L : Type}.
(** [accept]: what else the library checks, such as limits of the x variable. *)
Variable accept : L -> curve -> bool.

(** schemas/math_schema.py:166-190.  The condition is given by its value, the two expressions as decision variables
    of their own (their evaluation is C38), the values per label in the order of [breakpoints]. *)
Record piecewise := { p_foreach : list string; p_active : bool; p_where : L -> bool;
                      p_x_dims : list string; p_y_dims : list string;
                      p_x : L -> list (option Q); p_y : L -> list (option Q) }.

(** pyomo_backend_model.py:504-522, gurobi_backend_model.py:393-413, at one label. *)
Definition make (p : piecewise) (l : L) : result curve :=
  let xs := dropna (p_x p l) in
  let ys := dropna (p_y p l) in
  if Nat.eqb (List.length xs) (List.length ys) && nondecreasing xs && accept l (combine xs ys)
  then Ok (combine xs ys) else Err EBackend.

(** The array kept in the backend dataset, and the objects in the optimisation problem. *)
Record state := { s_array : option (list (L * curve)); s_problem : list (L * curve) }.

(** backend_model.py:768-802 [_apply_func] over the labels chosen: the objects made, and the error if one fails. *)
Fixpoint make_all (p : piecewise) (ls : list L) : list (L * curve) * option exn :=
  match ls with
  | [] => ([], None)
  | l :: r => match make p l with
              | Err e => ([], Some e)
              | Ok c => let (cs, e) := make_all p r in ((l, c) :: cs, e)
              end
  end.

(** backend_model.py:912-992.  [pyomo] tells the backend: pyomo_backend_model.py:100-115 takes the objects of a failed
    component out of the problem. *)
Definition add (pyomo : bool) (ls : list L) (p : piecewise) (s : state) : state * result unit :=
  if smem "breakpoints" (p_foreach p) then (s, Err EBackend)
  else if negb (p_active p) then (s, Ok tt)
  else match s_array s with
  | Some _ => (s, Err EBackend)
  | None =>
      let chosen := filter (p_where p) ls in
      match chosen with
      | [] => ({| s_array := Some []; s_problem := s_problem s |}, Ok tt)
      | _ =>
          if negb (smem "breakpoints" (p_x_dims p)) then (s, Err EBackend)
          else if negb (smem "breakpoints" (p_y_dims p)) then (s, Err EBackend)
          else match make_all p chosen with
               | (cs, None) => ({| s_array := Some cs; s_problem := s_problem s ++ cs |}, Ok tt)
               | (cs, Some e) => ({| s_array := None; s_problem := if pyomo then s_problem s else s_problem s ++ cs |}, Err e)
               end
      end
  end.

(** pyomo_backend_model.py:421-429, gurobi_backend_model.py:287-302 [delete_component]: Gurobi takes only variables and
    constraints out of the problem.  Simplification: the problem holds the objects of this component alone. *)
Definition delete (pyomo : bool) (s : state) : state :=
  {| s_array := None; s_problem := if pyomo then [] else s_problem s |}.
(** backend_model.py:1464-1477 [_rebuild_references], after values have changed. *)
Definition rebuild (pyomo : bool) (ls : list L) (p : piecewise) (s : state) : state * result unit :=
  add pyomo ls p (delete pyomo s).
Definition nothing : state := {| s_array := None; s_problem := [] |}.

(** The values of the two expressions at each label that the problem allows. *)
Definition allowed (s : state) (x y : L -> Q) : Prop :=
  forall l c, In (l, c) (s_problem s) -> weighted c (x l) (y l).
End Backend.
Arguments piecewise : clear implicits.
Arguments state : clear implicits.
