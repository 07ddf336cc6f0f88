(** Model of how results are put together: src/calliope/backend/backend_model.py:1392-1447 [load_results], 682-703
    [add_postprocessed_arrays], 362-404 [_add_postprocessed], 804-846 [_raise_error_on_preexistence], 573-595 [_add_inputs],
    167-213 [add_variable] (which arrays are kept) and schemas/math_schema.py:445-473 [parsing_components].

    Simplifications: an array is the list of its entries that are not gaps (NaN: no entry); the value of a postprocessed array is
    given as a function of the arrays it may look up (see EvalModel and CostPost for what such expressions mean). *)
From Verif Require Import Base.
From Coq Require Import QArith.
Local Open Scope string_scope.
Local Open Scope list_scope.

Definition arr := list (list string * Q).
Definition dataset := list (string * arr).
(** xarray's [Dataset.assign]. *)
Definition assign (d e : dataset) : dataset := fold_left (fun d x => d_set (fst x) (snd x) d) e d.

(** A component of the math with its value: inputs as given, others as solved. *)
Record item := { i_name : string; i_active : bool; i_value : arr }.
Record post := { p_name : string; p_active : bool; p_eval : (string -> option arr) -> arr }.
Record math := { m_inputs : list item; m_vars : list item; m_exprs : list item; m_objs : list item; m_posts : list post; m_prices : dataset }.

Definition actives (l : list item) : list item := filter i_active l.
Definition pair_of (i : item) : string * arr := (i_name i, i_value i).
(** Names of active inputs, variables and global expressions. *)
Definition array_names (m : math) : list string := map i_name (actives (m_inputs m) ++ actives (m_vars m) ++ actives (m_exprs m)).
(** backend_model.py:178-190: a variable that is not active is kept as an empty array if no active array has its name. *)
Definition variables (m : math) : dataset :=
  flat_map (fun v => if i_active v then [pair_of v] else if smem (i_name v) (array_names m) then [] else [(i_name v, [])]) (m_vars m).
Definition prefix : string := "shadow_price_".
(** backend_model.py:1405-1434: entries of later groups replace those of earlier ones. *)
Definition solved (m : math) : dataset :=
  assign (assign (assign (assign [] (variables m)) (map pair_of (actives (m_exprs m))))
                 (map (fun x => ((prefix ++ fst x)%string, snd x)) (m_prices m))) (map pair_of (actives (m_objs m))).
(** backend_model.py:573-595: all inputs in the math, active or not. *)
Definition inputs (m : math) : dataset := map pair_of (m_inputs m).

(** backend_model.py:362-404: an array that is not active is empty; an active one must not be in the dataset yet (being active it
    is always found in the math). *)
Definition add_post (p : post) (d : dataset) : result arr :=
  if p_active p then if d_mem (p_name p) d then Err EBackend else Ok (p_eval p (fun n => d_get n d)) else Ok [].
(** backend_model.py:682-703. *)
Fixpoint add_posts (l : list post) (d : dataset) : result dataset :=
  match l with
  | [] => Ok []
  | p :: r => bind (add_post p d) (fun a => bind (add_posts r (d_set (p_name p) a d)) (fun rest => Ok (d_set (p_name p) a [] ++ rest)))
  end.
Definition has_values (x : string * arr) : bool := match snd x with [] => false | _ => true end.
Definition load_results (m : math) : result dataset :=
  bind (add_posts (m_posts m) (assign (solved m) (inputs m))) (fun posts => Ok (filter has_values (assign (solved m) posts))).
