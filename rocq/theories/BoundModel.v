(** Limits and domains of the decision variables of the shipped math files, and the building of variables. *)
From Coq Require Import QArith Qcanon.
From Verif Require Import Base LangModel MathText EvalModel BuildModel HelperModel ShipModel.
Local Open Scope nat_scope.
Local Open Scope string_scope.
Local Open Scope list_scope.

(** A limit: the name of an input or a number (schemas/math_schema.py:226-236 [Bounds]). *)
Inductive limit := LName (s : string) | LCell (c : cell).
(** "bounds" and "domain" of an entry of the section "variables"; parts that a file does not give are [None]. *)
Record vbound := { b_name : string; b_min : option limit; b_max : option limit; b_domain : option string }.
Definition zero : limit := LCell (Val 0%Qc).
Definition one : limit := LCell (Val 1%Qc).
Definition infinite : limit := LCell (Inf false).
Definition minus_infinite : limit := LCell (Inf true).
Definition both (s : string) (a b : limit) : vbound := {| b_name := s; b_min := Some a; b_max := Some b; b_domain := None |}.
Definition whole_between (s : string) (a b : limit) : vbound := {| b_name := s; b_min := Some a; b_max := Some b; b_domain := Some "integer" |}.
Definition only_min (s : string) (a : limit) : vbound := {| b_name := s; b_min := Some a; b_max := None; b_domain := None |}.

(** src/calliope/math/base.yaml:869-1033. *)
Definition base_bounds : list vbound :=
  [both "flow_cap" (LName "flow_cap_min") (LName "flow_cap_max"); both "link_flow_cap" zero infinite;
   both "flow_out" zero infinite; both "flow_in" zero infinite; both "flow_export" (LName "export_min") (LName "export_max");
   both "area_use" (LName "area_use_min") (LName "area_use_max"); both "source_use" zero infinite;
   both "source_cap" (LName "source_cap_min") (LName "source_cap_max");
   {| b_name := "storage_cap"; b_min := Some (LName "storage_cap_min"); b_max := Some (LName "storage_cap_max"); b_domain := Some "real" |};
   both "storage" zero infinite; both "unmet_demand" zero infinite; both "unused_supply" minus_infinite zero].
(** src/calliope/math/milp.yaml:102-208. *)
Definition milp_bounds : list vbound :=
  [whole_between "purchased_units" (LName "purchased_units_min") (LName "purchased_units_max"); whole_between "operating_units" zero infinite;
   whole_between "async_flow_switch" zero one; both "available_flow_cap" zero infinite;
   only_min "flow_cap" zero; only_min "area_use" zero; only_min "source_cap" zero; only_min "storage_cap" zero].
(** src/calliope/math/storage_inter_cluster.yaml:115-161. *)
Definition inter_bounds : list vbound :=
  [only_min "storage" minus_infinite; both "storage_inter_cluster" zero infinite;
   both "storage_intra_cluster_max" minus_infinite infinite; both "storage_intra_cluster_min" minus_infinite infinite].

(** The entries of a file; operate.yaml and spores.yaml have none.  [math_file] has no field for them:
    files are told apart by a variable that only they introduce. *)
Definition introduces (s : string) (f : math_file) : bool := smem s (map c_name (h_variables f)).
Definition file_bounds (f : math_file) : list vbound :=
  if introduces "flow_export" f then base_bounds else if introduces "purchased_units" f then milp_bounds
  else if introduces "storage_inter_cluster" f then inter_bounds else [].
(** preprocess/model_math.py:66-110, as [layer] in ShipModel.v. *)
Definition over {A} (b a : option A) : option A := match b with Some _ => b | None => a end.
Definition layer_bound (a b : vbound) : vbound :=
  {| b_name := b_name a; b_min := over (b_min b) (b_min a); b_max := over (b_max b) (b_max a); b_domain := over (b_domain b) (b_domain a) |}.
Fixpoint bound_in (l : list vbound) (b : vbound) : list vbound :=
  match l with
  | [] => [b]
  | a :: l => if String.eqb (b_name a) (b_name b) then layer_bound a b :: l else a :: bound_in l b
  end.
Definition bounds (files : list math_file) : list vbound :=
  fold_left (fun l f => fold_left bound_in (file_bounds f) l) files (file_bounds base_file).

(** An entry of a variable: its limits and whether it is a whole number. *)
Record ventry := { e_lb : cell; e_ub : cell; e_whole : bool }.
(** backend_model.py:1486-1516 [_get_variable_bound]: missing numbers of an input are its default. *)
Definition limit_dims (U : world) (l : limit) : list string := match l with LName s => a_dims (n_array (u_env U) s) | LCell _ => [] end.
Definition limit_at (U : world) (l : limit) (p : pos) : cell :=
  match l with LName s => fill (n_default (u_env U) s) (a_at (n_array (u_env U) s) p) | LCell c => c end.
(** The definition of a variable with the defaults of the schema (math_schema.py:226-253). *)
Definition bound_of (bs : list vbound) (s : string) : vbound :=
  match find (fun b => String.eqb (b_name b) s) bs with Some b => b | None => {| b_name := s; b_min := None; b_max := None; b_domain := None |} end.
Definition min_of (b : vbound) : limit := match b_min b with Some l => l | None => minus_infinite end.
Definition max_of (b : vbound) : limit := match b_max b with Some l => l | None => infinite end.
Definition is_whole_domain (b : vbound) : bool := match b_domain b with Some s => String.eqb s "integer" | None => false end.
(** backend_model.py:166-213 [add_variable] with pyomo_backend_model.py:195-215, 648 and
    gurobi_backend_model.py:90-103 [_add_variable].  [None]: there is no variable.  Simplification: a
    limit with dimensions that are not in [foreach] is an error (the mask of [_apply_func],
    backend_model.py:794-797, has not the shape of the limits). *)
Definition add_variable (m : math_file) (bs : list vbound) (U : world) (c : component) : built (index -> option ventry) :=
  let N := math_names m in
  let b := bound_of bs (c_name c) in
  then_ (lift (top_level_where (world_data N U) N c)) (fun top =>
    if existsb top (indices (world_data N U) (c_foreach c)) then
      if all_in (limit_dims U (min_of b)) (c_foreach c) && all_in (limit_dims U (max_of b)) (c_foreach c)
      then Built (fun f => if top f then Some {| e_lb := limit_at U (min_of b) (at_index (c_foreach c) f);
                                                 e_ub := limit_at U (max_of b) (at_index (c_foreach c) f); e_whole := is_whole_domain b |} else None)
      else Broken (TDims (c_name c))
    else Built (fun _ => None)).
