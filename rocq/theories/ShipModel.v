(** The math files that come with the package, layered as a model uses them, and the building of
    their components with helper functions: joins BuildModel.v and HelperModel.v. *)
From Coq Require Import QArith Qcanon.
From Verif Require Import Base LangModel MathText EvalModel BuildModel HelperModel.
Local Open Scope nat_scope.
Local Open Scope string_scope.
Local Open Scope list_scope.

(** * The layered math *)

(** A math file: names of inputs and components, and components switched off ("active: false").
    Checks are left out.  [h_seen]: postprocessed expressions that texts may refer to, none while
    the problem is built (backend_model.py:382-386). *)
Record math_file := {
  h_inputs : list string;
  h_variables : list component; h_expressions : list component; h_constraints : list component;
  h_objectives : list component; h_post : list component; h_off : list string; h_seen : list string }.

(** src/calliope/math/base.yaml, milp.yaml, operate.yaml, spores.yaml, storage_inter_cluster.yaml. *)
Definition base_file : math_file :=
  {| h_inputs := base_parameters ++ base_lookups; h_variables := base_variables;
     h_expressions := base_global_expressions; h_constraints := base_constraints;
     h_objectives := base_objectives; h_post := base_postprocessed; h_off := []; h_seen := [] |}.
Definition milp_file : math_file :=
  {| h_inputs := milp_parameters ++ milp_lookups; h_variables := milp_variables;
     h_expressions := milp_global_expressions; h_constraints := milp_constraints;
     h_objectives := []; h_post := []; h_off := []; h_seen := [] |}.
Definition operate_file : math_file :=
  {| h_inputs := operate_parameters; h_variables := operate_variables;
     h_expressions := operate_global_expressions; h_constraints := operate_constraints;
     h_objectives := []; h_post := [];
     h_off := operate_variables_off ++ operate_global_expressions_off ++ operate_constraints_off; h_seen := [] |}.
Definition spores_file : math_file :=
  {| h_inputs := spores_parameters; h_variables := []; h_expressions := []; h_constraints := spores_constraints;
     h_objectives := spores_objectives; h_post := spores_postprocessed; h_off := []; h_seen := [] |}.
Definition inter_file : math_file :=
  {| h_inputs := inter_lookups; h_variables := inter_variables; h_expressions := []; h_constraints := inter_constraints;
     h_objectives := []; h_post := []; h_off := inter_constraints_off; h_seen := [] |}.

(** [AttrDict.union] (attrdict.py:484-540, as used in preprocess/model_math.py:66-110) on the
    recorded parts of a component: lists are replaced, sub-expressions and slices merged by
    name.  Parts that a file does not give are recorded as [], or "True" for conditions; no
    shipped file overrides anything by these. *)
Definition merge_dict {V} (a b : list (string * V)) : list (string * V) :=
  fold_left (fun d x => d_set (fst x) (snd x) d) b a.
Definition layer (a b : component) : component :=
  {| c_name := c_name a;
     c_foreach := match c_foreach b with [] => c_foreach a | l => l end;
     c_where := if String.eqb (c_where b) "True" then c_where a else c_where b;
     c_equations := match c_equations b with [] => c_equations a | l => l end;
     c_subs := merge_dict (c_subs a) (c_subs b);
     c_slices := merge_dict (c_slices a) (c_slices b) |}.
Fixpoint layer_in (l : list component) (b : component) : list component :=
  match l with
  | [] => [b]
  | a :: l => if String.eqb (c_name a) (c_name b) then layer a b :: l else a :: layer_in l b
  end.
Definition layer_all (l m : list component) : list component := fold_left layer_in m l.
Definition layer_file (a b : math_file) : math_file :=
  {| h_inputs := a.(h_inputs) ++ filter (fun s => negb (smem s (h_inputs a))) (h_inputs b);
     h_variables := layer_all (h_variables a) (h_variables b);
     h_expressions := layer_all (h_expressions a) (h_expressions b);
     h_constraints := layer_all (h_constraints a) (h_constraints b);
     h_objectives := layer_all (h_objectives a) (h_objectives b);
     h_post := layer_all (h_post a) (h_post b);
     h_off := h_off a ++ h_off b; h_seen := h_seen a ++ h_seen b |}.
(** preprocess/model_math.py:57-63 [get_math_priority]: "base", the mode, the extra math. *)
Definition layered (files : list math_file) : math_file := fold_left layer_file files base_file.

(** schemas/math_schema.py:444-475 [parsing_components].  Simplification: names of components
    that are switched off are those of inputs or results as for active ones. *)
Definition math_names (m : math_file) : names :=
  {| n_dims := base_dimensions; n_inputs := h_inputs m;
     n_results := filter (fun s => negb (smem s (h_inputs m))) (map c_name (h_variables m ++ h_expressions m)); n_post := h_seen m |}.
Definition math_valid (m : math_file) : list string :=
  base_dimensions ++ h_inputs m ++ map c_name (h_variables m ++ h_expressions m) ++ h_seen m.
Definition active (m : math_file) (l : list component) : list component :=
  filter (fun c => negb (smem (c_name c) (h_off m))) l.
(** The components with equations that are built, and their groups. *)
Definition equations_of (m : math_file) : list (string * component) :=
  map (pair "global_expressions") (active m (h_expressions m)) ++
  map (pair "constraints") (active m (h_constraints m)) ++
  map (pair "objectives") (active m (h_objectives m)).

(** * Data and values *)

(** The inputs and, for variables and expressions, what is built or the values under some choice
    of the decision variables.  [u_dims]: dimensions of the inputs; [u_bool]: whether an input is
    of Boolean type; [u_less]: order of cells other than numbers. *)
Record world := {
  u_dims : list string;
  u_env : denv;
  u_bool : string -> bool;
  u_less : cell -> cell -> bool }.

(** where_parser.py as in EvalModel.v, with the helper functions of HelperModel.v.  Every input of
    the math is there: those not given are a default or a missing number without dimensions
    (backend_model.py:573-595 [_add_inputs]). *)
Definition world_where (N : names) (U : world) : wenv :=
  {| w_dims := fun s => smem s (LangModel.n_dims N);
     w_inputs := fun s => smem s (n_inputs N);
     w_input := fun s => Some (a_at (n_array (u_env U) s));
     w_bool := u_bool U;
     w_default := n_default (u_env U);
     w_result := fun s => a_at (n_array (u_env U) s);
     w_config := n_config (u_env U);
     w_helper_top := where_call (present (u_env U) (u_bool U));
     w_helper_cmp := where_call (u_env U);
     w_odd := n_odd (u_env U);
     w_less := u_less U |}.
Definition world_data (N : names) (U : world) : data :=
  {| d_dims := u_dims U; d_labels := n_labels (u_env U);
     d_matrix := fun p => is_true (a_at (n_matrix (u_env U)) p);
     d_where := world_where N U; d_env := plain_env (u_env U) |}.

(** * Building with helper functions *)

(** Besides the failures of BuildModel.v: an error in a helper function or slice, and dimensions
    that are not in [foreach] (parsing.py:365-371, expression_parser.py:363-369). *)
Inductive trouble := TBuild (f : failure) | TCall (name : string) | TDims (name : string).
Inductive built (A : Type) := Built (a : A) | Broken (t : trouble).
Arguments Built {A}.
Arguments Broken {A}.
Definition lift {A} (x : outcome A) : built A := match x with Done a => Built a | Fail f => Broken (TBuild f) end.
Definition then_ {A B} (x : built A) (f : A -> built B) : built B := match x with Built a => f a | Broken t => Broken t end.

(** [EvalAttrs] of an equation (parsing.py:335-345). *)
Definition arith_of (l : list (string * parsed)) : list (string * expr) :=
  flat_map (fun x => match snd x with PArith e => [(fst x, e)] | PEq _ _ _ => [] end) l.
Definition eq_denv (D : denv) (q : peq) : denv := subs_in (slices_in D (arith_of (q_slices q))) (arith_of (q_subs q)).
Definition mask_of (sets : list string) (w : index -> bool) : dmask := {| m_dims := sets; m_at := fun p => w (map p sets) |}.

(** [evaluate_expression] parsing.py:301-350, [EvalComparisonOp.as_array]
    expression_parser.py:361-382, with all helper functions; cf. BuildModel.v. *)
Definition evaluate_all (U : world) (sets : list string) (q : peq) (w : index -> bool) : built (index -> entry) :=
  let E := eq_denv (u_env U) q in
  let m := mask_of sets w in
  match q_expr q with
  | PArith e =>
      match deval E m e with
      | Some a => if all_in (a_dims a) sets then Built (fun f => VCell (a_at a (at_index sets f))) else Broken (TDims (q_name q))
      | None => Broken (TCall (q_name q))
      end
  | PEq l c r =>
      match deval E m l, deval E m r with
      | Some a, Some b =>
          if all_in (a_dims a) sets && all_in (a_dims b) sets
          then Built (fun f => if w f then VRel (a_at a (at_index sets f)) c (a_at b (at_index sets f)) else VCell Miss)
          else Broken (TDims (q_name q))
      | _, _ => Broken (TCall (q_name q))
      end
  end.

(** [_eval_equations], backend_model.py:423-460; cf. BuildModel.v. *)
Definition add_one (N : names) (U : world) (sets : list string) (top : index -> bool) (da : index -> entry) (q : peq)
  : built (index -> entry) :=
  let D := world_data N U in
  let w := eval_where D (fun p => top (map p sets)) (q_where q) in
  if any_full D w then
    let wd := drop_dims D sets w in
    if existsb (fun f => wd f && negb (null (da f))) (indices D sets) then Broken (TBuild (FOverlap (q_name q)))
    else if keys_given q then
      then_ (evaluate_all U sets q wd) (fun v =>
        if existsb (fun f => wd f && null (v f)) (indices D sets) then Broken (TBuild (FMissing (q_name q)))
        else Built (fun f => if null (da f) then if wd f then v f else VCell Miss else da f))
    else Broken (TBuild FKey)
  else Built da.
Fixpoint add_ones (N : names) (U : world) (sets : list string) (top : index -> bool) (da : index -> entry) (qs : list peq)
  : built (index -> entry) :=
  match qs with
  | [] => Built da
  | q :: r => then_ (add_one N U sets top da q) (fun da => add_ones N U sets top da r)
  end.
(** [add_global_expression] 215-257, [add_constraint] 259-301, [add_objective] 318-360. *)
Definition build_all (order : list string -> list string) (m : math_file) (U : world) (group : string) (c : component)
  : built (index -> entry) :=
  let N := math_names m in
  then_ (lift (top_level_where (world_data N U) N c)) (fun top =>
    if existsb top (indices (world_data N U) (c_foreach c)) then
      then_ (lift (parse_equations order N (math_valid m) group c))
        (add_ones N U (c_foreach c) top (fun _ => VCell Miss))
    else Built (fun _ => VCell Miss)).
(** backend_model.py:362-405 [_add_postprocessed]: as a global expression, on the results and inputs
    together (1437), and texts may refer to postprocessed expressions. *)
Definition post_view (m : math_file) : math_file :=
  {| h_inputs := h_inputs m; h_variables := h_variables m; h_expressions := h_expressions m; h_constraints := h_constraints m;
     h_objectives := h_objectives m; h_post := h_post m; h_off := h_off m; h_seen := map c_name (h_post m) |}.
Definition build_post (order : list string -> list string) (m : math_file) (U : world) (c : component) : built (index -> entry) :=
  build_all order (post_view m) U "postprocessed" c.
