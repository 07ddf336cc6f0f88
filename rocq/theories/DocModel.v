(** Model of the documentation of math: src/calliope/backend/latex_backend_model.py:330-640, 686-782 and
    postprocess/math_documentation.py:16-41, with the parts of backend_model.py:167-404, 625-752 they use.

    A component is given by what its definition says: the group it belongs to, its name, whether it is active, whether its
    [foreach] and [where] apply anywhere for the inputs at hand, the names in its [where], and its equations.  Equations are
    given by their text, the names in them (expression and [where]) and whether they apply anywhere.  The equations of a
    variable are its two bounds (the name of the variable itself, which is part of both, is not listed); a piecewise
    constraint has one equation with the names of its four parts.  Not modelled: rendering (see C48), layout and order of the
    document, errors of evaluation (names used before they are defined). *)
From Verif Require Import Base.
Local Open Scope string_scope.
Local Open Scope list_scope.

Inductive group := GParam | GLookup | GVar | GExpr | GCons | GPiece | GObj | GPost.
Definition group_eq_dec (a b : group) : {a = b} + {a <> b}.
Proof. decide equality. Defined.
Record eqn := { q_text : string; q_refs : list string; q_anywhere : bool }.
Record comp := { c_group : group; c_name : string; c_active : bool; c_anywhere : bool; c_where : list string; c_eqs : list eqn }.
(** latex_backend_model.py:349-352, the setting [include]. *)
Inductive include := All | Valid.

(** schemas/math_schema.py:445-473 [parsing_components], names allowed in expressions (dimensions left out). *)
Definition is_array (g : group) : bool := match g with GParam | GLookup | GVar | GExpr => true | _ => false end.
Definition allowed (math : list comp) : list string := map c_name (filter (fun c => is_array (c_group c) && c_active c) math).

(** [_dataset] (name, group and the attribute [references]) and [math_strings] ([None]: the empty text). *)
Record st := { ds : list (string * (group * list string)); strings : list ((group * string) * option (list string)) }.

(** backend_model.py:740-752 [_update_references]: names that are not in the dataset are skipped. *)
Definition note (name : string) (d : list (string * (group * list string))) (reference : string) :=
  match d_get reference d with Some (g, l) => d_set reference (g, name :: l) d | None => d end.
Definition update_references (name : string) (references : list string) d := fold_left (note name) references d.
(** backend_model.py:705-739 [_add_to_dataset]. *)
Definition add_to_dataset (c : comp) (references : list string) (s : st) : st :=
  {| ds := update_references (c_name c) references (d_set (c_name c) (c_group c, []) (ds s)); strings := strings s |}.
Definition set_string (c : comp) (x : option (list string)) (s : st) : st :=
  {| ds := ds s; strings := ((c_group c, c_name c), x) :: strings s |}.
(** latex_backend_model.py:686-714 [_generate_math_string]; [any]: some entry of the array is true. *)
Definition generate (inc : include) (c : comp) (any : bool) (equations : list eqn) (s : st) : st :=
  set_string c (if match inc with All => true | Valid => any && c_active c end then Some (map q_text equations) else None) s.

(** Python's [set.difference(name)] with a text: the text is taken as the set of its characters. *)
Fixpoint letters (s : string) : list string := match s with EmptyString => [] | String a r => String a "" :: letters r end.
Definition difference (l : list string) (name : string) : list string := filter (fun x => negb (smem x (letters name))) l.

(** latex_backend_model.py:456-480 [add_variable] and backend_model.py:167-213: a variable that is not active is kept as an
    empty array if no active array has its name; [_get_variable_bounds_string] 752-775 parses both bounds, which fails for
    names that are not allowed in expressions. *)
Definition add_variable (inc : include) (ok : list string) (c : comp) (s : st) : result st :=
  if negb (c_active c) && smem (c_name c) ok then Ok s
  else
    let s := add_to_dataset c (if c_active c then c_where c else []) s in
    let bound_refs := c_name c :: flat_map q_refs (c_eqs c) in
    if forallb (fun n => smem n ok) bound_refs then
      let s := {| ds := update_references (c_name c) (difference bound_refs (c_name c)) (ds s); strings := strings s |} in
      Ok (generate inc c (c_active c && c_anywhere c) (c_eqs c) s)
    else Err EModel.
(** latex_backend_model.py:391-440 [add_piecewise_constraint]: does not look at [active]. *)
Definition add_piecewise (inc : include) (c : comp) (s : st) : st :=
  generate inc c (c_anywhere c) (c_eqs c) (add_to_dataset c (c_where c ++ flat_map q_refs (c_eqs c)) s).
(** latex_backend_model.py:380-389, 442-454, 482-523, 642-684 ([_eval_equations]) and backend_model.py:215-302, 318-404: global
    expressions, constraints, objectives and postprocessed arrays.  If nothing applies, no equation is evaluated. *)
Definition add_equations (inc : include) (c : comp) (s : st) : st :=
  if c_active c then
    let references := c_where c ++ if c_anywhere c then flat_map q_refs (c_eqs c) else [] in
    let equations := if c_anywhere c then filter (fun q => match inc with All => true | Valid => q_anywhere q end) (c_eqs c) else [] in
    generate inc c (c_anywhere c && existsb q_anywhere (c_eqs c)) equations (add_to_dataset c references s)
  else s.
(** latex_backend_model.py:358-378 and backend_model.py:651-671: inputs that are not active are skipped. *)
Definition add_input (c : comp) (s : st) : st := if c_active c then add_to_dataset c [] s else s.
Definition add (inc : include) (ok : list string) (s : result st) (c : comp) : result st :=
  bind s (fun s => match c_group c with
    | GParam | GLookup => Ok (add_input c s)
    | GVar => add_variable inc ok c s
    | GPiece => Ok (add_piecewise inc c s)
    | _ => Ok (add_equations inc c s)
    end).
(** math_documentation.py:33-38 and backend_model.py:625-641, preprocess/model_math.py:20-26: inputs, then variables, global
    expressions, constraints, piecewise constraints, objectives and postprocessed arrays (each sorted by [order] before). *)
Definition of_group (g : group) (math : list comp) : list comp := filter (fun c => if group_eq_dec (c_group c) g then true else false) math.
Definition ordered (math : list comp) : list comp :=
  flat_map (fun g => of_group g math) [GParam; GLookup; GVar; GExpr; GCons; GPiece; GObj; GPost].
Definition build (inc : include) (math : list comp) : result st :=
  fold_left (add inc (allowed math)) (ordered math) (Ok {| ds := []; strings := [] |}).

(** An entry of the document: heading, equations and both lists of cross references. *)
Record entry := { e_group : group; e_name : string; e_text : option (list string); e_used_in : list string; e_uses : list string }.
Fixpoint string_of (g : group) (n : string) (l : list ((group * string) * option (list string))) : option (list string) :=
  match l with
  | [] => None
  | ((g', n'), x) :: r => if group_eq_dec g g' then if String.eqb n n' then x else string_of g n r else string_of g n r
  end.
(** latex_backend_model.py:566-628 [generate_math_doc]; order of entries and names not modelled, nor the words "(active)" and
    "(inactive)" behind the names of objectives. *)
Definition uses (s : st) (name : string) : list string :=
  map fst (filter (fun x => smem name (snd (snd x))) (ds s)).
Definition without (n : string) (l : list string) : list string := filter (fun x => negb (String.eqb x n)) l.
Definition entries (s : st) : list entry :=
  flat_map (fun x : string * (group * list string) => let (n, gl) := x in let (g, l) := gl in
    let t := string_of g n (strings s) in
    if match t with Some _ => true | None => match g, l with GParam, _ :: _ | GLookup, _ :: _ => true | _, _ => false end end
    then [{| e_group := g; e_name := n; e_text := t; e_used_in := without n l; e_uses := without n (uses s n) |}] else []) (ds s).
Definition document (inc : include) (math : list comp) : result (list entry) :=
  bind (build inc math) (fun s => Ok (entries s)).
