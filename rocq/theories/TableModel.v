(** Model of data tables: src/calliope/preprocess/data_tables.py and what
    src/calliope/preprocess/model_data.py:153-192 makes of them. *)
From Verif Require Import Base AttrDictModel NodeModel DataModel.
From Verif Require CliModel.
Local Open Scope string_scope.
Local Open Scope list_scope.

(** A pandas data frame: names of the levels of rows and columns ([None]: no name, or a number), the
    labels of the columns, and for every row its labels and entries.  Labels are texts.  *)
Record frame := {
  f_rows : list (option string); f_cols : list (option string);
  f_header : list (list string); f_body : list (list string * list cell) }.

(** schemas/data_table_schema.py:17-64 [CalliopeDataTable], with [listify] applied; an absent "select",
    "drop", "add_dims" or "rename_dims" does what an empty one does. *)
Record table := {
  t_rows : option (list string); t_cols : option (list string);
  t_select : list (string * list string); t_drop : list string;
  t_add : list (string * list string); t_rename : list (string * string) }.
Definition listed (o : option (list string)) : list string := match o with Some l => l | None => [] end.
Definition minus (a b : list string) : list string := filter (fun x => negb (smem x b)) a.

(** schemas/data_table_schema.py:66-86 [check_row_and_columns]. *)
Definition table_valid (t : table) : bool :=
  let rows := minus (listed (t_rows t)) (t_drop t) in
  let cols := minus (listed (t_cols t)) (t_drop t) in
  negb (match rows ++ cols with [] => true | _ => false end) &&
  negb (existsb (fun d => smem d cols) rows) &&
  negb (existsb (fun a => smem (fst a) (rows ++ cols)) (t_add t)) &&
  forallb (fun r => smem (snd r) (rows ++ cols)) (t_rename t).

(** data_tables.py:393-413 [_compare_axis_names]: names that are given must be the defined ones. *)
Fixpoint names_fit (loaded : list (option string)) (defined : list string) : bool :=
  match loaded, defined with
  | Some a :: r, d :: s => String.eqb a d && names_fit r s
  | None :: r, _ :: s => names_fit r s
  | _, _ => true
  end.
Definition renamed (mapper : list (string * string)) (n : option string) : option string :=
  match n with Some s => match d_get s mapper with Some s' => Some s' | None => Some s end | None => None end.

(** data_tables.py:307-328 [_rename_axes] and 261-265.  The names of the levels are changed in place: they are
    returned also if an error is raised. *)
Definition name_axis (mapper : list (string * string)) (loaded : list (option string)) (names : option (list string)) : list (option string) * result unit :=
  match names with
  | None => (loaded, if Nat.eqb (List.length loaded) 1 then Ok tt else Err EModel)
  | Some ds =>
      if negb (Nat.eqb (List.length loaded) (List.length ds)) then (loaded, Err EModel)
      else let l := map (renamed mapper) loaded in
           if names_fit l ds then (map Some ds, Ok tt) else (l, Err EModel)
  end.
(** data_tables.py:253-265: columns first. *)
Definition name_levels (t : table) (f : frame) : frame * result unit :=
  let c := name_axis (t_rename t) (f_cols f) (t_cols t) in
  let f1 := {| f_rows := f_rows f; f_cols := fst c; f_header := f_header f; f_body := f_body f |} in
  match snd c with
  | Err e => (f1, Err e)
  | Ok _ =>
      let r := name_axis (t_rename t) (f_rows f) (t_rows t) in
      ({| f_rows := fst r; f_cols := fst c; f_header := f_header f; f_body := f_body f |}, snd r)
  end.

(** A series with an index of several levels ("tidy" table). *)
Record series := { s_names : list (option string); s_entries : list (list string * cell) }.
Definition one {A} (l : list A) : bool := Nat.eqb (List.length l) 1.
Fixpoint twice (l : list (list string)) : bool :=
  match l with [] => false | x :: r => existsb (fun y => if list_eq_dec string_dec x y then true else false) r || twice r end.

(** data_tables.py:267-274: a table without column (row) dimensions and with a single column (row) is squeezed;
    otherwise the columns are stacked under the rows and missing entries dropped.  Stacking refuses
    repeated columns. *)
Definition tidy (t : table) (f : frame) : result series :=
  match t_cols t, t_rows t with
  | None, _ =>
      if one (f_header f) then Ok {| s_names := f_rows f; s_entries := map (fun r => (fst r, hd NaN (snd r))) (f_body f) |}
      else if twice (f_header f) then Err EValue
      else Ok {| s_names := f_rows f ++ f_cols f; s_entries := filter (fun e => negb (is_nan (snd e))) (flat_map (fun r => map (fun hc => (fst r ++ fst hc, snd hc)) (combine (f_header f) (snd r))) (f_body f)) |}
  | Some _, None =>
      if one (f_body f) then Ok {| s_names := f_cols f; s_entries := match f_body f with r :: _ => combine (f_header f) (snd r) | [] => [] end |}
      else if twice (f_header f) then Err EValue
      else Ok {| s_names := f_rows f ++ f_cols f; s_entries := filter (fun e => negb (is_nan (snd e))) (flat_map (fun r => map (fun hc => (fst r ++ fst hc, snd hc)) (combine (f_header f) (snd r))) (f_body f)) |}
  | Some _, Some _ =>
      if twice (f_header f) then Err EValue
      else Ok {| s_names := f_rows f ++ f_cols f; s_entries := filter (fun e => negb (is_nan (snd e))) (flat_map (fun r => map (fun hc => (fst r ++ fst hc, snd hc)) (combine (f_header f) (snd r))) (f_body f)) |}
  end.

(** data_tables.py:276-285: labels wanted per level; a dimension that is no level is passed over.  [strict]: whether
    pandas refuses labels that are not there (it does for plain indices).  The order of the
    entries is not kept track of. *)
Definition wanted (sel : list (string * list string)) (n : option string) (l : string) : bool :=
  match n with Some d => match d_get d sel with Some ls => smem l ls | None => true end | None => true end.
Definition present (strict : bool) (sel : list (string * list string)) (s : series) : bool :=
  negb strict || forallb (fun k => match nth k (s_names s) None with
    | Some d => match d_get d sel with
      | Some ls => forallb (fun l => existsb (fun e => String.eqb (nth k (fst e) "") l) (s_entries s)) ls
      | None => true end
    | None => true end) (seq 0 (List.length (s_names s))).
Definition select_labels (strict : bool) (sel : list (string * list string)) (s : series) : result series :=
  if present strict sel s
  then Ok {| s_names := s_names s; s_entries := filter (fun e => forallb (fun nl => wanted sel (fst nl) (snd nl)) (combine (s_names s) (fst e))) (s_entries s) |}
  else Err EKey.

(** data_tables.py:287-288 [droplevel]: the levels must be there once and one must remain. *)
Definition named (d : string) (n : option string) : bool := match n with Some s => String.eqb s d | None => false end.
Definition dropped (ds : list string) (n : option string) : bool := match n with Some s => smem s ds | None => false end.
Definition drop_levels (ds : list string) (s : series) : result series :=
  match ds with
  | [] => Ok s
  | _ =>
      if existsb (fun d => negb (existsb (named d) (s_names s))) ds then Err EKey
      else if existsb (fun d => negb (one (filter (named d) (s_names s)))) ds then Err EValue
      else if forallb (dropped ds) (s_names s) then Err EValue
      else Ok {| s_names := filter (fun n => negb (dropped ds n)) (s_names s);
                 s_entries := map (fun e => (map snd (filter (fun nl => negb (dropped ds (fst nl))) (combine (s_names s) (fst e))), snd e)) (s_entries s) |}
  end.

(** data_tables.py:290-295: one copy for each item, with a new first level. *)
Fixpoint add_levels (adds : list (string * list string)) (s : series) : result series :=
  match adds with
  | [] => Ok s
  | (d, items) :: r =>
      match items with
      | [] => Err EValue
      | _ => add_levels r {| s_names := Some d :: s_names s; s_entries := flat_map (fun i => map (fun e => (i :: fst e, snd e)) (s_entries s)) items |}
      end
  end.

(** data_tables.py:347-361 [_check_processed_tdf] and 330-345 [_check_for_protected_params]; config/protected_parameters.yaml. *)
Definition protected_names : list string := ["active"; "definition_matrix"; "template"; "templates"].
Fixpoint twice_names (l : list (option string)) : bool :=
  match l with [] => false | x :: r => existsb (fun y => match x, y with Some a, Some b => String.eqb a b | None, None => true | _, _ => false end) r || twice_names r end.
Fixpoint level_of (d : string) (l : list (option string)) : nat :=
  match l with [] => 0 | n :: r => if named d n then 0 else S (level_of d r) end.
Definition checked (s : series) : result series :=
  if negb (existsb (named "inputs") (s_names s)) then Err EModel
  else if twice (map fst (s_entries s)) then Err EModel
  else if twice_names (s_names s) then Err EModel
  else if existsb (fun e => smem (nth (level_of "inputs" (s_names s)) (fst e) "") protected_names) (s_entries s) then Err EModel
  else Ok s.

(** data_tables.py:299-302: [unstack("inputs")] and [to_xarray()].  xarray calls unnamed levels "level_i", a
    single one "index".  Coordinates are listed in order of appearance (the code sorts them).  All
    arrays get all dimensions. *)
Definition without {A} (k : nat) (l : list A) : list A := firstn k l ++ skipn (S k) l.
Definition dim_name (single : bool) (k : nat) (n : option string) : string :=
  match n with Some s => s | None => if single then "index" else "level_" ++ CliModel.str k end.
Definition dims_left (s : series) : list string :=
  let l := without (level_of "inputs" (s_names s)) (s_names s) in
  map (fun kn => dim_name (one l) (fst kn) (snd kn)) (combine (seq 0 (List.length l)) l).
Definition found (i : string) (ls : list string) (s : series) : cell :=
  let k := level_of "inputs" (s_names s) in
  match find (fun e => String.eqb (nth k (fst e) "") i && if list_eq_dec string_dec (without k (fst e)) ls then true else false) (s_entries s) with
  | Some e => snd e
  | None => NaN
  end.
Definition is_bool (c : cell) : bool := match c with Bo _ => true | _ => false end.
Definition to_dataset (s : series) : dset :=
  let k := level_of "inputs" (s_names s) in
  let dims := dims_left s in
  {| coords := map (fun jd => (snd jd, nodup string_dec (map (fun e => nth (fst jd) (without k (fst e)) "") (s_entries s)))) (combine (seq 0 (List.length dims)) dims);
     vars := map (fun i => (i, {| a_dims := dims; a_bool := forallb (fun e => is_bool (snd e)) (filter (fun e => String.eqb (nth k (fst e) "") i) (s_entries s));
                                  a_at := fun p => found i (map p dims) s |}))
                 (nodup string_dec (map (fun e => nth k (fst e) "") (s_entries s))) |}.

(** data_tables.py:236-305 [_df_to_ds].  The first part of the result is the frame as the caller finds it afterwards. *)
Definition load (strict : bool) (t : table) (f : frame) : frame * result dset :=
  let r := name_levels t f in
  (fst r, bind (snd r) (fun _ => bind (tidy t (fst r)) (fun s => bind (select_labels strict (t_select t) s) (fun s =>
          bind (drop_levels (t_drop t) s) (fun s => bind (add_levels (t_add t) s) (fun s => bind (checked s) (fun s => Ok (to_dataset s)))))))).

(** model.py:137-140: the tables of a model, one after the other; [dfs] are the frames given by the caller, by name.
    (Tables in files are frames that nobody else holds.) *)
Fixpoint load_all (strict : bool) (ts : list (string * (string * table))) (dfs : list (string * frame)) : list (string * frame) * result (list (string * dset)) :=
  match ts with
  | [] => (dfs, Ok [])
  | (n, (df, t)) :: r =>
      match d_get df dfs with
      | None => (dfs, Err EKey)
      | Some f =>
          let l := load strict t f in
          let dfs := d_set df (fst l) dfs in
          match snd l with
          | Err e => (dfs, Err e)
          | Ok ds => let x := load_all strict r dfs in (fst x, bind (snd x) (fun o => Ok ((n, ds) :: o)))
          end
      end
  end.

(** data_tables.py:76-93 [tech_dict].  Simplification: "base_tech", "link_to" and "link_from" are over the
    technologies only ([EType] otherwise; the code makes dictionaries with tuples as keys). *)
Definition yaml_params : list string := ["base_tech"; "link_to"; "link_from"].
Definition val_of (c : cell) : val := match c with NaN => VNone | Bo b => VBool b | Num z => VInt z | Str s => VStr s end.
Definition at_tech (t : string) : pos := upd origin "techs" t.
Fixpoint base_data (ps : list string) (ds : dset) (acc : dict) : result dict :=
  match ps with
  | [] => Ok acc
  | p :: r =>
      match d_get p (vars ds) with
      | None => base_data r ds acc
      | Some a =>
          if list_eq_dec string_dec (a_dims a) ["techs"] then
            bind (to_result (union false acc (map (fun t => (t, VDict [(p, val_of (a_at a (at_tech t)))]))
              (filter (fun t => negb (is_nan (a_at a (at_tech t)))) (members ds "techs"))))) (base_data r ds)
          else Err EType
      end
  end.
Definition tech_dict (ds : dset) : result (dict * dict) :=
  bind (base_data yaml_params ds []) (fun b => Ok (map (fun t => (t, VDict [])) (members ds "techs"), b)).

(** data_tables.py:95-138 [node_dict]: technologies with any data at a node. *)
Definition over_node_techs (nv : string * array) : bool := smem "nodes" (a_dims (snd nv)) && smem "techs" (a_dims (snd nv)).
Definition at_node (n t : string) : pos := upd (at_tech t) "nodes" n.
Definition has_data (ds : dset) (n t : string) : bool :=
  existsb (fun nv => any_over ds (filter (fun d => negb (smem d ["nodes"; "techs"])) (a_dims (snd nv))) (fun p => negb (is_nan (a_at (snd nv) p))) (at_node n t))
    (filter over_node_techs (vars ds)).
(** [links]: the technologies that are transmission after inheritance; an unknown one is a [KeyError]. *)
Definition node_dict (techs links : list string) (ds : dset) : result dict :=
  if negb (existsb over_node_techs (vars ds)) then Ok []
  else
    (fix go (ns : list string) : result dict :=
       match ns with
       | [] => Ok []
       | n :: r =>
           let here := filter (has_data ds n) (members ds "techs") in
           if existsb (fun t => negb (smem t techs)) here then Err EKey
           else if existsb (fun t => smem t links) here then Err EModel
           else bind (go r) (fun o => Ok ((n, VDict [("techs", VDict (map (fun t => (t, VNone)) here))]) :: o))
       end) (members ds "nodes").

(** data_tables.py:140-213 [lookup_dict_from_param]: for each technology the labels along the dimension [dim] at which any
    entry is given, whatever it is; a single one is not put in a list.  Simplification: the code sorts the labels. *)
Definition lookup_dict (param dim : string) (ds : dset) : result dict :=
  match d_get param (vars ds) with
  | None => Ok []
  | Some a =>
      if negb (smem "techs" (a_dims a)) || negb (smem dim (a_dims a)) then Err EModel
      else Ok (flat_map (fun t =>
        let ls := filter (fun l => any_over ds (filter (fun d => negb (smem d ["techs"; dim])) (a_dims a)) (fun p => negb (is_nan (a_at a p))) (upd (at_tech t) dim l)) (members ds dim) in
        match ls with
        | [] => []
        | [l] => [(t, VDict [(param, VStr l)])]
        | _ => [(t, VDict [(param, VList (map VStr ls))])]
        end) (members ds "techs"))
  end.

(** model_data.py:153-180 [init_from_data_tables] up to the dataset: technologies, what the tables say about them, nodes, and the
    tables without the lookup arrays.  [lookups]: the lookup arrays with "pivot_values_to_dim" and the dimension. *)
Fixpoint tables_techs (tables : list (string * dset)) (techs data : dict) : result (dict * dict) :=
  match tables with
  | [] => Ok (techs, data)
  | (_, ds) :: r =>
      bind (tech_dict ds) (fun td =>
      bind (to_result (union true (fst td) techs)) (fun techs =>
      bind (to_result (union false data (snd td))) (fun data => tables_techs r techs data)))
  end.
Fixpoint table_lookups (lookups : list (string * string)) (ds : dset) (data : dict) : result (dset * dict) :=
  match lookups with
  | [] => Ok (ds, data)
  | (param, dim) :: r =>
      bind (lookup_dict param dim ds) (fun l =>
      bind (to_result (union false data l)) (fun data => table_lookups r {| coords := coords ds; vars := d_del param (vars ds) |} data))
  end.
Fixpoint tables_nodes (lookups : list (string * string)) (techs links : list string) (tables : list (string * dset)) (nodes data : dict) : result (dict * dict * list (string * dset)) :=
  match tables with
  | [] => Ok (nodes, data, [])
  | (n, ds) :: r =>
      bind (node_dict techs links ds) (fun nd =>
      bind (to_result (union true nd nodes)) (fun nodes =>
      bind (table_lookups lookups ds data) (fun x =>
      bind (tables_nodes lookups techs links r nodes (snd x)) (fun y => Ok (fst (fst y), snd (fst y), (n, fst x) :: snd y)))))
  end.
Definition from_tables (lookups : list (string * string)) (techs nodes : dict) (tables : list (string * dset)) : result (dict * dict * dict * list (string * dset)) :=
  bind (tables_techs tables techs []) (fun td =>
  bind (inherit_techs (fst td) (snd td) (fst td)) (fun inh =>
  let known := fst inh in
  bind (tables_nodes lookups (map fst known) (map fst (filter (fun nd => is_link (snd nd)) known)) tables nodes (snd td)) (fun y =>
  Ok (fst td, fst (fst y), snd (fst y), snd y)))).
