(** Model of how the settings of the model definition become arrays:
    src/calliope/preprocess/model_data.py:193-282, 284-422, 720-780. *)
From Verif Require Import Base AttrDictModel NodeModel DataModel TableModel.
Local Open Scope string_scope.
Local Open Scope list_scope.

(** util/tools.py:31-49 [listify]. *)
Definition listify (v : val) : list val :=
  match v with VNone => [] | VList l => l | VDict d => map (fun kv => VStr (fst kv)) d | _ => [v] end.

(** Labels are texts (simplification: labels of other types are an error). *)
Definition text_of (v : val) : result string := match v with VStr s => Ok s | _ => Err EType end.
Fixpoint each {A B} (f : A -> result B) (l : list A) : result (list B) :=
  match l with [] => Ok [] | x :: r => bind (f x) (fun y => bind (each f r) (fun ys => Ok (y :: ys))) end.
Definition texts_of (v : val) : result (list string) := each text_of (listify v).

(** The [ValidatedInput] dictionary, model_data.py:35-44. *)
Record validated := { v_data : val; v_index : list (list string); v_dims : list string }.

(** model_data.py:378-422 [_prepare_input_data_dict].  [lookups] gives the dimension of every lookup with
    [pivot_values_to_dim]; [broadcast] is [config.broadcast_input_data]. *)
Definition unindexed (raw : val) : result validated :=
  match raw with
  | VList _ => Err EValue
  | _ => Ok {| v_data := raw; v_index := [[]]; v_dims := [] |}
  end.
Definition prepare (lookups : list (string * string)) (broadcast : bool) (name : string) (raw : val) : result validated :=
  match raw with
  | VDict d =>
      match d_get "data" d, d_get "index" d with
      | Some data, Some index =>
          bind (each texts_of (listify index)) (fun items =>
          if negb broadcast && negb (Nat.eqb (List.length (listify data)) (List.length items)) then Err EModel
          else match d_get "dims" d with
               | Some dims => bind (texts_of dims) (fun ds => Ok {| v_data := data; v_index := items; v_dims := ds |})
               | None => Err EKey
               end)
      | _, _ => Err EKey
      end
  | VNone => unindexed raw
  | _ =>
      match d_get name lookups with
      | Some dim => bind (texts_of raw) (fun ls => Ok {| v_data := VBool true; v_index := map (fun l => [l]) ls; v_dims := [dim] |})
      | None => unindexed raw
      end
  end.

(** model_data.py:362-365: the item of the definition dictionary becomes the first label. *)
Definition inject (dim item : string) (v : validated) : validated :=
  {| v_data := v_data v; v_index := map (cons item) (v_index v); v_dims := dim :: v_dims v |}.

(** model_data.py:316-340 [_input_data_dict_to_array].  One entry for all labels, or a list with one for each
    ([pandas.Series]).  Labels must be as many as there are dimensions, and neither index items nor
    dimensions may be repeated.  Simplifications: these are all the same exception, and entries that are
    lists or dictionaries are refused here. *)
Definition cell_of (v : val) : result cell :=
  match v with
  | VNone => Ok NaN | VBool b => Ok (Bo b) | VInt z => Ok (Num z) | VStr s => Ok (Str s)
  | VList _ | VDict _ => Err EType
  end.
Definition data_list (data : val) (n : nat) : result (list cell) :=
  match data with
  | VList l => if Nat.eqb (List.length l) n then each cell_of l else Err EValue
  | _ => bind (cell_of data) (fun c => Ok (repeat c n))
  end.
Fixpoint repeated (l : list string) : bool :=
  match l with [] => false | x :: r => smem x r || repeated r end.
Definition lookup_entry (ls : list string) (entries : list (list string * cell)) : cell :=
  match find (fun e => if list_eq_dec string_dec (fst e) ls then true else false) entries with
  | Some e => snd e
  | None => NaN
  end.
Definition to_array (name : string) (v : validated) : result dset :=
  match v_dims v with
  | [] => bind (cell_of (v_data v)) (fun c => Ok {| coords := []; vars := [(name, {| a_dims := []; a_bool := is_bool c; a_at := fun _ => c |})] |})
  | _ =>
      bind (data_list (v_data v) (List.length (v_index v))) (fun cs =>
      if negb (forallb (fun i => Nat.eqb (List.length i) (List.length (v_dims v))) (v_index v)) then Err EValue
      else if twice (v_index v) then Err EValue
      else if repeated (v_dims v) then Err EValue
      else Ok {| coords := map (fun jd => (snd jd, nodup string_dec (map (fun i => nth (fst jd) i "") (v_index v))))
                               (combine (seq 0 (List.length (v_dims v))) (v_dims v));
                 vars := [(name, {| a_dims := v_dims v; a_bool := forallb is_bool cs;
                                    a_at := fun p => lookup_entry (map p (v_dims v)) (combine (v_index v) cs) |})] |})
  end.

Definition no_data : dset := {| coords := []; vars := [] |}.

(** model_data.py:342-376 [_definition_dict_to_ds].  [xr.combine_by_coords] and [xr.merge] fill missing entries of one
    array by those of the other and join the dimensions; entries never clash, as those of one name are
    for different items. *)
Fixpoint add_settings (lookups : list (string * string)) (bc : bool) (dim item : string) (settings : dict) (ds : dset) : result dset :=
  match settings with
  | [] => Ok ds
  | (name, raw) :: r =>
      bind (prepare lookups bc name raw) (fun v =>
      bind (to_array name (inject dim item v)) (fun a =>
      add_settings lookups bc dim item r (add_to_dataset a ds)))
  end.
Fixpoint definition_ds (lookups : list (string * string)) (bc : bool) (dim : string) (items : list (string * dict)) (ds : dset) : result dset :=
  match items with
  | [] => Ok ds
  | (item, settings) :: r =>
      bind (add_settings lookups bc dim item settings ds) (definition_ds lookups bc dim r)
  end.

(** model_data.py:284-314 [_get_relevant_node_refs]: its result. *)
Definition node_refs (items : dict) : list string :=
  flat_map (fun ni => match snd ni with VDict d => if active d then map fst d else [] | _ => [] end) items.

(** model_data.py:234-242: the node becomes a coordinate and a dimension of some arrays.  Assigning the scalar coordinate
    fails if the settings have a dimension "nodes" of their own. *)
Definition over_nodes (n : string) (refs : list string) (ds : dset) : result dset :=
  if d_mem "nodes" (coords ds) then Err EValue
  else if forallb (fun r => d_mem r (vars ds)) refs
  then Ok {| coords := ("nodes", [n]) :: coords ds;
             vars := map (fun na => if smem (fst na) (refs ++ ["carrier_in"; "carrier_out"])
                           then (fst na, {| a_dims := "nodes" :: a_dims (snd na); a_bool := a_bool (snd na); a_at := a_at (snd na) |})
                           else na) (vars ds) |}
  else Err EKey.

(** model_data.py:205-245, one node.  [links] is the result of [_links_to_node_format].  (The schema checks of 218-223
    are not repeated here.) *)
Definition dicts_in (d : dict) : list (string * dict) :=
  flat_map (fun kv => match snd kv with VDict x => [(fst kv, x)] | _ => [] end) d.
Definition items_at (node : dict) : result dict :=
  match d_get "techs" node with None => Err EKey | Some v => as_dict v end.
Definition links_at (n : string) (links : dict) : dict :=
  match d_get n links with Some (VDict l) => l | _ => [] end.
Definition node_techs (techs tables links : dict) (n : string) (node : dict) : result (list string * list (string * dict)) :=
  bind (items_at node) (fun items =>
  bind (techs_at_node techs tables items (links_at n links)) (fun ts =>
  Ok (node_refs items, dicts_in ts))).
Definition node_block (lookups : list (string * string)) (bc : bool) (n : string) (rt : list string * list (string * dict)) : result dset :=
  bind (definition_ds lookups bc "techs" (snd rt) no_data) (over_nodes n (fst rt)).

(** model_data.py:247-253 [xr.combine_nested] along "nodes" with [data_vars="minimal"]: an array that is over nodes in
    one block is put together from all nodes; the others are merged, an entry being that of the
    first node that has one (simplification: the code raises an error if two of them differ). *)
Fixpoint union_of {A} (f : A -> list string) (l : list A) : list string :=
  match l with [] => [] | x :: r => join (f x) (union_of f r) end.
Fixpoint first_entry (name : string) (p : pos) (blocks : list (string * dset)) : cell :=
  match blocks with
  | [] => NaN
  | (_, b) :: r => let c := read b name p in if is_nan c then first_entry name p r else c
  end.
Definition spread (blocks : list (string * dset)) (name : string) : bool :=
  existsb (fun nb => smem "nodes" (dims_of (snd nb) name)) blocks.
Definition combine_nodes (blocks : list (string * dset)) : dset :=
  {| coords := map (fun d => (d, union_of (fun nb => members (snd nb) d) blocks)) (union_of (fun nb => map fst (coords (snd nb))) blocks);
     vars := map (fun name =>
       (name, {| a_dims := union_of (fun nb => dims_of (snd nb) name) blocks;
                 a_bool := forallb (fun nb => bool_of (snd nb) name) blocks;
                 a_at := fun p => if spread blocks name
                                  then match d_get (p "nodes") blocks with Some b => read b name p | None => NaN end
                                  else first_entry name p blocks |}))
       (union_of (fun nb => map fst (vars (snd nb))) blocks) |}.

(** model_data.py:193-252 [add_node_tech_data], up to the call of [_add_to_dataset].  [table_nodes] are the nodes of the
    data tables, as in [add_link].  Simplification: settings of nodes and of technologies
    with the same name are refused ([xr.merge] refuses them if they disagree). *)
Fixpoint each_named {A B} (f : string -> A -> result B) (l : list (string * A)) : result (list (string * B)) :=
  match l with
  | [] => Ok []
  | (n, x) :: r => bind (f n x) (fun y => bind (each_named f r) (fun ys => Ok ((n, y) :: ys)))
  end.
Definition definitions (techs tables nodes : dict) (table_nodes : list string)
    : result (list (string * dict) * list (string * (list string * list (string * dict)))) :=
  bind (inherit_nodes nodes) (fun ns =>
  bind (links_to_nodes techs tables (map fst (fst ns) ++ table_nodes)) (fun links =>
  bind (each_named (node_techs techs tables links) (fst ns)) (fun rts =>
  Ok (map (fun nd => (fst nd, d_del "techs" (snd nd))) (fst ns), rts)))).
Definition arrays (lookups : list (string * string)) (bc : bool)
    (defs : list (string * dict) * list (string * (list string * list (string * dict)))) : result dset :=
  bind (each_named (node_block lookups bc) (snd defs)) (fun blocks =>
  bind (definition_ds lookups bc "nodes" (fst defs) no_data) (fun nds =>
  if existsb (fun nv => d_mem (fst nv) (vars (combine_nodes blocks))) (vars nds) then Err EValue
  else Ok (add_to_dataset nds (combine_nodes blocks)))).
Definition add_node_tech_data (lookups : list (string * string)) (bc : bool) (techs tables nodes : dict) (table_nodes : list string) : result dset :=
  bind (definitions techs tables nodes table_nodes) (arrays lookups bc).

(** model_data.py:254-282 [add_top_level_data_definitions]; the warnings are left out. *)
Fixpoint add_data_definitions (lookups : list (string * string)) (bc : bool) (settings : dict) (ds : dset) : result dset :=
  match settings with
  | [] => Ok ds
  | (name, raw) :: r =>
      bind (prepare lookups bc name raw) (fun v =>
      bind (to_array name v) (fun a =>
      add_data_definitions lookups bc r (add_to_dataset a ds)))
  end.

(** model_data.py:720-740 [add_colors]. *)
Fixpoint index_of (t : string) (l : list string) : nat :=
  match l with [] => 0 | x :: r => if String.eqb t x then 0 else S (index_of t r) end.
Definition fill (name : string) (a : array) (ds : dset) : dset :=
  match d_get name (vars ds) with
  | None => {| coords := coords ds; vars := vars ds ++ [(name, a)] |}
  | Some o => {| coords := coords ds;
                 vars := d_set name {| a_dims := join (a_dims o) (a_dims a); a_bool := a_bool o && a_bool a;
                                       a_at := fun p => if is_nan (a_at o p) then a_at a p else a_at o p |} (vars ds) |}
  end.
Definition add_colors (palette : list string) (ds : dset) : dset :=
  let techs := members ds "techs" in
  fill "color" {| a_dims := ["techs"]; a_bool := false;
                  a_at := fun p => Str (nth (Nat.modulo (index_of (p "techs") techs) (List.length palette)) palette "") |} ds.

(** model_data.py:742-780 [add_link_distances] and 847-864 [_get_distance].  [geodesic] is the distance in metres between two
    points, which are given by the entries of latitude and longitude.  The unpacking in 760 needs
    exactly two nodes.  [thousandth] is the division of 764. *)
Definition nodes_of (ds : dset) (t : string) : list string :=
  filter (fun n => any_over ds ["carriers"] (fun i => match read ds "definition_matrix" i with Bo b => b | _ => false end)
                     (upd (upd origin "nodes" n) "techs" t)) (members ds "nodes").
Definition transmission (ds : dset) (t : string) : bool :=
  match read ds "base_tech" (upd origin "techs" t) with Str s => String.eqb s "transmission" | _ => false end.
Definition at_node (ds : dset) (name n : string) : cell := read ds name (upd origin "nodes" n).
Fixpoint link_distances (geodesic : cell -> cell -> cell -> cell -> cell) (ds : dset) (techs : list string) : result (list (string * cell)) :=
  match techs with
  | [] => Ok []
  | t :: r =>
      if transmission ds t then
        match nodes_of ds t with
        | [a; b] => bind (link_distances geodesic ds r) (fun l =>
            Ok ((t, geodesic (at_node ds "latitude" a) (at_node ds "longitude" a) (at_node ds "latitude" b) (at_node ds "longitude" b)) :: l))
        | _ => Err EValue
        end
      else link_distances geodesic ds r
  end.
Definition add_link_distances (geodesic : cell -> cell -> cell -> cell -> cell) (thousandth : cell -> cell) (km : bool) (ds : dset) : result dset :=
  if d_mem "latitude" (vars ds) && d_mem "longitude" (vars ds) && existsb (transmission ds) (members ds "techs") then
    bind (link_distances geodesic ds (members ds "techs")) (fun l =>
    Ok (fill "distance" {| a_dims := ["techs"]; a_bool := false;
                           a_at := fun p => match d_get (p "techs") l with Some c => if km then thousandth c else c | None => NaN end |} ds))
  else Ok ds.
