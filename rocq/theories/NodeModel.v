(** Model of the dictionary part of the model data builder:
    src/calliope/preprocess/model_data.py:193-252, 284-314, 424-506, 508-558, 604-644. *)
From Verif Require Import Base AttrDictModel.
Local Open Scope string_scope.
Local Open Scope list_scope.

(** Python truth value. *)
Definition truthy (v : val) : bool :=
  match v with
  | VNone => false
  | VBool b => b
  | VInt z => negb (Z.eqb z 0)
  | VStr s => negb (String.eqb s "")
  | VList l => match l with [] => false | _ => true end
  | VDict d => match d with [] => false | _ => true end
  end.

(** [item.get("active", True)] *)
Definition active (d : dict) : bool :=
  match d_get "active" d with Some v => truthy v | None => true end.

(** model_data.py:468-469: no definition is an empty one; anything but a dictionary has none of the
    methods called. *)
Definition as_dict (v : val) : result dict :=
  match v with VNone => Ok [] | VDict d => Ok d | _ => Err EAttr end.

(** model_data.py:470-485, one technology: [techs] is the top-level definition of technologies,
    [tables] is what the data tables say about them. *)
Definition inherit_tech (techs tables : dict) (name : string) (item : val) : result dict :=
  bind (as_dict item) (fun item =>
  match d_get name techs with
  | None => Err EKey
  | Some (VDict base) =>
      bind (to_result (union true base item)) (fun base =>
      match d_get name tables with
      | None => Ok base
      | Some (VDict table) => to_result (union true table base)
      | Some _ => Err EAttr
      end)
  | Some _ => Err EAttr
  end).

(** model_data.py:424-494 [_inherit_defs] for technologies.  The names of deactivated items are
    returned too ([_deactivate_item] then removes their data).  Simplification: logging is
    left out. *)
Fixpoint inherit_techs (techs tables : dict) (items : dict) : result (list (string * dict) * list string) :=
  match items with
  | [] => Ok ([], [])
  | (name, item) :: rest =>
      bind (inherit_tech techs tables name item) (fun d =>
      bind (inherit_techs techs tables rest) (fun r =>
      Ok (if active d then ((name, d) :: fst r, snd r) else (fst r, name :: snd r))))
  end.

(** The same for nodes, which inherit nothing. *)
Fixpoint inherit_nodes (items : dict) : result (list (string * dict) * list string) :=
  match items with
  | [] => Ok ([], [])
  | (name, item) :: rest =>
      bind (as_dict item) (fun d =>
      bind (inherit_nodes rest) (fun r =>
      Ok (if active d then ((name, d) :: fst r, snd r) else (fst r, name :: snd r))))
  end.

(** model_data.py:604-620 [_update_one_way_links]: [pop] fails if the key is missing. *)
Definition pop (k : string) (d : dict) : result dict :=
  if d_mem k d then Ok (d_del k d) else Err EKey.

(** model_data.py:531-556, one link.  The dictionary display [{node_from: .., node_to: ..}] keeps the
    second entry only if both nodes are the same.  [known] are the active nodes and the
    nodes of the data tables. *)
Definition is_link (d : dict) : bool :=
  match d_get "base_tech" d with Some (VStr s) => String.eqb s "transmission" | _ => false end.
Definition add_link (known : list string) (name : string) (data : dict) (acc : dict) : result dict :=
  match d_get "link_from" data, d_get "link_to" data with
  | Some (VStr a), Some (VStr b) =>
      let data := d_del "link_to" (d_del "link_from" data) in
      if smem a known && smem b known then
        let one_way := match d_get "one_way" data with Some v => truthy v | None => false end in
        bind (if one_way then pop "carrier_out" data else Ok data) (fun from_data =>
        bind (if one_way then pop "carrier_in" data else Ok data) (fun to_data =>
        to_result (union false acc
          (d_set b (VDict [(name, VDict to_data)]) (d_set a (VDict [(name, VDict from_data)]) [])))))
      else Ok acc
  | Some _, Some _ => Err EType
  | _, _ => Err EKey
  end.

Fixpoint add_links (known : list string) (links : list (string * dict)) (acc : dict) : result dict :=
  match links with
  | [] => Ok acc
  | (name, data) :: rest => bind (add_link known name data acc) (add_links known rest)
  end.

(** model_data.py:508-558 [_links_to_node_format]. *)
Definition links_to_nodes (techs tables : dict) (known : list string) : result dict :=
  bind (inherit_techs techs tables techs) (fun r =>
  add_links known (filter (fun nd => is_link (snd nd)) (fst r)) []).

(** model_data.py:284-314 [_get_relevant_node_refs]: only its error. *)
Definition base_tech_at_node (item : val) : bool :=
  match item with VDict d => active d && d_mem "base_tech" d | _ => false end.

(** model_data.py:205-228: the technologies at one node, [links] being the result of
    [_links_to_node_format] for it. *)
Definition techs_at_node (techs tables : dict) (items : dict) (links : dict) : result dict :=
  if existsb (fun ni => base_tech_at_node (snd ni)) items then Err EModel
  else
    bind (inherit_techs techs tables items) (fun r =>
    if existsb (fun nd => is_link (snd nd)) (fst r) then Err EModel
    else to_result (union false (map (fun nd => (fst nd, VDict (snd nd))) (fst r)) links)).
