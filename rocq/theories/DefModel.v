(** Model of [preprocess/model_definition.py]: scenarios, overrides, templates and
    the order of priority of model definition sources; and of the YAML import
    mechanism of [io.py]. *)
From Verif Require Import Base AttrDictModel.
Local Open Scope string_scope.
Local Open Scope list_scope.

Definition comma : ascii := ","%char.
Definition semicolon : ascii := ";"%char.

(** util/tools.py:31-49 [listify].  A dictionary is an iterable over its keys. *)
Definition listify (v : val) : list val :=
  match v with
  | VNone => []
  | VList l => l
  | VDict d => map (fun kv => VStr (fst kv)) d
  | _ => [v]
  end.

(** [set.add] / [set.update]: the set is a list without duplicates; the order of
    the list is not observable (see [order] below). *)
Definition set_add (s : string) (l : list string) : list string :=
  if smem s l then l else l ++ [s].
Definition set_update (xs : list string) (l : list string) : list string :=
  fold_left (fun acc x => set_add x acc) xs l.

(** model_definition.py:164-189 [_load_overrides_from_scenario].  [fuel] bounds the
    recursion depth; the Python recursion has no bound, exhaustion is [EDiverge].
    Items that are neither strings nor dictionaries: numbers, booleans and None are
    hashable and equal to no name (ModelError of line 183), lists are unhashable
    (TypeError at line 178). *)
Section Scenario.
  Variable overrides : list string.          (* names of defined overrides *)
  Variable scenarios : list (string * val).

  Definition scenario_items (sc : string) : list val :=
    match d_get sc scenarios with
    | Some v => listify v                                         (* 167-169 *)
    | None => map VStr (split_on comma sc)                        (* 171 *)
    end.

  Fixpoint load_items (rec : string -> result (list string)) (items : list val)
      (acc : list string) : result (list string) :=
    match items with
    | [] => Ok acc
    | VDict _ :: _ => Err EModel                                  (* 174-177 *)
    | VStr s :: t =>
        if d_mem s scenarios then                                 (* 178-181 *)
          bind (rec s) (fun r => load_items rec t (set_update r acc))
        else if smem s overrides then load_items rec t (set_add s acc)   (* 186-187 *)
        else Err EModel                                           (* 182-185 *)
    | VList _ :: _ => Err EType
    | _ :: _ => Err EModel
    end.

  Fixpoint load_overrides (fuel : nat) (sc : string) : result (list string) :=
    match fuel with
    | O => Err EDiverge
    | S f => load_items (load_overrides f) (scenario_items sc) []
    end.
End Scenario.

(** What Python takes as false: None, "", 0, False, [], {} (io.py:276). *)
Definition falsy (v : val) : bool :=
  match v with
  | VNone | VBool false | VStr EmptyString | VList [] | VDict [] => true
  | VInt z => Z.eqb z 0
  | _ => false
  end.

(** model_definition.py:146-161 [_combine_overrides].  [to_yaml] followed by
    [read_rich_yaml] of the text is the identity on the dictionary, except that an
    [import] in an override cannot be resolved (io.py:277-280, ValueError).  A
    None block is an empty one (attrdict.py:40), any other non-dictionary a
    ValueError (attrdict.py:44). *)
Definition override_block (v : val) : result dict :=
  match v with
  | VNone => Ok []
  | VDict d => match d_get "import" d with
               | None => Ok d
               | Some w => if falsy w then Ok d else Err EValue
               end
  | _ => Err EValue
  end.

Fixpoint combine_overrides (overrides : dict) (names : list string) (acc : dict) : result dict :=
  match names with
  | [] => Ok acc
  | o :: t =>
      match d_get o overrides with
      | None => Err EModel                                        (* 152-153 *)
      | Some v =>
          bind (override_block v) (fun b =>
            match union false acc b with
            | (acc', None) => combine_overrides overrides t acc'
            | (_, Some EKey) => Err EModel                        (* 156-159 *)
            | (_, Some e) => Err e
            end)
      end
  end.

(** model_definition.py:70-143 [_load_scenario_overrides].  [order] is the
    iteration order of the Python set returned at line 189 as a list: any function
    that permutes its argument.  Both dictionaries are given after conversion to
    [AttrDict] (92, 98).  Object sharing between the override dictionary and the
    result of the first pass (only created by [_REPLACE_]) is not represented.
    Logging (110-112, 141) is left out. *)
Definition as_block (v : option val) : result dict :=
  match v with
  | None => Ok []
  | Some (VDict d) => Ok d
  | Some _ => Err EAttr
  end.

Definition rename_locations (d : dict) : dict :=
  match d_get "locations" d with
  | Some v => d_del "locations" (d_set "nodes" v d)               (* 131-139 *)
  | None => d
  end.

Definition load_scenario_overrides (fuel : nat) (order : list string -> list string)
    (model_def : dict) (scenario : option string) (override_dict : dict)
    : result (dict * list string) :=
  bind (to_result (union_replace true model_def override_dict)) (fun d1 =>
  bind (as_block (d_get "overrides" d1)) (fun ovs =>
  bind (as_block (d_get "scenarios" d1)) (fun scs =>
  let d2 := d_del "scenarios" (d_del "overrides" d1) in
  bind (match scenario with
        | None => Ok (d2, [])
        | Some sc =>
            bind (load_overrides (d_keys ovs) scs fuel sc) (fun names =>
            let applied := order names in
            bind (combine_overrides ovs applied []) (fun c =>
            bind (to_result (union_replace true d2 c)) (fun d3 => Ok (d3, applied))))
        end) (fun r =>
  let '(d3, applied) := r in
  let ov2 := d_del "overrides" (d_del "scenarios" override_dict) in
  bind (match override_dict with
        | [] => Ok d3
        | _ => to_result (union_replace true d3 ov2)
        end) (fun d4 => Ok (rename_locations d4, applied)))))).

(** model_definition.py:206-281 [TemplateSolver]. *)
Definition TEMPLATES : string := "templates".
Definition TEMPLATE : string := "template".

Section Template.
  Variable raw : dict.                     (* raw template definitions *)
  (** Order in which a set difference of keys is iterated (line 253): any
      permutation of the entries. *)
  Variable order : dict -> dict.

  (** 229-257 [_resolve_template]; [resolved] are the templates already resolved
      (247-248), [stack] the names being resolved (234-240).  A template whose
      definition is not a dictionary is a TypeError when inherited from (244).
      The conversion of the local entries to [AttrDict] by [union] (254) is the
      identity on dot-free keys; sharing of empty sub-dictionaries between a
      template and its heirs is not represented. *)
  Fixpoint resolve_template (fuel : nat) (resolved : dict) (stack : list string) (name : string)
      : result dict :=
    match fuel with
    | O => Err EDiverge
    | S f =>
        if smem name stack then Err EModel else
        match d_get name raw with
        | None => Err EKey                                        (* 243 *)
        | Some (VDict d) =>
            bind (match d_get TEMPLATE d with
                  | None => Ok []
                  | Some (VStr parent) =>
                      bind (match d_get parent resolved with
                            | Some (VDict r) => Ok r
                            | _ => resolve_template f resolved (name :: stack) parent
                            end) (fun inh => to_result (union false [] inh))
                  | Some (VList _) | Some (VDict _) => Err EType  (* unhashable *)
                  | Some _ => Err EKey
                  end) (fun result =>
            to_result (union true result (order (d_del TEMPLATE d))))
        | Some _ => Err EType
        end
    end.

  (** 220-227 [_resolve], first part. *)
  Fixpoint resolve_templates (fuel : nat) (todo : dict) (resolved : dict) : result dict :=
    match todo with
    | [] => Ok resolved
    | (k, VDict _) :: t =>
        bind (resolve_template fuel resolved [] k) (fun r =>
          resolve_templates fuel t (d_set k (VDict r) resolved))
    | (_, _) :: _ => Err EModel
    end.
End Template.

(** 259-281 [_resolve_data]. *)
Fixpoint resolve_data (resolved : dict) (top : bool) (v : val) : result val :=
  match v with
  | VDict d =>
      if d_mem TEMPLATES d && negb top then Err EModel            (* 261-265 *)
      else
        bind (match d_get TEMPLATE d with
              | None => Ok []
              | Some (VStr t) => match d_get t resolved with
                                 | Some (VDict r) => Ok r
                                 | _ => Err EKey
                                 end
              | Some (VList _) | Some (VDict _) => Err EType
              | Some _ => Err EKey
              end) (fun tmpl =>
        bind ((fix go (d : list (string * val)) : result dict :=
                 match d with
                 | [] => Ok []
                 | (k, w) :: t =>
                     if String.eqb k TEMPLATE || String.eqb k TEMPLATES then go t
                     else bind (resolve_data resolved false w) (fun w' =>
                            bind (go t) (fun r => Ok ((k, w') :: r)))
                 end) d) (fun local =>
        bind (to_result (union true tmpl local)) (fun r => Ok (VDict r))))
  | _ => Ok v
  end.

(** 212-227: the whole solver.  The fuel is one more than the number of templates. *)
Definition solve_templates (order : dict -> dict) (data : dict) : result dict :=
  bind (as_block (d_get TEMPLATES data)) (fun raw =>
  bind (resolve_templates raw order (S (List.length raw)) raw []) (fun resolved =>
  bind (resolve_data resolved true (VDict data)) (fun r =>
  match r with VDict d => Ok d | _ => Err EType end))).

(** model_definition.py:18-67 [prepare_model_definition] up to the dictionary that
    is handed to validation: the definition with [config.init] overridden by the
    keyword arguments (given as an [AttrDict], 51). *)
Definition prepare_definition (fuel : nat) (order : list string -> list string)
    (torder : dict -> dict) (model_def : dict) (scenario : option string)
    (override_dict kwargs : dict) : result dict :=
  bind (load_scenario_overrides fuel order model_def scenario override_dict) (fun r =>
  bind (solve_templates torder (fst r)) (fun d =>
  to_result (union true d [("config", VDict [("init", VDict kwargs)])]))).

(** ** YAML imports, io.py:231-254 and 271-291 *)
Section Imports.
  (** Files by path; a path resolution function (util/tools.py:14-28). *)
  Variable files : list (string * dict).
  Variable rel : string -> string -> string.

  (** io.py:282-287: the loop over the imports; [read] is the nested
      [read_rich_yaml(path)] (with [allow_override] at its default False). *)
  Fixpoint import_loop (read : string -> result dict) (allow_override : bool) (base : string)
      (imports : list val) (loaded : dict) : result dict :=
    match imports with
    | [] => Ok loaded
    | VStr k :: t =>
        bind (read (rel base k)) (fun imported =>
          bind (to_result (union allow_override imported loaded)) (fun loaded' =>
            import_loop read allow_override base t loaded'))
    | _ :: _ => Err EType
    end.

  (** io.py:271-291. *)
  Definition resolve_imports (read : string -> result dict) (allow_override : bool)
      (base : option string) (loaded : dict) : result dict :=
    match d_get "import" loaded with
    | None => Ok loaded
    | Some v =>
        if falsy v then Ok loaded
        else match v, base with
             | VList l, Some b =>
                 bind (import_loop read allow_override b l loaded) (fun r =>
                   to_result (del_key ["import"] r))
             | _, _ => Err EValue
             end
    end.

  (** io.py:231-254 for a file; [fuel] bounds the nesting of imports.  A missing
      file is an error ([EValue] stands for FileNotFoundError). *)
  Fixpoint read_file (fuel : nat) (allow_override : bool) (p : string) : result dict :=
    match fuel with
    | O => Err EDiverge
    | S f =>
        match d_get p files with
        | None => Err EValue
        | Some d => bind (init_from_dict d) (fun d' =>
                      resolve_imports (read_file f false) allow_override (Some p) d')
        end
    end.
End Imports.
