(** Model of the netCDF attribute handling: src/calliope/io.py. *)
From Verif Require Import Base AttrDictModel.
Local Open Scope string_scope.
Local Open Scope list_scope.

(** Elements of lists and sets: strings, or something else (kept as a number). *)
Inductive item := IStr (s : string) | IOther (z : Z).

(** Attribute values.  Simplification: numbers are integers; [AEmpty] is the empty numpy
    array, which is how netCDF4 hands back an empty list.  Sets are lists of their
    members. *)
Inductive attr :=
| AStr (s : string)
| AInt (z : Z)
| ABool (b : bool)
| ANone
| ADict (d : dict)
| AList (l : list item)
| ASet (l : list item)
| AEmpty.

Definition attrs := list (string * attr).

Definition is_str (i : item) : bool := match i with IStr _ => true | _ => false end.
Definition names (l : list string) : attr := AList (map IStr l).
Definition keys_where (p : attr -> bool) (a : attrs) : list string := map fst (filter (fun kv => p (snd kv)) a).

(** [for attr in names: attrs[attr] = f(attrs[attr])]: a missing name is a KeyError; what
    has been done before an error stays done (in-place change). *)
Fixpoint each (f : attr -> result attr) (ns : list string) (a : attrs) : attrs * option exn :=
  match ns with
  | [] => (a, None)
  | n :: t =>
      match d_get n a with
      | None => (a, Some EKey)
      | Some v => match f v with Err e => (a, Some e) | Ok w => each f t (d_set n w a) end
      end
  end.
Definition next (r : attrs * option exn) (f : attrs -> attrs * option exn) : attrs * option exn :=
  match r with (a, None) => f a | _ => r end.

Section Yaml.
(** The YAML library and the file system are parameters: [dump] writes a dictionary as
    text, [parse] reads it, [path_text] is the text of an existing file of that name. *)
Variable dump : dict -> string.
Variable parse : string -> result dict.
Variable path_text : string -> option string.

(** io.py:294-333 [to_yaml], without the conversion of numpy scalars. *)
Definition to_yaml (d : dict) : result string := bind (init_from_dict d) (fun d' => Ok (dump d')).

(** io.py:231-291 [read_rich_yaml] on a string: an existing path is read as a file; a
    non-empty [import] entry in a text is refused.  Simplification: imports in a file
    read by accident are not followed (a value error instead). *)
Definition truthy (v : val) : bool :=
  match v with
  | VNone => false | VBool b => b | VInt z => negb (Z.eqb z 0) | VStr s => negb (String.eqb s "")
  | VList [] => false | VDict [] => false | _ => true
  end.
Definition read_rich_yaml (s : string) : result dict :=
  bind (parse (match path_text s with Some t => t | None => s end)) (fun d =>
  bind (init_from_dict d) (fun d' =>
    match d_get "import" d' with
    | Some v => if truthy v then Err EValue else Ok d'
    | None => Ok d'
    end)).

(** tools.py:31-49 [listify]. *)
Definition listify (v : attr) : list item :=
  match v with
  | ANone | AEmpty => []
  | AStr s => [IStr s]
  | AInt z => [IOther z]
  | ABool b => [IOther (if b then 1 else 0)%Z]
  | AList l | ASet l => l
  | ADict d => map (fun kv => IStr (fst kv)) d
  end.

(** io.py:50-55 [_pop_serialised_list]; the elements are then used as attribute names: one
    that is not a string names no attribute. *)
Fixpoint item_names (l : list item) : result (list string) :=
  match l with
  | [] => Ok []
  | IStr s :: t => bind (item_names t) (fun r => Ok (s :: r))
  | IOther _ :: _ => Err EKey
  end.
Definition pop_list (key : string) (a : attrs) : attrs * result (list string) :=
  match d_get key a with
  | None => (a, Ok [])
  | Some v => (d_del key a, item_names (listify v))
  end.

Definition conv_dict (v : attr) : result attr :=
  match v with ADict d => bind (to_yaml d) (fun s => Ok (AStr s)) | _ => Ok v end.
Definition conv_bool (v : attr) : result attr :=
  match v with ABool b => Ok (AInt (if b then 1 else 0)) | _ => Ok v end.
Definition conv_none (v : attr) : result attr := Ok (AStr "None").
Definition conv_set (v : attr) : result attr := match v with ASet l => Ok (AList l) | _ => Ok v end.

Definition is_dict_attr (v : attr) := match v with ADict _ => true | _ => false end.
Definition is_bool_attr (v : attr) := match v with ABool _ => true | _ => false end.
Definition is_none_attr (v : attr) := match v with ANone => true | _ => false end.
Definition is_set_attr (v : attr) := match v with ASet _ => true | _ => false end.
Definition is_single_list (v : attr) := match v with AList [_] => true | _ => false end.
(** A list with an element that is not a string (io.py:98-100). *)
Definition bad_list (v : attr) : bool := match v with AList l => existsb (fun i => negb (is_str i)) l | _ => false end.

(** io.py:58-111 [_serialise], in place: the state reached and the exception, if any. *)
Definition serialise (a0 : attrs) : attrs * option exn :=
  let single := keys_where is_single_list a0 in
  let a1 := d_set "serialised_single_element_list" (names single) a0 in
  let dicts := keys_where is_dict_attr a1 in
  let a2 := d_set "serialised_dicts" (names dicts) a1 in
  next (each conv_dict dicts a2) (fun a3 =>
  let bools := keys_where is_bool_attr a3 in
  let a4 := d_set "serialised_bools" (names bools) a3 in
  next (each conv_bool bools a4) (fun a5 =>
  let nones := keys_where is_none_attr a5 in
  let a6 := d_set "serialised_nones" (names nones) a5 in
  next (each conv_none nones a6) (fun a7 =>
  let sets := keys_where is_set_attr a7 in
  next (each conv_set sets a7) (fun a8 =>
    if existsb (fun kv => bad_list (snd kv)) a8 then (a8, Some EType) else
    let a9 := d_set "serialised_sets" (names sets) a8 in
    let single_sets :=
      filter (fun k => match d_get k a9 with Some (AList [_]) => true | _ => false end) sets in
    (d_set "serialised_single_element_list" (names (single ++ single_sets)) a9, None))))).

(** [read_rich_yaml(attrs[attr])]: anything but a string is not a path (TypeError). *)
Definition back_dict (v : attr) : result attr :=
  match v with AStr s => bind (read_rich_yaml s) (fun d => Ok (ADict d)) | _ => Err EType end.
Definition back_bool (v : attr) : result attr :=
  Ok (ABool match v with
            | AStr s => negb (String.eqb s "") | AInt z => negb (Z.eqb z 0) | ABool b => b
            | ANone | AEmpty | ADict [] | AList [] | ASet [] => false | _ => true end).
Definition back_none (v : attr) : result attr := Ok ANone.
Definition back_single (v : attr) : result attr := Ok (AList (listify v)).
(** [set(x)]: the characters of a string, the elements of a list; numbers and None are not
    iterable. *)
Definition item_eq_dec (a b : item) : {a = b} + {a <> b}.
Proof. decide equality; [apply string_dec|apply Z.eq_dec]. Defined.
Definition back_set (v : attr) : result attr :=
  match v with
  | AStr s => Ok (ASet (nodup item_eq_dec (map (fun c => IStr (String c "")) (list_ascii_of_string s))))
  | AList l | ASet l => Ok (ASet (nodup item_eq_dec l))
  | ADict d => Ok (ASet (map (fun kv => IStr (fst kv)) d))
  | AEmpty => Ok (ASet [])
  | AInt _ | ABool _ | ANone => Err EType
  end.

Definition undo (key : string) (f : attr -> result attr) (a : attrs) : attrs * option exn :=
  match pop_list key a with
  | (a', Err e) => (a', Some e)
  | (a', Ok ns) => each f ns a'
  end.

(** io.py:114-133 [_deserialise]. *)
Definition deserialise (a : attrs) : attrs * option exn :=
  next (undo "serialised_dicts" back_dict a) (fun a =>
  next (undo "serialised_bools" back_bool a) (fun a =>
  next (undo "serialised_nones" back_none a) (fun a =>
  next (undo "serialised_single_element_list" back_single a) (fun a =>
  undo "serialised_sets" back_set a)))).

(** What netCDF4 and xarray keep of an attribute: a one-element list of strings comes back
    as a string, an empty list as an empty array; None, dictionaries and sets are refused.
    This is an assumption about the libraries (xarray's [_is_list_of_strings],
    netCDF4's [_get_att]). *)
Definition store_one (v : attr) : result attr :=
  match v with
  | AStr _ | AInt _ | AEmpty => Ok v
  | AList [] => Ok AEmpty
  | AList [IStr s] => Ok (AStr s)
  | AList [IOther z] => Ok (AInt z)
  | AList l => Ok (AList l)
  | ABool _ | ANone | ADict _ | ASet _ => Err EType
  end.
Fixpoint store (a : attrs) : result attrs :=
  match a with
  | [] => Ok []
  | (k, v) :: t => bind (store_one v) (fun w => bind (store t) (fun r => Ok ((k, w) :: r)))
  end.

(** A dataset: its own attributes, those of its data variables and of its coordinates. *)
Record dataset := { top : attrs; vars : list (string * attrs); coords : list (string * attrs) }.

Fixpoint each_attrs (f : attrs -> attrs * option exn) (l : list (string * attrs))
  : list (string * attrs) * option exn :=
  match l with
  | [] => ([], None)
  | (k, a) :: t =>
      match f a with
      | (a', Some e) => ((k, a') :: t, Some e)
      | (a', None) => let '(t', e) := each_attrs f t in ((k, a') :: t', e)
      end
  end.

(** io.py:136-180 [save_netcdf]: the in-memory dataset afterwards and the exception.
    [written] says whether [to_netcdf] succeeds ([None]) or how it fails; the file contents
    are those of the serialised dataset (see [file_of]).  [kwargs] are added to the top
    attributes first.  An exception in [_serialise] is raised before the [try].
    In the [finally] block an exception of [_deserialise] replaces the earlier one. *)
Definition save_netcdf (kwargs : attrs) (written : option exn) (ds : dataset) : dataset * option exn :=
  let t1 := fold_left (fun a kv => d_set (fst kv) (snd kv) a) kwargs (top ds) in
  match serialise t1 with
  | (t2, Some e) => ({| top := t2; vars := vars ds; coords := coords ds |}, Some e)
  | (t2, None) =>
      match each_attrs serialise (vars ds) with
      | (v2, Some e) => ({| top := t2; vars := v2; coords := coords ds |}, Some e)
      | (v2, None) =>
          match each_attrs serialise (coords ds) with
          | (c2, Some e) => ({| top := t2; vars := v2; coords := c2 |}, Some e)
          | (c2, None) =>
              match each_attrs deserialise v2 with
              | (v3, Some e) => ({| top := top ds; vars := v3; coords := c2 |}, Some e)
              | (v3, None) =>
                  match each_attrs deserialise c2 with
                  | (c3, Some e) => ({| top := top ds; vars := v3; coords := c3 |}, Some e)
                  | (c3, None) => ({| top := top ds; vars := v3; coords := c3 |}, written)
                  end
              end
          end
      end
  end.

Fixpoint store_all (l : list (string * attrs)) : result (list (string * attrs)) :=
  match l with
  | [] => Ok []
  | (k, a) :: t => bind (store a) (fun a' => bind (store_all t) (fun t' => Ok ((k, a') :: t')))
  end.
(** The attributes found in the file after a successful save. *)
Definition file_of (kwargs : attrs) (ds : dataset) : result dataset :=
  let t1 := fold_left (fun a kv => d_set (fst kv) (snd kv) a) kwargs (top ds) in
  match serialise t1, each_attrs serialise (vars ds), each_attrs serialise (coords ds) with
  | (t2, None), (v2, None), (c2, None) =>
      bind (store t2) (fun t => bind (store_all v2) (fun v => bind (store_all c2) (fun c =>
        Ok {| top := t; vars := v; coords := c |})))
  | _, _, _ => Err EType
  end.

(** io.py:31-47 [read_netcdf], one group: the attributes of the dataset and of its data
    variables are restored, those of its coordinates are not. *)
Definition read_netcdf (f : dataset) : result dataset :=
  match deserialise (top f), each_attrs deserialise (vars f) with
  | (t, None), (v, None) => Ok {| top := t; vars := v; coords := coords f |}
  | (_, Some e), _ => Err e
  | _, (_, Some e) => Err e
  end.
End Yaml.
