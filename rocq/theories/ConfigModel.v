(** Model of configuration objects and their updates:
    src/calliope/schemas/general.py, classes CalliopeBaseModel, CalliopeDictModel and
    CalliopeListModel. *)
From Verif Require Import Base AttrDictModel.
Local Open Scope string_scope.
Local Open Scope list_scope.

(** Schemas (the pydantic classes, e.g. schemas/config_schema.py:48-246): a plain field
    with its validator, a model with named fields and defaults plus a whole-object
    validator, a dictionary of user-defined keys, a list.  Validators are parameters:
    pydantic itself is not modelled.  List models are kept as opaque values. *)
Inductive schema :=
| SLeaf (chk : val -> result val)
| SModel (fields : list (string * (val * schema))) (guard : dict -> bool)
| SDict (elt : schema)
| SList (chk : val -> result val).

(** Instances. *)
Inductive obj :=
| OLeaf (v : val)
| OModel (fields : list (string * obj))
| ODict (root : list (string * obj))
| OList (v : val).

(** [model_dump()]. *)
Fixpoint dump (o : obj) : val :=
  match o with
  | OLeaf v | OList v => v
  | OModel fs | ODict fs =>
      VDict ((fix go (fs : list (string * obj)) : dict :=
                match fs with [] => [] | (k, x) :: t => (k, dump x) :: go t end) fs)
  end.

(** [model_validate(dict)]: [extra="forbid"] (general.py:138) refuses unknown fields;
    missing fields take their default; fields are validated in order, the whole-object
    validator last. *)
Fixpoint validate (S : schema) (v : val) {struct S} : result obj :=
  match S with
  | SLeaf chk => bind (chk v) (fun x => Ok (OLeaf x))
  | SList chk => bind (chk v) (fun x => Ok (OList x))
  | SDict e =>
      match v with
      | VDict d =>
          bind ((fix go (d : dict) : result (list (string * obj)) :=
                   match d with
                   | [] => Ok []
                   | (k, w) :: t => bind (validate e w) (fun x => bind (go t) (fun r => Ok ((k, x) :: r)))
                   end) d) (fun r => Ok (ODict r))
      | _ => Err EValue
      end
  | SModel fs guard =>
      match v with
      | VDict d =>
          if negb (forallb (fun kv => smem (fst kv) (map fst fs)) d) then Err EValue else
          bind ((fix go (fs : list (string * (val * schema))) : result (list (string * obj)) :=
                   match fs with
                   | [] => Ok []
                   | (k, (dflt, S')) :: t =>
                       bind (validate S' (match d_get k d with Some w => w | None => dflt end))
                         (fun x => bind (go t) (fun r => Ok ((k, x) :: r)))
                   end) fs)
            (fun r => if guard (match dump (OModel r) with VDict e => e | _ => [] end)
                      then Ok (OModel r) else Err EValue)
      | _ => Err EValue
      end
  end.

(** Python [==] on configuration values.  Simplification: structural; Python also
    identifies [True] with [1]. *)
Fixpoint val_eqb (a b : val) {struct a} : bool :=
  match a, b with
  | VNone, VNone => true
  | VBool x, VBool y => Bool.eqb x y
  | VInt x, VInt y => Z.eqb x y
  | VStr x, VStr y => String.eqb x y
  | VList l, VList m =>
      (fix go (l m : list val) : bool :=
         match l, m with
         | [], [] => true
         | x :: l', y :: m' => val_eqb x y && go l' m'
         | _, _ => false
         end) l m
  | VDict d, VDict e =>
      (fix go (d e : list (string * val)) : bool :=
         match d, e with
         | [], [] => true
         | (k, x) :: d', (k', y) :: e' => String.eqb k k' && val_eqb x y && go d' e'
         | _, _ => false
         end) d e
  | _, _ => false
  end.

Definition field_schema (fs : list (string * (val * schema))) (k : string) : schema :=
  match d_get k fs with Some (_, sc) => sc | None => SLeaf (fun _ => Err EValue) end.

(** [CalliopeBaseModel.update] general.py:147-174 and [CalliopeDictModel.update]
    general.py:72-97, on the update after [AttrDict(update_dict)] has expanded dotted keys
    (see [update_api]).  An update of None is an empty update ([AttrDict(None)]); any other
    non-dictionary is refused ("Must pass a dict to AttrDict").

    Base model: nested models and dictionaries are updated in turn (163-164), lists are
    replaced (165-166), a value equal to the present one is skipped (167-168; the value
    None for a name that is not a field is equal to the [getattr] default and skipped too),
    anything else is set (170-173).  Setting a name that is not a field is modelled as
    refused; what pydantic does there is not claimed.

    Dictionary model: only entries that are base models or list models are updated
    (86-89); everything else, in particular an entry that is itself a dictionary model, is
    validated as a new entry (92-95). *)
Fixpoint update (S : schema) (o : obj) (u : val) {struct u} : result obj :=
  match u with
  | VNone => validate S (dump o)
  | VDict d =>
      match S, o with
      | SModel fs _, OModel os =>
          bind ((fix go (d : dict) (os : list (string * obj)) : result (list (string * obj)) :=
                   match d with
                   | [] => Ok os
                   | (k, v) :: t =>
                       match d_get k os with
                       | Some (OModel _ as o') | Some (ODict _ as o') =>
                           bind (update (field_schema fs k) o' v) (fun x => go t (d_set k x os))
                       | Some (OList _) =>
                           bind (validate (field_schema fs k) v) (fun x => go t (d_set k x os))
                       | Some (OLeaf x) =>
                           if val_eqb x v then go t os else go t (d_set k (OLeaf v) os)
                       | None => if val_eqb VNone v then go t os else Err EValue
                       end
                   end) d os)
            (fun os' => validate S (dump (OModel os')))
      | SDict e, ODict os =>
          bind ((fix go (d : dict) (os : list (string * obj)) : result (list (string * obj)) :=
                   match d with
                   | [] => Ok os
                   | (k, v) :: t =>
                       match d_get k os with
                       | Some (OModel _ as o') => bind (update e o' v) (fun x => go t (d_set k x os))
                       | Some (OList _) | Some (ODict _) =>
                           bind (validate e v) (fun x => go t (d_set k x os))
                       | Some (OLeaf x) =>
                           if val_eqb x v then go t os
                           else bind (validate e v) (fun x => go t (d_set k x os))
                       | None =>
                           if val_eqb VNone v then go t os
                           else bind (validate e v) (fun x => go t (d_set k x os))
                       end
                   end) d os)
            (fun os' => validate S (dump (ODict os')))
      | _, _ => Err EAttr
      end
  | _ => Err EValue
  end.

(** The method as called by users, with dotted keys (general.py:160, [AttrDict(update_dict)]). *)
Definition update_api (S : schema) (o : obj) (u : dict) : result obj :=
  bind (init_from_dict u) (fun d => update S o (VDict d)).
