(** Model of [attrdict.py] (class [AttrDict]).

    An [AttrDict] is an ordered dictionary [dict] whose nested dictionaries are
    [VDict] values.  Methods mutate in place; the model returns the state after
    the call together with the exception raised, if any, so that partial
    mutations are visible.

    A dotted key is given as the list of its segments: the code splits with
    [key.split(".", 1)] and recurses on the remainder, which visits the segments
    of [key.split(".")] in turn ([split_dot] in [Base]).  Simplifications: keys
    are strings (integer keys are converted by [init_from_dict], attrdict.py:65-66);
    dictionaries inside lists are not merged by any of these methods and are plain
    leaf content here; object aliasing is not represented. *)
From Verif Require Import Base.
Local Open Scope string_scope.
Local Open Scope list_scope.

Notation path := (list string).
Definition step (A : Type) : Type := (A * option exn)%type.

(** attrdict.py:108-112 together with the loop 109-110: [self[key]] exists, the
    value is an [AttrDict]; each entry is set into the existing object.
    [set_into v old] is the new content of [self[key]].  If the existing object
    is not a dictionary, the attribute lookup [.set_key] fails (AttributeError)
    at the first entry, and an empty value changes nothing. *)
Fixpoint set_into (v : val) (old : val) {struct v} : step val :=
  match v with
  | VDict items =>
      (fix go (items : list (string * val)) (old : val) {struct items} : step val :=
         match items with
         | [] => (old, None)
         | (k, w) :: t =>
             match old with
             | VDict o =>
                 let '(o', e) :=
                   match w, d_get k o with
                   | VDict _, Some x =>
                       let '(x', e) := set_into w x in (d_set k x' o, e)
                   | _, _ => (d_set k w o, None)
                   end in
                 match e with
                 | None => go t (VDict o')
                 | Some _ => (VDict o', e)
                 end
             | _ => (old, Some EAttr)
             end
         end) items old
  | _ => (v, None)
  end.

(** [AttrDict.set_key] for an undotted key, attrdict.py:107-112. *)
Definition set_leaf (k : string) (v : val) (d : dict) : step dict :=
  match v, d_get k d with
  | VDict _, Some x => let '(x', e) := set_into v x in (d_set k x' d, e)
  | _, _ => (d_set k v d, None)
  end.

(** [AttrDict.set_key], attrdict.py:81-112.  The two [except] branches are
    modelled as written: any [KeyError] escaping from the nested call, not only
    the one for a missing [self[key]], replaces [self[key]] by an empty
    dictionary and sets the remainder there (96-98); an [AttributeError] leads to
    replacement if [self[key]] is None (100-102) and to a [KeyError] otherwise
    (105-106).  [p] is the non-empty list of segments. *)
Fixpoint set_key (p : path) (v : val) (d : dict) : step dict :=
  match p with
  | [] => (d, Some EKey)   (* not reachable: a key has at least one segment *)
  | [k] => set_leaf k v d
  | k :: rest =>
      let fresh (d : dict) :=
        let '(o, e) := set_key rest v [] in (d_set k (VDict o) d, e) in
      match d_get k d with
      | None => fresh d                                    (* KeyError of self[key] *)
      | Some VNone => fresh d                              (* AttributeError, None *)
      | Some (VDict o) =>
          let '(o', e) := set_key rest v o in
          let d' := d_set k (VDict o') d in
          match e with
          | None => (d', None)
          | Some EKey => fresh d'                          (* line 96: wiped *)
          | Some EAttr => (d', Some EKey)                  (* line 106 *)
          | Some e' => (d', Some e')
          end
      | Some _ => (d, Some EKey)                           (* line 106 *)
      end
  end.

(** [AttrDict.get_key] without default, attrdict.py:114-142. *)
Fixpoint get_key (p : path) (d : dict) : result val :=
  match p with
  | [] => Err EKey
  | [k] => match d_get k d with Some v => Ok v | None => Err EKey end
  | k :: rest =>
      match d_get k d with
      | None => Err EKey
      | Some (VDict o) => get_key rest o
      | Some _ => Err EAttr
      end
  end.

(** [AttrDict.get_key] with a default: KeyError and AttributeError at any level
    yield the default, attrdict.py:125-133 and 138-139. *)
Definition get_key_default (p : path) (def : val) (d : dict) : val :=
  match get_key p d with Ok v => v | Err _ => def end.

(** [AttrDict.del_key], attrdict.py:144-158.  Line 149 tries the remainder as a
    literal key of the sub-dictionary; as segments contain no dots this succeeds
    exactly when the remainder is the last segment, otherwise the recursive call
    of line 151 is made.  A sub-dictionary left empty is deleted too (154-155).
    [del self[key][remainder]] on a non-dictionary is a TypeError. *)
Fixpoint del_key (p : path) (d : dict) : step dict :=
  match p with
  | [] => (d, Some EKey)
  | [k] => if d_mem k d then (d_del k d, None) else (d, Some EKey)
  | k :: rest =>
      match d_get k d with
      | None => (d, Some EKey)
      | Some (VDict o) =>
          let '(o', e) := del_key rest o in
          match e with
          | Some _ => (d_set k (VDict o') d, e)
          | None => match o' with
                    | [] => (d_del k d, None)
                    | _ => (d_set k (VDict o') d, None)
                    end
          end
      | Some _ => (d, Some EType)
      end
  end.

(** [AttrDict.keys_nested], attrdict.py:187-210 (list form): the paths of all
    leaves, where an empty sub-dictionary counts as a leaf. *)
Fixpoint keys_nested_val (v : val) : list path :=
  match v with
  | VDict d =>
      (fix go (d : list (string * val)) : list path :=
         match d with
         | [] => []
         | (k, w) :: t =>
             (match w with
              | VDict (_ :: _) => map (cons k) (keys_nested_val w)
              | _ => [[k]]
              end) ++ go t
         end) d
  | _ => []
  end.
Definition keys_nested (d : dict) : list path := keys_nested_val (VDict d).

(** [AttrDict.as_dict_flat], attrdict.py:179-185: dotted key -> value.  The
    dictionary is given by its list of entries in order. *)
Definition as_dict_flat (d : dict) : result (list (string * val)) :=
  (fix go (ks : list path) : result (list (string * val)) :=
     match ks with
     | [] => Ok []
     | p :: t => bind (get_key p d) (fun v => bind (go t) (fun r => Ok ((join_dot p, v) :: r)))
     end) (keys_nested d).

(** [AttrDict.init_from_dict], attrdict.py:55-79: each entry is set with
    [set_key], nested dictionaries being converted first; a dotted key nests. *)
Fixpoint init_val (v : val) : result val :=
  match v with
  | VDict d =>
      (fix go (d : list (string * val)) (acc : dict) : result val :=
         match d with
         | [] => Ok (VDict acc)
         | (k, w) :: t =>
             bind (init_val w) (fun w' =>
               match set_key (split_dot k) w' acc with
               | (acc', None) => go t acc'
               | (_, Some e) => Err e
               end)
         end) d []
  | _ => Ok v
  end.
Definition init_from_dict (d : dict) : result dict :=
  match init_val (VDict d) with
  | Ok (VDict d') => Ok d'
  | Ok _ => Err EType   (* not reachable *)
  | Err e => Err e
  end.

(** One iteration of the loop in [AttrDict.union], attrdict.py:243-253. *)
Definition path_eqb (p q : path) : bool := if list_eq_dec string_dec p q then true else false.
Definition path_mem (p : path) (l : list path) : bool := existsb (path_eqb p) l.

Definition union_one (allow_override : bool) (self_keys : list path) (other : dict)
    (k : path) (self : dict) : step dict :=
  if negb allow_override && path_mem k self_keys then (self, Some EKey)
  else
    match get_key k other with
    | Err e => (self, Some e)
    | Ok VNone =>
        if is_dict (get_key_default k VNone self) then (self, None)
        else set_key k VNone self
    | Ok v => set_key k v self
    end.

Fixpoint union_loop (allow_override : bool) (self_keys : list path) (other : dict)
    (ks : list path) (self : dict) : step dict :=
  match ks with
  | [] => (self, None)
  | k :: t =>
      match union_one allow_override self_keys other k self with
      | (self', None) => union_loop allow_override self_keys other t self'
      | (self', Some e) => (self', Some e)
      end
  end.

(** [AttrDict.union] with [allow_replacement=False], attrdict.py:212-253.
    [self_keys] is computed once, before the loop (232). *)
Definition union (allow_override : bool) (self other : dict) : step dict :=
  union_loop allow_override (keys_nested self) other (keys_nested other) self.

(** Value view of a call: the new dictionary, or the exception. *)
Definition to_result {A} (s : step A) : result A :=
  match s with (a, None) => Ok a | (_, Some e) => Err e end.

(** The [_REPLACE_] handling, attrdict.py:234-242 and 254-256.  [WIPE_KEY in k] is
    a substring test on the dotted key; the model applies it to whole segments
    (simplification: a segment that merely contains the text "_REPLACE_" is not
    considered).  [k.split("." + WIPE_KEY)[0]] is the part before the first
    occurrence; for a top-level "_REPLACE_" there is no preceding dot and the
    split returns the key itself. *)
Definition WIPE : string := "_REPLACE_".
Fixpoint before_wipe (p : path) : path :=
  match p with
  | [] => []
  | s :: t => if String.eqb s WIPE then [] else s :: before_wipe t
  end.
Definition wipe_target (p : path) : path :=
  match p with
  | s :: _ => if String.eqb s WIPE then p else before_wipe p
  | [] => p
  end.
Definition has_wipe (p : path) : bool := smem WIPE p.

Fixpoint wipe_loop (other : dict) (ks : list path) (self : dict) : step dict :=
  match ks with
  | [] => (self, None)
  | k :: t =>
      match del_key k self with
      | (self', Some e) => (self', Some e)
      | (self', None) =>
          match get_key (k ++ [WIPE]) other with
          | Err e => (self', Some e)
          | Ok v => match set_key k v self' with
                    | (self'', None) => wipe_loop other t self''
                    | (self'', Some e) => (self'', Some e)
                    end
          end
      end
  end.

Definition union_replace (allow_override : bool) (self other : dict) : step dict :=
  let oks := keys_nested other in
  let override_keys := filter (fun k => negb (has_wipe k)) oks in
  let wipe_keys := map wipe_target (filter has_wipe oks) in
  match union_loop allow_override (keys_nested self) other override_keys self with
  | (self', Some e) => (self', Some e)
  | (self', None) => wipe_loop other wipe_keys self'
  end.

(** The methods as called with a dotted key string, attrdict.py:81-158. *)
Definition api_set (key : string) (v : val) (d : dict) : step dict := set_key (split_dot key) v d.
Definition api_get (key : string) (d : dict) : result val := get_key (split_dot key) d.
Definition api_del (key : string) (d : dict) : step dict := del_key (split_dot key) d.

(** Several override layers applied one after the other, each by
    [union(layer, allow_override=True)], as done by model_definition.py:122-132
    and preprocess/model_math.py:78-95. *)
Fixpoint union_all (layers : list dict) (A : dict) : step dict :=
  match layers with
  | [] => (A, None)
  | B :: t => match union true A B with
              | (A', None) => union_all t A'
              | (A', Some e) => (A', Some e)
              end
  end.
