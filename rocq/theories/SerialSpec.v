(** Specification vocabulary for saving attributes. *)
From Verif Require Import Base AttrDictSpec SerialModel.
Local Open Scope string_scope.
Local Open Scope list_scope.

(** Dictionaries that can be stored: distinct keys, no dots in keys, nothing to import at the
    top level. *)
Definition plain_dict (d : dict) : Prop :=
  wf (VDict d) /\ dotfree (VDict d) /\ forall v, In ("import", v) d -> nothing v.

(** The attribute types calliope says it supports. *)
Inductive supported : attr -> Prop :=
| su_str s : supported (AStr s)
| su_int z : supported (AInt z)
| su_bool b : supported (ABool b)
| su_none : supported ANone
| su_dict d : plain_dict d -> supported (ADict d)
| su_list l : Forall (fun i => exists s, i = IStr s) l -> supported (AList l)
| su_set l : Forall (fun i => exists s, i = IStr s) l -> NoDup l -> supported (ASet l).

(** Names calliope reserves for its own bookkeeping. *)
Definition reserved (k : string) : Prop :=
  In k ["serialised_dicts"; "serialised_bools"; "serialised_nones"; "serialised_single_element_list"; "serialised_sets"].

(** An attribute dictionary calliope can be asked to save. *)
Definition savable (a : list (string * attr)) : Prop :=
  NoDup (map fst a) /\ forall k v, In (k, v) a -> ~ reserved k /\ supported v.

(** Equality of attribute values: sets have no order. *)
Inductive same_value : attr -> attr -> Prop :=
| sv_same v : same_value v v
| sv_set l m : (forall i, In i l <-> In i m) -> same_value (ASet l) (ASet m).

(** Equality of attribute dictionaries: no order, each name once. *)
Definition same_attrs (a b : list (string * attr)) : Prop :=
  NoDup (map fst b) /\
  (forall k v, In (k, v) a -> exists w, In (k, w) b /\ same_value v w) /\
  (forall k w, In (k, w) b -> exists v, In (k, v) a).

(** The same dataset, as far as attributes go. *)
Definition same_dataset (a b : dataset) : Prop :=
  same_attrs (top a) (top b) /\
  Forall2 (fun x y => fst x = fst y /\ same_attrs (snd x) (snd y)) (vars a) (vars b) /\
  Forall2 (fun x y => fst x = fst y /\ same_attrs (snd x) (snd y)) (coords a) (coords b).

(** What the YAML library is relied upon for: for the dictionaries to be saved, reading what
    was written gives the same dictionary, and the text is not the name of an existing
    file. *)
Definition yaml_ok (dump : dict -> string) (parse : string -> result dict)
  (path_text : string -> option string) (a : list (string * attr)) : Prop :=
  forall k d, In (k, ADict d) a -> parse (dump d) = Ok d /\ path_text (dump d) = None.

(** A list or set with a member that is not a string. *)
Definition mixed (v : attr) : Prop := exists l z, (v = AList l \/ v = ASet l) /\ In (IOther z) l.

(** The bookkeeping of a file: the names listed under a reserved name.  A list of one name
    comes back as text, an empty one as an empty array. *)
Inductive lists_names : attr -> list string -> Prop :=
| ln_text s : lists_names (AStr s) [s]
| ln_many ns : lists_names (AList (map IStr ns)) ns
| ln_none : lists_names AEmpty [].
Definition book (a : list (string * attr)) (key : string) (ns : list string) : Prop :=
  (~ In key (map fst a) /\ ns = []) \/ exists v, In (key, v) a /\ lists_names v ns.

(** Truth of attribute values in Python. *)
Inductive truth : attr -> bool -> Prop :=
| tr_zero : truth (AInt 0) false
| tr_int z : z <> 0%Z -> truth (AInt z) true
| tr_blank : truth (AStr "") false
| tr_text s : s <> "" -> truth (AStr s) true
| tr_bool b : truth (ABool b) b
| tr_none : truth ANone false
| tr_empty : truth AEmpty false
| tr_nil v : v = AList [] \/ v = ASet [] \/ v = ADict [] -> truth v false
| tr_some v : (exists x l, v = AList (x :: l) \/ v = ASet (x :: l)) \/ (exists x d, v = ADict (x :: d)) -> truth v true.

(** What reading makes of the value [v] of an attribute listed under [key]. *)
Inductive restored (parse : string -> result dict) (path_text : string -> option string) : string -> attr -> attr -> Prop :=
| re_dict s d d0 : parse (match path_text s with Some t => t | None => s end) = Ok d0 -> 
    (wf (VDict d0) -> dotfree (VDict d0) -> d = d0 /\ forall v, In ("import", v) d0 -> nothing v) -> restored parse path_text "serialised_dicts" (AStr s) (ADict d)
| re_bool v b : truth v b -> restored parse path_text "serialised_bools" v (ABool b)
| re_none v : restored parse path_text "serialised_nones" v ANone
| re_one v l : (exists s, v = AStr s /\ l = [IStr s]) \/ (exists z, v = AInt z /\ l = [IOther z]) \/ v = AList l \/ v = ASet l \/ (l = [] /\ (v = ANone \/ v = AEmpty)) \/
      (exists b, v = ABool b) \/ (exists d, v = ADict d /\ l = map (fun kv => IStr (fst kv)) d) -> restored parse path_text "serialised_single_element_list" v (AList l)
| re_set v l : (forall m, v = AList m \/ v = ASet m -> forall i, In i l <-> In i m) -> (v = AEmpty -> l = []) -> NoDup l \/ (exists d, v = ADict d) ->
    ~ (exists z, v = AInt z) -> v <> ANone -> restored parse path_text "serialised_sets" v (ASet l).
