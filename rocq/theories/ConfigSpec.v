(** Specification vocabulary for configuration objects. *)
From Verif Require Import Base AttrDictSpec ConfigModel.
Local Open Scope string_scope.
Local Open Scope list_scope.

(** [setting o p v]: the setting addressed by the path [p] has the value [v].  A setting is
    a plain field; its value may itself be a dictionary or a list. *)
Inductive setting : obj -> list string -> val -> Prop :=
| set_here v : setting (OLeaf v) [] v
| set_field fs k o p v : In (k, o) fs -> setting o p v -> setting (OModel fs) (k :: p) v
| set_entry fs k o p v : In (k, o) fs -> setting o p v -> setting (ODict fs) (k :: p) v.

(** The validator in charge of a path. *)
Inductive checker : schema -> list string -> (val -> result val) -> Prop :=
| chk_here c : checker (SLeaf c) [] c
| chk_field fs g k dflt S p c : In (k, (dflt, S)) fs -> checker S p c -> checker (SModel fs g) (k :: p) c
| chk_entry S k p c : checker S p c -> checker (SDict S) (k :: p) c.

(** Validators do not change what they have produced, and field names are distinct. *)
Inductive steady : schema -> Prop :=
| st_leaf c : (forall v x, c v = Ok x -> c x = Ok x) -> steady (SLeaf c)
| st_list c : (forall v x, c v = Ok x -> c x = Ok x) -> steady (SList c)
| st_model fs g : NoDup (map fst fs) -> Forall (fun f => steady (snd (snd f))) fs -> steady (SModel fs g)
| st_dict S : steady S -> steady (SDict S).

(** [addresses o u]: every entry of the update leads to a plain field of the object, through
    models and dictionaries of models.  This leaves out lists, unknown fields and entries
    of a dictionary that are themselves dictionaries. *)
Inductive addresses : obj -> val -> Prop :=
| ad_leaf x v : addresses (OLeaf x) v
| ad_model fs d : (forall k v, In (k, v) d -> exists o, In (k, o) fs /\ addresses o v) ->
    addresses (OModel fs) (VDict d)
| ad_dict fs d : (forall k v, In (k, v) d ->
      (exists os, In (k, OModel os) fs /\ addresses (OModel os) v) \/ (exists x, In (k, OLeaf x) fs)) ->
    addresses (ODict fs) (VDict d).

(** Keys of the dictionaries inside an object are distinct. *)
Inductive neat : obj -> Prop :=
| nt_leaf v : neat (OLeaf v)
| nt_list v : neat (OList v)
| nt_model fs : Forall (fun f => neat (snd f)) fs -> neat (OModel fs)
| nt_dict fs : NoDup (map fst fs) -> Forall (fun f => neat (snd f)) fs -> neat (ODict fs).

(** A valid object of a class: validation reproduces it. *)
Definition instance (S : schema) (o : obj) : Prop := validate S (dump o) = Ok o.

(** [updated S o u p v]: the value the setting [p] should have after the update [u]: the
    validated new value if the update mentions it, else the one it had. *)
Definition updated (S : schema) (o : obj) (u : val) (p : list string) (v : val) : Prop :=
  exists x, setting o p x /\
    ((exists w c, at_path u p w /\ checker S p c /\ c w = Ok v) \/
     ((~ exists w, at_path u p w) /\ v = x)).
