(** Specification vocabulary for the settings of the model definition. *)
From Verif Require Import Base DataModel DataSpec.
From Verif Require AttrDictSpec.
Local Open Scope string_scope.
Local Open Scope list_scope.

(** A value as array entry. *)
Inductive as_entry : val -> cell -> Prop :=
| ae_none : as_entry VNone NaN
| ae_bool b : as_entry (VBool b) (Bo b)
| ae_num z : as_entry (VInt z) (Num z)
| ae_text s : as_entry (VStr s) (Str s).

(** What a value lists: itself if it is no collection, the keys if it is a dictionary. *)
Inductive lists : val -> list val -> Prop :=
| li_none : lists VNone []
| li_bool b : lists (VBool b) [VBool b]
| li_num z : lists (VInt z) [VInt z]
| li_text s : lists (VStr s) [VStr s]
| li_list l : lists (VList l) l
| li_dict d : lists (VDict d) (map (fun kv => VStr (fst kv)) d).
Definition labels (v : val) (ls : list string) : Prop := lists v (map VStr ls).

(** The [k]-th entry of the data of a setting; data that is not a list is the same for all. *)
Inductive datum : val -> nat -> cell -> Prop :=
| da_all v k c : as_entry v c -> datum v k c
| da_each l k v c : nth_error l k = Some v -> as_entry v c -> datum (VList l) k c.

(** What the setting [raw] of the input [name] says at a position: a plain value says the same
    everywhere, a lookup is true at its labels, an indexed setting says its data at its index. *)
Definition plain (lookups : list (string * string)) (name : string) (raw : val) : Prop :=
  raw = VNone \/ ((forall dim, ~ In (name, dim) lookups) /\ (forall l, raw <> VList l) /\ forall d, raw <> VDict d).
Definition labelled (lookups : list (string * string)) (name dim : string) (raw : val) : Prop :=
  In (name, dim) lookups /\ raw <> VNone /\ forall d, raw <> VDict d.
Record indexed (d : dict) (data : val) (items : list val) (dims : list string) : Prop := {
  ix_data : In ("data", data) d;
  ix_index : exists index, In ("index", index) d /\ lists index items;
  ix_dims : exists v, In ("dims", v) d /\ labels v dims
}.
Inductive says (lookups : list (string * string)) (name : string) : val -> pos -> cell -> Prop :=
| sa_plain raw p c : plain lookups name raw -> as_entry raw c -> says lookups name raw p c
| sa_label raw dim ls p : labelled lookups name dim raw -> labels raw ls -> In (p dim) ls -> says lookups name raw p (Bo true)
| sa_index d data items dims k it p c : indexed d data items dims ->
    nth_error items k = Some it -> labels it (map p dims) -> datum data k c -> says lookups name (VDict d) p c.

(** The dimensions of a setting. *)
Inductive over (lookups : list (string * string)) (name : string) : val -> list string -> Prop :=
| ov_plain raw : plain lookups name raw -> over lookups name raw []
| ov_label raw dim : labelled lookups name dim raw -> over lookups name raw [dim]
| ov_index d data items dims : indexed d data items dims -> over lookups name (VDict d) dims.

(** No key occurs twice in the setting. *)
Definition proper_setting (raw : val) : Prop := forall d, raw = VDict d -> NoDup (d_keys d).

(** Technologies at nodes: for each node the inputs it sets itself and the settings of each technology. *)
Definition places := list (string * (list string * list (string * dict))).
Definition setting_at (ps : places) (n t name : string) (raw : val) : Prop :=
  exists refs ts d, In (n, (refs, ts)) ps /\ In (t, d) ts /\ In (name, raw) d.
Definition own_at (ps : places) (name : string) : Prop := exists n refs ts, In (n, (refs, ts)) ps /\ In name refs.

(** The dictionaries are dictionaries: no name occurs twice. *)
Definition tidy_items (items : list (string * dict)) : Prop :=
  NoDup (map fst items) /\ forall i s, In (i, s) items -> NoDup (d_keys s) /\ forall v raw, In (v, raw) s -> proper_setting raw.
Definition tidy_places (ps : places) : Prop :=
  NoDup (map fst ps) /\ forall n refs ts, In (n, (refs, ts)) ps -> tidy_items ts.

(** Input [v] of technology [t] is either given by some node for itself, or the same wherever the
    technology is. *)
Definition consistent (ps : places) (t v : string) : Prop :=
  own_at ps v \/ v = "carrier_in" \/ v = "carrier_out" \/
  forall n n' raw raw', setting_at ps n t v raw -> setting_at ps n' t v raw' -> raw = raw'.

(** Sane definitions: dictionaries without repeated keys, and the types the schema asks for in "base_tech" and
    "active". *)
Record sane (techs tables nodes : dict) : Prop := {
  sn_techs : AttrDictSpec.wf (VDict techs);
  sn_tables : AttrDictSpec.wf (VDict tables);
  sn_nodes : AttrDictSpec.wf (VDict nodes);
  sn_base : forall t d x, In (t, VDict d) techs -> In ("base_tech", x) d -> AttrDictSpec.leaf x;
  sn_active : forall n node items t d x, In (n, VDict node) nodes -> In ("techs", VDict items) node -> In (t, VDict d) items ->
    In ("active", x) d -> exists b, x = VBool b
}.

(** A link, and the nodes at which it is defined. *)
Definition link (ds : dset) (t : string) : Prop := exists p, p "techs" = t /\ holds ds "base_tech" p (Str "transmission").
Definition ends (ds : dset) (t : string) (l : list string) : Prop :=
  NoDup l /\ forall n, In n l <-> member ds "nodes" n /\ exists p, p "nodes" = n /\ p "techs" = t /\ member ds "carriers" (p "carriers") /\ holds ds "definition_matrix" p (Bo true).
(** The arrays have the dimensions they always have. *)
Record usual_dims (ds : dset) : Prop := {
  us_nodes : NoDup (members ds "nodes");
  us_base : forall a, In ("base_tech", a) (vars ds) -> a_dims a = ["techs"];
  us_matrix : forall a, In ("definition_matrix", a) (vars ds) -> forall d, In d (a_dims a) -> d = "nodes" \/ d = "techs" \/ d = "carriers";
  us_place : forall n a, n = "latitude" \/ n = "longitude" -> In (n, a) (vars ds) -> a_dims a = ["nodes"]
}.
