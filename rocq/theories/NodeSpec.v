(** Specification vocabulary for technologies at nodes and links. *)
From Verif Require Import Base AttrDictSpec.
Local Open Scope string_scope.
Local Open Scope list_scope.

(** A dictionary has a setting (a leaf) at [q]. *)
Definition sets (d : dict) (q : list string) : Prop := exists v, leaf v /\ at_path (VDict d) q v.

(** Each setting comes from the node, else the technology, else the data tables. *)
Definition inherited (node tech table : dict) (q : list string) (v : val) : Prop :=
  at_path (VDict node) q v
  \/ (~ sets node q /\ at_path (VDict tech) q v)
  \/ (~ sets node q /\ ~ sets tech q /\ at_path (VDict table) q v).

Definition falsy (v : val) : Prop :=
  v = VNone \/ v = VBool false \/ v = VInt 0 \/ v = VStr "" \/ v = VList [] \/ v = VDict [].

(** The definition found for a name: absent names and empty entries are empty definitions. *)
Inductive def_of (d : dict) (name : string) : dict -> Prop :=
| do_absent : (forall v, ~ In (name, v) d) -> def_of d name []
| do_none : In (name, VNone) d -> def_of d name []
| do_dict x : In (name, VDict x) d -> def_of d name x.

(** A link from [a] to [b]. *)
Definition goes (data : dict) (a b : string) : Prop :=
  In ("link_from", VStr a) data /\ In ("link_to", VStr b) data.
Definition one_way (data : dict) : Prop := exists v, In ("one_way", v) data /\ ~ falsy v.

(** The settings of a link from [a] to [b] that appear at node [n]. *)
Definition kept_at (data : dict) (a b n : string) (q : list string) : Prop :=
  hd_error q <> Some "link_from" /\ hd_error q <> Some "link_to" /\
  (one_way data -> n = a -> hd_error q <> Some "carrier_out") /\
  (one_way data -> n = b -> hd_error q <> Some "carrier_in").

(** Where the settings of technology [name] at a node come from. *)
Record sources (techs tables : dict) (name : string) (item : val) (node tech table : dict) : Prop := {
  so_node : item = VNone /\ node = [] \/ item = VDict node;
  so_tech : In (name, VDict tech) techs;
  so_table : (forall v, ~ In (name, v) tables) /\ table = [] \/ In (name, VDict table) tables
}.
Definition inactive (node tech table : dict) : Prop :=
  exists v, falsy v /\ leaf v /\ inherited node tech table ["active"] v.
(** The three sources do not collide, and none of them gives a dictionary for "active". *)
Definition clean (node tech table : dict) : Prop :=
  wf (VDict node) /\ wf (VDict tech) /\ wf (VDict table) /\ compatible [table; tech; node] /\
  forall d, ~ In ("active", VDict d) node /\ ~ In ("active", VDict d) tech /\ ~ In ("active", VDict d) table.
