(** Specification vocabulary for model definitions: which overrides a scenario
    stands for, template chains. *)
From Verif Require Import Base AttrDictSpec.
From Coq Require Import Relations.
Local Open Scope string_scope.
Local Open Scope list_scope.

(** ** Scenarios *)
(** [lists scs sc v]: the item [v] is listed by [sc], which is either a scenario
    of the table or a comma-separated list of names. *)
Inductive lists (scs : list (string * val)) (sc : string) : val -> Prop :=
| li_list l v : In (sc, VList l) scs -> In v l -> lists scs sc v
| li_keys d k w : In (sc, VDict d) scs -> In (k, w) d -> lists scs sc (VStr k)
| li_single v : In (sc, v) scs -> v <> VNone -> is_dict v = false ->
    (forall l, v <> VList l) -> lists scs sc v
| li_names x : ~ In sc (map fst scs) -> In x (split_on ","%char sc) -> lists scs sc (VStr x).

Definition is_scenario (scs : list (string * val)) (s : string) : Prop := In s (map fst scs).

(** One scenario referring to another one. *)
Definition refers (scs : list (string * val)) (sc s : string) : Prop :=
  lists scs sc (VStr s) /\ is_scenario scs s.
Definition reaches scs : string -> string -> Prop := clos_refl_trans_1n _ (refers scs).
Definition cyclic scs (s : string) : Prop := clos_trans_1n _ (refers scs) s s.

(** The overrides a scenario stands for. *)
Definition selects (ovs : list string) (scs : list (string * val)) (sc o : string) : Prop :=
  exists s, reaches scs sc s /\ lists scs s (VStr o) /\ ~ is_scenario scs o /\ In o ovs.

(** Something a scenario may not list. *)
Definition bad_item (ovs : list string) (scs : list (string * val)) (v : val) : Prop :=
  match v with
  | VStr s => ~ is_scenario scs s /\ ~ In s ovs
  | _ => True
  end.
Definition ill_formed ovs scs sc : Prop :=
  exists s v, reaches scs sc s /\ lists scs s v /\ bad_item ovs scs v.

(** An override that can be used, and the block it stands for: nothing, or a dictionary with
    nothing to import. *)
Inductive block_of : val -> dict -> Prop :=
| bo_none : block_of VNone []
| bo_dict d : (forall v, d_get "import" d = Some v -> nothing v) -> block_of (VDict d) d.

(** ** Templates *)
(** The chain of a template: itself, the one it inherits from, and so on. *)
Inductive chain (raw : dict) : string -> list dict -> Prop :=
| ch_end name d : In (name, VDict d) raw -> ~ In "template" (map fst d) -> chain raw name [d]
| ch_next name d parent c : In (name, VDict d) raw -> In ("template", VStr parent) d ->
    chain raw parent c -> chain raw name (d :: c).

(** [nearest ds q v]: the first dictionary of the list having a leaf at [q] has [v] there. *)
Definition nearest (ds : list dict) (q : list string) (v : val) : Prop :=
  exists before d after, ds = before ++ d :: after /\ at_path (VDict d) q v /\
    forall m x, In m before -> leaf x -> ~ at_path (VDict m) q x.

(** One template inheriting from another; circular and dangling inheritance. *)
Definition inherits (raw : dict) (a b : string) : Prop :=
  exists d, In (a, VDict d) raw /\ In ("template", VStr b) d.
Definition circular (raw : dict) (a : string) : Prop := clos_trans_1n _ (inherits raw) a a.
Definition dangling (raw : dict) (a : string) : Prop :=
  exists b, inherits raw a b /\ ~ In b (map fst raw).

(** The entries of a block other than the reference to a template. *)
Definition own (d : dict) : dict := filter (fun kv => negb (String.eqb (fst kv) "template")) d.

(** [gives raw t q v]: the template [t] supplies the leaf [v] at [q], its own definition
    before the one it inherits from. *)
Definition gives (raw : dict) (t : string) (q : list string) (v : val) : Prop :=
  is_dict v = false /\ exists c, chain raw t c /\ nearest (map own c) q v.

(** Effective leaves of a block: its own (effective) ones first, then those of its
    template.  [templates] and [template] entries are instructions, not data. *)
Definition reserved (k : string) : Prop := k = "template" \/ k = "templates".
Fixpoint effective (raw : dict) (v : val) (q : list string) (x : val) : Prop :=
  match q, v with
  | [], _ => is_dict v = false /\ x = v
  | k :: q', VDict d =>
      let own_leaf y := ~ reserved k /\ exists w, In (k, w) d /\ effective raw w q' y in
      own_leaf x \/
      ((~ exists y, own_leaf y) /\ exists t, In ("template", VStr t) d /\ gives raw t q x)
  | _ :: _, _ => False
  end.

(** Blocks for which inheritance is unambiguous: templates referred to exist and
    their leaves are neither above nor below leaves of the block; no [templates]
    section below the top; nested blocks are not empty. *)
Inductive resolvable (raw : dict) : bool -> val -> Prop :=
| rs_leaf top v : is_dict v = false -> resolvable raw top v
| rs_dict (top : bool) d :
    (In "templates" (map fst d) -> top = true) ->
    (forall v, In ("template", v) d -> exists t c, v = VStr t /\ chain raw t c) ->
    (forall k w, In (k, w) d -> ~ reserved k ->
        resolvable raw false w /\ exists q x, effective raw w q x) ->
    (forall k w q x t q' x', In (k, w) d -> ~ reserved k -> effective raw w q x ->
        In ("template", VStr t) d -> gives raw t q' x' ->
        comparable (k :: q) q' -> k :: q = q') ->
    resolvable raw top (VDict d).

(** Template definitions that are plain blocks of a common shape, referring to
    other templates by name. *)
Definition template_table (raw : dict) : Prop :=
  NoDup (map fst raw) /\
  (forall n v, In (n, v) raw -> exists d, v = VDict d /\ wf (VDict d) /\ tidy (own d) /\
     forall w, In ("template", w) d -> exists p, w = VStr p) /\
  same_shape (map (fun kv => match snd kv with VDict d => own d | _ => [] end) raw).

(** The error reported for a faulty set of templates. *)
Definition bad_template (raw : dict) (e : exn) : Prop :=
  (e = EModel /\ exists n, circular raw n) \/ (e = EKey /\ exists n, dangling raw n).

(** ** Sources of a definition *)
(** No [_REPLACE_] at any level. *)
Definition no_wipe (d : dict) : Prop := forall p w, at_path (VDict d) p w -> ~ In "_REPLACE_" p.

(** Sections that are consumed by the scenario mechanism itself or renamed. *)
Definition plain_section (q : list string) : Prop :=
  match q with
  | k :: _ => k <> "overrides" /\ k <> "scenarios" /\ k <> "locations" /\ k <> "nodes"
  | [] => False
  end.

(** No use of templates at any level. *)
Definition no_templates (d : dict) : Prop :=
  forall p w, at_path (VDict d) p w -> forall k, In k p -> ~ reserved k.

(** Keyword arguments given at initialisation, as a definition. *)
Definition init_layer (kwargs : dict) : dict := [("config", VDict [("init", VDict kwargs)])].

(** The leaves of a dictionary, of several dictionaries, and of sources in order of
    priority: the first source having a leaf at [q] decides. *)
Definition of_dict (d : dict) (q : list string) (v : val) : Prop := at_path (VDict d) q v.
Definition of_any (ds : list dict) (q : list string) (v : val) : Prop := exists d, In d ds /\ of_dict d q v.
Fixpoint first_of (srcs : list (list string -> val -> Prop)) (q : list string) (v : val) : Prop :=
  match srcs with
  | [] => False
  | s :: t => s q v \/ ((~ exists x, leaf x /\ s q x) /\ first_of t q v)
  end.

(** ** Imports *)
Definition without (k : string) (d : dict) : dict := filter (fun kv => negb (String.eqb (fst kv) k)) d.

(** The blocks a file stands for: its own content (without the import
    instruction), then those of its imports in order.  Only files whose imports
    can be followed to an end have such a list. *)
Inductive file_layers (files : list (string * dict)) (rel : string -> string -> string)
    : string -> list dict -> Prop :=
| fl_plain p d : In (p, d) files -> ~ In "import" (map fst d) -> file_layers files rel p [d]
| fl_imports p d l ds : In (p, d) files -> In ("import", VList l) d -> l <> [] ->
    import_layers files rel p l ds -> file_layers files rel p (without "import" d :: ds)
with import_layers (files : list (string * dict)) (rel : string -> string -> string)
    : string -> list val -> list dict -> Prop :=
| il_nil p : import_layers files rel p [] []
| il_cons p k l ds ds' : file_layers files rel (rel p k) ds -> import_layers files rel p l ds' ->
    import_layers files rel p (VStr k :: l) (ds ++ ds').

(** Two of the blocks define the same leaf. *)
Definition twice_defined (ds : list dict) : Prop :=
  exists l1 X l2 Y l3, ds = l1 ++ X :: l2 ++ Y :: l3 /\
    exists q v w, leaf v /\ leaf w /\ at_path (VDict X) q v /\ at_path (VDict Y) q w.

Scheme file_layers_mut := Minimality for file_layers Sort Prop
  with import_layers_mut := Minimality for import_layers Sort Prop.
