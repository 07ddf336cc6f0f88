(** Specification vocabulary for nested dictionaries, independent of the model
    functions of [AttrDictModel]: which value sits at which path. *)
From Verif Require Import Base.
Local Open Scope list_scope.

(** [at_path v p x]: walking down [p] from [v] one arrives at [x]. *)
Inductive at_path : val -> list string -> val -> Prop :=
| at_here v : at_path v [] v
| at_below k w items p x :
    In (k, w) items -> at_path w p x -> at_path (VDict items) (k :: p) x.

(** A leaf is a value that is not a dictionary. *)
Definition leaf (v : val) : Prop := is_dict v = false.

(** A well-formed nested dictionary has no duplicate keys at any level (a Python
    dict cannot). *)
Inductive wf : val -> Prop :=
| wf_leaf v : leaf v -> wf v
| wf_dict items :
    NoDup (map fst items) -> Forall (fun kv => wf (snd kv)) items -> wf (VDict items).

Definition prefix (p q : list string) : Prop := exists r, q = p ++ r.
Definition sprefix (p q : list string) : Prop := exists r, r <> [] /\ q = p ++ r.
Definition comparable (p q : list string) : Prop := prefix p q \/ prefix q p.

(** Some proper, non-empty initial part of [p] leads to a value that is neither a
    dictionary nor None, i.e. something that stands in the way of [p]. *)
Definition blocked_at (d : val) (p q : list string) : Prop :=
  q <> [] /\ sprefix q p /\ exists x, at_path d q x /\ leaf x /\ x <> VNone.
Definition blocked (d : val) (p : list string) : Prop := exists q, blocked_at d p q.

(** Defined keys of a dictionary: paths of leaves and of empty sub-dictionaries. *)
Definition def_key (d : val) (p : list string) (w : val) : Prop :=
  p <> [] /\ at_path d p w /\ (leaf w \/ w = VDict []).

(** The empty marker [w] at [k] says nothing about the leaf at [q]: an empty
    dictionary at or above it, or None above it. *)
Definition harmless (k : list string) (w : val) (q : list string) : Prop :=
  (w = VDict [] /\ prefix k q) \/ (w = VNone /\ sprefix k q).

(** Expected leaves of "A overridden by B" (B wins, except that None does not
    displace a whole sub-dictionary). *)
Definition merged_leaf (A B : val) (q : list string) (v : val) : Prop :=
  (at_path B q v /\ (v <> VNone \/ ~ exists o, at_path A q (VDict o)))
  \/ (at_path A q v /\
      forall k w, def_key B k w -> comparable k q -> harmless k w q).

(** No leaf of A stands in the way of a key of B. *)
Definition fits (A B : val) : Prop :=
  forall k w, def_key B k w -> ~ blocked A k.

(** No key of one dictionary is equal to, above or below a key of the other. *)
Definition disjoint_keys (A B : val) : Prop :=
  forall k w k' w', def_key A k w -> def_key B k' w' -> ~ comparable k k'.

(** No empty sub-dictionary below the root. *)
Inductive noempty : val -> Prop :=
| ne_leaf v : leaf v -> noempty v
| ne_dict d : d <> [] -> Forall (fun kv => noempty (snd kv)) d -> noempty (VDict d).

Definition tidy (d : dict) : Prop := Forall (fun kv => noempty (snd kv)) d.

(** Dictionaries that agree on where leaves sit: no leaf of one is above or below
    a leaf of another. *)
Definition same_shape (ds : list dict) : Prop :=
  forall X Y, In X ds -> In Y ds -> forall k w k' w',
    at_path (VDict X) k w -> leaf w -> at_path (VDict Y) k' w' -> leaf w' -> comparable k k' -> k = k'.

(** The value of [q] after all layers: the last layer defining it, else the base. *)
Definition last_wins (layers : list dict) (A : dict) (q : list string) (v : val) : Prop :=
  (exists before L after, layers = before ++ L :: after /\ at_path (VDict L) q v /\
     forall M x, In M after -> leaf x -> ~ at_path (VDict M) q x)
  \/ (at_path (VDict A) q v /\ forall M x, In M layers -> leaf x -> ~ at_path (VDict M) q x).

(** Layers whose settings do not collide: a setting (leaf) of one layer is never above or
    below a setting of another, and never at or above an empty block of another. *)
Definition compatible (layers : list dict) : Prop :=
  forall X Y k w k' w', In X layers -> In Y layers -> def_key (VDict X) k w ->
    leaf w' -> at_path (VDict Y) k' w' -> comparable k k' ->
    (leaf w -> k = k') /\ (w = VDict [] -> sprefix k k').

(** Keys without dots at every level. *)
Inductive dotfree : val -> Prop :=
| df_leaf v : leaf v -> dotfree v
| df_dict d : Forall (fun kv => has_char dot (fst kv) = false /\ dotfree (snd kv)) d -> dotfree (VDict d).

(** A dictionary holding nothing but one replacement: [{p: {_REPLACE_: v}}]. *)
Fixpoint nest (p : list string) (v : val) : val :=
  match p with [] => v | k :: r => VDict [(k, nest r v)] end.

(** Values that Python takes as false. *)
Inductive nothing : val -> Prop :=
| no_none : nothing VNone
| no_false : nothing (VBool false)
| no_zero : nothing (VInt 0%Z)
| no_text : nothing (VStr EmptyString)
| no_list : nothing (VList [])
| no_dict : nothing (VDict []).
