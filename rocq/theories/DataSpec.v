(** Specification vocabulary for labelled arrays. *)
From Verif Require Import Base DataModel.
Local Open Scope string_scope.
Local Open Scope list_scope.

(** Dimension [d] of the dataset has member [m]. *)
Definition member (ds : dset) (d m : string) : Prop := exists l, In (d, l) (coords ds) /\ In m l.
Definition within (ds : dset) (dims : list string) (i : pos) : Prop := forall d, In d dims -> member ds d (i d).
Definition agree (dims : list string) (i j : pos) : Prop := forall d, In d dims -> i d = j d.

(** An array depends on its dimensions only. *)
Definition proper (a : array) : Prop := forall i j, agree (a_dims a) i j -> a_at a i = a_at a j.
Record proper_dset (ds : dset) : Prop := {
  pd_coords : NoDup (map fst (coords ds));
  pd_vars : NoDup (map fst (vars ds));
  pd_proper : forall n a, In (n, a) (vars ds) -> proper a
}.

(** A node/technology/carrier combination is defined if it has an inflow or an outflow. *)
Definition combination (ds : dset) (i : pos) : Prop :=
  within ds ["nodes"; "techs"; "carriers"] i /\
  exists n a, (n = "carrier_in" \/ n = "carrier_out") /\ In (n, a) (vars ds) /\ a_at a i = Bo true.

(** The value of an input at a position. *)
Definition holds (ds : dset) (n : string) (i : pos) (c : cell) : Prop :=
  exists a, In (n, a) (vars ds) /\ within ds (a_dims a) i /\ a_at a i = c.

(** Boolean arrays have no missing entries. *)
Definition typed (a : array) : Prop := NoDup (a_dims a) /\ (a_bool a = true -> forall i, a_at a i <> NaN).

(** The entry seen after adding [news] one after the other to [base]: that of the last dataset that
    has one. *)
Definition latest (news : list dset) (base : dset) (n : string) (i : pos) (c : cell) : Prop :=
  (exists before d after, news = before ++ d :: after /\ holds d n i c /\
     forall d' c', In d' after -> c' <> NaN -> ~ holds d' n i c')
  \/ (holds base n i c /\ forall d' c', In d' news -> c' <> NaN -> ~ holds d' n i c').

(** Position of a node, technology and carrier. *)
Definition at3 (n t c : string) : pos :=
  fun d => if String.eqb d "nodes" then n else if String.eqb d "techs" then t else if String.eqb d "carriers" then c else "".
(** In array [dm], technology [t] is a link between [a] and [b], with the same carriers at both. *)
Definition link_between (ds : dset) (dm : array) (t a b : string) : Prop :=
  a <> b /\ exists cs : list string, cs <> [] /\ (forall c, In c cs -> member ds "carriers" c) /\
    forall n c, member ds "nodes" n -> member ds "carriers" c ->
      (a_at dm (at3 n t c) = Bo true <-> (n = a \/ n = b) /\ In c cs).
