(** Specification vocabulary for math definitions. *)
From Verif Require Import Base AttrDictSpec.
Local Open Scope string_scope.
Local Open Scope list_scope.

(** The component [n] is switched on in the group called [f]. *)
Definition on_in (m : list (string * list (string * bool))) (f n : string) : Prop :=
  exists g, In (f, g) m /\ In (n, true) g.
(** The component [n] is mentioned (on or off) in the group called [f]. *)
Definition listed_in (m : list (string * list (string * bool))) (f n : string) : Prop :=
  exists g b, In (f, g) m /\ In (n, b) g.
(** Some name is switched on in two different groups. *)
Definition shared_name (m : list (string * list (string * bool))) : Prop :=
  exists f f' n, f <> f' /\ on_in m f n /\ on_in m f' n.
(** A math definition as the schema holds it: each group once, each name once per group. *)
Definition proper (m : list (string * list (string * bool))) : Prop :=
  NoDup (map fst m) /\ forall f g, In (f, g) m -> NoDup (map fst g).
