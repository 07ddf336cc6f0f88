(** What the document of a math shows and to what it refers. *)
From Verif Require Import Base DocModel.
Local Open Scope string_scope.
Local Open Scope list_scope.

(** The definition of [c] names [n], in its condition or in an equation (for a variable: in a bound). *)
Definition names_in_equations (c : comp) (n : string) : Prop := exists q, In q (c_eqs c) /\ In n (q_refs q).
Definition names (c : comp) (n : string) : Prop := In n (c_where c) \/ names_in_equations c n.
Definition is_input (c : comp) : Prop := c_group c = GParam \/ c_group c = GLookup.
(** [c] is part of the problem described: active and applying somewhere; with equations of its own choice, one of them at least
    must apply. *)
Definition by_cases (c : comp) : Prop := c_group c = GExpr \/ c_group c = GCons \/ c_group c = GObj \/ c_group c = GPost.
Definition applies (c : comp) : Prop := c_active c = true /\ c_anywhere c = true /\ (by_cases c -> exists q, In q (c_eqs c) /\ q_anywhere q = true).
(** [l] are the texts of the equations of [c] that apply, in order. *)
Inductive picked (P : eqn -> Prop) : list eqn -> list string -> Prop :=
| picked_nil : picked P [] []
| picked_in q l t : P q -> picked P l t -> picked P (q :: l) (q_text q :: t)
| picked_out q l t : ~ P q -> picked P l t -> picked P (q :: l) t.
Definition equations_that_apply (c : comp) : list string -> Prop := picked (fun q => by_cases c -> q_anywhere q = true) (c_eqs c).
Definition all_equations (c : comp) : list string := map q_text (c_eqs c).
(** No two components have the same name. *)
Definition distinct (math : list comp) : Prop := NoDup (map c_name math).
(** Components name only components that are defined before them: inputs first, then group after group. *)
Definition in_order (math : list comp) : Prop :=
  forall l1 c l2, ordered math = l1 ++ c :: l2 -> forall c', In c' l1 -> ~ names c' (c_name c).
(** A name of one letter. *)
Definition one_letter (n : string) : Prop := exists a, n = String a "".
Definition shown (d : list entry) (c : comp) (t : list string) : Prop := exists e, In e d /\ e_group e = c_group c /\ e_name e = c_name c /\ e_text e = Some t.
