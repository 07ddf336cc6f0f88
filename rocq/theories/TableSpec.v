(** What loading a data table is meant to do, independently of how it is done. *)
From Verif Require Import Base AttrDictModel DataModel TableModel.
From Verif Require DataSpec.
Local Open Scope string_scope.
Local Open Scope list_scope.

Definition row_dims (t : table) : list string := listed (t_rows t).
Definition col_dims (t : table) : list string := listed (t_cols t).
Definition own_dims (t : table) : list string := row_dims t ++ col_dims t.
(** The dimensions of a loaded table. *)
Definition kept_dim (t : table) (d : string) : Prop := In d (own_dims t) /\ ~ In d (t_drop t).
Definition added_dim (t : table) (d : string) : Prop := In d (map fst (t_add t)).

(** A frame without gaps: labels for every level and an entry in every column. *)
Definition regular (f : frame) : Prop :=
  (forall r cs, In (r, cs) (f_body f) -> List.length r = List.length (f_rows f) /\ List.length cs = List.length (f_header f)) /\
  (forall h, In h (f_header f) -> List.length h = List.length (f_cols f)).
(** Without column (row) dimensions there is one column (row). *)
Definition squared (t : table) (f : frame) : Prop :=
  (t_cols t = None -> List.length (f_header f) = 1) /\ (t_rows t = None -> List.length (f_body f) = 1).
(** Definitions are accepted by the schema: dimensions are listed once, rules of [check_row_and_columns]. *)
Definition accepted (t : table) : Prop :=
  table_valid t = true /\ NoDup (row_dims t) /\ NoDup (col_dims t) /\ NoDup (map fst (t_add t)) /\ NoDup (map fst (t_select t)).

(** The entry in a row and column, by number. *)
Definition entry_at (f : frame) (a j : nat) (r h : list string) (c : cell) : Prop :=
  exists cs, nth_error (f_body f) a = Some (r, cs) /\ nth_error (f_header f) j = Some h /\ nth_error cs j = Some c.
(** Its labels by dimension. *)
Definition labels_of (t : table) (r h : list string) : list (string * string) := combine (row_dims t) r ++ combine (col_dims t) h.
(** It is selected. *)
Definition picked (t : table) (ls : list (string * string)) : Prop :=
  forall d want l, In (d, want) (t_select t) -> In (d, l) ls -> In l want.
(** It belongs at the labels [at] of the loaded table: its own ones on the dimensions kept, any item on those added. *)
Definition lands (t : table) (ls : list (string * string)) (at_ : pos) : Prop :=
  (forall d, kept_dim t d -> In (d, at_ d) ls) /\ (forall d items, In (d, items) (t_add t) -> In (at_ d) items).
(** Input [i] at position [p]. *)
Definition place (i : string) (p : pos) : pos := upd p "inputs" i.

(** Some input over nodes and technologies has an entry at node [n] and technology [t]. *)
Definition data_at (ds : dset) (n t : string) : Prop :=
  exists i a p, In (i, a) (vars ds) /\ In "nodes" (a_dims a) /\ In "techs" (a_dims a) /\ DataSpec.within ds (a_dims a) p /\
    p "nodes" = n /\ p "techs" = t /\ a_at a p <> NaN.
(** A definition of nodes lists technology [t] at node [n]. *)
Definition lists_tech (d : dict) (n t : string) : Prop :=
  exists x y, d_get n d = Some (VDict x) /\ d_get "techs" x = Some (VDict y) /\ In t (map fst y).
(** Input [param] has an entry for technology [t] and label [l] of dimension [dim]. *)
Definition entry_for (ds : dset) (param dim t l : string) : Prop :=
  exists a p, In (param, a) (vars ds) /\ DataSpec.within ds (a_dims a) p /\ p "techs" = t /\ p dim = l /\ a_at a p <> NaN.
(** A definition of technologies gives [l] for [param]: alone or in a list. *)
Definition gives (d : dict) (t param l : string) : Prop :=
  exists x, d_get t d = Some (VDict x) /\ (d_get param x = Some (VStr l) \/ exists ls, d_get param x = Some (VList ls) /\ In (VStr l) ls).
