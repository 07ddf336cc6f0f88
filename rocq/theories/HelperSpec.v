(** What the helper functions are to compute, stated independently of their model. *)
From Coq Require Import QArith Qcanon.
From Verif Require Import Base LangModel EvalModel HelperModel.
Local Open Scope nat_scope.
Local Open Scope string_scope.
Local Open Scope list_scope.

(** The entries of an array depend on the labels of its dimensions only. *)
Definition local (a : darr) : Prop :=
  forall p q, (forall d, In d (a_dims a) -> p d = q d) -> a_at a p = a_at a q.
Definition local_mask (w : dmask) : Prop :=
  forall p q, (forall d, In d (m_dims w) -> p d = q d) -> m_at w p = m_at w q.
(** Data as xarray holds them: labels are unique and every array depends on its dimensions. *)
Definition sound (D : denv) : Prop :=
  (forall d, NoDup (n_labels D d)) /\
  (forall s, local (n_array D s)) /\
  (forall s w a, local_mask w -> n_ref D s w = Some a -> local a) /\
  (forall s a, n_slice D s = Some a -> local a) /\
  (forall s, local (n_carrier D s)) /\
  local (n_matrix D).

(** A position whose labels on the dimensions [ds] exist. *)
Definition inside (D : denv) (ds : list string) (p : pos) : Prop :=
  forall d, In d ds -> In (p d) (n_labels D d).
(** Two arrays with the same dimensions and entries. *)
Definition same_array (D : denv) (a b : darr) : Prop :=
  (forall d, In d (a_dims a) <-> In d (a_dims b)) /\
  forall p, inside D (a_dims a) p -> a_at a p = a_at b p.
Definition same_result (D : denv) (a b : option darr) : Prop :=
  match a, b with Some a, Some b => same_array D a b | None, None => True | _, _ => False end.

(** Entries that can be added: numbers and truth values; missing ones are passed over. *)
Definition numeric (c : cell) : Prop := match c with Inf _ | Txt _ => False | _ => True end.
Definition numbers (D : denv) (a : darr) : Prop :=
  forall p, inside D (a_dims a) p -> numeric (a_at a p).
Definition worth (c : cell) : Qc :=
  match c with Val q => q | Boo true => 1%Qc | _ => 0%Qc end.
(** [c] is the sum of the entries [l]: missing exactly if all of them are. *)
Definition sum_of (l : list cell) (c : cell) : Prop :=
  ((forall x, In x l -> x = Miss) /\ c = Miss) \/
  ((exists x, In x l /\ x <> Miss) /\ c = Val (fold_right (fun x s => worth x + s) 0 l)%Qc).

(** The entries along a dimension, those at the given places. *)
Definition along (D : denv) (d : string) (a : darr) (p : pos) (places : list nat) : list cell :=
  map (fun i => a_at a (put p d (nth i (n_labels D d) ""))) places.
Definition size (D : denv) (d : string) : nat := List.length (n_labels D d).
Definition whole_dim (D : denv) (d : string) : list nat := seq 0 (size D d).

(** Calls as they are written. *)
Definition c_sum (e : expr) (ds : list string) : expr := EFun "sum" [e] [("over", EList (map EName ds))].
Definition c_roll (e : expr) (d : string) (neg : bool) (k : string) : expr := EFun "roll" [e] [(d, ENum neg k)].
Definition c_next (e : expr) (d : string) (n : string) : expr := EFun "sum_next_n" [e; EName d; ENum false n] [].
Definition c_group (e by_ : expr) (d : string) : expr := EFun "group_sum" [e; by_; EName d] [].
Definition c_datetime (e : expr) (o g : string) : expr := EFun "group_datetime" [e; EName o; EName g] [].
Definition c_reduce (e : expr) (dir : string) : expr := EFun "reduce_carrier_dim" [e; EName dir] [].
Definition c_where (e c : expr) : expr := EFun "where" [e; c] [].
(** The number that a text stands for. *)
Definition integer (neg : bool) (s : string) (k : Z) : Prop := number_cell neg s = Val (Q2Qc (inject_Z k)).
Definition c_plus_zero (e : expr) : expr := EChain e [(OAdd, ENum false "0")].
Definition c_select (e : expr) (ks : list (string * string)) : expr :=
  EFun "select_from_lookup_arrays" [e] (map (fun k => (fst k, EName (snd k))) ks).
Definition c_val (d : string) (neg : bool) (k : string) : expr := EFun "get_val_at_index" [] [(d, ENum neg k)].
Definition c_any (s : string) (ds : list string) : expr := EFun "any" [EName s] [("over", EList (map EName ds))].
Definition c_defined (d : string) (ms : list string) (within : string) (how : string) : expr :=
  EFun "defined" [] [(d, EList (map EStr ms)); ("within", EName within); ("how", EStr how)].

(** Entries that belong to one of the groups that exist. *)
Definition kept (D : denv) (gd : string) (by_ a : darr) : darr :=
  {| a_dims := a_dims a;
     a_at := fun p => match a_at by_ p with
                      | Txt g => if smem g (n_labels D gd) then a_at a p else Miss
                      | _ => Miss
                      end |}.
(** Only numbers and missing entries. *)
Definition plain (D : denv) (a : darr) : Prop :=
  forall p, inside D (a_dims a) p -> match a_at a p with Miss | Val _ => True | _ => False end.

(** Putting sub-expressions where they are referred to. *)
Fixpoint inline (sb : list (string * expr)) (e : expr) {struct e} : expr :=
  match e with
  | ERef s => match d_get s sb with Some x => x | None => e end
  | EList l => EList (map (inline sb) l)
  | EFun f args kws => EFun f (map (inline sb) args) (map (fun k => (fst k, inline sb (snd k))) kws)
  | ESign neg e => ESign neg (inline sb e)
  | EChain e ops => EChain (inline sb e) (map (fun x => (fst x, inline sb (snd x))) ops)
  | _ => e
  end.

(** Neither calls nor references to sub-expressions. *)
Fixpoint call_free (e : expr) : bool :=
  match e with
  | EFun _ _ _ | ERef _ | EList _ => false
  | ESign _ e => call_free e
  | EChain e ops => call_free e && forallb (fun x => call_free (snd x)) ops
  | _ => true
  end.
