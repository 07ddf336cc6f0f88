(** What expansion, building and input checks should do, stated independently of the model's
    own loops. *)
From Coq Require Import QArith Qcanon.
From Verif Require Import Base LangModel EvalModel BuildModel.
Local Open Scope nat_scope.
Local Open Scope string_scope.
Local Open Scope list_scope.

(** * References *)

(** A reference to a sub-expression ([slices = false]) or slice occurs in an expression;
    [signed]: somewhere below a sign. *)
Inductive occurs (slices : bool) (s : string) : bool -> expr -> Prop :=
| oc_ref : slices = false -> occurs slices s false (ERef s)
| oc_slice : slices = true -> occurs slices s false (ESlice s)
| oc_index n sl d x b : slices = true -> In (d, x) sl -> occurs slices s b x -> occurs slices s b (EIndex n sl)
| oc_arg f args kws x b : In x args -> occurs slices s b x -> occurs slices s b (EFun f args kws)
| oc_kw f args kws k x b : In (k, x) kws -> occurs slices s b x -> occurs slices s b (EFun f args kws)
| oc_sign n e b : occurs slices s b e -> occurs slices s true (ESign n e)
| oc_first e ops b : occurs slices s b e -> occurs slices s b (EChain e ops)
| oc_next e ops o x b : In (o, x) ops -> occurs slices s b x -> occurs slices s b (EChain e ops).

(** In an expression or on one side of a comparison. *)
Definition within (P : expr -> Prop) (p : parsed) : Prop :=
  match p with PArith e => P e | PEq l _ r => P l \/ P r end.

(** Where references are looked for: not below a sign, except one at the very top. *)
Definition refers (slices : bool) (s : string) (p : parsed) : Prop :=
  match p with
  | PArith (ESign _ e) => occurs slices s false e
  | PArith e => occurs slices s false e
  | PEq l _ r => occurs slices s false l \/ occurs slices s false r
  end.
Definition mentions (slices : bool) (s : string) : parsed -> Prop := within (fun e => exists b, occurs slices s b e).
(** The items of an equation: for slices also those of its chosen sub-expressions. *)
Definition referred (slices : bool) (q : peq) (s : string) : Prop :=
  refers slices s (q_expr q) \/
  (slices = true /\ exists k e, In (k, e) (q_subs q) /\ within (occurs true s false) e).

(** * Choices of alternatives *)

(** Names of sub-expressions and slices (math_schema.py allows letters, digits and "_"). *)
Definition plain_key (k : string) : Prop := k <> "" /\ has_char ":" k = false.
(** The parsed alternatives of a list of texts (condition, expression). *)
Definition alternatives_of (N : names) (pe : string -> option parsed) : list (string * string) -> list peq -> Prop :=
  Forall2 (fun we q => exists w, parse_where_text N (fst we) = Some w /\ q_where q = [w] /\
    pe (snd we) = Some (q_expr q) /\ q_subs q = [] /\ q_slices q = []).
Definition dict_of (N : names) (pe : string -> option parsed) : list (string * list (string * string)) ->
  list (string * list peq) -> Prop :=
  Forall2 (fun kl ka => fst kl = fst ka /\ alternatives_of N pe (snd kl) (snd ka)).

(** One number per item, each standing for an alternative of the item. *)
Definition choice {A} (alts : list (string * list A)) : list string -> list nat -> Prop :=
  Forall2 (fun k n => exists l, d_get k alts = Some l /\ n < List.length l).
Fixpoint picked {A} (alts : list (string * list A)) (ks : list string) (ch : list nat) : list A :=
  match ks, ch with
  | k :: ks, n :: ch =>
      match d_get k alts with
      | Some l => match nth_error l n with Some a => a :: picked alts ks ch | None => picked alts ks ch end
      | None => picked alts ks ch
      end
  | _, _ => []
  end.

(** The conditions of an equation hold at a position. *)
Definition applies (W : wenv) (p : pos) (q : peq) : bool := forallb (fun w => weval W w p) (q_where q).
Definition at_most_one (W : wenv) (p : pos) (l : list peq) : Prop := List.length (filter (applies W p) l) <= 1.
Definition exactly_one (W : wenv) (p : pos) (l : list peq) : Prop := List.length (filter (applies W p) l) = 1.

(** How many of the conditions of a list of texts hold. *)
Definition holding (N : names) (W : wenv) (p : pos) (l : list (string * string)) : nat :=
  List.length (filter (fun t => match parse_where_text N (fst t) with Some w => weval W w p | None => false end) l).

(** The variant of an equation for a choice: same expression, all conditions together, the
    chosen alternatives to look up. *)
Definition dictionary (slices : bool) (q : peq) : list (string * parsed) := if slices then q_slices q else q_subs q.
Definition variant_of (slices : bool) (alts : list (string * list peq)) (q : peq) (ks : list string) (ch : list nat)
  (r : peq) : Prop :=
  q_expr r = q_expr q /\
  (forall W p, applies W p r = true <->
     applies W p q = true /\ forall a, In a (picked alts ks ch) -> applies W p a = true) /\
  (forall k n, In (k, n) (combine ks ch) -> exists l a, d_get k alts = Some l /\ nth_error l n = Some a /\
     d_get k (dictionary slices r) = Some (q_expr a)) /\
  (forall k e, In (k, e) (dictionary slices r) ->
     In (k, e) (dictionary slices q) \/ exists a, In a (picked alts ks ch) /\ e = q_expr a) /\
  dictionary (negb slices) r = dictionary (negb slices) q.
(** A list of equations is expanded: for each equation (given by its number) and each choice
    of alternatives of its items there is exactly one result. *)
Definition expanded (slices : bool) (alts : list (string * list peq)) (qs rs : list peq) : Prop :=
  exists (ks : nat -> list string) (cs : list (nat * list nat)),
    (forall i q, nth_error qs i = Some q -> NoDup (ks i) /\ forall s, In s (ks i) <-> referred slices q s) /\
    NoDup cs /\ (forall i ch, In (i, ch) cs <-> i < List.length qs /\ choice alts (ks i) ch) /\
    Forall2 (fun c r => exists q, nth_error qs (fst c) = Some q /\ variant_of slices alts q (ks (fst c)) (snd c) r) cs rs.

(** [order] lists the elements of a set, each once. *)
Definition lists_set (order : list string -> list string) : Prop :=
  forall l, NoDup (order l) /\ forall s, In s (order l) <-> In s l.

(** * Which entries an equation is for *)
Definition selected (D : data) (sets : list string) (top : index -> bool) (q : peq) (f : index) : Prop :=
  top f = true /\ exists i, In i (indices D (d_dims D)) /\ map (at_index (d_dims D) i) sets = f /\
    forall w, In w (q_where q) -> weval (d_where D) w (at_index (d_dims D) i) = true.

(** Values depend on arrays through their entries only. *)
Definition alike (x y : expr * arr) : Prop := fst x = fst y /\ forall p, snd x p = snd y p.
Definition congruent (E : env) : Prop :=
  (forall f args args' kws kws', Forall2 alike args args' ->
     Forall2 (fun x y => fst x = fst y /\ alike (snd x) (snd y)) kws kws' ->
     forall p, e_helper E f args kws p = e_helper E f args' kws' p) /\
  forall s w w', (forall p, w p = w' p) -> forall p, e_ref E s w p = e_ref E s w' p.

(** The equation cannot be evaluated or has no value at a selected entry. *)
Definition unusable (D : data) (sets : list string) (top : index -> bool) (q : peq) : Prop :=
  (exists f, selected D sets top q f) /\
  (keys_given q = false \/
   exists wd f, (forall g, wd g = true <-> selected D sets top q g) /\
     In f (indices D sets) /\ selected D sets top q f /\ null (evaluate D sets q wd f) = true).

(** The entries a component is built for. *)
Definition top_selects (D : data) (sets : list string) (ws : list wexpr) (f : index) : Prop :=
  (forall s, In s sets -> In s (d_dims D)) /\
  exists i, In i (indices D (d_dims D)) /\ map (at_index (d_dims D) i) sets = f /\
    d_matrix D (at_index (d_dims D) i) = true /\
    forall w, In w ws -> weval (d_where D) w (at_index (d_dims D) i) = true.

(** A condition that depends on some dimensions only. *)
Definition over (W : wenv) (sets : list string) (w : wexpr) : Prop :=
  forall p p', map p sets = map p' sets -> weval W w p = weval W w p'.

(** A conjunct is moved: the second equations have it in addition. *)
Definition with_conjunct (W : wenv) (u : wexpr) (w w' : wexpr) : Prop :=
  forall p, weval W w' p = weval W w p && weval W u p.
Definition conjunct_added (N : names) (W : wenv) (u : wexpr) : list (string * string) -> list (string * string) -> Prop :=
  Forall2 (fun a b => snd a = snd b /\ exists w w', parse_where_text N (fst a) = Some w /\
    parse_where_text N (fst b) = Some w' /\ with_conjunct W u w w').
(** Both fail, or both give the same entries. *)
Definition same_outcome (D : data) (sets : list string) (a b : outcome (index -> entry)) : Prop :=
  match a, b with
  | Done x, Done y => forall f, In f (indices D sets) -> x f = y f
  | Fail _, Fail _ => True
  | _, _ => False
  end.

(** A check is violated by an item that is defined. *)
Definition violated (D : data) (N : names) (k : check) : Prop :=
  k_active k = true /\ exists w i, parse_where_text N (k_where k) = Some w /\
    In i (indices D (d_dims D)) /\ weval (d_where D) w (at_index (d_dims D) i) = true /\
    d_matrix D (at_index (d_dims D) i) = true.
