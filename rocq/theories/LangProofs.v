(** The parsers of [LangModel] accept exactly the grammar of [LangSpec]. *)
From Verif Require Import Base BaseProofs LangModel LangSpec.
Local Open Scope string_scope.
Local Open Scope list_scope.
Local Arguments String.eqb : simpl never.

Scheme level_m := Minimality for level Sort Prop
  with chain_m := Minimality for chain Sort Prop
  with atom_m := Minimality for atom Sort Prop
  with call_m := Minimality for call Sort Prop
  with args_m := Minimality for args Sort Prop
  with kws_m := Minimality for kws Sort Prop
  with arg_m := Minimality for arg Sort Prop.
Combined Scheme grammar_ind from level_m, chain_m, atom_m, call_m, args_m, kws_m, arg_m.

Ltac inv H := inversion H; subst; clear H.
Ltac brk := match goal with
  | H : Some _ = Some _ |- _ => injection H; clear H; intros; subst
  | H : None = Some _ |- _ => discriminate H
  | H : Some _ = None |- _ => discriminate H
  | H : (_, _) = (_, _) |- _ => injection H; clear H; intros; subst
  end.

Section Proofs.
Variable L : lang.

(** ** One step of each parser *)
Lemma p_lvl_S (m : nat) (l : nat) (ts : list tok) : p_lvl L (S m) l ts =
      match l with
      | 0 =>
          match sign_of ts with
          | Some (neg, r) =>
              match p_lvl L m 0 r with
              | Some (e, r') => Some (ESign neg e, r')
              | None => p_atom L m ts
              end
          | None => p_atom L m ts
          end
      | S k =>
          match p_lvl L m k ts with
          | Some (e, r) =>
              match p_ops L m l r with
              | ([], _) => Some (e, r)
              | (ops, r') => Some (EChain e ops, r')
              end
          | None => None
          end
      end.
Proof. reflexivity. Qed.
Lemma p_ops_S (m : nat) (l : nat) (ts : list tok) : p_ops L (S m) l ts =
      match op_of l ts with
      | Some (o, r) =>
          match p_lvl L m (pred l) r with
          | Some (e, r') => let '(os, r'') := p_ops L m l r' in ((o, e) :: os, r'')
          | None => ([], ts)
          end
      | None => ([], ts)
      end.
Proof. reflexivity. Qed.
Lemma p_atom_S (m : nat) (ts : list tok) : p_atom L (S m) ts =
      match p_call L m ts with
      | Some x => Some x
      | None =>
          match ts with
          | TRef s :: r => if l_refs L then Some (ERef s, r) else None
          | TNum s :: r => Some (ENum false s, r)
          | TId s g :: r =>
              orelse (if has_index L then p_index L m ts else None)
                (if l_name L s then Some (EName s, r) else None)
          | TConf s :: r => p_conf L ts
          | TSym LPar :: r =>
              match p_lvl L m 3 r with
              | Some (e, TSym RPar :: r') => Some (e, r')
              | _ => None
              end
          | _ => None
          end
      end.
Proof. reflexivity. Qed.
Lemma p_call_S (m : nat) (ts : list tok) : p_call L (S m) ts =
      match ts with
      | TId f true :: TSym LPar :: r =>
          let '(args, r1) := p_args L m r in
          let '(kws, r2) :=
            match args, r1 with
            | _ :: _, TSym Comma :: r' =>
                match p_kws L m r' with ([], _) => ([], r1) | x => x end
            | _, _ => p_kws L m r1
            end in
          match r2 with
          | TSym RPar :: r3 => Some (EFun f args kws, r3)
          | _ => None
          end
      | _ => None
      end.
Proof. reflexivity. Qed.
Lemma p_args_S (m : nat) (ts : list tok) : p_args L (S m) ts =
      match p_arg L m ts with
      | Some (a, TSym Comma :: r) =>
          match p_args L m r with
          | ([], _) => ([a], TSym Comma :: r)
          | (l, r') => (a :: l, r')
          end
      | Some (a, r) => ([a], r)
      | None => ([], ts)
      end.
Proof. reflexivity. Qed.
Lemma p_arg_S (m : nat) (ts : list tok) : p_arg L (S m) ts =
      not_eq
        match l_mode L with
        | MExpr => orelse (p_lvl L m 3 ts) (orelse (p_list L m (l_item L) ts) (p_str L ts))
        | MCmp => orelse (p_str L ts) (orelse (p_num ts) (orelse (p_list L m (l_item L) ts) (p_lvl L m 3 ts)))
        | MTop => orelse (p_str L ts) (orelse (p_num ts) (orelse (p_list L m (l_item L) ts)
                    (orelse (p_name (l_name L) ts) (p_conf L ts))))
        | MSlice => orelse (p_call L m ts) (orelse (p_index L m ts) (orelse (p_name (l_name L) ts)
                      (orelse (p_num ts) (orelse (p_list L m (l_item L) ts) (p_str L ts)))))
        end.
Proof. reflexivity. Qed.
Lemma p_kws_S (m : nat) (ts : list tok) : p_kws L (S m) ts =
      match ts with
      | TId k _ :: TSym Eq :: r =>
          match p_arg L m r with
          | Some (a, TSym Comma :: r') =>
              match p_kws L m r' with
              | ([], _) => ([(k, a)], TSym Comma :: r')
              | (l, r'') => ((k, a) :: l, r'')
              end
          | Some (a, r') =>
              let '(l, r'') := p_kws L m r' in ((k, a) :: l, r'')
          | None => ([], ts)
          end
      | _ => ([], ts)
      end.
Proof. reflexivity. Qed.

(** ** What is accepted is in the grammar *)
Lemma sign_of_spec ts b r : sign_of ts = Some (b, r) <-> exists t, ts = t :: r /\ sign_tok t b.
Proof.
  split.
  - destruct ts as [|[| | | |[]] ts]; simpl; intros E; try discriminate; brk; eexists; split; try reflexivity; constructor.
  - intros (t & -> & []); reflexivity.
Qed.
Lemma op_of_spec l ts o r : op_of l ts = Some (o, r) <-> exists t, ts = t :: r /\ op_tok l t o.
Proof.
  split.
  - destruct l as [|[|[|[|l]]]], ts as [|[| | | |[]] ts]; simpl; intros E; try discriminate; brk; eexists; split; try reflexivity; constructor.
  - intros (t & -> & []); reflexivity.
Qed.

Lemma p_num_sound ts e r : p_num ts = Some (e, r) -> exists us, ts = us ++ r /\ num us e.
Proof.
  destruct ts as [|[| | |s|y] ts]; simpl; try discriminate.
  - cbv beta iota; intros; brk; exists [TNum s]; split; [reflexivity|constructor].
  - destruct y; try discriminate; destruct ts as [|[| | |s|] ts]; try discriminate; cbv beta iota; intros; brk.
    + exists [TSym Plus; TNum s]; split; [reflexivity|constructor; constructor].
    + exists [TSym Minus; TNum s]; split; [reflexivity|constructor; constructor].
Qed.
Lemma p_str_sound ts e r : p_str L ts = Some (e, r) -> exists us, ts = us ++ r /\ str L us e.
Proof.
  destruct ts as [|[s g| | | |] ts]; simpl; try discriminate.
  destruct (l_reserved L s) eqn:R; [discriminate|]; cbv beta iota; intros; brk; exists [TId s g]; split; [reflexivity|constructor; exact R].
Qed.
Lemma p_name_sound ok ts e r : p_name ok ts = Some (e, r) ->
  exists s g, ts = TId s g :: r /\ ok s = true /\ e = EName s.
Proof.
  destruct ts as [|[s g| | | |] ts]; simpl; try discriminate.
  destruct (ok s) eqn:R; [|discriminate]; cbv beta iota; intros; brk; exists s, g; auto.
Qed.
Lemma p_item_sound nm ts e r : p_item L nm ts = Some (e, r) -> exists us, ts = us ++ r /\ item L nm us e.
Proof.
  unfold p_item, orelse; destruct (p_num ts) as [[? ?]|] eqn:A.
  { cbv beta iota; intros; brk; destruct (p_num_sound _ _ _ A) as (us & E & H); exists us; split; [exact E|apply it_num, H]. }
  destruct (p_str L ts) as [[? ?]|] eqn:B.
  { cbv beta iota; intros; brk; destruct (p_str_sound _ _ _ B) as (us & E & H); exists us; split; [exact E|apply it_str, H]. }
  intros H; destruct (p_name_sound _ _ _ _ H) as (s & g & -> & O & ->); exists [TId s g]; split; [reflexivity|apply it_name, O].
Qed.
Lemma p_items_sound nm n : forall ts l r, p_items L n nm ts = Some (l, r) -> exists us, ts = us ++ r /\ items L nm us l.
Proof.
  induction n as [|n IH]; intros ts l r; [discriminate|]; simpl.
  destruct (p_item L nm ts) as [[x q]|] eqn:A; [|discriminate].
  destruct (p_item_sound _ _ _ _ A) as (us & E & H); subst ts.
  destruct q as [|[| | | |[]] q]; try discriminate.
  - cbv beta iota; intros; brk; exists (us ++ [TSym RBr]); split; [rewrite <- app_assoc; reflexivity|apply is_last, H].
  - destruct (p_items L n nm q) as [[l' r']|] eqn:B; [|discriminate]; cbv beta iota; intros; brk.
    destruct (IH _ _ _ B) as (vs & -> & H2); exists (us ++ TSym Comma :: vs); split; [rewrite <- app_assoc; reflexivity|apply is_cons; assumption].
Qed.
Lemma p_list_sound nm n ts e r : p_list L n nm ts = Some (e, r) -> exists us, ts = us ++ r /\ lst L nm us e.
Proof.
  destruct ts as [|[| | | |[]] ts]; simpl; try discriminate.
  destruct (p_items L n nm ts) as [[l q]|] eqn:A; [|discriminate]; cbv beta iota; intros; brk.
  destruct (p_items_sound _ _ _ _ _ A) as (us & -> & H); exists (TSym LBr :: us); split; [reflexivity|constructor; exact H].
Qed.
Lemma p_slicer_sound n ts e r : p_slicer L n ts = Some (e, r) -> exists us, ts = us ++ r /\ slicer L us e.
Proof.
  unfold p_slicer, orelse.
  destruct (match ts with TRef s :: r => if l_srefs L then Some (ESlice s, r) else None | _ => None end) as [[? ?]|] eqn:A.
  { destruct ts as [|[| s| | |] ts]; try discriminate; destruct (l_srefs L) eqn:R; [|discriminate]; intros; repeat brk.
    exists [TRef s]; split; [reflexivity|constructor; exact R]. }
  clear A; destruct (p_num ts) as [[? ?]|] eqn:A.
  { cbv beta iota; intros; brk; destruct (p_num_sound _ _ _ A) as (us & E & H); exists us; split; [exact E|apply sl_num, H]. }
  destruct (p_str L ts) as [[? ?]|] eqn:B.
  { cbv beta iota; intros; brk; destruct (p_str_sound _ _ _ B) as (us & E & H); exists us; split; [exact E|apply sl_str, H]. }
  intros H; destruct (p_list_sound _ _ _ _ _ H) as (us & E & K); exists us; split; [exact E|apply sl_list, K].
Qed.
Lemma p_slices_sound n : forall ts l r, p_slices L n ts = Some (l, r) -> exists us, ts = us ++ r /\ slices L us l.
Proof.
  induction n as [|n IH]; intros ts l r; [discriminate|]; simpl.
  destruct ts as [|[d g| | | |] [|[| | | |[]] ts]]; try discriminate.
  destruct (p_slicer L n ts) as [[x q]|] eqn:A; [|discriminate].
  destruct (p_slicer_sound _ _ _ _ A) as (us & E & H); subst ts.
  destruct q as [|[| | | |[]] q]; try discriminate.
  - cbv beta iota; intros; brk; exists (TId d g :: TSym Eq :: us ++ [TSym RBr]); split; [simpl; rewrite <- app_assoc; reflexivity|apply ss_last, H].
  - destruct (p_slices L n q) as [[l' r']|] eqn:B; [|discriminate]; cbv beta iota; intros; brk.
    destruct (IH _ _ _ B) as (vs & -> & H2); exists (TId d g :: TSym Eq :: us ++ TSym Comma :: vs); split; [simpl; rewrite <- app_assoc; reflexivity|apply ss_cons; assumption].
Qed.
Lemma p_index_sound n ts e r : p_index L n ts = Some (e, r) -> exists us, ts = us ++ r /\ index L us e.
Proof.
  destruct ts as [|[s [|]| | | |] [|[| | | |[]] ts]]; simpl; try discriminate.
  destruct (l_name L s) eqn:NM; [|discriminate].
  destruct (p_slices L n ts) as [[l q]|] eqn:A; [|discriminate]; cbv beta iota; intros; brk.
  destruct (p_slices_sound _ _ _ _ A) as (us & -> & H); exists (TId s true :: TSym LBr :: us); split; [reflexivity|constructor; assumption].
Qed.
Lemma p_conf_sound ts e r : p_conf L ts = Some (e, r) -> exists us, ts = us ++ r /\ conf L us e.
Proof.
  destruct ts as [|[| |s| |] ts]; simpl; try discriminate; destruct (has_conf L) eqn:H; [|discriminate]; cbv beta iota; intros; brk.
  exists [TConf s]; split; [reflexivity|constructor; exact H].
Qed.
Lemma not_eq_some x e r : not_eq x = Some (e, r) -> x = Some (e, r).
Proof. destruct x as [[a [|[| | | |[]] q]]|]; simpl; intros E; try discriminate; exact E. Qed.

Lemma plain_none ts : p_str L ts = None -> p_num ts = None -> plain_start L ts = false.
Proof.
  destruct ts as [|[s g| | |s|y] ts]; simpl; try reflexivity; try discriminate.
  - destruct (l_reserved L s); [reflexivity|discriminate].
  - destruct y; try reflexivity; destruct ts as [|[| | | |] ts]; try reflexivity; discriminate.
Qed.

Definition sound_at (n : nat) : Prop :=
  (forall l ts e r, l <= 3 -> p_lvl L n l ts = Some (e, r) -> exists us, ts = us ++ r /\ level L l us e) /\
  (forall l ts o os r, l < 3 -> p_ops L n (S l) ts = (o :: os, r) -> exists us, ts = us ++ r /\ chain L (S l) us (o :: os)) /\
  (forall ts e r, p_atom L n ts = Some (e, r) -> exists us, ts = us ++ r /\ atom L us e) /\
  (forall ts e r, p_call L n ts = Some (e, r) -> exists us, ts = us ++ r /\ call L us e) /\
  (forall ts a l r, p_args L n ts = (a :: l, r) -> exists us, ts = us ++ r /\ args L us (a :: l)) /\
  (forall ts k l r, p_kws L n ts = (k :: l, r) -> exists us, ts = us ++ r /\ kws L us (k :: l)) /\
  (forall ts e r, p_arg L n ts = Some (e, r) -> exists us, ts = us ++ r /\ arg L us e).

Lemma p_ops_nil n l ts r : p_ops L n l ts = ([], r) -> r = ts.
Proof.
  destruct n; simpl; [cbv beta iota; intros; brk; reflexivity|].
  destruct (op_of l ts) as [[o q]|]; [|cbv beta iota; intros; brk; reflexivity].
  destruct (p_lvl L n (pred l) q) as [[e q']|]; [|cbv beta iota; intros; brk; reflexivity].
  destruct (p_ops L n l q'); discriminate.
Qed.
Lemma p_args_nil n ts r : p_args L n ts = ([], r) -> r = ts.
Proof.
  destruct n; simpl; [cbv beta iota; intros; brk; reflexivity|].
  destruct (p_arg L n ts) as [[a q]|]; [|cbv beta iota; intros; brk; reflexivity].
  destruct q as [|[| | | |[]] q]; try discriminate.
  destruct (p_args L n q) as [[|? ?] ?]; discriminate.
Qed.
Lemma p_kws_nil n ts r : p_kws L n ts = ([], r) -> r = ts.
Proof.
  destruct n; simpl; [cbv beta iota; intros; brk; reflexivity|].
  destruct ts as [|[k g| | | |] [|[| | | |[]] ts]]; try (cbv beta iota; intros; brk; reflexivity).
  destruct (p_arg L n ts) as [[a q]|]; [|cbv beta iota; intros; brk; reflexivity].
  destruct q as [|[| | | |[]] q];
    try (match goal with |- (let (_, _) := ?x in _) = _ -> _ => destruct x; discriminate end).
  destruct (p_kws L n q) as [[|? ?] ?]; discriminate.
Qed.

Lemma sound n : sound_at n.
Proof.
  induction n as [|n (HL & HO & HA & HC & HR & HK & HG)].
  { repeat split; intros; discriminate. }
  split; [|split; [|split; [|split; [|split; [|split]]]]].
  - intros l ts e r LE; rewrite p_lvl_S; destruct l as [|l].
    + assert (AT : p_atom L n ts = Some (e, r) -> exists us, ts = us ++ r /\ level L 0 us e).
      { intros H; destruct (HA _ _ _ H) as (us & E & K); exists us; split; [exact E|apply lv_atom, K]. }
      destruct (sign_of ts) as [[b q]|] eqn:SG; [|exact AT].
      destruct (p_lvl L n 0 q) as [[e' q']|] eqn:P; [|exact AT].
      cbv beta iota; intros; brk; apply sign_of_spec in SG as (t & -> & T).
      destruct (HL _ _ _ _ LE P) as (us & -> & K); exists (t :: us); split; [reflexivity|apply lv_sign; assumption].
    + destruct (p_lvl L n l ts) as [[e' q]|] eqn:P; [|discriminate].
      destruct (HL l _ _ _ ltac:(lia) P) as (us & -> & K).
      destruct (p_ops L n (S l) q) as [[|o os] q'] eqn:O; cbv beta iota; intros; brk.
      * exists us; split; [reflexivity|apply lv_up; [lia|exact K]].
      * destruct (HO l _ _ _ _ ltac:(lia) O) as (vs & -> & K2); exists (us ++ vs); split; [rewrite app_assoc; reflexivity|apply lv_chain; [lia|assumption..]].
  - intros l ts o os r LT; rewrite p_ops_S; cbn [pred].
    destruct (op_of (S l) ts) as [[o' q]|] eqn:SG; [|intros; discriminate].
    destruct (p_lvl L n l q) as [[e q']|] eqn:P; [|intros; discriminate].
    destruct (p_ops L n (S l) q') as [os' q''] eqn:O; cbv beta iota; intros; brk.
    apply op_of_spec in SG as (t & -> & T).
    destruct (HL l _ _ _ ltac:(lia) P) as (us & -> & K).
    destruct os as [|o2 os].
    + apply p_ops_nil in O; subst; exists (t :: us); split; [reflexivity|apply ch_one; assumption].
    + destruct (HO l _ _ _ _ LT O) as (vs & -> & K2); exists (t :: us ++ vs); split; [simpl; rewrite app_assoc; reflexivity|apply ch_cons; assumption].
  - intros ts e r; rewrite p_atom_S.
    destruct (p_call L n ts) as [[e' q]|] eqn:C.
    { cbv beta iota; intros; brk; destruct (HC _ _ _ C) as (us & E & K); exists us; split; [exact E|apply at_call, K]. }
    destruct ts as [|[s g|s|s|s|y] ts]; try discriminate.
    + unfold orelse; destruct (if has_index L then p_index L n (TId s g :: ts) else None) as [[? ?]|] eqn:X.
      * destruct (has_index L) eqn:HI; [|discriminate]; cbv beta iota; intros; brk.
        destruct (p_index_sound _ _ _ _ X) as (us & E & K); exists us; split; [exact E|apply at_index; assumption].
      * destruct (l_name L s) eqn:NM; [|discriminate]; cbv beta iota; intros; brk; exists [TId s g]; split; [reflexivity|apply at_name, NM].
    + destruct (l_refs L) eqn:RF; [|discriminate]; cbv beta iota; intros; brk; exists [TRef s]; split; [reflexivity|apply at_ref, RF].
    + intros H; destruct (p_conf_sound _ _ _ H) as (us & E & K); exists us; split; [exact E|apply at_conf, K].
    + cbv beta iota; intros; brk; exists [TNum s]; split; [reflexivity|apply at_num].
    + destruct y; try discriminate.
      destruct (p_lvl L n 3 ts) as [[e' q]|] eqn:P; [|discriminate].
      destruct q as [|[| | | |[]] q]; try discriminate; cbv beta iota; intros; brk.
      destruct (HL 3 _ _ _ ltac:(lia) P) as (us & -> & K); exists (TSym LPar :: us ++ [TSym RPar]); split; [simpl; rewrite <- app_assoc; reflexivity|apply at_par, K].
  - intros ts e r; rewrite p_call_S.
    destruct ts as [|[f [|]| | | |] [|[| | | |[]] ts]]; try discriminate.
    destruct (p_args L n ts) as [[|a l] q] eqn:A.
    + apply p_args_nil in A; subst q.
      assert (X : match p_kws L n ts with (k, TSym RPar :: r3) => Some (EFun f [] k, r3) | _ => None end = Some (e, r) ->
                  exists us, TId f true :: TSym LPar :: ts = us ++ r /\ call L us e).
      { destruct (p_kws L n ts) as [[|k ks] q] eqn:K.
        - apply p_kws_nil in K; subst q; destruct ts as [|[| | | |[]] ts]; try discriminate; cbv beta iota; intros; brk.
          exists [TId f true; TSym LPar; TSym RPar]; split; [reflexivity|apply cl_none].
        - destruct q as [|[| | | |[]] q]; try discriminate; cbv beta iota; intros; brk.
          destruct (HK _ _ _ _ K) as (us & -> & K2); exists (TId f true :: TSym LPar :: us ++ [TSym RPar]); split; [simpl; rewrite <- app_assoc; reflexivity|apply cl_kws, K2]. }
      intros H; apply X; rewrite <- H; destruct ts as [|[| | | |[]] ts]; try reflexivity.
    + destruct (HR _ _ _ _ A) as (us & -> & KA).
      assert (X : forall c, comma_or_nothing c -> forall q', q = c ++ q' ->
         match p_kws L n q' with (k, r3) => match r3 with TSym RPar :: r4 => Some (EFun f (a :: l) k, r4) | _ => None end end = Some (e, r) ->
         (c = [] \/ fst (p_kws L n q') <> []) ->
         exists us', TId f true :: TSym LPar :: us ++ q = us' ++ r /\ call L us' e).
      { intros c CN q' -> H NE; destruct (p_kws L n q') as [[|k ks] q2] eqn:K.
        - apply p_kws_nil in K; subst q2; destruct NE as [->|NE]; [|contradiction NE; reflexivity].
          destruct q' as [|[| | | |[]] q']; try discriminate; brk.
          exists (TId f true :: TSym LPar :: us ++ [TSym RPar]); split; [simpl; rewrite <- app_assoc; reflexivity|apply cl_args, KA].
        - destruct q2 as [|[| | | |[]] q2]; try discriminate; brk.
          destruct (HK _ _ _ _ K) as (vs & -> & K2); exists (TId f true :: TSym LPar :: us ++ c ++ vs ++ [TSym RPar]).
          split; [simpl; rewrite <- !app_assoc; reflexivity|apply cl_both; assumption]. }
      intros H; destruct q as [|t q].
      { apply (X [] (or_introl eq_refl) [] eq_refl); [|left; reflexivity]. destruct (p_kws L n []); exact H. }
      assert (D : t = TSym Comma \/ t <> TSym Comma) by (destruct t as [| | | |[]]; try (right; discriminate); left; reflexivity).
      destruct D as [->|NC].
      * destruct (p_kws L n q) as [[|k ks] q2] eqn:K.
        { discriminate. }
        apply (X [TSym Comma] (or_intror eq_refl) q eq_refl); [rewrite K; exact H|right; rewrite K; discriminate].
      * apply (X [] (or_introl eq_refl) (t :: q) eq_refl); [|left; reflexivity].
        destruct t as [| | | |[]]; try congruence; destruct (p_kws L n (_ :: q)); exact H.
  - intros ts a l r; rewrite p_args_S.
    destruct (p_arg L n ts) as [[e q]|] eqn:A; [|discriminate].
    destruct (HG _ _ _ A) as (us & -> & K).
    assert (X : ([e], q) = (a :: l, r) -> exists us0, us ++ q = us0 ++ r /\ args L us0 (a :: l)).
    { cbv beta iota; intros; brk; exists us; split; [reflexivity|apply ar_one, K]. }
    destruct q as [|[| | | |[]] q]; try exact X.
    destruct (p_args L n q) as [[|a2 l2] q2] eqn:R; [exact X|]; cbv beta iota; intros; brk.
    destruct (HR _ _ _ _ R) as (vs & -> & K2); exists (us ++ TSym Comma :: vs); split; [rewrite <- app_assoc; reflexivity|apply ar_cons; assumption].
  - intros ts k l r; rewrite p_kws_S.
    destruct ts as [|[w g| | | |] [|[| | | |[]] ts]]; try discriminate.
    destruct (p_arg L n ts) as [[e q]|] eqn:A; [|discriminate].
    destruct (HG _ _ _ A) as (us & -> & K).
    assert (X : forall c, comma_or_nothing c -> forall q' l2 r2, q = c ++ q' -> p_kws L n q' = (l2, r2) ->
       (k, l, r) = ((w, e), l2, r2) -> (c = [] \/ l2 <> []) ->
       exists us0, TId w g :: TSym Eq :: us ++ q = us0 ++ r /\ kws L us0 (k :: l)).
    { intros c CN q' l2 r2 -> P EQ NE; injection EQ as -> -> ->; destruct l2 as [|k2 l2].
      - destruct NE as [->|NE]; [|congruence]. apply p_kws_nil in P; subst r2.
        exists (TId w g :: TSym Eq :: us); split; [reflexivity|apply kw_one, K].
      - destruct (HK _ _ _ _ P) as (vs & -> & K2); exists (TId w g :: TSym Eq :: us ++ c ++ vs); split; [simpl; rewrite <- !app_assoc; reflexivity|apply kw_cons; assumption]. }
    destruct q as [|t q].
    { destruct (p_kws L n []) as [l2 r2] eqn:P; cbv beta iota; intros H; brk; apply (X [] (or_introl eq_refl) [] _ _ eq_refl P eq_refl); left; reflexivity. }
    assert (D : t = TSym Comma \/ t <> TSym Comma) by (destruct t as [| | | |[]]; try (right; discriminate); left; reflexivity).
    destruct D as [->|NC].
    + destruct (p_kws L n q) as [[|k2 l2] q2] eqn:P; cbv beta iota; intros H; brk.
      * exists (TId w g :: TSym Eq :: us); split; [reflexivity|apply kw_one, K].
      * apply (X [TSym Comma] (or_intror eq_refl) q _ _ eq_refl P eq_refl); right; discriminate.
    + assert (Y : (let '(l0, r'') := p_kws L n (t :: q) in ((w, e) :: l0, r'')) = (k :: l, r) ->
        exists us0, TId w g :: TSym Eq :: us ++ t :: q = us0 ++ r /\ kws L us0 (k :: l)).
      { destruct (p_kws L n (t :: q)) as [l2 r2] eqn:P; cbv beta iota; intros H; brk; apply (X [] (or_introl eq_refl) (t :: q) _ _ eq_refl P eq_refl); left; reflexivity. }
      destruct t as [| | | |[]]; try congruence; exact Y.
  - intros ts e r; rewrite p_arg_S; intros H; apply not_eq_some in H.
    assert (XS : p_str L ts = Some (e, r) -> exists us, ts = us ++ r /\ arg L us e).
    { intros P; destruct (p_str_sound _ _ _ P) as (us & E & K); exists us; split; [exact E|apply ag_str, K]. }
    assert (XN : l_mode L <> MExpr -> p_num ts = Some (e, r) -> exists us, ts = us ++ r /\ arg L us e).
    { intros M P; destruct (p_num_sound _ _ _ P) as (us & E & K); exists us; split; [exact E|apply ag_num; assumption]. }
    assert (XL : p_list L n (l_item L) ts = Some (e, r) -> exists us, ts = us ++ r /\ arg L us e).
    { intros P; destruct (p_list_sound _ _ _ _ _ P) as (us & E & K); exists us; split; [exact E|apply ag_list, K]. }
    destruct (l_mode L) eqn:M; unfold orelse in H.
    + destruct (p_lvl L n 3 ts) as [[? ?]|] eqn:P.
      { brk; destruct (HL 3 _ _ _ ltac:(lia) P) as (us & E & K); exists us; split; [exact E|apply ag_arith; assumption]. }
      destruct (p_list L n (l_item L) ts) as [[? ?]|] eqn:Q; [apply XL; rewrite <- H; reflexivity|apply XS, H].
    + destruct (p_str L ts) as [[? ?]|] eqn:P; [apply XS; rewrite <- H; reflexivity|].
      destruct (p_num ts) as [[? ?]|] eqn:Q; [apply XN; [discriminate|rewrite <- H; reflexivity]|].
      destruct (p_list L n (l_item L) ts) as [[? ?]|] eqn:R; [apply XL; rewrite <- H; reflexivity|].
      destruct (HL 3 _ _ _ ltac:(lia) H) as (us & E & K); exists us; split; [exact E|apply ag_cmp; [exact M| |exact K]].
      subst ts. destruct us as [|t1 us]; [exfalso|].
      { clear - K. revert K. generalize 3. intros l K.
        assert (G : forall l ts e, level L l ts e -> ts <> []).
        { clear; intros l ts e H; apply (level_m L (fun l ts e => ts <> []) (fun l ts o => ts <> []) (fun ts e => ts <> []) (fun ts e => True) (fun ts e => True) (fun ts e => True) (fun ts e => True)) in H; [exact H|..]; intros; try discriminate; try exact Logic.I; auto.
          - destruct ts0; [congruence|discriminate].
          - inversion H0; discriminate.
          - inversion H1; discriminate.
          - inversion H0; discriminate. }
        apply (G _ _ _ K); reflexivity. }
      assert (PS : plain_start L ((t1 :: us) ++ r) = false) by (apply plain_none; assumption).
      revert PS; clear; destruct t1 as [| | | |[]]; simpl; auto; destruct us as [|[] us]; simpl; auto.
    + destruct (p_str L ts) as [[? ?]|] eqn:P; [apply XS; rewrite <- H; reflexivity|].
      destruct (p_num ts) as [[? ?]|] eqn:Q; [apply XN; [discriminate|rewrite <- H; reflexivity]|].
      destruct (p_list L n (l_item L) ts) as [[? ?]|] eqn:R; [apply XL; rewrite <- H; reflexivity|].
      destruct (p_name (l_name L) ts) as [[? ?]|] eqn:U.
      * brk; destruct (p_name_sound _ _ _ _ U) as (s & g & -> & O & ->); exists [TId s g]; split; [reflexivity|apply ag_name; [left; exact M|exact O]].
      * destruct (p_conf_sound _ _ _ H) as (us & E & K); exists us; split; [exact E|apply ag_conf; assumption].
    + destruct (p_call L n ts) as [[? ?]|] eqn:C.
      { brk; destruct (HC _ _ _ C) as (us & E & K); exists us; split; [exact E|apply ag_call; assumption]. }
      destruct (p_index L n ts) as [[? ?]|] eqn:X.
      { brk; destruct (p_index_sound _ _ _ _ X) as (us & E & K); exists us; split; [exact E|apply ag_index; assumption]. }
      destruct (p_name (l_name L) ts) as [[? ?]|] eqn:U.
      { brk; destruct (p_name_sound _ _ _ _ U) as (s & g & -> & O & ->); exists [TId s g]; split; [reflexivity|apply ag_name; [right; exact M|exact O]]. }
      destruct (p_num ts) as [[? ?]|] eqn:Q; [apply XN; [discriminate|rewrite <- H; reflexivity]|].
      destruct (p_list L n (l_item L) ts) as [[? ?]|] eqn:R; [apply XL; rewrite <- H; reflexivity|apply XS, H].
Qed.

(** ** What is in the grammar is accepted *)
Definition stop (l : nat) (rest : list tok) : Prop :=
  match rest with
  | [] => True
  | t :: _ => t <> TSym LPar /\ t <> TSym LBr /\ forall k o, k <= l -> ~ op_tok k t o
  end.
Definition astop (rest : list tok) : Prop :=
  match rest with
  | [] | TSym Comma :: _ | TSym RPar :: _ | TId _ _ :: _ => True
  | _ => False
  end.
Lemma astop_stop rest : astop rest -> stop 3 rest.
Proof.
  destruct rest as [|[| | | |[]] rest]; simpl; intros H; try contradiction; repeat split; try discriminate; intros k o _ X; inversion X.
Qed.
Lemma stop_le l k rest : k <= l -> stop l rest -> stop k rest.
Proof. destruct rest as [|t rest]; [auto|]; intros LE (A & B & C); repeat split; auto; intros; apply C; lia. Qed.
Lemma stop_op l rest k : 1 <= k -> k <= l -> stop l rest -> op_of k rest = None.
Proof.
  intros G LE H; destruct (op_of k rest) as [[o r]|] eqn:E; [|reflexivity].
  apply op_of_spec in E as (t & -> & T); destruct H as (_ & _ & H); exfalso; apply (H k o LE T).
Qed.
Lemma op_stop l t o r : op_tok (S l) t o -> stop l (t :: r).
Proof.
  intros T; repeat split; [intros ->; inversion T|intros ->; inversion T|].
  intros k o' LE T'; inversion T; subst; inversion T'; subst; lia.
Qed.
Lemma not_lpar l rest : stop l rest -> match rest with TSym LPar :: _ => False | _ => True end.
Proof. destruct rest as [|[| | | |[]] rest]; simpl; try tauto. Qed.
Lemma not_lbr l rest : stop l rest -> match rest with TSym LBr :: _ => False | _ => True end.
Proof. destruct rest as [|[| | | |[]] rest]; simpl; try tauto. Qed.

Lemma p_call_none n s g rest l : stop l rest -> p_call L n (TId s g :: rest) = None.
Proof.
  intros H; destruct n; [reflexivity|]; rewrite p_call_S.
  destruct g; [|reflexivity]; apply not_lpar in H; destruct rest as [|[| | | |[]] rest]; try reflexivity; contradiction.
Qed.
Lemma p_call_other n t r : (forall s g, t <> TId s g) -> p_call L n (t :: r) = None.
Proof. intros H; destruct n; [reflexivity|]; rewrite p_call_S; destruct t as [s g| | | |]; try reflexivity; exfalso; apply (H s g); reflexivity. Qed.
Lemma p_index_none n s g rest l : stop l rest -> p_index L n (TId s g :: rest) = None.
Proof.
  intros H; simpl; destruct g; [|reflexivity]; apply not_lbr in H; destruct rest as [|[| | | |[]] rest]; try reflexivity; contradiction.
Qed.

Lemma num_complete ts e rest : num ts e -> p_num (ts ++ rest) = Some (e, rest).
Proof. intros []; [reflexivity|]; destruct H; reflexivity. Qed.
Lemma str_complete ts e rest : str L ts e -> p_str L (ts ++ rest) = Some (e, rest).
Proof. intros [s g H]; simpl; rewrite H; reflexivity. Qed.
Lemma p_num_id s g r : p_num (TId s g :: r) = None. Proof. reflexivity. Qed.
Definition id_start (ts : list tok) : bool := match ts with TId _ _ :: _ => true | _ => false end.
Lemma num_start ts e rest : num ts e -> id_start (ts ++ rest) = false.
Proof. intros []; [reflexivity|]; destruct H; reflexivity. Qed.
Lemma p_str_start ts : id_start ts = false -> p_str L ts = None.
Proof. destruct ts as [|[]]; try reflexivity; discriminate. Qed.
Lemma p_name_start ok ts : id_start ts = false -> p_name ok ts = None.
Proof. destruct ts as [|[]]; try reflexivity; discriminate. Qed.
Lemma p_index_start n ts : id_start ts = false -> p_index L n ts = None.
Proof. destruct ts as [|[]]; try reflexivity; discriminate. Qed.
Lemma p_call_start n ts : id_start ts = false -> p_call L n ts = None.
Proof. destruct n; [reflexivity|]; rewrite p_call_S; destruct ts as [|[]]; try reflexivity; discriminate. Qed.

Lemma num_pos ts e : num ts e -> 1 <= List.length ts. Proof. intros []; simpl; lia. Qed.
Lemma item_complete nm ts e rest : (forall s, nm s = true -> l_reserved L s = true) ->
  item L nm ts e -> p_item L nm (ts ++ rest) = Some (e, rest).
Proof.
  intros HN []; unfold p_item, orelse.
  - rewrite (num_complete _ _ _ H); reflexivity.
  - destruct H; simpl; rewrite H; reflexivity.
  - simpl; rewrite (HN _ H), H; reflexivity.
Qed.
Lemma item_pos nm ts e : item L nm ts e -> 1 <= List.length ts.
Proof. intros []; [apply (num_pos _ _ H)|destruct H; simpl; lia|simpl; lia]. Qed.
Lemma items_complete nm ts l : (forall s, nm s = true -> l_reserved L s = true) ->
  items L nm ts l -> forall n rest, List.length ts <= n -> p_items L n nm (ts ++ rest) = Some (l, rest).
Proof.
  intros HN H; induction H as [ts e I1|ts e us l I1 I2 IH]; intros [|n] rest LE; rewrite ?app_length in LE; simpl in LE; try lia; rewrite <- app_assoc; cbn [p_items app].
  - rewrite (item_complete _ _ _ _ HN I1); reflexivity.
  - rewrite (item_complete _ _ _ _ HN I1), IH; [reflexivity|pose proof (item_pos _ _ _ I1); lia].
Qed.
Lemma list_complete nm ts e n rest : (forall s, nm s = true -> l_reserved L s = true) ->
  lst L nm ts e -> List.length ts <= n -> p_list L n nm (ts ++ rest) = Some (e, rest).
Proof. intros HN [us l H] LE; simpl in *; rewrite (items_complete _ _ _ HN H); [reflexivity|lia]. Qed.
Lemma list_start nm ts e rest : lst L nm ts e -> exists r, ts ++ rest = TSym LBr :: r.
Proof. intros []; eexists; reflexivity. Qed.
Lemma slicer_complete ts e n rest : slicer L ts e -> List.length ts <= n -> p_slicer L n (ts ++ rest) = Some (e, rest).
Proof.
  intros [s H|us x H|us x H|us x H] LE; unfold p_slicer, orelse.
  - simpl; rewrite H; reflexivity.
  - rewrite (num_complete _ _ _ H); destruct H as [|t b s []]; reflexivity.
  - destruct H; simpl; rewrite H; reflexivity.
  - rewrite (list_complete _ _ _ _ rest (fun s E => False_ind _ (Bool.diff_false_true E)) H LE).
    destruct (list_start _ _ _ rest H) as (r & ->); reflexivity.
Qed.
Lemma slices_complete ts l : slices L ts l -> forall n rest, List.length ts <= n -> p_slices L n (ts ++ rest) = Some (l, rest).
Proof.
  intros H; induction H as [d g ts e I1|d g ts e us l I1 I2 IH]; intros [|n] rest LE; simpl in LE; rewrite ?app_length in LE; simpl in LE; try lia; cbn [p_slices app]; rewrite <- app_assoc; cbn [app].
  - rewrite (slicer_complete _ _ _ _ I1); [reflexivity|lia].
  - rewrite (slicer_complete _ _ _ _ I1); [|lia]; rewrite IH; [reflexivity|lia].
Qed.
Lemma index_complete ts e n rest : index L ts e -> List.length ts <= n -> p_index L n (ts ++ rest) = Some (e, rest).
Proof. intros [s us l A B] LE; simpl in *; rewrite A, (slices_complete _ _ B); [reflexivity|lia]. Qed.
Lemma conf_complete ts e rest : conf L ts e -> p_conf L (ts ++ rest) = Some (e, rest).
Proof. intros [s H]; simpl; rewrite H; reflexivity. Qed.

(** Where phrases start. *)
Definition atom_start (ts : list tok) : Prop :=
  match ts with
  | TId _ _ :: _ | TRef _ :: _ | TConf _ :: _ | TNum _ :: _ | TSym LPar :: _ => True
  | _ => False
  end.
Definition level_start (ts : list tok) : Prop :=
  atom_start ts \/ (exists r, ts = TSym Plus :: r \/ ts = TSym Minus :: r).
Lemma starts :
  (forall l ts e, level L l ts e -> level_start ts) /\
  (forall l ts o, chain L l ts o -> exists k t o' r, l = S k /\ ts = t :: r /\ op_tok (S k) t o') /\
  (forall ts e, atom L ts e -> atom_start ts) /\
  (forall ts e, call L ts e -> exists f r, ts = TId f true :: TSym LPar :: r) /\
  (forall ts l, args L ts l -> True) /\
  (forall ts k, kws L ts k -> exists w g r, ts = TId w g :: TSym Eq :: r) /\
  (forall ts e, arg L ts e -> True).
Proof.
  apply grammar_ind; intros; auto.
  - right; destruct H; eauto.
  - left; assumption.
  - assert (level_start ts) as [A|(r & [->| ->])] by assumption.
    + left; destruct ts; [contradiction|exact A].
    + right; exists (r ++ us); left; reflexivity.
    + right; exists (r ++ us); right; reflexivity.
  - exists l, t, o, ts; auto.
  - exists l, t, o, (ts ++ us); auto.
  - destruct H0 as (f & r & ->); exact Logic.I.
  - exact Logic.I.
  - exact Logic.I.
  - destruct H0; exact Logic.I.
  - exact Logic.I.
  - destruct H; exact Logic.I.
  - exact Logic.I.
  - eauto.
  - eauto.
  - eauto.
  - eauto.
  - eauto.
  - eauto.
Qed.
Lemma atom_start_app ts rest : atom_start ts -> atom_start (ts ++ rest).
Proof. destruct ts as [|[| | | |[]]]; simpl; tauto. Qed.
Lemma atom_start_sign ts : atom_start ts -> sign_of ts = None.
Proof. destruct ts as [|[| | | |[]]]; simpl; intros H; try contradiction; reflexivity. Qed.
Lemma level_start_list ts rest n nm : level_start ts -> p_list L n nm (ts ++ rest) = None.
Proof.
  intros [A|(r & [->| ->])]; try reflexivity.
  destruct ts as [|[| | | |[]]]; simpl in *; try contradiction; reflexivity.
Qed.

Lemma p_atom_lbr n r : p_atom L n (TSym LBr :: r) = None.
Proof. destruct n; [reflexivity|]; rewrite p_atom_S, p_call_other; [reflexivity|discriminate]. Qed.
Lemma p_lvl_lbr l : forall n r, p_lvl L n l (TSym LBr :: r) = None.
Proof.
  induction l as [|l IH]; intros [|n] r; try reflexivity; rewrite p_lvl_S.
  - cbn [sign_of]; apply p_atom_lbr.
  - rewrite IH; reflexivity.
Qed.
Lemma p_atom_rpar n r : p_atom L n (TSym RPar :: r) = None.
Proof. destruct n; [reflexivity|]; rewrite p_atom_S, p_call_other; [reflexivity|discriminate]. Qed.
Lemma p_lvl_rpar l : forall n r, p_lvl L n l (TSym RPar :: r) = None.
Proof.
  induction l as [|l IH]; intros [|n] r; try reflexivity; rewrite p_lvl_S.
  - cbn [sign_of]; apply p_atom_rpar.
  - rewrite IH; reflexivity.
Qed.
(** A word followed by something that neither continues it nor is an operator. *)
Lemma p_atom_id n s g rest : stop 0 rest ->
  p_atom L n (TId s g :: rest) = if Nat.eqb n 0 then None else if l_name L s then Some (EName s, rest) else None.
Proof.
  intros H; destruct n; [reflexivity|]; rewrite p_atom_S, (p_call_none _ _ _ _ _ H), (p_index_none _ _ _ _ _ H).
  unfold orelse; destruct (has_index L); reflexivity.
Qed.
Lemma p_ops_stop n l k rest : 1 <= k -> k <= l -> stop l rest -> p_ops L n k rest = ([], rest).
Proof. intros A B H; destruct n; [reflexivity|]; rewrite p_ops_S, (stop_op _ _ _ A B H); reflexivity. Qed.
Lemma p_lvl_id l : forall n s g rest, stop l rest ->
  p_lvl L n l (TId s g :: rest) = None \/ (l_name L s = true /\ p_lvl L n l (TId s g :: rest) = Some (EName s, rest)).
Proof.
  induction l as [|l IH]; intros [|n] s g rest H; auto; rewrite p_lvl_S.
  - cbn [sign_of]; rewrite (p_atom_id _ _ _ _ H); destruct (Nat.eqb n 0); auto; destruct (l_name L s) eqn:E; auto.
  - destruct (IH n s g rest (stop_le _ _ _ (Nat.le_succ_diag_r l) H)) as [->|(A & ->)]; auto.
    right; split; [exact A|]; rewrite (p_ops_stop _ (S l)); auto; lia.
Qed.

Lemma arg_none_kw n k g r : p_arg L n (TId k g :: TSym Eq :: r) = None.
Proof.
  destruct n as [|n]; [reflexivity|]; rewrite p_arg_S.
  assert (ST : stop 3 (TSym Eq :: r)) by (repeat split; try discriminate; intros ? ? ? X; inversion X).
  rewrite (p_call_none _ _ _ _ _ ST), (p_index_none _ _ _ _ _ ST).
  assert (NE : forall (x : option (expr * list tok)), (x = None \/ exists e, x = Some (e, TSym Eq :: r)) -> not_eq x = None)
    by (intros x [->|(e & ->)]; reflexivity).
  apply NE; clear NE; unfold orelse; simpl p_list; simpl p_num; simpl p_str; simpl p_name; simpl p_conf.
  destruct (p_lvl_id 3 n k g _ ST) as [->|(A & ->)]; destruct (l_mode L), (l_reserved L k), (l_name L k); eauto.
Qed.
Lemma arg_none_rpar n r : p_arg L n (TSym RPar :: r) = None.
Proof.
  destruct n as [|n]; [reflexivity|]; rewrite p_arg_S, p_lvl_rpar, p_call_other by discriminate.
  destruct (l_mode L); reflexivity.
Qed.
Lemma args_none n ts : p_arg L n ts = None -> p_args L (S n) ts = ([], ts).
Proof. intros E; rewrite p_args_S, E; reflexivity. Qed.
Lemma args_kw n k g r : p_args L n (TId k g :: TSym Eq :: r) = ([], TId k g :: TSym Eq :: r).
Proof. destruct n; [reflexivity|apply args_none, arg_none_kw]. Qed.
Lemma args_rpar n r : p_args L n (TSym RPar :: r) = ([], TSym RPar :: r).
Proof. destruct n; [reflexivity|apply args_none, arg_none_rpar]. Qed.
Lemma kws_rpar n r : p_kws L n (TSym RPar :: r) = ([], TSym RPar :: r).
Proof. destruct n; [reflexivity|rewrite p_kws_S; reflexivity]. Qed.

Lemma not_eq_astop e rest : astop rest -> not_eq (Some (e, rest)) = Some (e, rest).
Proof. destruct rest as [|[| | | |[]]]; simpl; try contradiction; reflexivity. Qed.

(** The rest after the positional arguments. *)
Definition gstop (rest : list tok) : Prop :=
  (exists r, rest = TSym RPar :: r) \/
  (exists c k g r, comma_or_nothing c /\ rest = c ++ TId k g :: TSym Eq :: r).
Lemma gstop_astop rest : gstop rest -> astop rest.
Proof. intros [(r & ->)|(c & k & g & r & [->| ->] & ->)]; exact Logic.I. Qed.

Lemma plain_start_app ts rest : level_start ts -> (forall t, ts = [t] -> atom_start [t]) -> plain_start L ts = false -> plain_start L (ts ++ rest) = false.
Proof.
  intros [A|(r & E)] N P.
  - destruct ts as [|[| | | |[]] ts]; simpl in *; try contradiction; auto; try discriminate.
  - destruct E as [->| ->]; destruct r as [|[] r]; simpl in *; auto; try discriminate; destruct (N _ eq_refl).
Qed.
Lemma level_single : forall l ts e, level L l ts e -> forall t, ts = [t] -> atom_start [t].
Proof.
  intros l ts e H; induction H; intros t' E; auto.
  - injection E as -> ->; destruct (proj1 starts _ _ _ H0) as [X|(r & [X|X])]; [destruct X|discriminate..].
  - subst; apply (proj1 (proj2 (proj2 starts)) _ _ H).
  - destruct ts as [|a [|b ts]]; try discriminate.
    + destruct (proj1 starts _ _ _ H0) as [X|(r & [X|X])]; [destruct X|discriminate..].
    + destruct (proj1 (proj2 starts) _ _ _ H1) as (? & ? & ? & ? & ? & -> & _); discriminate.
Qed.
Lemma plain_start_nums ts : plain_start L ts = false -> p_str L ts = None /\ p_num ts = None.
Proof.
  destruct ts as [|[s g| | |s|[]] ts]; simpl; auto; try discriminate.
  - destruct (l_reserved L s); [auto|discriminate].
  - destruct ts as [|[] ts]; auto; discriminate.
  - destruct ts as [|[] ts]; auto; discriminate.
Qed.

Hypothesis CO : coherent L.

Lemma complete :
  (forall l ts e, level L l ts e -> forall n rest, 8 * List.length ts + l + 1 <= n -> stop l rest ->
     p_lvl L n l (ts ++ rest) = Some (e, rest)) /\
  (forall l ts o, chain L l ts o -> forall n rest, 8 * List.length ts <= n -> stop l rest ->
     p_ops L n l (ts ++ rest) = (o, rest)) /\
  (forall ts e, atom L ts e -> forall n rest, 8 * List.length ts <= n -> stop 0 rest ->
     p_atom L n (ts ++ rest) = Some (e, rest)) /\
  (forall ts e, call L ts e -> forall n rest, 8 * List.length ts - 1 <= n ->
     p_call L n (ts ++ rest) = Some (e, rest)) /\
  (forall ts l, args L ts l -> forall n rest, 8 * List.length ts + 6 <= n -> gstop rest ->
     p_args L n (ts ++ rest) = (l, rest)) /\
  (forall ts k, kws L ts k -> forall n r, 8 * List.length ts <= n ->
     p_kws L n (ts ++ TSym RPar :: r) = (k, TSym RPar :: r)) /\
  (forall ts e, arg L ts e -> forall n rest, 8 * List.length ts + 5 <= n -> astop rest ->
     p_arg L n (ts ++ rest) = Some (e, rest)).
Proof.
  apply grammar_ind.
  - intros t b ts e T _ IH [|n] rest LE ST; simpl List.length in LE; [lia|]; rewrite p_lvl_S.
    cbn [app]; rewrite (proj2 (sign_of_spec (t :: ts ++ rest) b (ts ++ rest))) by eauto.
    rewrite IH; [reflexivity|lia|exact ST].
  - intros ts e A IH [|n] rest LE ST; [lia|]; rewrite p_lvl_S.
    rewrite (atom_start_sign _ (atom_start_app _ rest (proj1 (proj2 (proj2 starts)) _ _ A))).
    apply IH; [lia|exact ST].
  - intros l ts e LT H IH [|n] rest LE ST; [lia|]; rewrite p_lvl_S, IH; [|lia|apply (stop_le (S l)); [lia|exact ST]].
    rewrite (p_ops_stop _ (S l)); auto; lia.
  - intros l ts e us ops LT H IH C IHC [|n] rest LE ST; rewrite app_length in LE; [lia|]; rewrite p_lvl_S.
    destruct (proj1 (proj2 starts) _ _ _ C) as (k & t & o' & r & E & U & T); injection E as <-.
    rewrite <- app_assoc, IH; [|lia|subst us; apply (op_stop _ _ _ _ T)].
    rewrite IHC; [|lia|exact ST].
    assert (NE : ops <> []) by (inversion C; discriminate); destruct ops; [congruence|reflexivity].
  - intros l t o ts e T H IH [|n] rest LE ST; simpl List.length in LE; [lia|]; rewrite p_ops_S.
    cbn [app]; rewrite (proj2 (op_of_spec (S l) (t :: ts ++ rest) o (ts ++ rest))) by eauto.
    assert (l < 3) by (inversion T; lia).
    cbn [pred]; rewrite IH; [|lia|apply (stop_le (S l)); [lia|exact ST]].
    rewrite (p_ops_stop _ (S l)); auto; lia.
  - intros l t o ts e us ops T H IH C IHC [|n] rest LE ST; simpl List.length in LE; rewrite app_length in LE; [lia|]; rewrite p_ops_S.
    cbn [app]; rewrite (proj2 (op_of_spec (S l) (t :: (ts ++ us) ++ rest) o ((ts ++ us) ++ rest))) by eauto.
    assert (l < 3) by (inversion T; lia).
    destruct (proj1 (proj2 starts) _ _ _ C) as (k & t2 & o' & r & E & U & T2); injection E as <-.
    cbn [pred]; rewrite <- app_assoc, IH; [|lia|subst us; apply (op_stop _ _ _ _ T2)].
    rewrite IHC; [reflexivity|lia|exact ST].
  - intros ts e H IH [|n] rest LE ST.
    { destruct (proj1 (proj2 (proj2 (proj2 starts))) _ _ H) as (f & r & ->); simpl in LE; lia. }
    rewrite p_atom_S, IH; [reflexivity|lia].
  - intros s R [|n] rest LE ST; simpl in LE; [lia|]; rewrite p_atom_S; cbn [app]; rewrite p_call_other by discriminate; rewrite R; reflexivity.
  - intros s [|n] rest LE ST; simpl in LE; [lia|]; rewrite p_atom_S; cbn [app]; rewrite p_call_other by discriminate; reflexivity.
  - intros ts e HI H [|n] rest LE ST; [destruct H; simpl in LE; lia|]; rewrite p_atom_S.
    rewrite HI; destruct H as [s us l A B] eqn:HE; clear HE.
    assert (P : p_index L n ((TId s true :: TSym LBr :: us) ++ rest) = Some (EIndex s l, rest)) by (apply index_complete; [constructor; assumption|lia]).
    assert (Q : p_call L n ((TId s true :: TSym LBr :: us) ++ rest) = None).
    { destruct n; [reflexivity|]; rewrite p_call_S; reflexivity. }
    rewrite Q; cbn [app] in *; rewrite P; reflexivity.
  - intros s g H n rest LE ST; cbn [app]; rewrite (p_atom_id _ _ _ _ ST), H; simpl in LE; destruct n; [lia|reflexivity].
  - intros ts e H [|n] rest LE ST; [destruct H; simpl in LE; lia|]; rewrite p_atom_S.
    destruct H as [s H]; cbn [app]; rewrite p_call_other by discriminate; simpl; rewrite H; reflexivity.
  - intros ts e H IH [|n] rest LE ST; simpl List.length in LE; rewrite app_length in LE; simpl in LE; [lia|]; rewrite p_atom_S.
    cbn [app]; rewrite p_call_other by discriminate; rewrite <- app_assoc, IH; [reflexivity|lia|].
    repeat split; try discriminate; intros ? ? ? X; inversion X.
  - intros f [|n] rest LE; simpl in LE; [lia|]; rewrite p_call_S; cbn [app]; rewrite args_rpar, kws_rpar; reflexivity.
  - intros f ts l H IH [|n] rest LE; simpl List.length in LE; rewrite app_length in LE; simpl in LE; [lia|]; rewrite p_call_S.
    cbn [app]; rewrite <- app_assoc; cbn [app]; rewrite IH; [|lia|left; eauto]; rewrite kws_rpar; destruct l; reflexivity.
  - intros f us k H IH [|n] rest LE; simpl List.length in LE; rewrite app_length in LE; simpl in LE; [lia|]; rewrite p_call_S.
    cbn [app]; rewrite <- app_assoc; cbn [app].
    destruct (proj1 (proj2 (proj2 (proj2 (proj2 (proj2 starts))))) _ _ H) as (w & g & r & E).
    assert (A : p_args L n (us ++ TSym RPar :: rest) = ([], us ++ TSym RPar :: rest)) by (subst us; apply args_kw).
    rewrite A, IH by lia; reflexivity.
  - intros f ts l c us k HA IHA HC HK IHK [|n] rest LE; simpl List.length in LE; rewrite !app_length in LE; simpl in LE; [lia|]; rewrite p_call_S.
    cbn [app]; rewrite <- !app_assoc; cbn [app].
    destruct (proj1 (proj2 (proj2 (proj2 (proj2 (proj2 starts))))) _ _ HK) as (w & g & r & E).
    rewrite IHA; [|lia|right; exists c, w, g, (r ++ TSym RPar :: rest); subst us; auto].
    assert (NE : l <> []) by (inversion HA; discriminate); assert (NK : k <> []) by (inversion HK; discriminate).
    destruct l; [congruence|]; destruct HC as [->| ->]; cbn [app].
    + replace (match us ++ TSym RPar :: rest with TSym Comma :: r' => match p_kws L n r' with ([], _) => ([], us ++ TSym RPar :: rest) | x => x end | _ => p_kws L n (us ++ TSym RPar :: rest) end) with (p_kws L n (us ++ TSym RPar :: rest)) by (subst us; reflexivity).
      rewrite IHK by lia; reflexivity.
    + rewrite IHK by (simpl in LE; lia); destruct k; [congruence|reflexivity].
  - intros ts e H IH [|n] rest LE ST; [lia|]; rewrite p_args_S, IH; [|lia|apply gstop_astop, ST].
    destruct ST as [(r & ->)|(c & k & g & r & [->| ->] & ->)]; try reflexivity.
    cbn [app]; rewrite args_kw; reflexivity.
  - intros ts e us l H IH HA IHA [|n] rest LE ST; rewrite app_length in LE; simpl in LE; [lia|]; rewrite p_args_S, <- app_assoc; cbn [app].
    rewrite IH; [|lia|exact Logic.I]; rewrite IHA; [|lia|exact ST].
    assert (NE : l <> []) by (inversion HA; discriminate); destruct l; [congruence|reflexivity].
  - intros k g ts e H IH [|n] r LE; simpl in LE; [lia|]; rewrite p_kws_S; cbn [app].
    rewrite IH; [|lia|exact Logic.I]; rewrite kws_rpar; reflexivity.
  - intros k g ts e c us l H IH HC HK IHK [|n] r LE; simpl List.length in LE; rewrite !app_length in LE; simpl in LE; [lia|]; rewrite p_kws_S; cbn [app].
    destruct (proj1 (proj2 (proj2 (proj2 (proj2 (proj2 starts))))) _ _ HK) as (w & g' & r' & E).
    rewrite <- !app_assoc.
    assert (NK : l <> []) by (inversion HK; discriminate).
    rewrite IH; [|lia|destruct HC as [->| ->]; subst us; exact Logic.I].
    destruct HC as [->| ->]; cbn [app] in *; simpl List.length in LE.
    + rewrite IHK by lia; subst us; reflexivity.
    + rewrite IHK by lia; destruct l; [congruence|reflexivity].
  - intros ts e M H IH [|n] rest LE ST; [lia|]; rewrite p_arg_S, M.
    rewrite IH; [|lia|apply astop_stop, ST]; apply not_eq_astop, ST.
  - intros ts e M P H IH [|n] rest LE ST; [lia|]; rewrite p_arg_S, M.
    pose proof (proj1 starts _ _ _ H) as HS.
    assert (P2 : plain_start L (ts ++ rest) = false).
    { apply plain_start_app; [exact HS|apply (level_single _ _ _ H)|exact P]. }
    apply plain_start_nums in P2 as (-> & ->); unfold orelse.
    rewrite (level_start_list _ _ _ _ HS), IH; [|lia|apply astop_stop, ST]; apply not_eq_astop, ST.
  - intros ts e M H [|n] rest LE ST; [lia|]; rewrite p_arg_S, (num_complete _ _ _ H).
    pose proof (num_start _ _ rest H) as Q; rewrite (p_str_start _ Q), (p_call_start _ _ Q), (p_index_start _ _ Q), (p_name_start _ _ Q).
    destruct (l_mode L); [congruence|unfold orelse; apply not_eq_astop, ST..].
  - intros ts e H [|n] rest LE ST; [lia|]; rewrite p_arg_S, (str_complete _ _ _ H).
    destruct H as [s g H]; cbn [app].
    assert (NN : l_name L s = false) by (destruct (l_name L s) eqn:E; [rewrite (proj1 CO _ E) in H; discriminate|reflexivity]).
    rewrite (p_call_none _ _ _ _ _ (astop_stop _ ST)), (p_index_none _ _ _ _ _ (astop_stop _ ST)).
    destruct (p_lvl_id 3 n s g _ (astop_stop _ ST)) as [->|(A & _)]; [|congruence].
    simpl p_name; simpl p_num; simpl p_list; rewrite NN; destruct (l_mode L); unfold orelse; apply not_eq_astop, ST.
  - intros ts e H [|n] rest LE ST; [lia|]; rewrite p_arg_S, (list_complete _ _ _ _ rest (proj2 CO) H) by lia.
    destruct (list_start _ _ _ rest H) as (r & ->).
    rewrite p_lvl_lbr, p_call_other by discriminate; destruct (l_mode L); unfold orelse; simpl; apply not_eq_astop, ST.
  - intros s g M H [|n] rest LE ST; [lia|]; rewrite p_arg_S; cbn [app].
    rewrite (p_call_none _ _ _ _ _ (astop_stop _ ST)), (p_index_none _ _ _ _ _ (astop_stop _ ST)).
    simpl p_name; simpl p_num; simpl p_list; simpl p_str; rewrite H, (proj1 CO _ H).
    destruct M as [-> | ->]; unfold orelse; apply not_eq_astop, ST.
  - intros ts e M H [|n] rest LE ST; [lia|]; rewrite p_arg_S, M, (conf_complete _ _ _ H); destruct H; unfold orelse; simpl; apply not_eq_astop, ST.
  - intros ts e M H IH [|n] rest LE ST; [lia|]; rewrite p_arg_S, M, IH by lia; unfold orelse; apply not_eq_astop, ST.
  - intros ts e M H [|n] rest LE ST; [lia|]; rewrite p_arg_S, M, (index_complete _ _ _ _ H) by lia.
    destruct H as [s us l A B]; assert (Q : p_call L n ((TId s true :: TSym LBr :: us) ++ rest) = None) by (destruct n; [reflexivity|]; rewrite p_call_S; reflexivity).
    rewrite Q; unfold orelse; apply not_eq_astop, ST.
Qed.

End Proofs.
