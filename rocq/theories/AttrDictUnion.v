(** Leaf-wise characterisation of [union]. *)
From Verif Require Import Base BaseProofs AttrDictModel AttrDictSpec AttrDictProofs.
Local Open Scope string_scope.
Local Open Scope list_scope.

(** ** Paths *)
Lemma sprefix_prefix p q : sprefix p q -> prefix p q.
Proof. intros [r [_ E]]; exists r; exact E. Qed.

Lemma prefix_cases p q : prefix p q -> p = q \/ sprefix p q.
Proof.
  intros [r E]; destruct r as [|a r]; [left; rewrite app_nil_r in E; auto|].
  right; exists (a :: r); split; [congruence|exact E].
Qed.

Lemma prefix_refl p : prefix p p.
Proof. exists []; rewrite app_nil_r; reflexivity. Qed.

Lemma prefix_trans p q r : prefix p q -> prefix q r -> prefix p r.
Proof. intros [a ->] [b ->]; exists (a ++ b); rewrite app_assoc; reflexivity. Qed.

Lemma sprefix_neq p q : sprefix p q -> p <> q.
Proof.
  intros [r [N E]] ->.
  apply N; apply (app_inv_head q); rewrite app_nil_r; auto.
Qed.

Lemma sprefix_not_prefix p q : sprefix p q -> ~ prefix q p.
Proof.
  intros [r [N E]] [s E']; subst q; apply N.
  rewrite <- app_assoc in E'.
  assert (H : r ++ s = []) by (apply (app_inv_head p); rewrite app_nil_r; auto).
  apply app_eq_nil in H; tauto.
Qed.

Lemma prefix_both p q r : prefix p r -> prefix q r -> comparable p q.
Proof.
  revert q r; induction p as [|a p IH]; intros q r Hp Hq; [left; apply prefix_nil|].
  destruct q as [|b q]; [right; apply prefix_nil|].
  destruct Hp as [s ->]; destruct Hq as [t E]; simpl in E; injection E as -> E.
  apply comparable_cons; apply (IH q (p ++ s)); [exists s; auto|exists t; auto].
Qed.

Lemma prefix_dec p q : {prefix p q} + {~ prefix p q}.
Proof.
  revert q; induction p as [|a p IH]; intros q; [left; apply prefix_nil|].
  destruct q as [|b q]; [right; intros [r E]; simpl in E; congruence|].
  destruct (string_dec a b) as [->|N].
  - destruct (IH q) as [H|H]; [left|right]; rewrite prefix_cons; exact H.
  - right; apply prefix_cons_neq; exact N.
Qed.

Lemma comparable_dec p q : {comparable p q} + {~ comparable p q}.
Proof.
  unfold comparable; destruct (prefix_dec p q); [left; auto|].
  destruct (prefix_dec q p); [left; auto|right; tauto].
Qed.

Lemma comparable_cases p q : comparable p q -> p = q \/ sprefix p q \/ sprefix q p.
Proof.
  intros [H|H]; apply prefix_cases in H; destruct H; auto.
Qed.

(** ** Setting a leaf or an empty dictionary *)
Definition simple (v : val) : Prop := leaf v \/ v = VDict [].

Definition upd (v : val) (old : option val) : val :=
  match v, old with VDict [], Some x => x | _, _ => v end.

Record set_effect' (p : path) (v : val) (d d' : dict) : Prop := {
  se_here' : lk p (VDict d') = Some (upd v (lk p (VDict d)));
  se_frame' : forall q, ~ comparable p q -> lk q (VDict d') = lk q (VDict d);
  se_prefix' : forall q, sprefix q p -> exists o, lk q (VDict d') = Some (VDict o)
}.

Lemma set_leaf_simple k v d : simple v ->
  set_leaf k v d = (d_set k (upd v (d_get k d)) d, None).
Proof.
  intros [L| ->]; unfold set_leaf, upd.
  - destruct v; try reflexivity; discriminate L.
  - destruct (d_get k d) as [x|]; reflexivity.
Qed.

Lemma set_key_gen p v : p <> [] -> simple v -> forall d, unbl p d ->
  exists d', set_key p v d = (d', None) /\ set_effect' p v d d'.
Proof.
  intros NN S; induction p as [|k r IH]; [congruence|].
  intros d U; destruct r as [|k' r].
  - simpl; rewrite (set_leaf_simple k v d S).
    exists (d_set k (upd v (d_get k d)) d); split; [reflexivity|].
    split.
    + rewrite lk_set_same; simpl; destruct (d_get k d); reflexivity.
    + intros q NC; destruct q as [|a q]; [exfalso; apply NC; right; apply prefix_nil|].
      destruct (string_dec a k) as [->|N]; [|apply lk_set_other; exact N].
      exfalso; apply NC; apply comparable_cons; left; apply prefix_nil.
    + intros q [s [Ns E]]. destruct q as [|a q]; simpl in E.
      * simpl; eexists; reflexivity.
      * injection E as -> E; destruct q, s; simpl in E; congruence.
  - destruct (IH ltac:(congruence) (sub k d) (unbl_sub _ _ _ _ U)) as [o' [E [H1 H2 H3]]].
    exists (d_set k (VDict o') d); split; [apply set_key_step; assumption|].
    split.
    + rewrite lk_set_same, H1; f_equal; f_equal; symmetry; apply lk_sub; congruence.
    + intros q NC; destruct q as [|a q]; [exfalso; apply NC; right; apply prefix_nil|].
      destruct (string_dec a k) as [->|N]; [|apply lk_set_other; exact N].
      rewrite comparable_cons in NC.
      rewrite lk_set_same, H2 by exact NC.
      symmetry; apply lk_sub; intros ->; apply NC; right; apply prefix_nil.
    + intros q Sp; destruct q as [|a q].
      * simpl; eexists; reflexivity.
      * assert (a = k) as -> by (destruct Sp as [s [_ E']]; simpl in E'; congruence).
        rewrite lk_set_same; apply H3; rewrite sprefix_cons in Sp; exact Sp.
Qed.

(** ** [get_key] reads [lk] *)
Lemma get_key_lk p d v : p <> [] -> (get_key p d = Ok v <-> lk p (VDict d) = Some v).
Proof.
  intros NN; revert d; induction p as [|k r IH]; intros d; [congruence|].
  destruct r as [|k' r].
  - simpl; destruct (d_get k d); split; congruence.
  - change (get_key (k :: k' :: r) d) with
      (match d_get k d with None => Err EKey | Some (VDict o) => get_key (k' :: r) o | Some _ => Err EAttr end).
    cbn [lk]; destruct (d_get k d) as [[| | | | |o]|]; try (split; discriminate).
    rewrite IH by congruence; reflexivity.
Qed.

Lemma get_default_dict p d : p <> [] ->
  is_dict (get_key_default p VNone d) = true <-> exists o, lk p (VDict d) = Some (VDict o).
Proof.
  intros NN; unfold get_key_default; destruct (get_key p d) as [v|e] eqn:E.
  - apply get_key_lk in E; [|exact NN]; rewrite E; destruct v; simpl; split;
      try discriminate; try (intros [o H]; discriminate); intros; [eexists; reflexivity|reflexivity].
  - simpl; split; [discriminate|intros [o H]]; apply get_key_lk in H; [congruence|exact NN].
Qed.

(** ** One step of the loop *)
Definition eff (S : dict) (k : path) (v : val) : Prop :=
  v <> VNone \/ ~ exists o, lk k (VDict S) = Some (VDict o).

Record one_effect (S : dict) (k : path) (w : val) (S1 : dict) : Prop := {
  oe_frame : forall q, ~ comparable k q -> lk q (VDict S1) = lk q (VDict S);
  oe_leaf : forall q x, comparable k q -> leaf x ->
     (lk q (VDict S1) = Some x <->
      (q = k /\ w = x /\ eff S k x) \/ (lk q (VDict S) = Some x /\ harmless k w q));
  oe_prefix : S1 = S \/ forall q, sprefix q k -> exists o, lk q (VDict S1) = Some (VDict o)
}.

Lemma lk_ext_none p q v x : lk p v = Some x -> leaf x -> sprefix p q -> lk q v = None.
Proof. intros H L [r [N ->]]; rewrite lk_app, H; apply lk_leaf; assumption. Qed.

Lemma union_one_effect ks S B k w :
  k <> [] -> unbl k S -> lk k (VDict B) = Some w -> simple w ->
  exists S1, union_one true ks B k S = (S1, None) /\ one_effect S k w S1.
Proof.
  intros NN U Hw Sw; unfold union_one; cbn [negb andb].
  apply (proj2 (get_key_lk k B w NN)) in Hw; rewrite Hw.
  assert (SET : eff S k w \/ w = VDict [] -> exists S1, set_key k w S = (S1, None) /\ one_effect S k w S1).
  { intros HE; destruct (set_key_gen k w NN Sw S U) as [S1 [E [H1 H2 H3]]].
    exists S1; split; [exact E|split]; [exact H2| |right; exact H3].
    intros q x C L; destruct Sw as [Lw| ->].
    - assert (HE' : eff S k w) by (destruct HE as [HE| ->]; [exact HE|discriminate Lw]).
      assert (Up : upd w (lk k (VDict S)) = w) by (destruct w; try reflexivity; discriminate Lw).
      rewrite Up in H1.
      destruct (comparable_cases _ _ C) as [<-|[Sp|Sp]].
      + rewrite H1; split.
        * intros [= ->]; left; auto.
        * intros [[_ [-> _]]|[_ [[-> _]|[-> Sp]]]]; [reflexivity|discriminate Lw|].
          exfalso; apply (sprefix_neq _ _ Sp); reflexivity.
      + rewrite (lk_ext_none _ _ _ _ H1 Lw Sp); split; [discriminate|].
        intros [[-> _]|[Hq [[-> _]|[-> _]]]].
        * exfalso; apply (sprefix_neq _ _ Sp); reflexivity.
        * discriminate Lw.
        * destruct HE' as [HE'|HE']; [congruence|].
          exfalso; apply HE'; destruct Sp as [r [Nr ->]]; rewrite lk_app in Hq.
          destruct (lk k (VDict S)) as [[| | | | |o]|]; try discriminate;
            try (rewrite lk_leaf in Hq; [discriminate|reflexivity|exact Nr]).
          exists o; reflexivity.
      + destruct (H3 _ Sp) as [o Ho]; rewrite Ho; split; [intros [= <-]; discriminate L|].
        intros [[-> _]|[_ [[-> _]|[-> Sp']]]].
        * exfalso; apply (sprefix_neq _ _ Sp); reflexivity.
        * discriminate Lw.
        * exfalso; apply (sprefix_not_prefix _ _ Sp); apply sprefix_prefix; exact Sp'.
    - assert (HH : forall q, sprefix k q -> lk q (VDict S1) = lk q (VDict S)).
      { intros q0 [r [Nr ->]]; rewrite !lk_app, H1.
        unfold upd; destruct (lk k (VDict S)) as [y|]; [reflexivity|].
        destruct r; [congruence|reflexivity]. }
      destruct (comparable_cases _ _ C) as [<-|[Sp|Sp]].
      + rewrite H1; unfold upd; split.
        * intros H; right; split.
          -- destruct (lk k (VDict S)); [exact H|injection H as <-; discriminate L].
          -- left; split; [reflexivity|apply prefix_refl].
        * intros [[_ [<- _]]|[-> _]]; [discriminate L|reflexivity].
      + rewrite HH by exact Sp; split.
        * intros H; right; split; [exact H|left; split; [reflexivity|apply sprefix_prefix; exact Sp]].
        * intros [[-> _]|[H _]]; [exfalso; apply (sprefix_neq _ _ Sp); reflexivity|exact H].
      + destruct (H3 _ Sp) as [o Ho]; rewrite Ho; split; [intros [= <-]; discriminate L|].
        intros [[-> _]|[_ [[_ Pf]|[? _]]]].
        * exfalso; apply (sprefix_neq _ _ Sp); reflexivity.
        * exfalso; apply (sprefix_not_prefix _ _ Sp); exact Pf.
        * discriminate. }
  assert (CASE : w = VNone \/ w <> VNone) by (destruct w; (left; congruence) || (right; congruence)).
  destruct CASE as [->|NV].
  - destruct (is_dict (get_key_default k VNone S)) eqn:ID.
    + exists S; split; [reflexivity|]; apply (get_default_dict k S NN) in ID; destruct ID as [o Ho].
      split; [reflexivity| |left; reflexivity].
      intros q x C L; split.
      * intros H; right; split; [exact H|right; split; [reflexivity|]].
        destruct (comparable_cases _ _ C) as [<-|[Sp|Sp]]; [|exact Sp|].
        -- rewrite Ho in H; injection H as <-; discriminate L.
        -- rewrite (lk_ext_none _ _ _ _ H L Sp) in Ho; discriminate.
      * intros [[-> [<- E]]|[H _]]; [|exact H].
        destruct E as [E|E]; [congruence|exfalso; apply E; exists o; exact Ho].
    + apply SET; left; right; intros H; apply (get_default_dict k S NN) in H; congruence.
  - assert (G : eff S k w \/ w = VDict []) by (left; left; exact NV).
    destruct w; try congruence; apply SET; exact G.
Qed.

(** ** The loop *)
Fixpoint antichain (ks : list path) : Prop :=
  match ks with
  | [] => True
  | k :: t => (forall k', In k' t -> ~ comparable k k') /\ antichain t
  end.

(** Unblockedness in terms of [lk], so that it can be transported. *)
Lemma unbl_lk p d : unbl p d <->
  (forall q x, q <> [] -> sprefix q p -> lk q (VDict d) = Some x -> x = VNone \/ is_dict x = true).
Proof.
  revert d; induction p as [|k r IH]; intros d.
  - simpl; split; [|auto]; intros _ q x Nq [s [Ns E]]; destruct q, s; simpl in *; congruence.
  - destruct r as [|k' r].
    + simpl; split; [|auto]; intros _ q x Nq [s [Ns E]].
      destruct q as [|a [|b q]]; simpl in *; [congruence| |]; injection E; intros;
        destruct s; simpl in *; congruence.
    + rewrite unbl_cons; split.
      * intros H q x Nq Sp Hq; destruct q as [|a q]; [congruence|].
        assert (a = k) as -> by (destruct Sp as [s [_ E']]; simpl in E'; congruence).
        rewrite sprefix_cons in Sp; simpl in Hq.
        destruct (d_get k d) as [w|]; [|discriminate].
        destruct q as [|b q].
        -- simpl in Hq; injection Hq as <-; destruct w; try contradiction; auto.
        -- destruct w; try discriminate Hq.
           rewrite IH in H; eapply H; [|exact Sp|exact Hq]; congruence.
      * intros H; destruct (d_get k d) as [w|] eqn:G; [|exact I].
        assert (H1 : w = VNone \/ is_dict w = true).
        { apply (H [k] w); [congruence|exists (k' :: r); split; [congruence|reflexivity]|].
          simpl; rewrite G; reflexivity. }
        destruct w as [| | | | |o]; try (destruct H1; discriminate); [exact I|].
        rewrite IH; intros q x Nq Sp Hq; apply (H (k :: q) x);
          [congruence|rewrite sprefix_cons; exact Sp|simpl; rewrite G; exact Hq].
Qed.

Lemma unbl_transport S k w S1 k' :
  one_effect S k w S1 -> ~ comparable k k' -> unbl k' S -> unbl k' S1.
Proof.
  intros [Fr _ Pf] NC U; destruct Pf as [->|Pf]; [exact U|].
  rewrite unbl_lk in *; intros q x Nq Sp Hq.
  destruct (comparable_dec k q) as [C|C].
  - destruct (comparable_cases _ _ C) as [->|[Sp'|Sp']].
    + exfalso; apply NC; left; apply sprefix_prefix; exact Sp.
    + exfalso; apply NC; left; eapply prefix_trans; apply sprefix_prefix; eassumption.
    + destruct (Pf _ Sp') as [o Ho]; rewrite Hq in Ho; injection Ho as ->; right; reflexivity.
  - rewrite Fr in Hq by exact C; eapply U; eauto.
Qed.

Definition loop_leaf (S B : dict) (ks : list path) (q : path) (x : val) : Prop :=
  (In q ks /\ lk q (VDict B) = Some x /\ eff S q x)
  \/ (lk q (VDict S) = Some x /\
      forall k w, In k ks -> lk k (VDict B) = Some w -> comparable k q -> harmless k w q).

Lemma union_loop_spec sk B ks : antichain ks ->
  (forall k, In k ks -> k <> [] /\ exists w, lk k (VDict B) = Some w /\ simple w) ->
  forall S, (forall k, In k ks -> unbl k S) ->
  exists S', union_loop true sk B ks S = (S', None) /\
    (forall q x, leaf x -> (lk q (VDict S') = Some x <-> loop_leaf S B ks q x)) /\
    (forall q, (forall k, In k ks -> ~ comparable k q) -> lk q (VDict S') = lk q (VDict S)).
Proof.
  induction ks as [|k t IH]; intros AC HB S HU.
  - exists S; split; [reflexivity|split; [|auto]]; intros q x L; unfold loop_leaf; simpl; split; [|tauto].
    intros H; right; split; [exact H|tauto].
  - destruct AC as [AC1 AC2].
    destruct (HB k (or_introl eq_refl)) as [NN [w [Hw Sw]]].
    destruct (union_one_effect sk S B k w NN (HU k (or_introl eq_refl)) Hw Sw) as [S1 [E1 OE]].
    destruct (IH AC2 (fun k' H => HB k' (or_intror H)) S1) as [S' [E' [L' F']]].
    { intros k' Hk'; eapply unbl_transport; [exact OE|apply AC1; exact Hk'|apply HU; right; exact Hk']. }
    exists S'; split; [simpl; rewrite E1; exact E'|split].
    2:{ intros q Hq; rewrite F' by (intros k' Hk'; apply Hq; right; exact Hk').
        destruct OE as [Fr _ _]; apply Fr; apply Hq; left; reflexivity. }
    intros q x L; rewrite (L' q x L); unfold loop_leaf.
    assert (EFF : forall q, In q t -> (eff S1 q x <-> eff S q x)).
    { intros q0 Hq0; unfold eff; destruct OE as [Fr _ _]; rewrite (Fr q0 (AC1 _ Hq0)); tauto. }
    destruct OE as [Fr Lf _].
    destruct (comparable_dec k q) as [C|C].
    + rewrite (Lf q x C L); split.
      * intros [[Hin [H1 H2]]|[[[-> [-> H2]]|[H1 H2]] H3]].
        -- exfalso; apply (AC1 q Hin C).
        -- left; split; [left; reflexivity|]; split; assumption.
        -- right; split; [exact H1|]; intros k0 w0 [<-|Hin] Hk0 Ck0; [|eapply H3; eauto].
           rewrite Hw in Hk0; injection Hk0 as <-; exact H2.
      * intros [[[<-|Hin] [H1 H2]]|[H1 H2]].
        -- right; split; [left; rewrite Hw in H1; injection H1 as ->; auto|].
           intros k0 w0 Hin _ Ck0; exfalso; apply (AC1 _ Hin); apply comparable_sym; exact Ck0.
        -- exfalso; apply (AC1 q Hin C).
        -- right; split; [right; split; [exact H1|apply H2; [left; reflexivity|exact Hw|exact C]]|].
           intros k0 w0 Hin; apply H2; right; exact Hin.
    + rewrite (Fr q C); split.
      * intros [[Hin [H1 H2]]|[H1 H2]].
        -- left; split; [right; exact Hin|split; [exact H1|apply EFF; assumption]].
        -- right; split; [exact H1|]; intros k0 w0 [<-|Hin] Hk0 Ck0; [contradiction|eapply H2; eauto].
      * intros [[[<-|Hin] [H1 H2]]|[H1 H2]].
        -- exfalso; apply C; left; apply prefix_refl.
        -- left; split; [exact Hin|split; [exact H1|apply EFF; assumption]].
        -- right; split; [exact H1|]; intros k0 w0 Hin; apply H2; right; exact Hin.
Qed.

(** ** [keys_nested] lists the defined keys *)
Definition kn_go := fix go (d : list (string * val)) : list path :=
         match d with
         | [] => []
         | (k, w) :: t =>
             (match w with
              | VDict (_ :: _) => map (cons k) (keys_nested_val w)
              | _ => [[k]]
              end) ++ go t
         end.

Lemma keys_nested_go d : keys_nested d = kn_go d.
Proof. reflexivity. Qed.

Lemma keys_nested_cons k w t :
  keys_nested ((k, w) :: t) =
  (match w with VDict (_ :: _) => map (cons k) (keys_nested_val w) | _ => [[k]] end) ++ keys_nested t.
Proof. reflexivity. Qed.

Lemma keys_nested_val_nonnil v k : In k (keys_nested_val v) -> k <> [].
Proof.
  destruct v as [| | | | |d]; simpl; try tauto.
  induction d as [|[a w] t IH]; simpl; [tauto|].
  rewrite in_app_iff; intros [H|H]; [|auto].
  destruct w as [| | | | |[|e o]]; try (destruct H as [<-|[]]; congruence).
  apply in_map_iff in H; destruct H as [x [<- _]]; congruence.
Qed.

Lemma keys_nested_val_spec v : wf v -> forall k, In k (keys_nested_val v) <->
  (k <> [] /\ exists w, lk k v = Some w /\ simple w).
Proof.
  induction v as [| | | | |d IH] using val_ind'; intros W k;
    try (simpl; split; [tauto|intros [N [w [HX _]]]; destruct k; simpl in HX; congruence]).
  apply wf_inv in W; destruct W as [ND FW].
  change (keys_nested_val (VDict d)) with (keys_nested d).
  induction d as [|[a v] t IHt].
  - simpl; split; [tauto|intros [N [w [H _]]]; destruct k; simpl in H; congruence].
  - inversion IH as [|? ? IHv IHrest]; subst; inversion FW as [|? ? FWv FWr]; subst.
    inversion ND as [|? ? NI ND']; subst. simpl in IHv, FWv.
    specialize (IHt IHrest ND' FWr).
    rewrite keys_nested_cons, in_app_iff, IHt; clear IHt.
    assert (HEAD : In k (match v with VDict (_ :: _) => map (cons a) (keys_nested_val v) | _ => [[a]] end)
             <-> exists q w, k = a :: q /\ lk q v = Some w /\ simple w).
    { destruct v as [| | | | |[|e o]];
        try (simpl; split;
             [intros [<-|[]]; eexists [], _; split; [reflexivity|split; [reflexivity|]];
                ((left; reflexivity) || (right; reflexivity))
             |intros [q [w [-> [H _]]]]; destruct q; [left; reflexivity|simpl in H; discriminate]]).
      rewrite in_map_iff; split.
      - intros [q [<- H]]; apply (IHv FWv) in H; destruct H as [Nq [w [H1 H2]]]; eauto.
      - intros [q [w [-> [H1 H2]]]]; exists q; split; [reflexivity|]; apply (IHv FWv).
        destruct q as [|b q]; [|split; [congruence|eauto]].
        simpl in H1; injection H1 as <-; destruct H2 as [H2|H2]; discriminate H2. }
    rewrite HEAD; clear HEAD; split.
    + intros [[q [w [-> [H1 H2]]]]|[N [w [H1 H2]]]].
      * split; [congruence|]; exists w; split; [|exact H2]; simpl; rewrite String.eqb_refl; exact H1.
      * split; [exact N|]; exists w; split; [|exact H2].
        destruct k as [|b q]; [congruence|]; simpl in *.
        destruct (String.eqb_spec b a) as [->|Nb]; [|exact H1].
        destruct (d_get a t) eqn:G; [|discriminate].
        apply d_get_some_key in G; contradiction.
    + intros [N [w [H1 H2]]]; destruct k as [|b q]; [congruence|]; simpl in H1.
      destruct (String.eqb_spec b a) as [->|Nb].
      * left; exists q, w; auto.
      * right; split; [congruence|]; exists w; simpl; auto.
Qed.

Lemma antichain_app a b : antichain a -> antichain b ->
  (forall x y, In x a -> In y b -> ~ comparable x y) -> antichain (a ++ b).
Proof.
  induction a as [|k t IH]; simpl; intros Ha Hb H; [exact Hb|].
  destruct Ha as [H1 H2]; split.
  - intros k' Hin; apply in_app_iff in Hin; destruct Hin as [Hin|Hin]; [auto|].
    apply H; [left; reflexivity|exact Hin].
  - apply IH; auto.
Qed.

Lemma antichain_map k l : antichain l -> antichain (map (cons k) l).
Proof.
  induction l as [|p t IH]; simpl; [auto|].
  intros [H1 H2]; split; [|auto].
  intros k' Hin; apply in_map_iff in Hin; destruct Hin as [q [<- Hq]].
  rewrite comparable_cons; auto.
Qed.

Lemma keys_head_in d k : In k (keys_nested d) -> exists a q, k = a :: q /\ In a (d_keys d).
Proof.
  induction d as [|[a v] t IH]; [simpl; tauto|].
  rewrite keys_nested_cons, in_app_iff; intros [H|H].
  - exists a; destruct v as [| | | | |[|e o]];
      try (destruct H as [<-|[]]; exists []; split; [reflexivity|left; reflexivity]).
    apply in_map_iff in H; destruct H as [q [<- _]]; exists q; split; [reflexivity|left; reflexivity].
  - destruct (IH H) as [b [q [-> Hb]]]; exists b, q; split; [reflexivity|right; exact Hb].
Qed.

Lemma keys_nested_antichain v : wf v -> antichain (keys_nested_val v).
Proof.
  induction v as [| | | | |d IH] using val_ind'; intros W; try exact I.
  apply wf_inv in W; destruct W as [ND FW].
  change (keys_nested_val (VDict d)) with (keys_nested d).
  induction d as [|[a v] t IHt]; [exact I|].
  inversion IH as [|? ? IHv IHrest]; subst; inversion FW as [|? ? FWv FWr]; subst.
  inversion ND as [|? ? NI ND']; subst; simpl in IHv, FWv.
  rewrite keys_nested_cons; apply antichain_app.
  - destruct v as [| | | | |[|e o]]; try (simpl; tauto).
    apply antichain_map; apply IHv; exact FWv.
  - apply IHt; assumption.
  - intros x y Hx Hy C.
    destruct (keys_head_in _ _ Hy) as [b [q [-> Hb]]].
    assert (exists r, x = a :: r) as [r ->].
    { destruct v as [| | | | |[|e o]]; try (destruct Hx as [<-|[]]; eexists; reflexivity).
      apply in_map_iff in Hx; destruct Hx as [r [<- _]]; eexists; reflexivity. }
    assert (a <> b) by (intros ->; contradiction).
    destruct C as [C|C]; apply prefix_cons_neq in C; auto.
Qed.

(** ** Union with overriding *)
Lemma def_key_iff d k w : wf (VDict d) ->
  (def_key (VDict d) k w <-> In k (keys_nested d) /\ lk k (VDict d) = Some w /\ simple w).
Proof.
  intros W; unfold def_key; rewrite at_lk by exact W.
  unfold keys_nested; rewrite keys_nested_val_spec by exact W; unfold simple.
  split; [intros [H1 [H2 H3]]; repeat split; eauto|intros [[H1 _] [H2 H3]]; auto].
Qed.

Lemma union_loop_wf ao sk B ks S : wf (VDict B) -> wf (VDict S) ->
  wf (VDict (fst (union_loop ao sk B ks S))).
Proof.
  intros WB; revert S; induction ks as [|k t IH]; intros S W; [exact W|]; simpl.
  assert (W1 : wf (VDict (fst (union_one ao sk B k S)))).
  { unfold union_one; destruct (negb ao && path_mem k sk); [exact W|].
    destruct (get_key k B) as [v|e] eqn:G; [|exact W].
    assert (Wv : wf v).
    { destruct k as [|a r]; [simpl in G; discriminate|].
      apply get_key_lk in G; [|congruence].
      revert G; generalize (a :: r); generalize (VDict B) WB; clear.
      intros v0 W0 p; revert v0 W0; induction p as [|k p IH]; intros v0 W0 G; simpl in G.
      - injection G as <-; exact W0.
      - destruct v0; try discriminate; destruct (d_get k d) as [w|] eqn:E; [|discriminate].
        eapply IH; [|exact G]; eapply wf_get; eauto. }
    destruct v; try (apply set_key_wf; assumption).
    destruct (is_dict (get_key_default k VNone S)); [exact W|apply set_key_wf; assumption]. }
  destruct (union_one ao sk B k S) as [S' [e|]]; simpl in W1; [exact W1|apply IH; exact W1].
Qed.

Theorem union_override_leaves A B : wf (VDict A) -> wf (VDict B) -> fits (VDict A) (VDict B) ->
  exists A', union true A B = (A', None) /\ wf (VDict A') /\
    forall q v, leaf v -> (at_path (VDict A') q v <-> merged_leaf (VDict A) (VDict B) q v).
Proof.
  intros WA WB F; unfold union.
  destruct (union_loop_spec (keys_nested A) B (keys_nested B)) with (S := A) as [A' [E [L _]]].
  - apply keys_nested_antichain; exact WB.
  - intros k Hk; apply (keys_nested_val_spec (VDict B) WB) in Hk; exact Hk.
  - intros k Hk; apply blocked_unbl; [exact WA|].
    apply (keys_nested_val_spec (VDict B) WB) in Hk; destruct Hk as [N [w [H1 H2]]].
    apply (F k w); unfold def_key; rewrite at_lk by exact WB; auto.
  - exists A'; split; [exact E|].
    assert (WA' : wf (VDict A')).
    { pose proof (union_loop_wf true (keys_nested A) B (keys_nested B) A WB WA) as H.
      rewrite E in H; exact H. }
    split; [exact WA'|]; intros q v Lv.
    rewrite at_lk by exact WA'; rewrite (L q v Lv); unfold loop_leaf, merged_leaf, eff.
    rewrite !at_lk by assumption; split.
    + intros [[Hin [H1 H2]]|[H1 H2]].
      * left; split; [exact H1|]; destruct H2 as [H2|H2]; [auto|right].
        intros [o Ho]; apply H2; exists o; rewrite at_lk in Ho by exact WA; exact Ho.
      * right; split; [exact H1|]; intros k w Hk; rewrite def_key_iff in Hk by exact WB.
        destruct Hk as [Hk1 [Hk2 _]]; apply H2; assumption.
    + intros [[H1 H2]|[H1 H2]].
      * left; split; [|split; [exact H1|]].
        -- apply (keys_nested_val_spec (VDict B) WB); split.
           ++ intros ->; simpl in H1; injection H1 as <-; discriminate Lv.
           ++ exists v; split; [exact H1|left; exact Lv].
        -- destruct H2 as [H2|H2]; [auto|right].
           intros [o Ho]; apply H2; exists o; rewrite at_lk by exact WA; exact Ho.
      * right; split; [exact H1|]; intros k w Hk Hw C.
        apply (H2 k w); [|exact C]; rewrite def_key_iff by exact WB; split; [exact Hk|split; [exact Hw|]].
        apply (keys_nested_val_spec (VDict B) WB) in Hk; destruct Hk as [_ [w' [H3 H4]]].
        rewrite Hw in H3; injection H3 as ->; exact H4.
Qed.
