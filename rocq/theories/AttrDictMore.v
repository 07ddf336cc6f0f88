(** Further lemmas: strict union, layering, deletion, flat round trip. *)
From Verif Require Import Base BaseProofs AttrDictModel AttrDictSpec AttrDictProofs AttrDictUnion.
Local Open Scope string_scope.
Local Open Scope list_scope.

(** ** [set_key] wrapped for the specification *)
Lemma set_key_spec p v d : wf (VDict d) -> p <> [] -> leaf v -> ~ blocked (VDict d) p ->
  exists d', set_key p v d = (d', None) /\ wf (VDict d') /\
    forall q x, leaf x -> (at_path (VDict d') q x <->
       (q = p /\ x = v) \/ (~ comparable p q /\ at_path (VDict d) q x)).
Proof.
  intros W NN L NB; apply blocked_unbl in NB; [|exact W].
  destruct (set_key_unbl p v NN L d NB) as [d' [E [H1 H2 H3]]].
  assert (W' : wf (VDict d')).
  { pose proof (set_key_wf p v d (wf_leaf _ L) W) as H; rewrite E in H; exact H. }
  exists d'; split; [exact E|split; [exact W'|]]; intros q x Lx.
  rewrite !at_lk by assumption.
  destruct (comparable_dec p q) as [C|C].
  - split; [|intros [[-> ->]|[H _]]; [exact H1|contradiction]].
    intros H; left; destruct (comparable_cases _ _ C) as [<-|[Sp|Sp]].
    + rewrite H1 in H; injection H as ->; auto.
    + rewrite (lk_ext_none _ _ _ _ H1 L Sp) in H; discriminate.
    + destruct (H3 _ Sp) as [o [_ Ho]]; rewrite Ho in H; injection H as <-; discriminate Lx.
  - rewrite (H2 q C); split; [intros H; right; auto|intros [[-> ->]|[_ H]]; [|exact H]].
    exfalso; apply C; left; apply prefix_refl.
Qed.

(** A blocked first segment is refused; see [set_key_err] for the converse. *)
Lemma set_key_blocked_head k r v d x : wf (VDict d) -> r <> [] ->
  d_get k d = Some x -> leaf x -> x <> VNone -> set_key (k :: r) v d = (d, Some EKey).
Proof.
  intros W N G L NV; destruct r as [|k' r]; [congruence|].
  rewrite set_key_cons; cbv zeta; rewrite G.
  destruct x; try congruence; try discriminate L; reflexivity.
Qed.

(** ** Strict union *)
Lemma set_key_simple_err p v d : simple v -> forall d' e, set_key p v d = (d', Some e) -> e = EKey.
Proof.
  intros S; revert d; induction p as [|k r IH]; intros d d' e.
  - simpl; congruence.
  - destruct r as [|k' r].
    + simpl; rewrite set_leaf_simple by exact S; discriminate.
    + rewrite set_key_cons; cbv zeta.
      destruct (set_key (k' :: r) v []) as [o0 e0] eqn:E0.
      destruct (d_get k d) as [[|b|z|s|l|o]|]; try congruence;
        try (intros H; injection H as _ ->; eapply IH; exact E0).
      destruct (set_key (k' :: r) v o) as [o' e'] eqn:E.
      destruct e' as [e'|]; [|discriminate].
      rewrite (IH _ _ _ E); intros H; injection H as _ ->; eapply IH; exact E0.
Qed.

Lemma path_mem_in p l : path_mem p l = true <-> In p l.
Proof.
  unfold path_mem; rewrite existsb_exists; split.
  - intros [x [H E]]; unfold path_eqb in E; destruct (list_eq_dec string_dec p x); [subst; exact H|discriminate].
  - intros H; exists p; split; [exact H|]; unfold path_eqb; destruct (list_eq_dec string_dec p p); congruence.
Qed.

Lemma union_one_err ao sk B k S w : k <> [] -> lk k (VDict B) = Some w -> simple w ->
  forall S' e, union_one ao sk B k S = (S', Some e) -> e = EKey.
Proof.
  intros NN Hw Sw S' e; unfold union_one.
  destruct (negb ao && path_mem k sk); [congruence|].
  apply (proj2 (get_key_lk k B w NN)) in Hw; rewrite Hw.
  destruct w; try (intros H; eapply set_key_simple_err; [|exact H]; exact Sw).
  destruct (is_dict _); [discriminate|].
  intros H; eapply set_key_simple_err; [|exact H]; exact Sw.
Qed.

Lemma union_loop_conflict sk B ks : 
  (forall k, In k ks -> k <> [] /\ exists w, lk k (VDict B) = Some w /\ simple w) ->
  (exists k, In k ks /\ In k sk) -> forall S, exists S', union_loop false sk B ks S = (S', Some EKey).
Proof.
  induction ks as [|k t IH]; intros HB [k0 [H1 H2]] S; [destruct H1|]; simpl.
  destruct (HB k (or_introl eq_refl)) as [NN [w [Hw Sw]]].
  destruct (union_one false sk B k S) as [S1 [e|]] eqn:E.
  - exists S1; f_equal; f_equal; eapply union_one_err; eauto.
  - destruct H1 as [->|H1].
    + unfold union_one in E; simpl in E; rewrite (proj2 (path_mem_in k0 sk) H2) in E; discriminate.
    + apply IH; [intros k' Hk'; apply HB; right; exact Hk'|exists k0; auto].
Qed.

Lemma union_strict_conflict A B k w x : wf (VDict A) -> wf (VDict B) ->
  def_key (VDict A) k w -> def_key (VDict B) k x ->
  exists A', union false A B = (A', Some EKey).
Proof.
  intros WA WB HA HB; unfold union; apply union_loop_conflict.
  - intros k' Hk'; apply (keys_nested_val_spec (VDict B) WB) in Hk'; exact Hk'.
  - exists k; apply def_key_iff in HA; [|exact WA]; apply def_key_iff in HB; [|exact WB]; tauto.
Qed.

Lemma union_loop_disjoint sk B ks : (forall k, In k ks -> ~ In k sk) ->
  forall S, union_loop false sk B ks S = union_loop true sk B ks S.
Proof.
  induction ks as [|k t IH]; intros H S; [reflexivity|]; simpl.
  assert (E : union_one false sk B k S = union_one true sk B k S).
  { unfold union_one; simpl; destruct (path_mem k sk) eqn:E; [|reflexivity].
    apply path_mem_in in E; exfalso; eapply H; [left; reflexivity|exact E]. }
  rewrite E; destruct (union_one true sk B k S) as [S1 [e|]]; [reflexivity|].
  apply IH; intros k' Hk'; apply H; right; exact Hk'.
Qed.

Lemma leaf_def_key d q v : q <> [] -> leaf v -> at_path d q v -> def_key d q v.
Proof. intros; split; [assumption|split; [assumption|left; assumption]]. Qed.

Lemma at_path_dict_root d v : leaf v -> ~ at_path (VDict d) [] v.
Proof. intros L H; inversion H; subst; discriminate L. Qed.

Lemma union_strict_ok A B : wf (VDict A) -> wf (VDict B) -> disjoint_keys (VDict A) (VDict B) ->
  exists A', union false A B = (A', None) /\ wf (VDict A') /\
    forall q v, leaf v -> (at_path (VDict A') q v <-> at_path (VDict A) q v \/ at_path (VDict B) q v).
Proof.
  intros WA WB DJ.
  assert (E : union false A B = union true A B).
  { unfold union; apply union_loop_disjoint; intros k HB HA.
    apply (keys_nested_val_spec (VDict B) WB) in HB; apply (keys_nested_val_spec (VDict A) WA) in HA.
    destruct HB as [N [w [HB1 HB2]]], HA as [_ [w' [HA1 HA2]]].
    apply (DJ k w' k w); unfold def_key; rewrite ?at_lk by assumption; auto.
    left; apply prefix_refl. }
  rewrite E; destruct (union_override_leaves A B WA WB) as [A' [H1 [H2 H3]]].
  { intros k w Hk [q [Nq [Sp [x [Hx [Lx NVx]]]]]].
    apply (DJ q x k w); [apply leaf_def_key; assumption|exact Hk|left; apply sprefix_prefix; exact Sp]. }
  exists A'; split; [exact H1|split; [exact H2|]]; intros q v Lv; rewrite (H3 q v Lv).
  unfold merged_leaf; split.
  - intros [[H _]|[H _]]; auto.
  - assert (Nq : forall d, at_path (VDict d) q v -> q <> []).
    { intros d H ->; exact (at_path_dict_root d v Lv H). }
    intros [H|H].
    + right; split; [exact H|]; intros k w Hk C; exfalso.
      apply (DJ q v k w); [apply leaf_def_key; eauto|exact Hk|apply comparable_sym; exact C].
    + left; split; [exact H|].
      destruct v; try (left; congruence); right; intros [o Ho].
      (* A has a dictionary at q: it contains a defined key comparable to q *)
      assert (HD : forall u p0 o, wf u -> at_path u p0 (VDict o) -> p0 <> [] ->
                 exists k w, def_key u k w /\ prefix p0 k).
      { clear; intros u p0 o Wu Hat N0.
        assert (Wo : wf (VDict o)).
        { clear N0; revert Wu; induction Hat as [|k w items p x Hin Hat IH]; intros Wu; [exact Wu|].
          apply IH; apply wf_inv in Wu; destruct Wu as [_ Wu]; rewrite Forall_forall in Wu; apply (Wu _ Hin). }
        destruct (keys_nested o) as [|k ks] eqn:K.
        - exists p0, (VDict o); split; [|apply prefix_refl].
          split; [exact N0|split; [exact Hat|right]].
          destruct o as [|[a u0] t]; [reflexivity|exfalso].
          assert (KN : forall v, wf v -> match v with VDict (_ :: _) => keys_nested_val v <> [] | _ => True end).
          { clear; intros v; induction v as [| | | | |d IH] using val_ind'; intros W; try exact I.
            destruct d as [|[a w] t]; [exact I|].
            change (keys_nested_val (VDict ((a, w) :: t))) with (keys_nested ((a, w) :: t)).
            rewrite keys_nested_cons; inversion IH as [|? ? IHw _]; subst.
            apply wf_inv in W; destruct W as [_ W]; inversion W as [|? ? Ww _]; subst.
            simpl in *; specialize (IHw Ww).
            destruct w as [| | | | |[|e o]]; try (simpl; congruence).
            destruct (keys_nested_val (VDict (e :: o))); [congruence|simpl; congruence]. }
          apply (KN (VDict ((a, u0) :: t)) Wo); exact K.
        - assert (Hk : In k (keys_nested o)) by (rewrite K; left; reflexivity).
          apply (keys_nested_val_spec (VDict o) Wo) in Hk; destruct Hk as [Nk [w [Hw Sw]]].
          exists (p0 ++ k), w; split; [|exists k; reflexivity].
          split; [destruct p0; simpl; congruence|split; [|exact Sw]].
          rewrite at_lk in * by assumption; rewrite lk_app, Hat; exact Hw. }
      destruct (HD (VDict A) q o WA Ho (Nq _ H)) as [k [w [Hk Pk]]].
      apply (DJ k w q VNone); [exact Hk|apply leaf_def_key; eauto|right; exact Pk].
Qed.

(** ** No empty sub-dictionaries *)
Lemma ne_inv d : noempty (VDict d) -> d <> [] /\ tidy d.
Proof. intros H; inversion H; subst; [discriminate|auto]. Qed.

Lemma tidy_get k d w : tidy d -> d_get k d = Some w -> noempty w.
Proof. intros T G; unfold tidy in T; rewrite Forall_forall in T; apply d_get_in in G; apply (T _ G). Qed.

Lemma set_key_tidy p v : leaf v -> p <> [] -> forall d, tidy d -> 
  tidy (fst (set_key p v d)) /\ (snd (set_key p v d) = None -> fst (set_key p v d) <> []).
Proof.
  intros L NN; induction p as [|k r IH]; [congruence|]; intros d T.
  destruct r as [|k' r].
  - simpl; rewrite set_leaf_simple by (left; exact L); simpl.
    assert (U : upd v (d_get k d) = v) by (destruct v; try reflexivity; discriminate L).
    rewrite U; split; [apply d_set_forall; [intros; apply ne_leaf; exact L|exact T]|intros _; apply d_set_nonnil].
  - specialize (IH ltac:(congruence)).
    rewrite set_key_cons; cbv zeta.
    assert (FR : forall d, tidy d -> let s := (let '(o, e) := set_key (k' :: r) v [] in (d_set k (VDict o) d, e)) in
       tidy (fst s) /\ (snd s = None -> fst s <> [])).
    { intros d0 T0 s; unfold s; destruct (IH [] (Forall_nil _)) as [H1 H2].
      destruct (set_key_unbl (k' :: r) v ltac:(congruence) L [] (unbl_nil _)) as [o [E _]].
      rewrite E in *; simpl in *; split; [|intros _; apply d_set_nonnil].
      apply d_set_forall; [intros; apply ne_dict; auto|exact T0]. }
    destruct (d_get k d) as [w|] eqn:G; [|apply FR; exact T].
    destruct w as [| | | | |o]; try (simpl; split; [exact T|discriminate]); [apply FR; exact T|].
    pose proof (tidy_get _ _ _ T G) as To; apply ne_inv in To; destruct To as [No To].
    destruct (IH o To) as [H1 H2].
    destruct (set_key (k' :: r) v o) as [o' [e|]] eqn:E; simpl in H1, H2.
    + destruct (set_key_err _ _ _ L _ _ E) as [-> ->].
      apply FR; apply d_set_forall; [intros; apply ne_dict; auto|exact T].
    + simpl; split; [|intros _; apply d_set_nonnil].
      apply d_set_forall; [intros; apply ne_dict; auto|exact T].
Qed.

Lemma noempty_has_leaf v : noempty v -> exists q x, at_path v q x /\ leaf x.
Proof.
  induction v as [| | | | |d IH] using val_ind'; intros N;
    try (eexists [], _; split; [apply at_here|reflexivity]).
  apply ne_inv in N; destruct N as [Nd T].
  destruct d as [|[k w] t]; [congruence|].
  inversion IH as [|? ? IHw _]; subst; inversion T as [|? ? Tw _]; subst; simpl in *.
  destruct (IHw Tw) as [q [x [H1 H2]]]; exists (k :: q), x; split; [|exact H2].
  econstructor; [left; reflexivity|exact H1].
Qed.

Lemma noempty_at v p x : noempty v -> at_path v p x -> noempty x.
Proof.
  intros N H; induction H as [|k w items p x Hin Hat IH]; [exact N|].
  apply IH; apply ne_inv in N; destruct N as [_ T]; unfold tidy in T; rewrite Forall_forall in T.
  apply (T _ Hin).
Qed.

Lemma tidy_at d p x : tidy d -> p <> [] -> at_path (VDict d) p x -> noempty x.
Proof.
  intros T N H; inversion H as [|k w items q y Hin Hat]; subst; [congruence|].
  unfold tidy in T; rewrite Forall_forall in T; eapply noempty_at; [apply (T _ Hin)|exact Hat].
Qed.

Lemma union_loop_tidy ao sk B ks S : 
  (forall k, In k ks -> k <> [] /\ exists w, lk k (VDict B) = Some w /\ leaf w) ->
  tidy S -> tidy (fst (union_loop ao sk B ks S)).
Proof.
  intros HB; revert S; induction ks as [|k t IH]; intros S T; [exact T|]; simpl.
  destruct (HB k (or_introl eq_refl)) as [NN [w [Hw Lw]]].
  assert (T1 : tidy (fst (union_one ao sk B k S))).
  { unfold union_one; destruct (negb ao && path_mem k sk); [exact T|].
    rewrite (proj2 (get_key_lk k B w NN) Hw).
    destruct w; try discriminate Lw; try (apply set_key_tidy; assumption).
    destruct (is_dict _); [exact T|apply set_key_tidy; assumption]. }
  destruct (union_one ao sk B k S) as [S1 [e|]]; simpl in *; [exact T1|].
  apply IH; [intros k' Hk'; apply HB; right; exact Hk'|exact T1].
Qed.

Lemma tidy_keys_leaf d k w : wf (VDict d) -> tidy d -> In k (keys_nested d) -> lk k (VDict d) = Some w -> leaf w.
Proof.
  intros W T Hk Hw; apply (keys_nested_val_spec (VDict d) W) in Hk.
  destruct Hk as [N [w' [H1 [H2|H2]]]]; rewrite Hw in H1; injection H1 as ->; [exact H2|].
  subst w'; exfalso.
  assert (X : noempty (VDict [])) by (eapply tidy_at; [exact T|exact N|apply at_lk; [exact W|exact Hw]]).
  apply ne_inv in X; tauto.
Qed.

(** ** Layers with a common shape *)
Lemma union_same_shape A B : wf (VDict A) -> wf (VDict B) -> tidy A -> tidy B -> same_shape [A; B] ->
  exists A', union true A B = (A', None) /\ wf (VDict A') /\ tidy A' /\
   forall q v, leaf v -> (at_path (VDict A') q v <->
      at_path (VDict B) q v \/ (at_path (VDict A) q v /\ ~ exists x, leaf x /\ at_path (VDict B) q x)).
Proof.
  intros WA WB TA TB SS.
  assert (DB : forall k w, def_key (VDict B) k w -> leaf w).
  { intros k w [N [H [L|E]]]; [exact L|]; subst.
    exfalso; apply (tidy_at _ _ _ TB N) in H; apply ne_inv in H; tauto. }
  destruct (union_override_leaves A B WA WB) as [A' [H1 [H2 H3]]].
  { intros k w Hk [q [Nq [Sp [x [Hx [Lx NVx]]]]]].
    assert (q = k).
    { apply (SS A B) with (w := x) (w' := w); simpl; auto; [apply Hk|eapply DB; exact Hk|].
      left; apply sprefix_prefix; exact Sp. }
    subst; apply (sprefix_neq _ _ Sp); reflexivity. }
  exists A'; split; [exact H1|split; [exact H2|split]].
  - pose proof (union_loop_tidy true (keys_nested A) B (keys_nested B) A) as T.
    unfold union in H1; rewrite H1 in T; apply T; [|exact TA].
    intros k Hk; pose proof Hk as Hk'; apply (keys_nested_val_spec (VDict B) WB) in Hk'.
    destruct Hk' as [N [w [Hw _]]]; split; [exact N|exists w; split; [exact Hw|exact (tidy_keys_leaf B k w WB TB Hk Hw)]].
  - intros q v Lv; rewrite (H3 q v Lv); unfold merged_leaf.
    assert (NoDictA : forall x, leaf x -> at_path (VDict B) q x -> ~ exists o, at_path (VDict A) q (VDict o)).
    { intros x Lx Hx [o Ho].
      assert (Nq : q <> []) by (intros ->; exact (at_path_dict_root B x Lx Hx)).
      pose proof (tidy_at _ _ _ TA Nq Ho) as No.
      destruct (noempty_has_leaf _ No) as [r [y [Hr Ly]]].
      assert (Hqr : at_path (VDict A) (q ++ r) y).
      { rewrite at_lk in * by assumption; rewrite lk_app, Ho; apply at_lk in Hr; [exact Hr|].
        clear - WA Ho; revert Ho WA; generalize (VDict A); intros u Ho Wu.
        revert u Wu Ho; induction q as [|k q IH]; intros u Wu Ho; simpl in Ho; [injection Ho as ->; exact Wu|].
        destruct u; try discriminate; destruct (d_get k d) eqn:G; [|discriminate].
        eapply IH; [eapply wf_get; eauto|exact Ho]. }
      assert (q = q ++ r).
      { apply (SS B A) with (w := x) (w' := y); simpl; auto. left; exists r; reflexivity. }
      assert (r = []) by (apply (app_inv_head q); rewrite app_nil_r; auto).
      subst r; inversion Hr; subst; discriminate Ly. }
    split.
    + intros [[H _]|[H HH]]; [auto|right]; split; [exact H|].
      intros [x [Lx Hx]].
      assert (Nq : q <> []) by (intros ->; exact (at_path_dict_root B x Lx Hx)).
      destruct (HH q x (leaf_def_key _ _ _ Nq Lx Hx)) as [[-> _]|[_ Sp]].
      * left; apply prefix_refl.
      * discriminate Lx.
      * apply (sprefix_neq _ _ Sp); reflexivity.
    + intros [H|[H HH]].
      * left; split; [exact H|right; eapply NoDictA; eauto].
      * right; split; [exact H|]; intros k w Hk C; exfalso.
        assert (k = q).
        { apply (SS B A) with (w := w) (w' := v); simpl; auto; [apply Hk|eapply DB; exact Hk]. }
        subst; apply HH; exists w; split; [eapply DB; exact Hk|apply Hk].
Qed.

Lemma union_all_spec layers : forall A, wf (VDict A) -> tidy A ->
  Forall (fun L => wf (VDict L) /\ tidy L) layers -> same_shape (A :: layers) ->
  exists A', union_all layers A = (A', None) /\ wf (VDict A') /\ tidy A' /\
    forall q v, leaf v -> (at_path (VDict A') q v <-> last_wins layers A q v).
Proof.
  induction layers as [|B t IH]; intros A WA TA F SS.
  - exists A; split; [reflexivity|split; [exact WA|split; [exact TA|]]]; intros q v Lv; unfold last_wins; split.
    + intros H; right; split; [exact H|intros M x []].
    + intros [[b [L [a [E _]]]]|[H _]]; [destruct b; discriminate|exact H].
  - inversion F as [|? ? [WB TB] F']; subst.
    destruct (union_same_shape A B WA WB TA TB) as [A1 [E1 [W1 [T1 L1]]]].
    { intros X Y HX HY; apply SS; simpl in *; intuition. }
    destruct (IH A1 W1 T1 F') as [A' [E' [W' [T' L']]]].
    { assert (HX : forall X k w, In X (A1 :: t) -> leaf w -> at_path (VDict X) k w ->
                exists Z, In Z (A :: B :: t) /\ at_path (VDict Z) k w).
      { intros X k w [<-|HX] Lw Hk; [|exists X; split; [right; right; exact HX|exact Hk]].
        apply L1 in Hk; [|exact Lw]; destruct Hk as [Hk|[Hk _]]; [exists B|exists A]; simpl; auto. }
      intros X Y HX1 HY1 k w k' w' Hk Lw Hk' Lw' C.
      destruct (HX X k w HX1 Lw Hk) as [X' [IX Hk2]], (HX Y k' w' HY1 Lw' Hk') as [Y' [IY Hk2']].
      eapply (SS X' Y'); eauto. }
    exists A'; split; [simpl; rewrite E1; exact E'|split; [exact W'|split; [exact T'|]]].
    intros q v Lv; rewrite (L' q v Lv); unfold last_wins; split.
    + intros [[b [L [a [E [H1 H2]]]]]|[H1 H2]].
      * left; exists (B :: b), L, a; split; [rewrite E; reflexivity|auto].
      * apply L1 in H1; [|exact Lv]; destruct H1 as [H1|[H1 H3]].
        -- left; exists [], B, t; auto.
        -- right; split; [exact H1|]; intros M x [<-|HM] Lx Hx; [apply H3; eauto|eapply H2; eauto].
    + intros [[b [L [a [E [H1 H2]]]]]|[H1 H2]].
      * destruct b as [|B' b]; simpl in E; injection E as <- E.
        -- right; subst a; split; [|exact H2]; apply L1; [exact Lv|left; exact H1].
        -- left; exists b, L, a; auto.
      * right; split; [|intros M x HM; apply H2; right; exact HM].
        apply L1; [exact Lv|]; right; split; [exact H1|].
        intros [x [Lx Hx]]; eapply H2; [left; reflexivity|exact Lx|exact Hx].
Qed.

(** Applying a layer twice. *)
Lemma union_idem A B : wf (VDict A) -> wf (VDict B) -> tidy A -> tidy B -> same_shape [A; B] ->
  exists A1 A2, union true A B = (A1, None) /\ union true A1 B = (A2, None) /\
    forall q v, leaf v -> (at_path (VDict A2) q v <-> at_path (VDict A1) q v).
Proof.
  intros WA WB TA TB SS.
  destruct (union_same_shape A B WA WB TA TB SS) as [A1 [E1 [W1 [T1 L1]]]].
  destruct (union_same_shape A1 B W1 WB T1 TB) as [A2 [E2 [W2 [T2 L2]]]].
  { assert (HX : forall X k w, In X [A1; B] -> leaf w -> at_path (VDict X) k w ->
                exists Z, In Z [A; B] /\ at_path (VDict Z) k w).
    { intros X k w [<-|[<-|[]]] Lw Hk; [|exists B; simpl; auto].
      apply L1 in Hk; [|exact Lw]; destruct Hk as [Hk|[Hk _]]; [exists B|exists A]; simpl; auto. }
    intros X Y HX1 HY1 k w k' w' Hk Lw Hk' Lw' C.
    destruct (HX X k w HX1 Lw Hk) as [X' [IX Hk2]], (HX Y k' w' HY1 Lw' Hk') as [Y' [IY Hk2']].
    eapply (SS X' Y'); eauto. }
  exists A1, A2; split; [exact E1|split; [exact E2|]]; intros q v Lv.
  rewrite (L2 q v Lv), (L1 q v Lv); tauto.
Qed.

(** ** Deletion *)
Lemma del_key_ok p : p <> [] -> forall d, wf (VDict d) -> forall x, lk p (VDict d) = Some x ->
  exists d', del_key p d = (d', None) /\ wf (VDict d') /\ (tidy d -> tidy d') /\
    forall q v, leaf v -> (lk q (VDict d') = Some v <-> lk q (VDict d) = Some v /\ ~ prefix p q).
Proof.
  intros NN; induction p as [|k r IH]; [congruence|]; intros d W x Hx.
  assert (WD : wf (VDict (d_del k d))).
  { apply wf_inv in W; destruct W as [ND F]; apply wf_dict; [apply d_nodup_del; exact ND|apply d_del_forall; exact F]. }
  assert (ND : NoDup (d_keys d)) by (apply wf_inv in W; tauto).
  destruct r as [|k' r].
  - exists (d_del k d); split; [|split; [exact WD|split; [intros T; apply d_del_forall; exact T|]]].
    + simpl; unfold d_mem; simpl in Hx; destruct (d_get k d); [reflexivity|discriminate].
    + intros q v Lv; destruct q as [|a q]; [simpl; split; [intros [= <-]; discriminate Lv|intros [[= <-] _]; discriminate Lv]|].
      simpl; destruct (string_dec a k) as [->|N].
      * rewrite d_get_del_same by exact ND; split; [discriminate|].
        intros [_ H]; exfalso; apply H; apply prefix_cons; apply prefix_nil.
      * rewrite d_get_del_other by exact N; split; [|tauto].
        intros H; split; [exact H|apply prefix_cons_neq; congruence].
  - change (del_key (k :: k' :: r) d) with
      (match d_get k d with
      | None => (d, Some EKey)
      | Some (VDict o) =>
          let '(o', e) := del_key (k' :: r) o in
          match e with
          | Some _ => (d_set k (VDict o') d, e)
          | None => match o' with
                    | [] => (d_del k d, None)
                    | _ => (d_set k (VDict o') d, None)
                    end
          end
      | Some _ => (d, Some EType)
      end).
    simpl in Hx; destruct (d_get k d) as [[| | | | |o]|] eqn:G; try discriminate.
    destruct (IH ltac:(congruence) o (wf_get _ _ _ W G) x Hx) as [o' [E [Wo [To Lo]]]].
    rewrite E.
    assert (LEAF : forall a q v, leaf v -> a <> k ->
              forall d', d_get a d' = d_get a d ->
              (lk (a :: q) (VDict d') = Some v <-> lk (a :: q) (VDict d) = Some v /\ ~ prefix (k :: k' :: r) (a :: q))).
    { intros a q v Lv N d' Hd'; simpl; rewrite Hd'; split; [|tauto].
      intros H; split; [exact H|apply prefix_cons_neq; congruence]. }
    destruct o' as [|e0 o'].
    + exists (d_del k d); split; [reflexivity|split; [exact WD|split; [intros T; apply d_del_forall; exact T|]]].
      intros q v Lv; destruct q as [|a q]; [simpl; split; [intros [= <-]; discriminate Lv|intros [[= <-] _]; discriminate Lv]|].
      destruct (string_dec a k) as [->|N]; [|apply LEAF; [exact Lv|exact N|apply d_get_del_other; exact N]].
      simpl; rewrite d_get_del_same, G by exact ND; split; [discriminate|].
      rewrite prefix_cons; intros H; apply Lo in H; [|exact Lv].
      destruct q as [|b q]; simpl in H; [injection H as <-; discriminate Lv|discriminate].
    + exists (d_set k (VDict (e0 :: o')) d); split; [reflexivity|split; [apply wf_set; assumption|split]].
      * intros T; apply d_set_forall; [intros; apply ne_dict; [congruence|]|exact T].
        apply To; apply (tidy_get _ _ _ T) in G; apply ne_inv in G; tauto.
      * intros q v Lv; destruct q as [|a q]; [simpl; split; [intros [= <-]; discriminate Lv|intros [[= <-] _]; discriminate Lv]|].
        destruct (string_dec a k) as [->|N]; [|apply LEAF; [exact Lv|exact N|apply d_get_set_other; exact N]].
        rewrite lk_set_same, prefix_cons, (Lo q v Lv).
        destruct q as [|b q]; [|simpl; rewrite G; reflexivity].
        simpl; rewrite G; simpl; tauto.
Qed.

Lemma del_key_missing p : p <> [] -> forall d, wf (VDict d) -> lk p (VDict d) = None ->
  exists e, del_key p d = (d, Some e).
Proof.
  intros NN; induction p as [|k r IH]; [congruence|]; intros d W H.
  destruct r as [|k' r].
  - simpl in *; unfold d_mem; destruct (d_get k d); [discriminate|]; eexists; reflexivity.
  - change (del_key (k :: k' :: r) d) with
      (match d_get k d with
      | None => (d, Some EKey)
      | Some (VDict o) =>
          let '(o', e) := del_key (k' :: r) o in
          match e with
          | Some _ => (d_set k (VDict o') d, e)
          | None => match o' with
                    | [] => (d_del k d, None)
                    | _ => (d_set k (VDict o') d, None)
                    end
          end
      | Some _ => (d, Some EType)
      end).
    simpl in H; destruct (d_get k d) as [[| | | | |o]|] eqn:G; try (eexists; reflexivity).
    destruct (IH ltac:(congruence) o (wf_get _ _ _ W G) H) as [e E]; rewrite E.
    exists e; rewrite d_set_self by exact G; reflexivity.
Qed.

Lemma del_key_spec p d x : wf (VDict d) -> p <> [] -> at_path (VDict d) p x ->
  exists d', del_key p d = (d', None) /\ wf (VDict d') /\ (tidy d -> tidy d') /\
    forall q v, leaf v -> (at_path (VDict d') q v <-> at_path (VDict d) q v /\ ~ prefix p q).
Proof.
  intros W NN Hx; apply at_lk in Hx; [|exact W].
  destruct (del_key_ok p NN d W x Hx) as [d' [E [W' [T L]]]].
  exists d'; split; [exact E|split; [exact W'|split; [exact T|]]].
  intros q v Lv; rewrite !at_lk by assumption; apply L; exact Lv.
Qed.

Lemma del_key_missing_spec p d : wf (VDict d) -> p <> [] -> (~ exists x, at_path (VDict d) p x) ->
  exists e, del_key p d = (d, Some e).
Proof.
  intros W NN H; apply del_key_missing; [exact NN|exact W|].
  destruct (lk p (VDict d)) as [x|] eqn:E; [|reflexivity].
  exfalso; apply H; exists x; apply at_lk; assumption.
Qed.

(** ** Flat round trip *)
Fixpoint set_entries (es : list (path * val)) (d : dict) : step dict :=
  match es with
  | [] => (d, None)
  | (p, v) :: t => match set_key p v d with
                   | (d', None) => set_entries t d'
                   | (d', Some e) => (d', Some e)
                   end
  end.

Fixpoint entries_val (v : val) : list (path * val) :=
  match v with
  | VDict d =>
      (fix go (d : list (string * val)) :=
         match d with
         | [] => []
         | (k, w) :: t =>
             (match w with
              | VDict (_ :: _) => map (fun e => (k :: fst e, snd e)) (entries_val w)
              | _ => [([k], w)]
              end) ++ go t
         end) d
  | _ => []
  end.
Definition entries (d : dict) := entries_val (VDict d).

Lemma entries_cons k w t : entries ((k, w) :: t) =
  (match w with VDict (_ :: _) => map (fun e => (k :: fst e, snd e)) (entries_val w) | _ => [([k], w)] end) ++ entries t.
Proof. reflexivity. Qed.

Lemma entries_keys v : map fst (entries_val v) = keys_nested_val v.
Proof.
  induction v as [| | | | |d IH] using val_ind'; try reflexivity.
  change (map fst (entries d) = keys_nested d).
  induction d as [|[k w] t IHt]; [reflexivity|].
  inversion IH as [|? ? IHw IHr]; subst; simpl in IHw.
  rewrite entries_cons, keys_nested_cons, map_app; f_equal; [|exact (IHt IHr)].
  destruct w as [| | | | |[|e o]]; try reflexivity.
  rewrite map_map; rewrite <- IHw, map_map; reflexivity.
Qed.

Lemma entries_simple v : Forall (fun e => simple (snd e) /\ fst e <> []) (entries_val v).
Proof.
  induction v as [| | | | |d IH] using val_ind'; try constructor.
  change (Forall (fun e => simple (snd e) /\ fst e <> []) (entries d)).
  induction d as [|[k w] t IHt]; [constructor|].
  inversion IH as [|? ? IHw IHr]; subst; simpl in IHw.
  rewrite entries_cons; apply Forall_app; split; [|apply IHt; exact IHr].
  destruct w as [| | | | |[|e o]];
    try (constructor; [split; [((left; reflexivity) || (right; reflexivity))|simpl; congruence]|constructor]).
  rewrite Forall_map; apply Forall_impl with (2 := IHw); simpl; intros a [H _]; split; [exact H|congruence].
Qed.

Lemma set_entries_app a b d :
  set_entries (a ++ b) d = match set_entries a d with
                           | (d', None) => set_entries b d'
                           | (d', Some e) => (d', Some e)
                           end.
Proof.
  revert d; induction a as [|[p v] t IH]; intros d; [reflexivity|]; simpl.
  destruct (set_key p v d) as [d' [e|]]; [reflexivity|apply IH].
Qed.

Lemma d_set_last {V} k (v w : V) acc : ~ In k (d_keys acc) ->
  d_set k v (acc ++ [(k, w)]) = acc ++ [(k, v)].
Proof.
  induction acc as [|[a x] t IH]; simpl; intros N.
  - rewrite String.eqb_refl; reflexivity.
  - destruct (String.eqb_spec k a) as [->|NE]; [tauto|]; f_equal; apply IH; tauto.
Qed.

Lemma d_get_last {V} k (w : V) acc : ~ In k (d_keys acc) -> d_get k (acc ++ [(k, w)]) = Some w.
Proof.
  induction acc as [|[a x] t IH]; simpl; intros N.
  - rewrite String.eqb_refl; reflexivity.
  - destruct (String.eqb_spec k a) as [->|NE]; [tauto|]; apply IH; tauto.
Qed.

Lemma set_entries_under k acc es : ~ In k (d_keys acc) -> Forall (fun e => fst e <> []) es ->
  forall o o', set_entries es o = (o', None) ->
  set_entries (map (fun e => (k :: fst e, snd e)) es) (acc ++ [(k, VDict o)]) = (acc ++ [(k, VDict o')], None).
Proof.
  intros NI; induction es as [|[p v] t IH]; intros F o o' H.
  - simpl in *; injection H as <-; reflexivity.
  - inversion F as [|? ? Np F']; subst; simpl in Np.
    cbn [map set_entries fst snd] in *.
    destruct p as [|k' r]; [congruence|].
    destruct (set_key (k' :: r) v o) as [o1 [e|]] eqn:E; [discriminate|].
    rewrite set_key_cons; cbv zeta; rewrite d_get_last by exact NI; rewrite E.
    rewrite d_set_last by exact NI; apply IH; assumption.
Qed.

Lemma set_entries_under_new k acc es : ~ In k (d_keys acc) -> es <> [] -> Forall (fun e => fst e <> []) es ->
  forall o', set_entries es [] = (o', None) ->
  set_entries (map (fun e => (k :: fst e, snd e)) es) acc = (acc ++ [(k, VDict o')], None).
Proof.
  intros NI NE F o' H; destruct es as [|[p v] t]; [congruence|].
  inversion F as [|? ? Np F']; subst; simpl in Np.
  cbn [map set_entries fst snd] in *.
  destruct p as [|k' r]; [congruence|].
  destruct (set_key (k' :: r) v []) as [o1 [e|]] eqn:E; [discriminate|].
  rewrite set_key_cons; cbv zeta.
  rewrite (proj2 (d_get_none k acc) NI), E.
  rewrite d_keys_set_notin by exact NI.
  apply set_entries_under; assumption.
Qed.

Lemma set_entries_rebuild v : wf v -> match v with
  | VDict d => forall acc, (forall k, In k (d_keys d) -> ~ In k (d_keys acc)) ->
      set_entries (entries d) acc = (acc ++ d, None)
  | _ => True end.
Proof.
  induction v as [| | | | |d IH] using val_ind'; intros W; try exact I.
  apply wf_inv in W; destruct W as [ND FW].
  induction d as [|[k w] t IHt]; intros acc NI.
  - simpl; rewrite app_nil_r; reflexivity.
  - inversion IH as [|? ? IHw IHr]; subst; inversion FW as [|? ? FWw FWr]; subst.
    inversion ND as [|? ? NIk ND']; subst; simpl in *.
    assert (NIa : ~ In k (d_keys acc)) by (apply NI; left; reflexivity).
    rewrite entries_cons, set_entries_app.
    assert (HEAD : set_entries (match w with VDict (_ :: _) => map (fun e => (k :: fst e, snd e)) (entries_val w)
                     | _ => [([k], w)] end) acc = (acc ++ [(k, w)], None)).
    { assert (SIMP : simple w -> set_entries [([k], w)] acc = (acc ++ [(k, w)], None)).
      { intros S; simpl; rewrite set_leaf_simple by exact S.
        rewrite (proj2 (d_get_none k acc) NIa).
        assert (U : upd w None = w) by (destruct w as [| | | | |[|? ?]]; reflexivity).
        rewrite U, d_keys_set_notin by exact NIa; reflexivity. }
      destruct w as [| | | | |[|e o]]; try (apply SIMP; left; reflexivity); [apply SIMP; right; reflexivity|].
      specialize (IHw FWw []); simpl in IHw.
      apply set_entries_under_new; [exact NIa| |apply Forall_impl with (2 := entries_simple _); intros a [_ H]; exact H|].
      - intros E; apply (f_equal (map fst)) in E; rewrite entries_keys in E; simpl in E.
        revert E; clear; destruct e as [a v]; destruct v as [| | | | |[|e' o']]; try discriminate.
        intros E; apply app_eq_nil in E; destruct E as [E _]; apply map_eq_nil in E.
        revert E; generalize dependent o'; clear; intros o' E.
        assert (KN : forall v, match v with VDict (_ :: _) => keys_nested_val v <> [] | _ => True end).
        { clear; intros v; induction v as [| | | | |d IH] using val_ind'; try exact I.
          destruct d as [|[a w] t]; [exact I|].
          change (keys_nested_val (VDict ((a, w) :: t))) with (keys_nested ((a, w) :: t)).
          rewrite keys_nested_cons; inversion IH as [|? ? IHw _]; subst.
          simpl in *.
          destruct w as [| | | | |[|e o]]; try (simpl; congruence).
          destruct (keys_nested_val (VDict (e :: o))); [congruence|simpl; congruence]. }
        apply (KN (VDict (e' :: o'))); exact E.
      - apply IHw; intros k0 _ []. }
    rewrite HEAD, (IHt IHr ND' FWr).
    + rewrite <- app_assoc; reflexivity.
    + intros k0 Hk0; unfold d_keys; rewrite map_app, in_app_iff; simpl; intros [H|[H|[]]].
      * apply (NI k0); [right; exact Hk0|exact H].
      * subst; contradiction.
Qed.

Lemma df_inv d : dotfree (VDict d) -> Forall (fun kv => has_char dot (fst kv) = false /\ dotfree (snd kv)) d.
Proof. intros H; inversion H; subst; [discriminate|assumption]. Qed.

Lemma entries_dotfree v : dotfree v ->
  Forall (fun e => Forall (fun s => has_char dot s = false) (fst e)) (entries_val v).
Proof.
  induction v as [| | | | |d IH] using val_ind'; intros D; try constructor.
  apply df_inv in D.
  change (Forall (fun e => Forall (fun s => has_char dot s = false) (fst e)) (entries d)).
  induction d as [|[k w] t IHt]; [constructor|].
  inversion IH as [|? ? IHw IHr]; subst; inversion D as [|? ? [Dk Dw] Dr]; subst; simpl in *.
  rewrite entries_cons; apply Forall_app; split; [|apply IHt; assumption].
  destruct w as [| | | | |[|e o]]; try (repeat constructor; exact Dk).
  rewrite Forall_map; apply Forall_impl with (2 := IHw Dw); simpl; intros a H; constructor; assumption.
Qed.

Lemma entries_lk v : wf v -> Forall (fun e => lk (fst e) v = Some (snd e)) (entries_val v).
Proof.
  induction v as [| | | | |d IH] using val_ind'; intros W; try constructor.
  apply wf_inv in W; destruct W as [ND FW].
  change (Forall (fun e => lk (fst e) (VDict d) = Some (snd e)) (entries d)).
  induction d as [|[k w] t IHt]; [constructor|].
  inversion IH as [|? ? IHw IHr]; subst; inversion FW as [|? ? FWw FWr]; subst.
  inversion ND as [|? ? NIk ND']; subst; simpl in IHw, FWw.
  rewrite entries_cons; apply Forall_app; split.
  - destruct w as [| | | | |[|e o]];
      try (constructor; [cbn [lk fst snd d_get]; rewrite String.eqb_refl; reflexivity|constructor]).
    rewrite Forall_map; apply Forall_impl with (2 := IHw FWw).
    intros a H; cbn [fst snd lk d_get]; rewrite String.eqb_refl; exact H.
  - pose proof (IHt IHr ND' FWr) as HT.
    rewrite Forall_forall in *; intros [p v] Hin; specialize (HT _ Hin); simpl in HT.
    assert (HK : In p (keys_nested t)).
    { unfold keys_nested; rewrite <- entries_keys; apply (in_map fst) in Hin; exact Hin. }
    destruct (keys_head_in _ _ HK) as [a [q [-> Ha]]]; simpl in *.
    destruct (String.eqb_spec a k) as [->|NE]; [contradiction|exact HT].
Qed.

Lemma as_dict_flat_entries d : wf (VDict d) ->
  as_dict_flat d = Ok (map (fun e => (join_dot (fst e), snd e)) (entries d)).
Proof.
  intros W; unfold as_dict_flat, keys_nested; rewrite <- entries_keys; fold (entries d).
  assert (F : Forall (fun e => get_key (fst e) d = Ok (snd e)) (entries d)).
  { pose proof (entries_lk (VDict d) W) as H1; pose proof (entries_simple (VDict d)) as H2.
    fold (entries d) in H1, H2; rewrite Forall_forall in *; intros e He.
    apply get_key_lk; [apply (H2 e He)|apply (H1 e He)]. }
  induction (entries d) as [|[p v] t IH]; [reflexivity|].
  inversion F as [|? ? F1 F2]; subst; cbn [map fst snd] in *; rewrite F1; cbn [bind]; rewrite IH by exact F2; reflexivity.
Qed.

Lemma init_flat_entries es : Forall (fun e => simple (snd e) /\ fst e <> []) es ->
  Forall (fun e => Forall (fun s => has_char dot s = false) (fst e)) es ->
  forall acc, 
  (fix go (d : list (string * val)) (acc : dict) : result val :=
         match d with
         | [] => Ok (VDict acc)
         | (k, w) :: t =>
             bind (init_val w) (fun w' =>
               match set_key (split_dot k) w' acc with
               | (acc', None) => go t acc'
               | (_, Some e) => Err e
               end)
         end) (map (fun e => (join_dot (fst e), snd e)) es) acc
  = match set_entries es acc with (d, None) => Ok (VDict d) | (_, Some e) => Err e end.
Proof.
  induction es as [|[p v] t IH]; intros F1 F2 acc; [reflexivity|].
  inversion F1 as [|? ? [S N] F1']; subst; inversion F2 as [|? ? D F2']; subst; cbn [map fst snd] in *.
  assert (I : init_val v = Ok v) by (destruct S as [S| ->]; [destruct v; try reflexivity; discriminate S|reflexivity]).
  rewrite I; cbn [bind set_entries].
  unfold split_dot, join_dot; rewrite split_join by assumption.
  destruct (set_key p v acc) as [d [e|]]; [reflexivity|apply IH; assumption].
Qed.

Lemma flat_round_trip d : wf (VDict d) -> dotfree (VDict d) ->
  exists f, as_dict_flat d = Ok f /\ init_from_dict f = Ok d.
Proof.
  intros W D; exists (map (fun e => (join_dot (fst e), snd e)) (entries d)).
  split; [apply as_dict_flat_entries; exact W|].
  unfold init_from_dict, init_val; fold init_val.
  rewrite init_flat_entries; [|apply (entries_simple (VDict d))|apply (entries_dotfree (VDict d)); exact D].
  pose proof (set_entries_rebuild (VDict d) W []) as H; simpl in H.
  rewrite H by (intros k _ []); reflexivity.
Qed.

(** The flat form: one entry per defined key, without duplicates. *)
Lemma antichain_nodup l : antichain l -> NoDup l.
Proof.
  induction l as [|k t IH]; simpl; intros H; [constructor|].
  destruct H as [H1 H2]; constructor; [|auto].
  intros Hin; apply (H1 k Hin); left; apply prefix_refl.
Qed.

Lemma join_dot_inj p q : p <> [] -> q <> [] ->
  Forall (fun s => has_char dot s = false) p -> Forall (fun s => has_char dot s = false) q ->
  join_dot p = join_dot q -> p = q.
Proof.
  intros Np Nq Fp Fq E; apply (f_equal (split_on dot)) in E.
  unfold join_dot in E; rewrite !split_join in E by assumption; exact E.
Qed.

Lemma flat_keys d f : wf (VDict d) -> dotfree (VDict d) -> as_dict_flat d = Ok f ->
  NoDup (map fst f) /\
  forall key v, In (key, v) f <-> exists p, key = join_dot p /\ def_key (VDict d) p v.
Proof.
  intros W D E; rewrite as_dict_flat_entries in E by exact W; injection E as <-.
  pose proof (entries_simple (VDict d)) as ES; pose proof (entries_dotfree (VDict d) D) as ED.
  pose proof (entries_lk (VDict d) W) as EL; fold (entries d) in ES, ED, EL.
  assert (KE : map fst (entries d) = keys_nested d) by apply entries_keys.
  split.
  - replace (map fst (map (fun e => (join_dot (fst e), snd e)) (entries d)))
      with (map join_dot (map fst (entries d))) by (rewrite !map_map; reflexivity).
    assert (ND : NoDup (map fst (entries d))).
    { rewrite KE; apply antichain_nodup; apply (keys_nested_antichain (VDict d)); exact W. }
    assert (F : Forall (fun p => p <> [] /\ Forall (fun s => has_char dot s = false) p) (map fst (entries d))).
    { rewrite Forall_map; apply Forall_forall; intros e He; rewrite Forall_forall in ES, ED.
      split; [apply (ES e He)|apply (ED e He)]. }
    clear KE ES ED EL; induction (map fst (entries d)) as [|p t IH]; [constructor|].
    inversion ND as [|? ? NI ND']; subst; inversion F as [|? ? [Np Dp] F']; subst; simpl; constructor; [|auto].
    rewrite in_map_iff; intros [q [E Hq]].
    rewrite Forall_forall in F'; destruct (F' q Hq) as [Nq Dq].
    apply NI; rewrite (join_dot_inj p q Np Nq Dp Dq (eq_sym E)); exact Hq.
  - intros key v; rewrite in_map_iff; split.
    + intros [[p w] [Heq Hin]]; cbn [fst snd] in Heq; injection Heq as <- <-.
      rewrite Forall_forall in ES, EL; exists p; split; [reflexivity|].
      destruct (ES _ Hin) as [S N]; cbn [fst snd] in *.
      split; [exact N|split; [apply at_lk; [exact W|apply (EL _ Hin)]|exact S]].
    + intros [p [-> Hk]]; apply def_key_iff in Hk; [|exact W]; destruct Hk as [Hk [Hl _]].
      rewrite <- KE in Hk; apply in_map_iff in Hk; destruct Hk as [[p' w] [Hp Hin]]; cbn [fst] in Hp; subst p'.
      rewrite Forall_forall in EL; specialize (EL _ Hin); cbn [fst snd] in EL.
      exists (p, w); split; [cbn [fst snd]; congruence|exact Hin].
Qed.

(** ** Replacement of whole sub-dictionaries *)
Lemma set_key_absent p v : p <> [] -> forall d, unbl p d -> lk p (VDict d) = None ->
  exists d', set_key p v d = (d', None) /\
    (forall r, lk (p ++ r) (VDict d') = lk r v) /\
    (forall q, ~ comparable p q -> lk q (VDict d') = lk q (VDict d)) /\
    (forall q, sprefix q p -> exists o, lk q (VDict d') = Some (VDict o)).
Proof.
  intros NN; induction p as [|k r IH]; [congruence|].
  intros d U A; destruct r as [|k' r].
  - exists (d_set k v d); split; [|split; [|split]].
    + simpl in *; unfold set_leaf; destruct (d_get k d); [discriminate|]; destruct v; reflexivity.
    + intros q; cbn [app]; apply lk_set_same.
    + intros q NC; destruct q as [|a q]; [exfalso; apply NC; right; apply prefix_nil|].
      destruct (string_dec a k) as [->|N]; [|apply lk_set_other; exact N].
      exfalso; apply NC; apply comparable_cons; left; apply prefix_nil.
    + intros q [s [Ns E]]. destruct q as [|a q]; simpl in E.
      * simpl; eexists; reflexivity.
      * injection E as -> E; destruct q, s; simpl in E; congruence.
  - assert (A' : lk (k' :: r) (VDict (sub k d)) = None) by (rewrite <- lk_sub by congruence; exact A).
    destruct (IH ltac:(congruence) (sub k d) (unbl_sub _ _ _ _ U) A') as [o' [E [H1 [H2 H3]]]].
    exists (d_set k (VDict o') d); split; [apply set_key_step; assumption|split; [|split]].
    + intros q; change ((k :: k' :: r) ++ q) with (k :: ((k' :: r) ++ q)); rewrite lk_set_same; apply H1.
    + intros q NC; destruct q as [|a q]; [exfalso; apply NC; right; apply prefix_nil|].
      destruct (string_dec a k) as [->|N]; [|apply lk_set_other; exact N].
      rewrite comparable_cons in NC.
      rewrite lk_set_same, H2 by exact NC.
      symmetry; apply lk_sub; intros ->; apply NC; right; apply prefix_nil.
    + intros q Sp; destruct q as [|a q].
      * simpl; eexists; reflexivity.
      * assert (a = k) as -> by (destruct Sp as [s [_ E']]; simpl in E'; congruence).
        rewrite lk_set_same; apply H3; rewrite sprefix_cons in Sp; exact Sp.
Qed.

Lemma del_key_unbl p d x d' : wf (VDict d) -> p <> [] -> lk p (VDict d) = Some x ->
  del_key p d = (d', None) -> wf (VDict d') -> unbl p d' /\ lk p (VDict d') = None.
Proof.
  intros W NN Hx E W'.
  destruct (del_key_ok p NN d W x Hx) as [d2 [E2 [_ [_ L]]]].
  assert (d2 = d') by congruence; subst d2.
  split.
  - apply blocked_unbl; [exact W'|]; intros [q [Nq [Sp [y [Hy [Ly NV]]]]]].
    apply at_lk in Hy; [|exact W']; apply L in Hy; [|exact Ly]; destruct Hy as [Hy _].
    destruct Sp as [s [Ns ->]]; rewrite lk_app, Hy, (lk_leaf _ _ Ly Ns) in Hx; discriminate.
  - clear E2; revert d W x Hx d' E W' L; clear; induction p as [|k r IH]; intros d W x Hx d' E W' L.
    + simpl in E; discriminate.
    + assert (ND : NoDup (d_keys d)) by (apply wf_inv in W; tauto).
      destruct r as [|k' r].
      * simpl in E; unfold d_mem in E; simpl in Hx; destruct (d_get k d); [|discriminate].
        injection E as <-; simpl; rewrite d_get_del_same by exact ND; reflexivity.
      * change (del_key (k :: k' :: r) d) with
          (match d_get k d with
          | None => (d, Some EKey)
          | Some (VDict o) =>
              let '(o', e) := del_key (k' :: r) o in
              match e with
              | Some _ => (d_set k (VDict o') d, e)
              | None => match o' with
                        | [] => (d_del k d, None)
                        | _ => (d_set k (VDict o') d, None)
                        end
              end
          | Some _ => (d, Some EType)
          end) in E.
        cbn [lk] in Hx; destruct (d_get k d) as [[| | | | |o]|] eqn:G; try discriminate.
        pose proof (wf_get _ _ _ W G) as Wo.
        destruct (del_key_ok (k' :: r) ltac:(congruence) o Wo x Hx) as [o' [Eo [Wo' [_ Lo]]]].
        rewrite Eo in E; destruct o' as [|e0 o'].
        -- injection E as <-; cbn [lk]; rewrite d_get_del_same by exact ND; reflexivity.
        -- injection E as <-; rewrite lk_set_same; exact (IH o Wo x Hx _ Eo Wo' Lo).
Qed.

Lemma replace_step p v d x : wf (VDict d) -> p <> [] -> lk p (VDict d) = Some x ->
  exists d1 d2, del_key p d = (d1, None) /\ set_key p v d1 = (d2, None) /\
    (forall r, lk (p ++ r) (VDict d2) = lk r v) /\
    (forall q y, leaf y -> ~ prefix p q -> (lk q (VDict d2) = Some y <-> lk q (VDict d) = Some y)).
Proof.
  intros W NN Hx.
  destruct (del_key_ok p NN d W x Hx) as [d1 [E1 [W1 [_ L1]]]].
  destruct (del_key_unbl p d x d1 W NN Hx E1 W1) as [U A].
  destruct (set_key_absent p v NN d1 U A) as [d2 [E2 [H1 [H2 H3]]]].
  exists d1, d2; split; [exact E1|split; [exact E2|split; [exact H1|]]].
  intros q y Ly NP; destruct (comparable_dec p q) as [C|C].
  - destruct (comparable_cases _ _ C) as [->|[Sp|Sp]].
    + exfalso; apply NP; apply prefix_refl.
    + exfalso; apply NP; apply sprefix_prefix; exact Sp.
    + destruct (H3 q Sp) as [o Ho]; rewrite Ho; split; [intros [= <-]; discriminate Ly|].
      intros Hy; exfalso; destruct Sp as [s [Ns ->]].
      rewrite lk_app, Hy, (lk_leaf _ _ Ly Ns) in Hx; discriminate.
  - rewrite (H2 q C), (L1 q y Ly); tauto.
Qed.

Lemma before_wipe_app p r : ~ In WIPE p -> before_wipe (p ++ WIPE :: r) = p.
Proof.
  induction p as [|s t IH]; intros N; cbn [app before_wipe].
  - rewrite String.eqb_refl; reflexivity.
  - destruct (String.eqb_spec s WIPE) as [->|NE]; [exfalso; apply N; left; reflexivity|].
    f_equal; apply IH; intros H; apply N; right; exact H.
Qed.

Lemma keys_nested_nest p v : p <> [] -> 
  keys_nested_val (nest p v) = match v with
     | VDict (_ :: _) => map (fun q => p ++ q) (keys_nested_val v)
     | _ => [p] end.
Proof.
  intros NN; induction p as [|k r IH]; [congruence|].
  change (nest (k :: r) v) with (VDict [(k, nest r v)]).
  change (keys_nested_val (VDict [(k, nest r v)])) with (keys_nested [(k, nest r v)]).
  rewrite keys_nested_cons; change (keys_nested []) with (@nil path); rewrite app_nil_r.
  destruct r as [|k' r].
  - cbn [nest]; destruct v as [| | | | |[|e o]]; try reflexivity.
  - change (nest (k' :: r) v) with (VDict [(k', nest r v)]).
    change (VDict [(k', nest r v)]) with (nest (k' :: r) v).
    cbv iota; rewrite IH by congruence.
    change (nest (k' :: r) v) with (VDict [(k', nest r v)]); cbv iota.
    destruct v as [| | | | |[|e o]]; try reflexivity.
    rewrite map_map; reflexivity.
Qed.

Lemma lk_nest p v r : lk (p ++ r) (nest p v) = lk r v.
Proof. induction p as [|k t IH]; [reflexivity|]; simpl; rewrite String.eqb_refl; exact IH. Qed.

Lemma wipe_loop_same p v n : p <> [] -> forall d x, wf (VDict d) -> wf v -> lk p (VDict d) = Some x ->
  forall other, get_key (p ++ [WIPE]) other = Ok v ->
  exists d', wipe_loop other (repeat p (S n)) d = (d', None) /\ wf (VDict d') /\
    (forall r, lk (p ++ r) (VDict d') = lk r v) /\
    (forall q y, leaf y -> ~ prefix p q -> (lk q (VDict d') = Some y <-> lk q (VDict d) = Some y)).
Proof.
  intros NN; induction n as [|n IH]; intros d x W Wv Hx other G;
    destruct (replace_step p v d x W NN Hx) as [d1 [d2 [E1 [E2 [H1 H2]]]]];
    assert (W2 : wf (VDict d2)) by
    ( destruct (del_key_ok p NN d W x Hx) as [d1' [E1' [W1 _]]];
      assert (d1' = d1) by congruence; subst d1';
      pose proof (set_key_wf p v d1 Wv W1) as Q; rewrite E2 in Q; exact Q ).
  - exists d2; cbn [repeat wipe_loop]; rewrite E1, G, E2; auto.
  - assert (Hv : lk p (VDict d2) = Some v).
    { rewrite <- (app_nil_r p) at 1; rewrite H1; reflexivity. }
    destruct (IH d2 v W2 Wv Hv other G) as [d' [E' [W' [H1' H2']]]].
    exists d'; split; [|split; [exact W'|split; [exact H1'|]]].
    + change (repeat p (S (S n))) with (p :: repeat p (S n)); cbn [wipe_loop]; rewrite E1, G, E2; exact E'.
    + intros q y Ly NP; rewrite (H2' q y Ly NP); apply H2; assumption.
Qed.

Lemma union_replace_nest ao p v A x : wf (VDict A) -> wf v -> p <> [] -> ~ In WIPE p ->
  lk p (VDict A) = Some x ->
  forall other, VDict other = nest (p ++ [WIPE]) v ->
  exists A', union_replace ao A other = (A', None) /\ wf (VDict A') /\
    (forall r, lk (p ++ r) (VDict A') = lk r v) /\
    (forall q y, leaf y -> ~ prefix p q -> (lk q (VDict A') = Some y <-> lk q (VDict A) = Some y)).
Proof.
  intros WA Wv NN NW Hx other EO; unfold union_replace, keys_nested; rewrite EO.
  assert (NN' : p ++ [WIPE] <> []) by (destruct p; simpl; congruence).
  rewrite keys_nested_nest by exact NN'.
  assert (HW : forall r, has_wipe (p ++ WIPE :: r) = true).
  { intros r; unfold has_wipe, smem; apply existsb_exists; exists WIPE; split; [|apply String.eqb_refl].
    apply in_or_app; right; left; reflexivity. }
  assert (WT : forall r, wipe_target (p ++ WIPE :: r) = p).
  { intros r; destruct p as [|s t]; [congruence|].
    change (wipe_target ((s :: t) ++ WIPE :: r)) with
      (if String.eqb s WIPE then (s :: t) ++ WIPE :: r else before_wipe ((s :: t) ++ WIPE :: r)).
    destruct (String.eqb_spec s WIPE) as [->|_]; [exfalso; apply NW; left; reflexivity|].
    apply before_wipe_app; exact NW. }
  assert (G : get_key (p ++ [WIPE]) other = Ok v).
  { apply get_key_lk; [exact NN'|]; rewrite EO.
    rewrite <- (app_nil_r (p ++ [WIPE])) at 1; rewrite lk_nest; reflexivity. }
  assert (KEYS : exists n, let ks := match v with
     | VDict (_ :: _) => map (fun q => (p ++ [WIPE]) ++ q) (keys_nested_val v)
     | _ => [p ++ [WIPE]] end in
     filter (fun k => negb (has_wipe k)) ks = [] /\ map wipe_target (filter has_wipe ks) = repeat p (S n)).
  { assert (GEN : forall l, filter (fun k => negb (has_wipe k)) (map (fun q => (p ++ [WIPE]) ++ q) l) = [] /\
        map wipe_target (filter has_wipe (map (fun q => (p ++ [WIPE]) ++ q) l)) = repeat p (List.length l)).
    { induction l as [|q l [IH1 IH2]]; [split; reflexivity|].
      cbn [map filter List.length repeat]; rewrite <- app_assoc; cbn [app].
      rewrite HW; cbn [negb map]; rewrite WT, IH2; split; [exact IH1|reflexivity]. }
    assert (ONE : filter (fun k => negb (has_wipe k)) [p ++ [WIPE]] = [] /\
        map wipe_target (filter has_wipe [p ++ [WIPE]]) = repeat p 1).
    { cbn [filter map]; rewrite HW; cbn [negb map]; rewrite WT; split; reflexivity. }
    destruct v as [| | | | |[|e o]]; try (exists 0; exact ONE).
    destruct (keys_nested_val (VDict (e :: o))) as [|k0 ks0] eqn:K.
    - exfalso; revert K; clear; intros K.
      assert (KN : forall v, match v with VDict (_ :: _) => keys_nested_val v <> [] | _ => True end).
      { clear; intros v; induction v as [| | | | |d IH] using val_ind'; try exact I.
        destruct d as [|[a w] t]; [exact I|].
        change (keys_nested_val (VDict ((a, w) :: t))) with (keys_nested ((a, w) :: t)).
        rewrite keys_nested_cons; inversion IH as [|? ? IHw _]; subst.
        simpl in *.
        destruct w as [| | | | |[|e o]]; try (simpl; congruence).
        destruct (keys_nested_val (VDict (e :: o))); [congruence|simpl; congruence]. }
      apply (KN (VDict (e :: o))); exact K.
    - exists (List.length ks0); cbv zeta; exact (GEN (k0 :: ks0)). }
  destruct KEYS as [n [K1 K2]]; cbv zeta in K1, K2; rewrite K1, K2; cbn [union_loop].
  apply wipe_loop_same with (x := x); assumption.
Qed.

Lemma union_replace_missing ao p v A : wf (VDict A) -> p <> [] -> ~ In WIPE p ->
  lk p (VDict A) = None -> leaf v ->
  forall other, VDict other = nest (p ++ [WIPE]) v ->
  exists e, union_replace ao A other = (A, Some e).
Proof.
  intros WA NN NW Hx Lv other EO; unfold union_replace, keys_nested; rewrite EO.
  assert (NN' : p ++ [WIPE] <> []) by (destruct p; simpl; congruence).
  rewrite keys_nested_nest by exact NN'.
  assert (HW : has_wipe (p ++ [WIPE]) = true).
  { unfold has_wipe, smem; apply existsb_exists; exists WIPE; split; [|apply String.eqb_refl].
    apply in_or_app; right; left; reflexivity. }
  assert (WT : wipe_target (p ++ [WIPE]) = p).
  { destruct p as [|s t]; [congruence|].
    change (wipe_target ((s :: t) ++ [WIPE])) with
      (if String.eqb s WIPE then (s :: t) ++ [WIPE] else before_wipe ((s :: t) ++ [WIPE])).
    destruct (String.eqb_spec s WIPE) as [->|_]; [exfalso; apply NW; left; reflexivity|].
    apply before_wipe_app; exact NW. }
  assert (K : (match v with
     | VDict (_ :: _) => map (fun q => (p ++ [WIPE]) ++ q) (keys_nested_val v)
     | _ => [p ++ [WIPE]] end) = [p ++ [WIPE]]) by (destruct v; try reflexivity; discriminate Lv).
  rewrite K; cbn [filter]; rewrite HW; cbn [negb map union_loop]; rewrite WT; cbn [wipe_loop].
  destruct (del_key_missing p NN A WA Hx) as [e E]; rewrite E; exists e; reflexivity.
Qed.

(** ** Statements with dotted keys *)
Lemma api_set_guarded key v d : wf (VDict d) -> leaf v -> ~ blocked (VDict d) (split_dot key) ->
  exists d', api_set key v d = (d', None) /\ wf (VDict d') /\ api_get key d' = Ok v /\
    forall q x, leaf x -> (at_path (VDict d') q x <->
       (q = split_dot key /\ x = v) \/ (~ comparable (split_dot key) q /\ at_path (VDict d) q x)).
Proof.
  intros W L NB; destruct (set_key_spec (split_dot key) v d W (split_on_nonnil _ _) L NB) as [d' [E [W' H]]].
  exists d'; split; [exact E|split; [exact W'|split; [|exact H]]].
  apply get_key_lk; [apply split_on_nonnil|]; exact (set_key_read _ _ L _ _ E).
Qed.

Lemma api_set_read key v d d' : leaf v -> api_set key v d = (d', None) -> api_get key d' = Ok v.
Proof. intros L E; apply get_key_lk; [apply split_on_nonnil|exact (set_key_read _ _ L _ _ E)]. Qed.

Lemma api_set_short key v d d' : wf (VDict d) -> leaf v -> (List.length (split_dot key) <= 2)%nat ->
  api_set key v d = (d', None) ->
  forall q x, leaf x -> (at_path (VDict d') q x <->
       (q = split_dot key /\ x = v) \/ (~ comparable (split_dot key) q /\ at_path (VDict d) q x)).
Proof.
  intros W L LE E.
  assert (NB : ~ blocked (VDict d) (split_dot key)).
  { unfold api_set in E; destruct (split_dot key) as [|a [|b [|c r]]]; simpl in LE; try lia.
    - intros [q [Nq [[s [Ns Es]] _]]]; destruct q; [congruence|discriminate].
    - intros [q [Nq [[s [Ns Es]] _]]]; destruct q as [|u [|u' q]]; simpl in Es; try congruence.
    - intros [q [Nq [[s [Ns Es]] [x [Hx [Lx NV]]]]]].
      destruct q as [|u [|u' q]]; [congruence| |destruct q, s; simpl in Es; congruence].
      simpl in Es; injection Es as <- <-.
      apply at_lk in Hx; [|exact W]; simpl in Hx; destruct (d_get a d) as [y|] eqn:G; [|discriminate].
      injection Hx as ->.
      rewrite (set_key_blocked_head a [b] v d x W ltac:(congruence) G Lx NV) in E; discriminate. }
  destruct (api_set_guarded key v d W L NB) as [d2 [E2 [_ [_ H]]]].
  rewrite E in E2; injection E2 as <-; exact H.
Qed.

Lemma api_del_ok key d x : wf (VDict d) -> at_path (VDict d) (split_dot key) x ->
  exists d', api_del key d = (d', None) /\ wf (VDict d') /\ (tidy d -> tidy d') /\
    (exists e, api_get key d' = Err e) /\
    forall q v, leaf v -> (at_path (VDict d') q v <-> at_path (VDict d) q v /\ ~ prefix (split_dot key) q).
Proof.
  intros W Hx; destruct (del_key_spec (split_dot key) d x W (split_on_nonnil _ _) Hx) as [d' [E [W' [T L]]]].
  exists d'; split; [exact E|split; [exact W'|split; [exact T|split; [|exact L]]]].
  apply at_lk in Hx; [|exact W].
  destruct (del_key_unbl (split_dot key) d x d' W (split_on_nonnil _ _) Hx E W') as [_ N].
  destruct (api_get key d') as [y|e] eqn:G; [|exists e; reflexivity].
  apply get_key_lk in G; [congruence|apply split_on_nonnil].
Qed.

Lemma union_replace_block ao p v A x : wf (VDict A) -> wf v -> p <> [] -> ~ In WIPE p ->
  at_path (VDict A) p x -> forall other, VDict other = nest (p ++ [WIPE]) v ->
  exists A', union_replace ao A other = (A', None) /\ wf (VDict A') /\
    forall q y, leaf y -> (at_path (VDict A') q y <->
       (exists r, q = p ++ r /\ at_path v r y) \/ (~ prefix p q /\ at_path (VDict A) q y)).
Proof.
  intros WA Wv NN NW Hx other EO; apply at_lk in Hx; [|exact WA].
  destruct (union_replace_nest ao p v A x WA Wv NN NW Hx other EO) as [A' [E [W' [H1 H2]]]].
  exists A'; split; [exact E|split; [exact W'|]]; intros q y Ly; rewrite !at_lk by assumption.
  destruct (prefix_dec p q) as [[r ->]|NP].
  - rewrite H1; split.
    + intros H; left; exists r; split; [reflexivity|apply at_lk; assumption].
    + intros [[r' [E' H]]|[H _]]; [|exfalso; apply H; exists r; reflexivity].
      apply app_inv_head in E'; subst; apply at_lk in H; assumption.
  - rewrite (H2 q y Ly NP); split; [intros H; right; auto|].
    intros [[r [-> _]]|[_ H]]; [exfalso; apply NP; exists r; reflexivity|exact H].
Qed.
Lemma union_replace_absent ao p v A : wf (VDict A) -> p <> [] -> ~ In WIPE p ->
  (~ exists x, at_path (VDict A) p x) -> leaf v ->
  forall other, VDict other = nest (p ++ [WIPE]) v ->
  exists e, union_replace ao A other = (A, Some e).
Proof.
  intros W NN NW H; apply union_replace_missing; try assumption.
  destruct (lk p (VDict A)) as [x|] eqn:E; [|reflexivity].
  exfalso; apply H; exists x; apply at_lk; assumption.
Qed.
