(** Layering dictionaries that may contain empty sub-dictionaries. *)
From Verif Require Import Base BaseProofs AttrDictModel AttrDictSpec AttrDictProofs AttrDictUnion AttrDictMore.
Local Open Scope string_scope.
Local Open Scope list_scope.
Local Arguments String.eqb : simpl never.

(** Where the empty dictionaries of the result of [set_key] come from. *)
Lemma set_key_empties p v : simple v -> forall d d', set_key p v d = (d', None) ->
  d' <> [] /\ forall q, q <> [] -> lk q (VDict d') = Some (VDict []) ->
    lk q (VDict d) = Some (VDict []) \/ (q = p /\ v = VDict []).
Proof.
  intros S; induction p as [|k r IH]; intros d d' E; [discriminate E|].
  destruct r as [|k' r].
  - simpl in E; rewrite set_leaf_simple in E by exact S; injection E as <-; split; [apply d_set_nonnil|].
    intros [|a q] N H; [congruence|]; cbn [lk] in *.
    rewrite d_get_set in H; destruct (String.eqb a k) eqn:Ea; [|left; exact H].
    apply String.eqb_eq in Ea; subst a.
    destruct S as [L| ->].
    + exfalso; assert (U : upd v (d_get k d) = v) by (destruct v; try reflexivity; discriminate L).
      rewrite U in H; destruct q; simpl in H; [injection H as ->; discriminate L|].
      destruct v; discriminate.
    + unfold upd in H; destruct (d_get k d) as [x|]; [left; exact H|].
      right; destruct q as [|b q]; [auto|discriminate H].
  - rewrite set_key_cons in E; cbv zeta in E.
    assert (FR : forall d0, (let '(o, e) := set_key (k' :: r) v [] in (d_set k (VDict o) d0, e)) = (d', None) ->
      d' <> [] /\ forall q, q <> [] -> lk q (VDict d') = Some (VDict []) ->
        (hd_error q <> Some k /\ lk q (VDict d0) = Some (VDict [])) \/ (q = k :: k' :: r /\ v = VDict [])).
    { intros d0 E0; destruct (set_key (k' :: r) v []) as [o e] eqn:EO; injection E0 as <- ->.
      split; [apply d_set_nonnil|]; intros [|a q] N H; [congruence|]; cbn [lk] in *.
      rewrite d_get_set in H; destruct (String.eqb a k) eqn:Ea; [|left; split; [|exact H]].
      - apply String.eqb_eq in Ea; subst a; right.
        destruct (IH _ _ EO) as [NO HO]; destruct q as [|b q]; [simpl in H; injection H as ->; congruence|].
        destruct (HO (b :: q) ltac:(congruence) H) as [X|[-> X]]; [discriminate X|auto].
      - simpl; intros X; injection X as ->; rewrite String.eqb_refl in Ea; discriminate. }
    assert (FR' : forall d0, (forall a, a <> k -> d_get a d0 = d_get a d) ->
      (let '(o, e) := set_key (k' :: r) v [] in (d_set k (VDict o) d0, e)) = (d', None) ->
      d' <> [] /\ forall q, q <> [] -> lk q (VDict d') = Some (VDict []) ->
        lk q (VDict d) = Some (VDict []) \/ (q = k :: k' :: r /\ v = VDict [])).
    { intros d0 Hd E0; destruct (FR d0 E0) as [N0 H0]; split; [exact N0|].
      intros [|a q] N H; [congruence|]; destruct (H0 _ N H) as [[NE X]|X]; [left|right; exact X].
      cbn [lk] in *; rewrite <- Hd; [exact X|simpl in NE; congruence]. }
    destruct (d_get k d) as [w|] eqn:G; [|apply (FR' d); auto].
    destruct w as [| | | | |o]; try discriminate E; [apply (FR' d); auto|].
    destruct (set_key (k' :: r) v o) as [o' [e|]] eqn:E'.
    + assert (e = EKey) by (eapply set_key_simple_err; eauto); subst e.
      apply (FR' (d_set k (VDict o') d)); [intros a Na; apply d_get_set_other; exact Na|exact E].
    + injection E as <-; split; [apply d_set_nonnil|].
      destruct (IH _ _ E') as [NO HO].
      intros [|a q] N H; [congruence|]; cbn [lk] in *.
      rewrite d_get_set in H; destruct (String.eqb a k) eqn:Ea; [|left; exact H].
      apply String.eqb_eq in Ea; subst a; rewrite G.
      destruct q as [|b q]; [simpl in H; injection H as ->; congruence|].
      destruct (HO (b :: q) ltac:(congruence) H) as [X|[-> X]]; [left; exact X|right; auto].
Qed.

Lemma union_loop_empties sk B ks : 
  (forall k, In k ks -> k <> [] /\ exists w, lk k (VDict B) = Some w /\ simple w) ->
  forall S S', union_loop true sk B ks S = (S', None) ->
  forall q, q <> [] -> lk q (VDict S') = Some (VDict []) ->
    lk q (VDict S) = Some (VDict []) \/ lk q (VDict B) = Some (VDict []).
Proof.
  induction ks as [|k t IH]; intros HB S S' H q Nq Hq; simpl in H; [injection H as <-; left; exact Hq|].
  destruct (HB k (or_introl eq_refl)) as [NN [w [Hw Sw]]].
  destruct (union_one true sk B k S) as [S1 [e|]] eqn:E; [discriminate H|].
  destruct (IH (fun k' Hk' => HB k' (or_intror Hk')) S1 S' H q Nq Hq) as [X|X]; [|right; exact X].
  unfold union_one in E; simpl in E; rewrite (proj2 (get_key_lk k B w NN) Hw) in E.
  assert (K : set_key k w S = (S1, None) ->
     lk q (VDict S) = Some (VDict []) \/ lk q (VDict B) = Some (VDict [])).
  { intros E'; destruct (set_key_empties k w Sw S S1 E') as [_ HS].
    destruct (HS q Nq X) as [Y|[-> ->]]; [left; exact Y|right; exact Hw]. }
  destruct w; try (apply K; exact E).
  destruct (is_dict _); [injection E as <-; left; exact X|apply K; exact E].
Qed.

Lemma same_shape_compatible layers : Forall tidy layers -> same_shape layers -> compatible layers.
Proof.
  intros T SS X Y k w k' w' HX HY [N [H D]] Lw' H' C; split.
  - intros L; apply (SS X Y HX HY k w k' w' H L H' Lw' C).
  - intros ->; exfalso; rewrite Forall_forall in T.
    apply (tidy_at _ _ _ (T X HX) N) in H; apply ne_inv in H; tauto.
Qed.

Lemma union_compatible A B rest : wf (VDict A) -> wf (VDict B) -> compatible (A :: B :: rest) ->
  exists A', union true A B = (A', None) /\ wf (VDict A') /\ compatible (A' :: rest) /\
   forall q v, leaf v -> (at_path (VDict A') q v <->
      at_path (VDict B) q v \/ (at_path (VDict A) q v /\ ~ exists x, leaf x /\ at_path (VDict B) q x)).
Proof.
  intros WA WB CO.
  assert (InA : In A (A :: B :: rest)) by (left; reflexivity).
  assert (InB : In B (A :: B :: rest)) by (right; left; reflexivity).
  destruct (union_override_leaves A B WA WB) as [A' [H1 [H2 H3]]].
  { intros k w Hk [q [Nq [Sp [x [Hx [Lx NVx]]]]]].
    destruct (CO B A k w q x InB InA Hk Lx Hx) as [C1 C2]; [right; apply sprefix_prefix; exact Sp|].
    destruct Hk as [_ [_ [L| ->]]].
    - rewrite (C1 L) in Sp; apply (sprefix_neq _ _ Sp); reflexivity.
    - apply (sprefix_not_prefix _ _ Sp); apply sprefix_prefix; exact (C2 eq_refl). }
  assert (L : forall q v, leaf v -> (at_path (VDict A') q v <->
      at_path (VDict B) q v \/ (at_path (VDict A) q v /\ ~ exists x, leaf x /\ at_path (VDict B) q x))).
  { intros q v Lv; rewrite (H3 q v Lv); unfold merged_leaf; split.
    - intros [[H _]|[H HH]]; [auto|right]; split; [exact H|].
      intros [x [Lx Hx]].
      assert (Nq : q <> []) by (intros ->; exact (at_path_dict_root B x Lx Hx)).
      destruct (HH q x (leaf_def_key _ _ _ Nq Lx Hx)) as [[-> _]|[_ Sp]].
      + left; apply prefix_refl.
      + discriminate Lx.
      + apply (sprefix_neq _ _ Sp); reflexivity.
    - intros [H|[H HH]].
      + left; split; [exact H|]; right; intros [o Ho].
        assert (Nq : q <> []) by (intros ->; exact (at_path_dict_root B v Lv H)).
        (* a block of A at a leaf of B holds a defined key *)
        assert (HD : exists k w, def_key (VDict A) k w /\ prefix q k).
        { clear -WA Ho Nq; destruct o as [|kv o].
          - exists q, (VDict []); split; [split; [exact Nq|split; [exact Ho|right; reflexivity]]|apply prefix_refl].
          - assert (Wo : wf (VDict (kv :: o))).
            { rewrite at_lk in Ho by exact WA; clear Nq; revert Ho WA; generalize (VDict A).
              induction q as [|a q IH]; intros u Ho Wu; simpl in Ho; [injection Ho as ->; exact Wu|].
              destruct u; try discriminate; destruct (d_get a d) eqn:G; [|discriminate].
              eapply IH; [exact Ho|eapply wf_get; eauto]. }
            assert (DK : forall u, wf u -> u <> VDict [] -> is_dict u = true ->
                      exists k w, k <> [] /\ at_path u k w /\ (leaf w \/ w = VDict [])).
            { clear; induction u as [| | | | |d IH] using val_ind'; intros W N D; try discriminate D.
              destruct d as [|[k w] t]; [congruence|].
              inversion IH as [|? ? IHw _]; subst; simpl in IHw.
              apply wf_inv in W; destruct W as [_ W]; inversion W as [|? ? Ww _]; subst; simpl in Ww.
              destruct (is_dict w) eqn:Dw.
              - destruct w as [| | | | |[|e o]]; try discriminate Dw.
                + exists [k], (VDict []); split; [congruence|split; [|auto]].
                  econstructor; [left; reflexivity|constructor].
                + destruct (IHw Ww ltac:(congruence) eq_refl) as [k' [w' [N1 [N2 N3]]]].
                  exists (k :: k'), w'; split; [congruence|split; [|exact N3]].
                  econstructor; [left; reflexivity|exact N2].
              - exists [k], w; split; [congruence|split; [|left; exact Dw]].
                econstructor; [left; reflexivity|constructor]. }
            destruct (DK _ Wo ltac:(congruence) eq_refl) as [k [w [N1 [N2 N3]]]].
            exists (q ++ k), w; split; [|exists k; reflexivity].
            split; [destruct q; simpl; congruence|split; [|exact N3]].
            rewrite at_lk in * by assumption; rewrite lk_app, Ho; exact N2. }
        destruct HD as [k [w [Hk Pk]]].
        destruct (CO A B k w q v InA InB Hk Lv H) as [C1 C2]; [right; exact Pk|].
        pose proof Hk as [Nk [Ak [Lw| ->]]].
        * assert (k = q) by auto; subst k.
          rewrite at_lk in Ho, Ak by exact WA; rewrite Ho in Ak; injection Ak as <-; discriminate Lw.
        * exact (sprefix_not_prefix _ _ (C2 eq_refl) Pk).
      + right; split; [exact H|]; intros k w Hk C.
        destruct (CO B A k w q v InB InA Hk Lv H C) as [C1 C2].
        destruct Hk as [Nk [Ak [Lw| ->]]].
        * exfalso; assert (k = q) by auto; subst k; apply HH; eauto.
        * left; split; [reflexivity|apply sprefix_prefix; auto]. }
  exists A'; split; [exact H1|split; [exact H2|split; [|exact L]]].
  assert (LF : forall X k w, In X (A' :: rest) -> leaf w -> at_path (VDict X) k w ->
                exists Z, In Z (A :: B :: rest) /\ at_path (VDict Z) k w).
  { intros X k w [<-|HX] Lw Hk; [|exists X; split; [right; right; exact HX|exact Hk]].
    apply L in Hk; [|exact Lw]; destruct Hk as [Hk|[Hk _]]; [exists B|exists A]; auto. }
  assert (DF : forall X k w, In X (A' :: rest) -> def_key (VDict X) k w ->
                exists Z, In Z (A :: B :: rest) /\ def_key (VDict Z) k w).
  { intros X k w HX Hk; destruct Hk as [Nk [Ak [Lw| ->]]].
    - destruct (LF X k w HX Lw Ak) as [Z [HZ AZ]]; exists Z; split; [exact HZ|].
      split; [exact Nk|split; [exact AZ|left; exact Lw]].
    - destruct HX as [<-|HX].
      + rewrite at_lk in Ak by exact H2.
        destruct (union_loop_empties (keys_nested A) B (keys_nested B)) with (S := A) (S' := A') (q := k) as [X|X];
          [intros k' Hk'; apply (keys_nested_val_spec (VDict B) WB) in Hk'; exact Hk'|exact H1|exact Nk|exact Ak| |].
        * exists A; split; [exact InA|]; split; [exact Nk|split; [apply at_lk; [exact WA|exact X]|right; reflexivity]].
        * exists B; split; [exact InB|]; split; [exact Nk|split; [apply at_lk; [exact WB|exact X]|right; reflexivity]].
      + exists X; split; [right; right; exact HX|]; split; [exact Nk|split; [exact Ak|right; reflexivity]]. }
  intros X Y k w k' w' HX HY Hk Lw' Hk' C.
  destruct (DF X k w HX Hk) as [X' [IX Hk2]], (LF Y k' w' HY Lw' Hk') as [Y' [IY Hk2']].
  exact (CO X' Y' k w k' w' IX IY Hk2 Lw' Hk2' C).
Qed.

Lemma compatible_incl l l' : incl l l' -> compatible l' -> compatible l.
Proof. intros I C X Y k w k' w' HX HY; apply (C X Y); apply I; assumption. Qed.

Lemma union_all_compatible layers : forall A, wf (VDict A) ->
  Forall (fun L => wf (VDict L)) layers -> compatible (A :: layers) ->
  exists A', union_all layers A = (A', None) /\ wf (VDict A') /\
    forall q v, leaf v -> (at_path (VDict A') q v <-> last_wins layers A q v).
Proof.
  induction layers as [|B t IH]; intros A WA F SS.
  - exists A; split; [reflexivity|split; [exact WA|]]; intros q v Lv; unfold last_wins; split.
    + intros H; right; split; [exact H|intros M x []].
    + intros [[b [L [a [E _]]]]|[H _]]; [destruct b; discriminate|exact H].
  - inversion F as [|? ? WB F']; subst.
    destruct (union_compatible A B t WA WB SS) as [A1 [E1 [W1 [T1 L1]]]].
    destruct (IH A1 W1 F' T1) as [A' [E' [W' L']]].
    exists A'; split; [simpl; rewrite E1; exact E'|split; [exact W'|]].
    intros q v Lv; rewrite (L' q v Lv); unfold last_wins; split.
    + intros [[b [L [a [E [H1 H2]]]]]|[H1 H2]].
      * left; exists (B :: b), L, a; split; [rewrite E; reflexivity|auto].
      * apply L1 in H1; [|exact Lv]; destruct H1 as [H1|[H1 H3]].
        -- left; exists [], B, t; auto.
        -- right; split; [exact H1|]; intros M x [<-|HM] Lx Hx; [apply H3; eauto|eapply H2; eauto].
    + intros [[b [L [a [E [H1 H2]]]]]|[H1 H2]].
      * destruct b as [|B' b]; simpl in E; injection E as <- E.
        -- right; subst a; split; [|exact H2]; apply L1; [exact Lv|left; exact H1].
        -- left; exists b, L, a; auto.
      * right; split; [|intros M x HM; apply H2; right; exact HM].
        apply L1; [exact Lv|]; right; split; [exact H1|].
        intros [x [Lx Hx]]; eapply H2; [left; reflexivity|exact Lx|exact Hx].
Qed.
