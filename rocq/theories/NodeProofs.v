From Verif Require Import Base BaseProofs AttrDictModel AttrDictSpec AttrDictProofs AttrDictUnion AttrDictMore AttrDictLayers NodeModel NodeSpec.
Local Open Scope string_scope.
Local Open Scope list_scope.
Local Arguments String.eqb : simpl never.

Lemma truthy_falsy v : truthy v = false <-> falsy v.
Proof.
  unfold falsy; split.
  - destruct v as [|[|]|z|s|[|x l]|[|x l]]; simpl; try discriminate; auto 10.
    + destruct (Z.eqb_spec z 0); [subst; auto|discriminate].
    + destruct (String.eqb_spec s ""); [subst; auto 6|discriminate].
  - intros [->|[->|[->|[->|[->| ->]]]]]; reflexivity.
Qed.

Lemma falsy_dec v : falsy v \/ ~ falsy v.
Proof. destruct (truthy v) eqn:T; [right; rewrite <- truthy_falsy; congruence|left; apply truthy_falsy; exact T]. Qed.

(** ** Inheritance *)
Lemma sets_leaf_dec d q : wf (VDict d) -> sets d q \/ ~ sets d q.
Proof.
  intros W; destruct (lk q (VDict d)) as [v|] eqn:E.
  - destruct (is_dict v) eqn:D.
    + right; intros [x [L A]]; apply (at_lk _ _ _ W) in A; unfold leaf in L; congruence.
    + left; exists v; split; [exact D|apply at_lk; assumption].
  - right; intros [x [L A]]; apply (at_lk _ _ _ W) in A; congruence.
Qed.

Lemma inherited_two A B A' q v : wf (VDict B) -> leaf v ->
  (forall q v, leaf v -> (at_path (VDict A') q v <-> at_path (VDict B) q v \/ (at_path (VDict A) q v /\ ~ exists x, leaf x /\ at_path (VDict B) q x))) ->
  (sets A' q <-> sets A q \/ sets B q).
Proof.
  intros W L H; split.
  - intros [x [Lx Ax]]; apply H in Ax; [|exact Lx]; destruct Ax as [Ax|[Ax _]]; [right|left]; exists x; auto.
  - intros S; destruct (sets_leaf_dec B q W) as [SB|NB].
    + destruct SB as [x [Lx Ax]]; exists x; split; [exact Lx|apply H; auto].
    + destruct S as [[x [Lx Ax]]|S]; [|contradiction]; exists x; split; [exact Lx|apply H; [exact Lx|right; split; [exact Ax|exact NB]]].
Qed.

(** Top-level keys. *)
Lemma set_key_heads k r v d d' : set_key (k :: r) v d = (d', None) -> simple v ->
  forall a, In a (d_keys d') -> a = k \/ In a (d_keys d).
Proof.
  intros E S a I.
  assert (KS : forall (x : val) (d0 : dict), In a (d_keys (d_set k x d0)) -> a = k \/ In a (d_keys d0)).
  { intros x d0 J; apply d_mem_keys in J; unfold d_mem in J; rewrite d_get_set in J; destruct (String.eqb_spec a k) as [->|N]; [auto|].
    right; apply d_mem_keys; exact J. }
  destruct r as [|k' r].
  - simpl in E; rewrite set_leaf_simple in E by exact S; injection E as <-; eapply KS; exact I.
  - rewrite set_key_cons in E; cbv zeta in E; destruct (d_get k d) as [w|].
    + destruct w; try discriminate.
      * destruct (set_key (k' :: r) v []) as [o e]; injection E as <- _; eapply KS; exact I.
      * destruct (set_key (k' :: r) v d0) as [o' [e|]].
        -- destruct e; try discriminate; destruct (set_key (k' :: r) v []) as [o e]; injection E as <- _.
           destruct (KS _ _ I) as [->|J]; [auto|apply (KS _ _ J)].
        -- injection E as <-; eapply KS; exact I.
    + destruct (set_key (k' :: r) v []) as [o e]; injection E as <- _; eapply KS; exact I.
Qed.

Lemma union_heads ao A B A' : wf (VDict B) -> union ao A B = (A', None) ->
  forall a, In a (d_keys A') -> In a (d_keys A) \/ In a (d_keys B).
Proof.
  intros WB; unfold union; generalize (keys_nested A); intros sk.
  assert (K : forall k, In k (keys_nested B) -> In k (keys_nested B)) by auto; revert K.
  generalize (keys_nested B) at 1 3; intros ks; revert A.
  induction ks as [|k ks IH]; intros A K E a I; [injection E as <-; left; exact I|].
  simpl in E; destruct (union_one ao sk B k A) as [A1 [e|]] eqn:U; [discriminate|].
  destruct (IH A1 (fun k' H => K k' (or_intror H)) E a I) as [J|J]; [|right; exact J].
  pose proof (K k (or_introl eq_refl)) as KB; destruct (keys_head_in B k KB) as [b [q [-> HB]]].
  pose proof KB as KB'; apply (keys_nested_val_spec (VDict B) WB) in KB'; destruct KB' as [NN [w [Hw Sw]]].
  unfold union_one in U; destruct (negb ao && path_mem (b :: q) sk); [discriminate|].
  rewrite (proj2 (get_key_lk (b :: q) B w NN) Hw) in U.
  assert (G : set_key (b :: q) w A = (A1, None) -> In a (d_keys A) \/ In a (d_keys B)).
  { intros E'; destruct (set_key_heads b q w A A1 E') with (a := a) as [->|H]; auto. }
  destruct w; try (apply G; exact U).
  destruct (is_dict _); [injection U as <-; left; exact J|apply G; exact U].
Qed.

(** What [compatible] says for the three sources of a technology. *)
Lemma inherit_tech_ok techs tables name item node tech table :
  NoDup (d_keys techs) -> NoDup (d_keys tables) ->
  item = VNone /\ node = [] \/ item = VDict node ->
  In (name, VDict tech) techs -> def_of tables name table -> ~ In (name, VNone) tables ->
  wf (VDict node) -> wf (VDict tech) -> wf (VDict table) -> compatible [table; tech; node] ->
  exists d, inherit_tech techs tables name item = Ok d /\ wf (VDict d) /\
    (forall q v, leaf v -> (at_path (VDict d) q v <-> inherited node tech table q v)) /\
    (forall a, In a (d_keys d) -> In a (d_keys node) \/ In a (d_keys tech) \/ In a (d_keys table)).
Proof.
  intros NT NB HI HT HTab NN WN WT WB C.
  assert (I : as_dict item = Ok node) by (destruct HI as [[-> ->]| ->]; reflexivity).
  unfold inherit_tech; rewrite I; cbn [bind].
  rewrite (d_in_get _ _ _ NT HT).
  assert (C1 : compatible (tech :: node :: [table])).
  { eapply compatible_incl; [|exact C]; intros x [<-|[<-|[<-|[]]]]; simpl; auto. }
  destruct (union_compatible tech node [table] WT WN C1) as [M [E1 [W1 [C2 L1]]]].
  rewrite E1; cbn [bind to_result].
  assert (L : forall q v, leaf v -> (at_path (VDict M) q v <-> at_path (VDict node) q v \/ (~ sets node q /\ at_path (VDict tech) q v))).
  { intros q v Lv; rewrite (L1 q v Lv); unfold sets; tauto. }
  pose proof (union_heads true tech node M WN E1) as H1.
  inversion HTab as [AB|AN|x AX]; subst.
  - assert (G : d_get name tables = None).
    { apply d_get_none; intros J; apply in_map_iff in J; destruct J as [[n v] [En J]]; simpl in En; subst n; exact (AB v J). }
    rewrite G; exists M; split; [reflexivity|split; [exact W1|split]].
    + intros q v Lv; rewrite (L q v Lv); unfold inherited; split; [tauto|].
      intros [X|[X|[_ [_ X]]]]; [tauto|tauto|].
      apply (at_lk _ _ _ wf_nil) in X; destruct q; [injection X as <-; discriminate Lv|discriminate X].
    + intros a J; destruct (H1 a J); auto.
  - contradiction.
  - rewrite (d_in_get _ _ _ NB AX).
    assert (C3 : compatible (table :: M :: [])).
    { eapply compatible_incl; [|exact C2]; intros x [<-|[<-|[]]]; simpl; auto. }
    destruct (union_compatible table M [] WB W1 C3) as [D [E2 [W2 [_ L2]]]].
    rewrite E2; exists D; split; [reflexivity|split; [exact W2|split]].
    + intros q v Lv; rewrite (L2 q v Lv), (L q v Lv).
      assert (SM : sets M q <-> sets tech q \/ sets node q) by (apply (inherited_two tech node M q v WN Lv L1)).
      unfold sets in SM at 1; rewrite SM; unfold inherited; tauto.
    + intros a J; destruct (union_heads true table M D W1 E2 a J) as [K|K]; [auto|destruct (H1 a K); auto].
Qed.

Lemma inherit_techs_undefined techs tables items name v :
  In (name, v) items -> (forall w, ~ In (name, w) techs) -> exists e, inherit_techs techs tables items = Err e.
Proof.
  intros I N; induction items as [|[n w] rest IH]; [destruct I|]; simpl.
  destruct I as [E|I].
  - injection E as -> ->; unfold inherit_tech; destruct (as_dict v) as [d|e]; [|eexists; reflexivity]; cbn [bind].
    assert (G : d_get name techs = None).
    { apply d_get_none; intros J; apply in_map_iff in J; destruct J as [[m x] [Em J]]; simpl in Em; subst m; exact (N x J). }
    rewrite G; eexists; reflexivity.
  - destruct (IH I) as [e ->]; destruct (inherit_tech techs tables n w); cbn [bind]; eexists; reflexivity.
Qed.

(** The loop keeps exactly the active items, in order. *)
Lemma inherit_techs_split techs tables items out off : inherit_techs techs tables items = Ok (out, off) ->
  (forall n d, In (n, d) out <-> exists i, In (n, i) items /\ inherit_tech techs tables n i = Ok d /\ active d = true) /\
  (forall n, In n off <-> exists i d, In (n, i) items /\ inherit_tech techs tables n i = Ok d /\ active d = false) /\
  (forall n i, In (n, i) items -> exists d, inherit_tech techs tables n i = Ok d).
Proof.
  revert out off; induction items as [|[n0 i0] rest IH]; intros out off E.
  - injection E as <- <-; split; [|split]; simpl; [split; [tauto|intros [i [[] _]]]|split; [tauto|intros [i [d [[] _]]]]|intros ? ? []].
  - simpl in E; destruct (inherit_tech techs tables n0 i0) as [d0|] eqn:E0; [|discriminate]; cbn [bind] in E.
    destruct (inherit_techs techs tables rest) as [[o f]|]; [|discriminate]; cbn [bind fst snd] in E.
    destruct (IH o f eq_refl) as [H1 [H2 H3]].
    destruct (active d0) eqn:A; injection E as <- <-; (split; [|split]).
    + intros n d; simpl; rewrite H1; split.
      * intros [X|[i [I [X Y]]]]; [injection X as -> ->; exists i0; auto|exists i; auto].
      * intros [i [[X|I] [Y Z]]]; [injection X as -> ->; left; congruence|right; exists i; auto].
    + intros n; rewrite H2; split.
      * intros [i [d [I X]]]; exists i, d; simpl; auto.
      * intros [i [d [[X|I] [Y Z]]]]; [injection X as -> ->; congruence|exists i, d; auto].
    + intros n i [X|I]; [injection X as -> ->; eauto|eauto].
    + intros n d; simpl; rewrite H1; split.
      * intros [i [I [X Y]]]; exists i; auto.
      * intros [i [[X|I] [Y Z]]]; [injection X as -> ->; congruence|exists i; auto].
    + intros n; simpl; rewrite H2; split.
      * intros [<-|[i [d [I X]]]]; [exists i0, d0; auto|exists i, d; auto].
      * intros [i [d [[X|I] [Y Z]]]]; [injection X as -> ->; auto|right; exists i, d; auto].
    + intros n i [X|I]; [injection X as -> ->; eauto|eauto].
Qed.

Lemma active_spec d : wf (VDict d) ->
  (active d = false <-> exists v, In ("active", v) d /\ falsy v).
Proof.
  intros W; destruct (wf_inv _ W) as [ND _]; unfold active; split.
  - destruct (d_get "active" d) as [v|] eqn:G; [|discriminate]; intros T; exists v; split; [apply d_get_in; exact G|apply truthy_falsy; exact T].
  - intros [v [I F]]; rewrite (d_in_get _ _ _ ND I); apply truthy_falsy; exact F.
Qed.
