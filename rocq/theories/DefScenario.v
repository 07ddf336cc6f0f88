(** Lemmas on scenario resolution. *)
From Verif Require Import Base BaseProofs AttrDictModel AttrDictSpec DefModel DefSpec.
From Coq Require Import Relations.
Local Open Scope string_scope.
Local Open Scope list_scope.

Section S.
Variable ovs : list string.
Variable scs : list (string * val).
Hypothesis ND : NoDup (d_keys scs).

Lemma items_lists sc v : In v (scenario_items scs sc) <-> lists scs sc v.
Proof.
  unfold scenario_items; destruct (d_get sc scs) as [w|] eqn:G.
  - pose proof (d_get_in _ _ _ G) as Hin.
    assert (U : forall w', In (sc, w') scs -> w' = w).
    { intros w' H'; apply d_in_get in H'; [congruence|exact ND]. }
    split.
    + destruct w; simpl.
      * tauto.
      * intros [<-|[]]; apply li_single with (v := VBool b); try exact Hin; try reflexivity; congruence.
      * intros [<-|[]]; apply li_single with (v := VInt z); try exact Hin; try reflexivity; congruence.
      * intros [<-|[]]; apply li_single with (v := VStr s); try exact Hin; try reflexivity; congruence.
      * intros H; eapply li_list; eauto.
      * rewrite in_map_iff; intros [[k x] [<- H]]; eapply li_keys; eauto.
    + intros H; inversion H as [l v' H1 H2|d k x H1 H2|v' H1 H2 H3 H4|x H1 H2]; subst.
      * rewrite <- (U _ H1); exact H2.
      * rewrite <- (U _ H1); simpl; apply in_map_iff; exists (k, x); auto.
      * rewrite <- (U _ H1); destruct v; simpl in *; try tauto; try congruence; exfalso; eapply H4; reflexivity.
      * exfalso; apply H1; apply d_get_in in G; apply (in_map fst) in G; exact G.
  - apply d_get_none in G; split.
    + rewrite in_map_iff; intros [x [<- H]]; apply li_names; assumption.
    + intros H; inversion H as [l v' H1 H2|d k x H1 H2|v' H1 H2 H3 H4|x H1 H2]; subst;
        try (exfalso; apply G; apply (in_map fst) in H1; exact H1).
      apply in_map_iff; exists x; auto.
Qed.

Lemma set_add_in s l x : In x (set_add s l) <-> x = s \/ In x l.
Proof.
  unfold set_add; destruct (smem s l) eqn:E.
  - apply smem_in in E; split; [auto|intros [->|H]; auto].
  - rewrite in_app_iff; simpl; split; [intros [H|[H|[]]]; auto|intros [->|H]; auto].
Qed.
Lemma set_add_nodup s l : NoDup l -> NoDup (set_add s l).
Proof.
  intros N; unfold set_add; destruct (smem s l) eqn:E; [exact N|].
  apply (Permutation_NoDup (l := s :: l)); [apply Permutation_cons_append|].
  constructor; [|exact N]; intros H; apply smem_in in H; congruence.
Qed.
Lemma set_update_in xs l x : In x (set_update xs l) <-> In x xs \/ In x l.
Proof.
  unfold set_update; revert l; induction xs as [|y t IH]; intros l; simpl; [tauto|].
  rewrite IH, set_add_in; split; intuition.
Qed.
Lemma set_update_nodup xs l : NoDup l -> NoDup (set_update xs l).
Proof.
  unfold set_update; revert l; induction xs as [|y t IH]; intros l N; simpl; [exact N|].
  apply IH, set_add_nodup, N.
Qed.

Lemma mem_scenario s : d_mem s scs = true <-> is_scenario scs s.
Proof. apply d_mem_keys. Qed.

(** One level *)
Lemma load_items_ok rec items acc l : load_items ovs scs rec items acc = Ok l ->
  (forall v, In v items -> ~ bad_item ovs scs v) /\
  (forall s, In (VStr s) items -> is_scenario scs s -> exists r, rec s = Ok r) /\
  (NoDup acc -> NoDup l) /\
  (forall o, In o l <-> In o acc \/
     (exists s r, In (VStr s) items /\ is_scenario scs s /\ rec s = Ok r /\ In o r) \/
     (In (VStr o) items /\ ~ is_scenario scs o /\ In o ovs)).
Proof.
  revert acc; induction items as [|v t IH]; intros acc; simpl.
  - intros [= ->]; split; [tauto|split; [tauto|split; [tauto|]]].
    intros o; split; [auto|intros [H|[[s [r [[] _]]]|[[] _]]]; exact H].
  - destruct v as [| | |s| |]; try discriminate.
    destruct (d_mem s scs) eqn:M.
    + pose proof (proj1 (mem_scenario s) M) as IS.
      destruct (rec s) as [r|e] eqn:R; [|discriminate]; cbn [bind].
      intros H; destruct (IH _ H) as [H1 [H2 [H3 H4]]].
      split; [|split; [|split]].
      * intros v [<-|Hv]; [simpl; tauto|apply H1; exact Hv].
      * intros s' [[= <-]|Hs] I; [exists r; exact R|apply H2; assumption].
      * intros N; apply H3, set_update_nodup, N.
      * intros o; rewrite H4, set_update_in; split.
        -- intros [[H0|H0]|[[s' [r' [A [B [C D]]]]]|[A B]]].
           ++ right; left; exists s, r; simpl; auto.
           ++ auto.
           ++ right; left; exists s', r'; simpl; auto.
           ++ right; right; simpl; auto.
        -- intros [H0|[[s' [r' [A [B [C D]]]]]|[A [B C]]]].
           ++ auto.
           ++ destruct A as [[= <-]|A]; [left; left; congruence|right; left; exists s', r'; auto].
           ++ destruct A as [[= <-]|A]; [contradiction|right; right; auto].
    + assert (IS : ~ is_scenario scs s) by (intros H; apply mem_scenario in H; congruence).
      destruct (smem s ovs) eqn:O; [|discriminate].
      apply smem_in in O; intros H; destruct (IH _ H) as [H1 [H2 [H3 H4]]].
      split; [|split; [|split]].
      * intros v [<-|Hv]; [simpl; tauto|apply H1; exact Hv].
      * intros s' [[= <-]|Hs] I; [contradiction|apply H2; assumption].
      * intros N; apply H3, set_add_nodup, N.
      * intros o; rewrite H4, set_add_in; split.
        -- intros [[->|H0]|[[s' [r' [A [B [C D]]]]]|[A B]]].
           ++ right; right; simpl; auto.
           ++ auto.
           ++ right; left; exists s', r'; simpl; auto.
           ++ right; right; simpl; auto.
        -- intros [H0|[[s' [r' [A [B [C D]]]]]|[A [B C]]]].
           ++ auto.
           ++ destruct A as [[= <-]|A]; [contradiction|right; left; exists s', r'; auto].
           ++ destruct A as [[= <-]|A]; [auto|right; right; auto].
Qed.

Lemma load_items_err rec items acc e : load_items ovs scs rec items acc = Err e ->
  (exists v, In v items /\ bad_item ovs scs v /\ (e = EModel \/ (e = EType /\ exists l, v = VList l))) \/
  (exists s, In (VStr s) items /\ is_scenario scs s /\ rec s = Err e).
Proof.
  revert acc; induction items as [|v t IH]; intros acc; simpl; [discriminate|].
  destruct v as [| | |s| |];
    try (intros H; injection H as <-; left; eexists; split; [left; reflexivity|split; [exact I|left; reflexivity]]);
    try (intros H; injection H as <-; left; eexists; split; [left; reflexivity|split; [exact I|right; split; [reflexivity|eexists; reflexivity]]]).
  destruct (d_mem s scs) eqn:M.
  - pose proof (proj1 (mem_scenario s) M) as IS.
    destruct (rec s) as [r|e'] eqn:R; cbn [bind].
    + intros H; destruct (IH _ H) as [[v [A B]]|[s' [A B]]]; [left; exists v|right; exists s']; auto.
    + intros [= <-]; right; exists s; auto.
  - assert (IS : ~ is_scenario scs s) by (intros H; apply mem_scenario in H; congruence).
    destruct (smem s ovs) eqn:O.
    + intros H; destruct (IH _ H) as [[v [A B]]|[s' [A B]]]; [left; exists v|right; exists s']; auto.
    + intros [= <-]; left; exists (VStr s); split; [auto|split; [|auto]].
      split; [exact IS|]; intros H; apply smem_in in H; congruence.
Qed.

(** Soundness *)
Lemma load_ok fuel : forall sc l, load_overrides ovs scs fuel sc = Ok l ->
  NoDup l /\ ~ ill_formed ovs scs sc /\ forall o, In o l <-> selects ovs scs sc o.
Proof.
  induction fuel as [|f IH]; intros sc l; [discriminate|].
  cbn [load_overrides]; intros H; apply load_items_ok in H; destruct H as [H1 [H2 [H3 H4]]].
  split; [apply H3; constructor|split].
  - intros [s [v [R [L B]]]]; inversion R as [|s' z' Href R']; subst; [|destruct Href as [Ls Is]].
    + apply (H1 v); [apply items_lists; exact L|exact B].
    + apply items_lists in Ls; destruct (H2 s' Ls Is) as [r Hr].
      destruct (IH _ _ Hr) as [_ [NI _]]; apply NI; exists s, v; auto.
  - intros o; rewrite H4; split.
    + intros [[]|[[s [r [A [B [C D]]]]]|[A [B C]]]].
      * destruct (IH _ _ C) as [_ [_ S]]; apply S in D; destruct D as [s' [R D]].
        exists s'; split; [|exact D]; econstructor; [|exact R]; split; [apply items_lists; exact A|exact B].
      * exists sc; split; [constructor|split; [apply items_lists; exact A|auto]].
    + intros [s [R [L [NS O]]]]; inversion R as [|s' z' Href R']; subst; [|destruct Href as [Ls Is]].
      * right; right; split; [apply items_lists; exact L|auto].
      * apply items_lists in Ls; destruct (H2 s' Ls Is) as [r Hr].
        right; left; exists s', r; split; [exact Ls|split; [exact Is|split; [exact Hr|]]].
        destruct (IH _ _ Hr) as [_ [_ S]]; apply S; exists s; auto.
Qed.

Lemma load_err fuel : forall sc e, load_overrides ovs scs fuel sc = Err e -> e <> EDiverge ->
  ill_formed ovs scs sc /\ (e = EModel \/ e = EType).
Proof.
  induction fuel as [|f IH]; intros sc e; cbn [load_overrides]; [congruence|].
  intros H NE; apply load_items_err in H; destruct H as [[v [A [B C]]]|[s [A [B C]]]].
  - split; [exists sc, v; split; [constructor|split; [apply items_lists; exact A|exact B]]|intuition].
  - destruct (IH _ _ C NE) as [[s' [v [R [L Bd]]]] E]; split; [|exact E].
    exists s', v; split; [|auto]; econstructor; [|exact R]; split; [apply items_lists; exact A|exact B].
Qed.

(** Divergence means a long chain of references. *)
Fixpoint ref_chain (sc : string) (c : list string) : Prop :=
  match c with
  | [] => True
  | s :: t => refers scs sc s /\ ref_chain s t
  end.

Lemma load_diverge fuel : forall sc, load_overrides ovs scs fuel sc = Err EDiverge ->
  exists c, ref_chain sc c /\ List.length c = fuel.
Proof.
  induction fuel as [|f IH]; intros sc; cbn [load_overrides].
  - intros _; exists []; split; [exact I|reflexivity].
  - intros H; apply load_items_err in H; destruct H as [[v [A [B [C|[C _]]]]]|[s [A [B C]]]]; try discriminate.
    destruct (IH _ C) as [c [R L]]; exists (s :: c); split; [|simpl; congruence].
    split; [split; [apply items_lists; exact A|exact B]|exact R].
Qed.

Lemma ref_chain_in sc c : ref_chain sc c -> forall s, In s c -> is_scenario scs s.
Proof.
  revert sc; induction c as [|x t IH]; intros sc; simpl; [tauto|].
  intros [[_ I1] R] s [<-|H]; [exact I1|eapply IH; eauto].
Qed.

Lemma ref_chain_app sc a x b : ref_chain sc (a ++ x :: b) ->
  clos_trans_1n _ (refers scs) sc x /\ ref_chain x b.
Proof.
  revert sc; induction a as [|y t IH]; intros sc; simpl; intros [R H].
  - split; [constructor; exact R|exact H].
  - destruct (IH y H) as [T H']; split; [|exact H'].
    econstructor 2; [exact R|exact T].
Qed.

Lemma reaches_trans1 a b : clos_trans_1n _ (refers scs) a b -> reaches scs a b.
Proof.
  intros H; induction H as [x y H|x y z H T IH]; [econstructor; [exact H|constructor]|econstructor; [exact H|exact IH]].
Qed.

Lemma dup_split (l : list string) : ~ NoDup l -> exists a x b c, l = a ++ x :: b ++ x :: c.
Proof.
  induction l as [|x t IH]; intros H; [exfalso; apply H; constructor|].
  destruct (in_dec string_dec x t) as [I|I].
  - apply in_split in I; destruct I as [b [c ->]]; exists [], x, b, c; reflexivity.
  - destruct IH as [a [y [b [c E]]]].
    + intros N; apply H; constructor; assumption.
    + exists (x :: a), y, b, c; rewrite E; reflexivity.
Qed.

Lemma load_terminates sc fuel : (forall s, reaches scs sc s -> ~ cyclic scs s) ->
  (List.length scs < fuel)%nat -> load_overrides ovs scs fuel sc <> Err EDiverge.
Proof.
  intros AC LF H; destruct (load_diverge _ _ H) as [c [R L]].
  assert (NDc : ~ NoDup c).
  { intros N.
    assert (X : (List.length c <= List.length (d_keys scs))%nat).
    { apply NoDup_incl_length; [exact N|]; intros s Hs; apply (ref_chain_in sc c R s Hs). }
    unfold d_keys in X; rewrite map_length in X; lia. }
  destruct (dup_split c NDc) as [a [x [b [d E]]]]; rewrite E in R.
  destruct (ref_chain_app _ _ _ _ R) as [T R'].
  destruct (ref_chain_app _ _ _ _ R') as [T' _].
  apply (AC x); [apply reaches_trans1; exact T|exact T'].
Qed.

(** More fuel does not change an answer. *)
Lemma load_mono fuel : forall sc r, load_overrides ovs scs fuel sc = r -> r <> Err EDiverge ->
  load_overrides ovs scs (S fuel) sc = r.
Proof.
  induction fuel as [|f IH]; intros sc r H NE; [simpl in H; congruence|].
  cbn [load_overrides] in H; change (load_overrides ovs scs (S (S f)) sc) with
    (load_items ovs scs (load_overrides ovs scs (S f)) (scenario_items scs sc) []).
  revert H; generalize (scenario_items scs sc) (@nil string); intros items.
  induction items as [|v t IHt]; intros acc H; [exact H|].
  cbn [load_items] in *; destruct v as [| | |s| |]; try exact H.
  destruct (d_mem s scs).
  - destruct (load_overrides ovs scs f s) as [x|e] eqn:E.
    + rewrite (IH s (Ok x) E) by congruence; cbn [bind] in *; apply IHt; exact H.
    + cbn [bind] in H; destruct (exn_eqb e EDiverge) eqn:D.
      * destruct e; try discriminate; congruence.
      * rewrite (IH s (Err e) E) by (destruct e; simpl in D; congruence); exact H.
  - destruct (smem s ovs); [apply IHt; exact H|exact H].
Qed.

Lemma load_complete sc fuel : (forall s, reaches scs sc s -> ~ cyclic scs s) ->
  (List.length scs < fuel)%nat ->
  (ill_formed ovs scs sc -> exists e, load_overrides ovs scs fuel sc = Err e /\ (e = EModel \/ e = EType)) /\
  (~ ill_formed ovs scs sc -> exists l, load_overrides ovs scs fuel sc = Ok l /\ NoDup l /\
     forall o, In o l <-> selects ovs scs sc o).
Proof.
  intros AC LF; pose proof (load_terminates sc fuel AC LF) as T.
  destruct (load_overrides ovs scs fuel sc) as [l|e] eqn:E.
  - destruct (load_ok _ _ _ E) as [N [NI S]]; split; [contradiction|].
    intros _; exists l; auto.
  - assert (NE : e <> EDiverge) by congruence.
    destruct (load_err _ _ _ E NE) as [I EE]; split; [intros _; exists e; auto|contradiction].
Qed.
Lemma load_ok_refers fuel sc s l : load_overrides ovs scs (S fuel) sc = Ok l -> refers scs sc s ->
  exists r, load_overrides ovs scs fuel s = Ok r.
Proof.
  cbn [load_overrides]; intros H [L I]; apply load_items_ok in H; destruct H as [_ [H _]].
  apply H; [apply items_lists; exact L|exact I].
Qed.
Lemma cyclic_next s : cyclic scs s -> exists s', refers scs s s' /\ cyclic scs s'.
Proof.
  intros C; assert (G : forall b, clos_trans_1n _ (refers scs) s b -> exists s', refers scs s s' /\ (s' = b \/ clos_trans_1n _ (refers scs) s' b)).
  { intros b H; inversion H as [y Hy|y z Hy Hz]; subst; [exists b; auto|exists y; auto]. }
  destruct (G s C) as [s' [R [->|T]]]; [exists s; auto|].
  exists s'; split; [exact R|].
  apply clos_trans_t1n; apply t_trans with (y := s); [apply clos_t1n_trans; exact T|apply t_step; exact R].
Qed.
Lemma cyclic_not_ok fuel : forall s l, cyclic scs s -> load_overrides ovs scs fuel s <> Ok l.
Proof.
  induction fuel as [|f IH]; intros s l C H; [discriminate H|].
  destruct (cyclic_next s C) as [s' [R C']]; destruct (load_ok_refers f s s' l H R) as [r Hr].
  exact (IH s' r C' Hr).
Qed.
Lemma reaches_cyclic_not_ok fuel : forall sc s l, reaches scs sc s -> cyclic scs s ->
  load_overrides ovs scs fuel sc <> Ok l.
Proof.
  induction fuel as [|f IH]; intros sc s l R C H; [discriminate H|].
  inversion R as [|y z Hy Hz]; subst; [exact (cyclic_not_ok (S f) s l C H)|].
  destruct (load_ok_refers f sc y l H Hy) as [r Hr]; exact (IH y s r Hz C Hr).
Qed.
(** Circular references: no recursion depth suffices. *)
Lemma load_cyclic fuel sc s : reaches scs sc s -> cyclic scs s -> ~ ill_formed ovs scs sc ->
  load_overrides ovs scs fuel sc = Err EDiverge.
Proof.
  intros R C W; destruct (load_overrides ovs scs fuel sc) as [l|e] eqn:E.
  - exfalso; exact (reaches_cyclic_not_ok fuel sc s l R C E).
  - destruct (exn_eqb_spec e EDiverge) as [->|N]; [reflexivity|].
    exfalso; exact (W (proj1 (load_err fuel sc e E N))).
Qed.
Lemma load_ok_acyclic fuel sc l : load_overrides ovs scs fuel sc = Ok l ->
  forall s, reaches scs sc s -> ~ cyclic scs s.
Proof. intros H s R C; exact (reaches_cyclic_not_ok fuel sc s l R C H). Qed.
(** The only error other than a model error comes from a list inside a scenario. *)
Lemma load_type_error fuel : forall sc, load_overrides ovs scs fuel sc = Err EType ->
  exists s l, reaches scs sc s /\ lists scs s (VList l).
Proof.
  induction fuel as [|f IH]; intros sc H; [discriminate H|].
  cbn [load_overrides] in H; apply load_items_err in H.
  destruct H as [[v [A [B [C|[_ [l ->]]]]]]|[s [A [I R]]]]; [discriminate C| |].
  - exists sc, l; split; [apply rt1n_refl|apply items_lists; exact A].
  - destruct (IH s R) as [s' [l [R' L]]]; exists s', l; split; [|exact L].
    apply Relation_Operators.rt1n_trans with (y := s); [|exact R'].
    split; [apply items_lists; exact A|exact I].
Qed.
End S.
