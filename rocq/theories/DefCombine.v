(** Lemmas on combining overrides and on the order of priority. *)
From Verif Require Import Base BaseProofs AttrDictModel AttrDictSpec AttrDictProofs AttrDictUnion
  AttrDictMore DefModel DefSpec.
Local Open Scope string_scope.
Local Open Scope list_scope.

(** A tidy dictionary's defined keys are its leaves. *)
Lemma tidy_def_leaf d k w : tidy d -> def_key (VDict d) k w -> leaf w.
Proof.
  intros T [N [H [L|E]]]; [exact L|]; subst.
  exfalso; apply (tidy_at _ _ _ T N) in H; apply ne_inv in H; tauto.
Qed.

Lemma union_tidy ao A B : wf (VDict B) -> tidy A -> tidy B -> tidy (fst (union ao A B)).
Proof.
  intros WB TA TB; unfold union; apply union_loop_tidy; [|exact TA].
  intros k Hk; pose proof Hk as Hk'; apply (keys_nested_val_spec (VDict B) WB) in Hk'.
  destruct Hk' as [N [w [Hw _]]]; split; [exact N|exists w; split; [exact Hw|exact (tidy_keys_leaf B k w WB TB Hk Hw)]].
Qed.

(** Leaves of several dictionaries taken together. *)
Definition some_leaf (ds : list dict) (q : list string) (v : val) : Prop :=
  exists d, In d ds /\ at_path (VDict d) q v.

Fixpoint combine_blocks (bs : list dict) (acc : dict) : result dict :=
  match bs with
  | [] => Ok acc
  | b :: t => match union false acc b with
              | (acc', None) => combine_blocks t acc'
              | (_, Some EKey) => Err EModel
              | (_, Some e) => Err e
              end
  end.

Lemma falsy_nothing v : falsy v = true <-> nothing v.
Proof.
  split; [|intros []; reflexivity].
  destruct v as [|[]|z|[|]|[|]|[|]]; simpl; try discriminate; intros H; try constructor; apply Z.eqb_eq in H as ->; constructor.
Qed.
Lemma override_usable v b : override_block v = Ok b <-> block_of v b.
Proof.
  split.
  - destruct v as [| | | | |d]; simpl; try discriminate; intros E; [injection E as <-; constructor|].
    destruct (d_get "import" d) as [w|] eqn:G; [destruct (falsy w) eqn:F; [|discriminate]|]; injection E as <-; constructor; intros v H; [|congruence].
    rewrite G in H; injection H as <-; apply falsy_nothing; exact F.
  - intros [|d H]; [reflexivity|]; simpl; destruct (d_get "import" d) as [w|]; [|reflexivity]; rewrite (proj2 (falsy_nothing w) (H w eq_refl)); reflexivity.
Qed.
Lemma override_unusable v : (forall b, ~ block_of v b) -> override_block v = Err EValue.
Proof.
  intros N; destruct (override_block v) as [b|e] eqn:E; [exfalso; apply (N b), override_usable, E|].
  destruct v as [| | | | |d]; simpl in E; try discriminate; try (injection E as <-; reflexivity); destruct (d_get "import" d) as [w|]; [destruct (falsy w)|]; try discriminate; injection E as <-; reflexivity.
Qed.
Lemma combine_first overrides pre n post acc : combine_overrides overrides pre [] = Ok acc ->
  (d_get n overrides = None -> combine_overrides overrides (pre ++ n :: post) [] = Err EModel) /\
  (forall v, d_get n overrides = Some v -> (forall b, ~ block_of v b) -> combine_overrides overrides (pre ++ n :: post) [] = Err EValue).
Proof.
  generalize (@nil (string * val)) as a0; induction pre as [|m pre IH]; intros a0 E; cbn [app combine_overrides] in *.
  - split; [intros ->; reflexivity|]; intros v -> N; rewrite (override_unusable v N); reflexivity.
  - destruct (d_get m overrides) as [v|]; [|discriminate]; destruct (override_block v) as [b|]; [|discriminate]; cbn [bind] in *.
    destruct (union false a0 b) as [a1 [e|]]; [destruct e; discriminate|]; exact (IH a1 E).
Qed.
Lemma combine_all_usable overrides names : forall acc c, combine_overrides overrides names acc = Ok c ->
  forall n, In n names -> exists v b, d_get n overrides = Some v /\ block_of v b.
Proof.
  induction names as [|m names IH]; intros acc c E n I; [destruct I|]; cbn [combine_overrides] in E.
  destruct (d_get m overrides) as [v|] eqn:G; [|discriminate]; destruct (override_block v) as [b|] eqn:O; [|discriminate]; cbn [bind] in E.
  destruct (union false acc b) as [a1 [e|]]; [destruct e; discriminate|]; destruct I as [<-|I]; [exists v, b; split; [exact G|apply override_usable; exact O]|exact (IH a1 c E n I)].
Qed.

Lemma combine_overrides_blocks overrides names bs :
  Forall2 (fun n b => exists v, d_get n overrides = Some v /\ block_of v b) names bs ->
  forall acc, combine_overrides overrides names acc = combine_blocks bs acc.
Proof.
  induction 1 as [|n b names bs [v [G O]] F IH]; intros acc; [reflexivity|].
  cbn [combine_overrides combine_blocks]; apply override_usable in O; rewrite G, O; cbn [bind].
  destruct (union false acc b) as [acc' [e|]]; [destruct e; reflexivity|apply IH].
Qed.

Definition overlap (a b : dict) : Prop :=
  exists q v w, leaf v /\ leaf w /\ at_path (VDict a) q v /\ at_path (VDict b) q w.

Lemma leaf_nonroot d q v : leaf v -> at_path (VDict d) q v -> q <> [].
Proof. intros L H ->; exact (at_path_dict_root d v L H). Qed.

Lemma union_strict_overlap A B : wf (VDict A) -> wf (VDict B) -> overlap A B ->
  exists A', union false A B = (A', Some EKey).
Proof.
  intros WA WB [q [v [w [Lv [Lw [HA HB]]]]]].
  eapply union_strict_conflict with (k := q) (w := v) (x := w); try assumption; apply leaf_def_key; try assumption;
    eapply leaf_nonroot; eauto.
Qed.

Lemma union_strict_apart A B : wf (VDict A) -> wf (VDict B) -> tidy A -> tidy B -> same_shape [A; B] ->
  ~ overlap A B ->
  exists A', union false A B = (A', None) /\ wf (VDict A') /\ tidy A' /\
    forall q v, leaf v -> (at_path (VDict A') q v <-> at_path (VDict A) q v \/ at_path (VDict B) q v).
Proof.
  intros WA WB TA TB SS NO.
  destruct (union_strict_ok A B WA WB) as [A' [E [W L]]].
  - intros k w k' w' HA HB C.
    pose proof (tidy_def_leaf _ _ _ TA HA) as Lw; pose proof (tidy_def_leaf _ _ _ TB HB) as Lw'.
    destruct HA as [_ [HA _]], HB as [_ [HB _]].
    assert (k = k') by (apply (SS A B) with (w := w) (w' := w'); simpl; auto); subst k'.
    apply NO; exists k, w, w'; auto.
  - exists A'; split; [exact E|split; [exact W|split; [|exact L]]].
    pose proof (union_tidy false A B WB TA TB) as T; rewrite E in T; exact T.
Qed.

(** Whether any two of the blocks overlap. *)
Inductive clash : list dict -> Prop :=
| cl_here b t c : In c t -> overlap b c -> clash (b :: t)
| cl_later b t : clash t -> clash (b :: t).

Lemma combine_clash bs : forall acc, wf (VDict acc) -> tidy acc ->
  Forall (fun b => wf (VDict b) /\ tidy b) bs -> same_shape (acc :: bs) ->
  clash (acc :: bs) -> combine_blocks bs acc = Err EModel.
Proof.
  induction bs as [|b t IH]; intros acc WA TA F SS C.
  - inversion C as [? ? c H|? ? H]; subst; [destruct H|inversion H].
  - inversion F as [|? ? [WB TB] F']; subst; cbn [combine_blocks].
    destruct (union false acc b) as [acc' e] eqn:E; destruct e as [e|].
    + (* refused: the error is a KeyError *)
      assert (EK : exists S', union false acc b = (S', Some e)) by (exists acc'; exact E).
      assert (e = EKey); [|subst; reflexivity].
      assert (LOOP : forall sk ks S S', (forall k, In k ks -> k <> [] /\ exists w, lk k (VDict b) = Some w /\ simple w) ->
                union_loop false sk b ks S = (S', Some e) -> e = EKey).
      { clear; intros sk ks; induction ks as [|k t IH]; intros S S' HB; cbn [union_loop]; [discriminate|].
        destruct (HB k (or_introl eq_refl)) as [NN [w [Hw Sw]]].
        destruct (union_one false sk b k S) as [S1 [e1|]] eqn:E.
        - intros [= _ <-]; eapply union_one_err; eauto.
        - intros H; eapply IH; [|exact H]; intros k' Hk'; apply HB; right; exact Hk'. }
      eapply LOOP; [|exact E]; intros k Hk; apply (keys_nested_val_spec (VDict b) WB) in Hk; exact Hk.
    + (* merged: acc and b did not overlap *)
      assert (NO : ~ overlap acc b).
      { intros O; destruct (union_strict_overlap acc b WA WB O) as [S' E']; congruence. }
      assert (SS2 : same_shape [acc; b]) by (intros X Y HX HY; apply SS; simpl in *; intuition).
      destruct (union_strict_apart acc b WA WB TA TB SS2 NO) as [A' [E' [W' [T' L']]]].
      rewrite E in E'; injection E' as <-.
      apply IH; try assumption.
      * intros X Y HX HY k w k' w' Hk Lw Hk' Lw' Cm.
        assert (HZ : forall X k w, In X (acc' :: t) -> leaf w -> at_path (VDict X) k w ->
                exists Z, In Z (acc :: b :: t) /\ at_path (VDict Z) k w).
        { clear - L'; intros X k w [<-|HX] Lw Hk; [|exists X; split; [right; right; exact HX|exact Hk]].
          apply L' in Hk; [|exact Lw]; destruct Hk as [Hk|Hk]; [exists acc|exists b]; simpl; auto. }
        destruct (HZ X k w HX Lw Hk) as [X' [IX Hk2]], (HZ Y k' w' HY Lw' Hk') as [Y' [IY Hk2']].
        eapply (SS X' Y'); eauto.
      * inversion C as [? ? c Hc O|? ? C']; subst.
        -- destruct Hc as [<-|Hc]; [contradiction|].
           apply cl_here with (c := c); [exact Hc|].
           destruct O as [q [v [w [Lv [Lw [H1 H2]]]]]]; exists q, v, w; repeat split; auto; apply L'; auto.
        -- inversion C' as [? ? c Hc O|? ? C'']; subst.
           ++ apply cl_here with (c := c); [exact Hc|].
              destruct O as [q [v [w [Lv [Lw [H1 H2]]]]]]; exists q, v, w; repeat split; auto; apply L'; auto.
           ++ apply cl_later; exact C''.
Qed.

Lemma combine_apart bs : forall acc, wf (VDict acc) -> tidy acc ->
  Forall (fun b => wf (VDict b) /\ tidy b) bs -> same_shape (acc :: bs) ->
  ~ clash (acc :: bs) -> exists r, combine_blocks bs acc = Ok r /\ wf (VDict r) /\ tidy r /\
     forall q v, leaf v -> (at_path (VDict r) q v <-> some_leaf (acc :: bs) q v).
Proof.
  induction bs as [|b t IH]; intros acc WA TA F SS C.
  - exists acc; split; [reflexivity|split; [exact WA|split; [exact TA|]]]; intros q v Lv; split.
    + intros H; exists acc; simpl; auto.
    + intros [d [[<-|[]] H]]; exact H.
  - inversion F as [|? ? [WB TB] F']; subst; cbn [combine_blocks].
    assert (NO : ~ overlap acc b).
    { intros O; apply C; apply cl_here with (c := b); [left; reflexivity|exact O]. }
    assert (SS2 : same_shape [acc; b]) by (intros X Y HX HY; apply SS; simpl in *; intuition).
    destruct (union_strict_apart acc b WA WB TA TB SS2 NO) as [A' [E' [W' [T' L']]]].
    rewrite E'.
    destruct (IH A' W' T' F') as [r [E [Wr [Tr Lr]]]].
    + intros X Y HX HY k w k' w' Hk Lw Hk' Lw' Cm.
      assert (HZ : forall X k w, In X (A' :: t) -> leaf w -> at_path (VDict X) k w ->
              exists Z, In Z (acc :: b :: t) /\ at_path (VDict Z) k w).
      { clear - L'; intros X k w [<-|HX] Lw Hk; [|exists X; split; [right; right; exact HX|exact Hk]].
        apply L' in Hk; [|exact Lw]; destruct Hk as [Hk|Hk]; [exists acc|exists b]; simpl; auto. }
      destruct (HZ X k w HX Lw Hk) as [X' [IX Hk2]], (HZ Y k' w' HY Lw' Hk') as [Y' [IY Hk2']].
      eapply (SS X' Y'); eauto.
    + intros C'; inversion C' as [? ? c Hc O|? ? C'']; subst.
      * destruct O as [q [v [w [Lv [Lw [H1 H2]]]]]]; apply L' in H1; [|exact Lv]; destruct H1 as [H1|H1].
        -- apply C; apply cl_here with (c := c); [right; exact Hc|exists q, v, w; auto].
        -- apply C; apply cl_later; apply cl_here with (c := c); [exact Hc|exists q, v, w; auto].
      * apply C; apply cl_later; apply cl_later; exact C''.
    + exists r; split; [exact E|split; [exact Wr|split; [exact Tr|]]]; intros q v Lv; rewrite (Lr q v Lv).
      unfold some_leaf; split.
      * intros [d [[<-|Hd] H]]; [apply L' in H; [|exact Lv]; destruct H; [exists acc|exists b]; simpl; auto|].
        exists d; simpl; auto.
      * intros [d [[<-|[<-|Hd]] H]]; [exists A'|exists A'|exists d]; simpl; auto; split; auto; apply L'; auto.
Qed.

(** ** Independence of the order *)
Lemma overlap_sym a b : overlap a b -> overlap b a.
Proof. intros [q [v [w [Lv [Lw [H1 H2]]]]]]; exists q, w, v; auto. Qed.

Lemma clash_perm l l' : Permutation l l' -> clash l -> clash l'.
Proof.
  induction 1 as [|x l l' P IH|x y l|l l' l'' P IH P' IH']; intros C.
  - exact C.
  - inversion C as [? ? c Hc O|? ? C']; subst.
    + apply cl_here with (c := c); [eapply Permutation_in; eauto|exact O].
    + apply cl_later; apply IH; exact C'.
  - inversion C as [? ? c Hc O|? ? C']; subst.
    + destruct Hc as [<-|Hc]; [apply cl_here with (c := y); [left; reflexivity|apply overlap_sym; exact O]|].
      apply cl_later; apply cl_here with (c := c); assumption.
    + inversion C' as [? ? c Hc O|? ? C'']; subst.
      * apply cl_here with (c := c); [right; exact Hc|exact O].
      * apply cl_later, cl_later; exact C''.
  - auto.
Qed.

Lemma no_leaf_nil q v : leaf v -> ~ at_path (VDict []) q v.
Proof. intros L H; inversion H; subst; [discriminate L|contradiction]. Qed.

Lemma clash_nil bs : clash ([] :: bs) <-> clash bs.
Proof.
  split; [|apply cl_later]; intros C; inversion C as [? ? c Hc O|? ? C']; subst; [|exact C'].
  destruct O as [q [v [w [Lv [_ [H _]]]]]]; exfalso; exact (no_leaf_nil q v Lv H).
Qed.

Lemma same_shape_nil bs : same_shape bs -> same_shape ([] :: bs).
Proof.
  intros SS X Y [<-|HX] [<-|HY] k w k' w' Hk Lw Hk' Lw' C;
    try (exfalso; eapply no_leaf_nil; [|eassumption]; assumption).
  exact (SS X Y HX HY k w k' w' Hk Lw Hk' Lw' C).
Qed.

Lemma some_leaf_perm l l' q v : Permutation l l' -> some_leaf l q v -> some_leaf l' q v.
Proof. intros P [d [H1 H2]]; exists d; split; [eapply Permutation_in; eauto|exact H2]. Qed.

Lemma clash_dec_blocks bs : 
  Forall (fun b => wf (VDict b) /\ tidy b) bs -> same_shape bs -> clash bs \/ ~ clash bs.
Proof.
  intros F SS.
  destruct (combine_blocks bs []) as [r|e] eqn:E.
  - right; intros C.
    rewrite (combine_clash bs [] wf_nil (Forall_nil _) F (same_shape_nil _ SS) (proj2 (clash_nil bs) C)) in E; discriminate.
  - left.
    assert (D : forall acc, wf (VDict acc) -> tidy acc -> same_shape (acc :: bs) -> combine_blocks bs acc = Err e ->
               clash (acc :: bs)).
    { clear SS E; induction bs as [|b t IH]; intros acc WA TA SS E; [discriminate|].
      inversion F as [|? ? [WB TB] F']; subst; cbn [combine_blocks] in E.
      destruct (union false acc b) as [acc' [e'|]] eqn:U.
      - (* the union failed: some key is shared *)
        apply cl_here with (c := b); [left; reflexivity|].
        assert (X : exists k, In k (keys_nested b) /\ In k (keys_nested acc)).
        { destruct (existsb (fun k => path_mem k (keys_nested acc)) (keys_nested b)) eqn:EX.
          - apply existsb_exists in EX; destruct EX as [k [H1 H2]]; apply path_mem_in in H2; exists k; auto.
          - exfalso.
            assert (NO : ~ overlap acc b).
            { intros [q [v [w [Lv [Lw [H1 H2]]]]]].
              assert (In q (keys_nested acc)).
              { apply (def_key_iff acc q v WA); apply leaf_def_key; auto; eapply leaf_nonroot; eauto. }
              assert (In q (keys_nested b)).
              { apply (def_key_iff b q w WB); apply leaf_def_key; auto; eapply leaf_nonroot; eauto. }
              assert (Y : existsb (fun k => path_mem k (keys_nested acc)) (keys_nested b) = true).
              { apply existsb_exists; exists q; split; [assumption|apply path_mem_in; assumption]. }
              congruence. }
            assert (SS2 : same_shape [acc; b]) by (intros X Y HX HY; apply SS; simpl in *; intuition).
            destruct (union_strict_apart acc b WA WB TA TB SS2 NO) as [A' [E' _]]; congruence. }
        destruct X as [k [K1 K2]].
        apply (keys_nested_val_spec (VDict b) WB) in K1 as K1'; destruct K1' as [N [w [Hw _]]].
        apply (keys_nested_val_spec (VDict acc) WA) in K2 as K2'; destruct K2' as [_ [v [Hv _]]].
        exists k, v, w; repeat split.
        + exact (tidy_keys_leaf acc k v WA TA K2 Hv).
        + exact (tidy_keys_leaf b k w WB TB K1 Hw).
        + apply at_lk; assumption.
        + apply at_lk; assumption.
      - assert (NO : ~ overlap acc b).
        { intros O; destruct (union_strict_overlap acc b WA WB O) as [S' E']; congruence. }
        assert (SS2 : same_shape [acc; b]) by (intros X Y HX HY; apply SS; simpl in *; intuition).
        destruct (union_strict_apart acc b WA WB TA TB SS2 NO) as [A' [E' [W' [T' L']]]].
        rewrite U in E'; injection E' as <-.
        assert (C : clash (acc' :: t)).
        { apply IH; try assumption.
          intros X Y HX HY k w k' w' Hk Lw Hk' Lw' Cm.
          assert (HZ : forall X k w, In X (acc' :: t) -> leaf w -> at_path (VDict X) k w ->
                  exists Z, In Z (acc :: b :: t) /\ at_path (VDict Z) k w).
          { clear - L'; intros X k w [<-|HX] Lw Hk; [|exists X; split; [right; right; exact HX|exact Hk]].
            apply L' in Hk; [|exact Lw]; destruct Hk as [Hk|Hk]; [exists acc|exists b]; simpl; auto. }
          destruct (HZ X k w HX Lw Hk) as [X' [IX Hk2]], (HZ Y k' w' HY Lw' Hk') as [Y' [IY Hk2']].
          eapply (SS X' Y'); eauto. }
        inversion C as [? ? c Hc O|? ? C'']; subst.
        + destruct O as [q [v [w [Lv [Lw [H1 H2]]]]]]; apply L' in H1; [|exact Lv]; destruct H1 as [H1|H1].
          * apply cl_here with (c := c); [right; exact Hc|exists q, v, w; auto].
          * apply cl_later; apply cl_here with (c := c); [exact Hc|exists q, v, w; auto].
        + apply cl_later, cl_later; exact C''. }
    apply clash_nil; apply D; [exact wf_nil|constructor|apply same_shape_nil; exact SS|exact E].
Qed.

Lemma combine_order bs bs' : Permutation bs bs' ->
  Forall (fun b => wf (VDict b) /\ tidy b) bs -> same_shape bs ->
  (combine_blocks bs [] = Err EModel /\ combine_blocks bs' [] = Err EModel) \/
  (exists r r', combine_blocks bs [] = Ok r /\ combine_blocks bs' [] = Ok r' /\
     forall q v, leaf v -> (at_path (VDict r) q v <-> at_path (VDict r') q v)).
Proof.
  intros P F SS.
  assert (F' : Forall (fun b => wf (VDict b) /\ tidy b) bs').
  { rewrite Forall_forall in *; intros b Hb; apply F; eapply Permutation_in; [apply Permutation_sym; exact P|exact Hb]. }
  assert (SS' : same_shape bs').
  { intros X Y HX HY; apply SS; eapply Permutation_in; try (apply Permutation_sym; exact P); assumption. }
  destruct (clash_dec_blocks bs F SS) as [C|C].
  - left; split.
    + apply combine_clash; [exact wf_nil|constructor|exact F|apply same_shape_nil; exact SS|apply clash_nil; exact C].
    + apply combine_clash; [exact wf_nil|constructor|exact F'|apply same_shape_nil; exact SS'|].
      apply clash_nil; apply clash_perm with (l := bs); assumption.
  - right.
    assert (C' : ~ clash bs') by (intros H; apply C; eapply clash_perm; [apply Permutation_sym; exact P|exact H]).
    destruct (combine_apart bs [] wf_nil (Forall_nil _) F (same_shape_nil _ SS)) as [r [E [_ [_ L]]]].
    { rewrite clash_nil; exact C. }
    destruct (combine_apart bs' [] wf_nil (Forall_nil _) F' (same_shape_nil _ SS')) as [r' [E' [_ [_ L']]]].
    { rewrite clash_nil; exact C'. }
    exists r, r'; split; [exact E|split; [exact E'|]]; intros q v Lv; rewrite (L q v Lv), (L' q v Lv).
    split; apply some_leaf_perm; [apply perm_skip; exact P|apply perm_skip, Permutation_sym; exact P].
Qed.

(** Names and their blocks *)
Definition blocks_of (overrides : dict) (names : list string) (bs : list dict) : Prop :=
  Forall2 (fun n b => exists v, d_get n overrides = Some v /\ block_of v b) names bs.

Lemma forall2_perm {A B} (R : A -> B -> Prop) l l' m : Permutation l l' -> Forall2 R l m ->
  exists m', Permutation m m' /\ Forall2 R l' m'.
Proof.
  intros P; revert m; induction P as [|x l l' P IH|x y l|l l' l'' P IH P' IH']; intros m F.
  - inversion F; subst; exists []; auto.
  - inversion F as [|? b ? m0 H F']; subst; destruct (IH _ F') as [m' [Pm Fm]].
    exists (b :: m'); split; [apply perm_skip; exact Pm|constructor; assumption].
  - inversion F as [|? b ? m0 H F']; subst; inversion F' as [|? c ? m1 H' F'']; subst.
    exists (c :: b :: m1); split; [apply perm_swap|repeat constructor; assumption].
  - destruct (IH _ F) as [m' [Pm Fm]]; destruct (IH' _ Fm) as [m'' [Pm' Fm']].
    exists m''; split; [eapply perm_trans; eauto|exact Fm'].
Qed.

Lemma combine_overrides_order overrides names names' bs :
  Permutation names names' -> blocks_of overrides names bs ->
  Forall (fun b => wf (VDict b) /\ tidy b) bs -> same_shape bs ->
  (combine_overrides overrides names [] = Err EModel /\ combine_overrides overrides names' [] = Err EModel) \/
  (exists r r', combine_overrides overrides names [] = Ok r /\ combine_overrides overrides names' [] = Ok r' /\
     forall q v, leaf v -> (at_path (VDict r) q v <-> at_path (VDict r') q v)).
Proof.
  intros P B F SS; destruct (forall2_perm _ _ _ _ P B) as [bs' [Pb B']].
  rewrite (combine_overrides_blocks _ _ _ B), (combine_overrides_blocks _ _ _ B').
  apply combine_order; assumption.
Qed.
