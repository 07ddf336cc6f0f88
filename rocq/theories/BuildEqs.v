(** Masks, filling of entries by equations, input checks. *)
From Coq Require Import QArith Qcanon Lia Permutation.
From Verif Require Import Base BaseProofs LangModel EvalModel MathText BuildModel BuildSpec BuildProofs.
From Verif Require CliModel CliProofs.
Local Open Scope nat_scope.
Local Open Scope string_scope.
Local Open Scope list_scope.
Local Arguments String.eqb : simpl never.

(** * Masks *)
Lemma index_eqb_eq a : forall b, index_eqb a b = true <-> a = b.
Proof.
  induction a as [|x a IH]; intros [|y b]; cbn [index_eqb]; try (split; congruence).
  rewrite andb_true_iff, String.eqb_eq, IH; split; [intros (-> & ->); reflexivity|intros X; injection X as -> ->; auto].
Qed.
Lemma eval_where_eq D ws : forall v p, eval_where D v ws p = v p && forallb (fun w => weval (d_where D) w p) ws.
Proof.
  unfold eval_where; induction ws as [|w ws IH]; intros v p; cbn [fold_left forallb]; [rewrite andb_true_r; reflexivity|].
  rewrite IH, andb_assoc; reflexivity.
Qed.
Lemma drop_dims_spec D sets w f : drop_dims D sets w f = true <->
  exists i, In i (indices D (d_dims D)) /\ map (at_index (d_dims D) i) sets = f /\ w (at_index (d_dims D) i) = true.
Proof.
  unfold drop_dims; rewrite existsb_exists; split.
  - intros (i & IN & H); apply andb_true_iff in H as (E & H); apply index_eqb_eq in E; eauto.
  - intros (i & IN & E & H); exists i; split; [exact IN|]; apply andb_true_iff; split; [apply index_eqb_eq, E|exact H].
Qed.
Lemma any_full_spec D w : any_full D w = true <-> exists i, In i (indices D (d_dims D)) /\ w (at_index (d_dims D) i) = true.
Proof. unfold any_full; rewrite existsb_exists; reflexivity. Qed.

(** The mask of an equation. *)
Definition sel (D : data) (sets : list string) (top : index -> bool) (q : peq) : index -> bool :=
  drop_dims D sets (eval_where D (fun p => top (map p sets)) (q_where q)).
Lemma sel_spec D sets top q f : sel D sets top q f = true <-> selected D sets top q f.
Proof.
  unfold sel, selected; rewrite drop_dims_spec; split.
  - intros (i & IN & E & H); rewrite eval_where_eq, E, andb_true_iff, forallb_forall in H; destruct H as (T & H); split; [exact T|eauto].
  - intros (T & i & IN & E & H); exists i; split; [exact IN|split; [exact E|]]; rewrite eval_where_eq, E, andb_true_iff, forallb_forall; auto.
Qed.
Lemma any_sel D sets top q : any_full D (eval_where D (fun p => top (map p sets)) (q_where q)) = true <-> exists f, selected D sets top q f.
Proof.
  rewrite any_full_spec; split.
  - intros (i & IN & H); exists (map (at_index (d_dims D) i) sets); apply sel_spec; unfold sel; apply drop_dims_spec; eauto.
  - intros (f & H); apply sel_spec in H; unfold sel in H; apply drop_dims_spec in H as (i & IN & _ & H); eauto.
Qed.

(** Positions of indices. *)
Lemma at_index_label D ds : forall i s, In i (indices D ds) -> In s ds -> In (at_index ds i s) (d_labels D s).
Proof.
  unfold indices, at_index; induction ds as [|d ds IH]; intros i s IN IS; [destruct IS|].
  cbn [map] in IN; apply CliProofs.product_in in IN; inversion IN as [|l ? i' ? HL HR]; subst; cbn [combine d_get].
  destruct (String.eqb s d) eqn:E; [apply String.eqb_eq in E; subst; exact HL|].
  apply IH; [apply CliProofs.product_in, HR|]; destruct IS as [-> |IS]; [rewrite String.eqb_refl in E; discriminate|exact IS].
Qed.
Lemma at_index_in D ds sets i : In i (indices D ds) -> (forall s, In s sets -> In s ds) -> In (map (at_index ds i) sets) (indices D sets).
Proof.
  intros IN; unfold indices; rewrite CliProofs.product_in; induction sets as [|s sets IH]; intros SUB; cbn [map]; constructor.
  - apply at_index_label; [exact IN|apply SUB; left; reflexivity].
  - apply IH; intros s' IS; apply SUB; right; exact IS.
Qed.
Lemma at_index_self ds : NoDup ds -> forall i, List.length i = List.length ds -> map (at_index ds i) ds = i.
Proof.
  induction 1 as [|d ds NI ND IH]; intros [|l i] LEN; try discriminate; [reflexivity|]; cbn [map]; f_equal.
  - unfold at_index; cbn [combine d_get]; rewrite String.eqb_refl; reflexivity.
  - injection LEN as LEN; rewrite <- (IH i LEN) at 2; apply map_ext_in; intros s IS; unfold at_index; cbn [combine d_get].
    destruct (String.eqb s d) eqn:E; [apply String.eqb_eq in E; subst; contradiction|reflexivity].
Qed.
Lemma selected_index D sets top q f : (forall s, In s sets -> In s (d_dims D)) -> selected D sets top q f -> In f (indices D sets).
Proof. intros SUB (_ & i & IN & <- & _); apply at_index_in; assumption. Qed.

(** * One equation after another *)
Definition value (D : data) (sets : list string) (top : index -> bool) (q : peq) : index -> entry := evaluate D sets q (sel D sets top q).
Definition broken (D : data) (sets : list string) (top : index -> bool) (q : peq) : Prop :=
  (exists f, selected D sets top q f) /\
  (keys_given q = false \/ exists f, In f (indices D sets) /\ selected D sets top q f /\ null (value D sets top q f) = true).
Definition apart (D : data) (sets : list string) (top : index -> bool) (q q' : peq) : Prop :=
  forall f, In f (indices D sets) -> selected D sets top q f -> selected D sets top q' f -> False.
Fixpoint all_apart (D : data) (sets : list string) (top : index -> bool) (qs : list peq) : Prop :=
  match qs with [] => True | q :: r => Forall (apart D sets top q) r /\ all_apart D sets top r end.

Section Eqs.
Variable D : data.
Variable sets : list string.
Variable top : index -> bool.
Notation sel := (sel D sets top).
Notation selected := (selected D sets top).
Notation value := (value D sets top).

Definition free (da : index -> entry) (q : peq) : Prop := forall f, In f (indices D sets) -> selected q f -> null (da f) = true.
(** The state after an equation was added. *)
Definition after (da da' : index -> entry) (q : peq) : Prop :=
  forall f, In f (indices D sets) -> (selected q f -> da' f = value q f) /\ (~ selected q f -> da' f = da f).

Lemma null_eq v : null v = true -> v = VCell Miss.
Proof. destruct v as [[]|]; try discriminate; reflexivity. Qed.
Lemma existsb_false {A} (f : A -> bool) l : existsb f l = false <-> forall x, In x l -> f x = false.
Proof.
  split.
  - intros H x IN; destruct (f x) eqn:E; [|reflexivity]; assert (X : existsb f l = true) by (apply existsb_exists; eauto); congruence.
  - intros H; induction l as [|x l IH]; [reflexivity|]; cbn [existsb]; rewrite (H x (or_introl eq_refl)), IH; [reflexivity|]; intros y IY; apply H; right; exact IY.
Qed.
Lemma sel_dec q f : selected q f \/ ~ selected q f.
Proof. destruct (sel q f) eqn:E; [left; apply sel_spec, E|right; intros H; apply sel_spec in H; congruence]. Qed.

Lemma add_equation_done da q da' : add_equation D sets top da q = Done da' -> free da q /\ ~ broken D sets top q /\ after da da' q.
Proof.
  unfold add_equation; fold (sel q); destruct (any_full _ _) eqn:A.
  - destruct (existsb _ _) eqn:O; [discriminate|]; destruct (keys_given q) eqn:K; [|discriminate].
    fold (value q); destruct (existsb (fun f => sel q f && null (value q f)) _) eqn:M; [discriminate|]; intros H; injection H as <-.
    rewrite existsb_false in O, M.
    assert (F : free da q).
    { intros f IN SE; specialize (O f IN); apply sel_spec in SE; rewrite SE in O; cbn [andb] in O; destruct (null (da f)); [reflexivity|discriminate]. }
    split; [exact F|split].
    + intros (_ & [X|(f & IN & SE & N)]); [congruence|]; specialize (M f IN); apply sel_spec in SE; rewrite SE, N in M; discriminate.
    + intros f IN; split; intros SE.
      * rewrite (F f IN SE), (proj2 (sel_spec _ _ _ _ _) SE); reflexivity.
      * destruct (null (da f)) eqn:N; [|reflexivity]; destruct (sel q f) eqn:E; [apply sel_spec in E; contradiction|]; symmetry; apply null_eq, N.
  - intros H; injection H as <-.
    assert (NO : ~ exists f, selected q f) by (intros X; apply any_sel in X; congruence).
    split; [intros f _ SE; exfalso; eauto|split; [intros (X & _); auto|]].
    intros f _; split; [intros SE; exfalso; eauto|reflexivity].
Qed.
Lemma add_equation_can da q : free da q -> ~ broken D sets top q -> exists da', add_equation D sets top da q = Done da'.
Proof.
  intros F NB; unfold add_equation; fold (sel q); destruct (any_full _ _) eqn:A; [|eauto]; apply any_sel in A.
  destruct (existsb _ _) eqn:O.
  { exfalso; apply existsb_exists in O as (f & IN & O); apply andb_true_iff in O as (SE & N); apply sel_spec in SE; rewrite (F f IN SE) in N; discriminate. }
  destruct (keys_given q) eqn:K; [|exfalso; apply NB; split; auto].
  fold (value q); destruct (existsb (fun f => sel q f && null (value q f)) _) eqn:M; [|eauto].
  exfalso; apply existsb_exists in M as (f & IN & M); apply andb_true_iff in M as (SE & N); apply sel_spec in SE; apply NB; split; [exact A|eauto].
Qed.

Lemma free_after da da' q q' : ~ broken D sets top q -> after da da' q -> (free da' q' <-> free da q' /\ apart D sets top q q').
Proof.
  intros NB AF; split.
  - intros F; split.
    + intros f IN SE; destruct (AF f IN) as (A1 & A2), (sel_dec q f) as [S1|S1]; [|rewrite <- (A2 S1); apply F; assumption].
      exfalso; apply NB; split; [eauto|]; right; exists f; split; [exact IN|split; [exact S1|]]; rewrite <- (A1 S1); apply F; assumption.
    + intros f IN S1 SE; destruct (AF f IN) as (A1 & _); apply NB; split; [eauto|]; right; exists f; split; [exact IN|split; [exact S1|]].
      rewrite <- (A1 S1); apply F; assumption.
  - intros (F & AP) f IN SE; destruct (AF f IN) as (A1 & A2), (sel_dec q f) as [S1|S1]; [exfalso; eapply AP; eassumption|].
    rewrite (A2 S1); apply F; assumption.
Qed.

(** When a list of equations can be added, and what comes out. *)
Lemma eval_equations_done qs : forall da, (exists da', eval_equations D sets top da qs = Done da') <->
  Forall (free da) qs /\ Forall (fun q => ~ broken D sets top q) qs /\ all_apart D sets top qs.
Proof.
  induction qs as [|q qs IH]; intros da; cbn [eval_equations all_apart]; [split; [intros _; repeat split; constructor|eauto]|]; split.
  - intros (da' & H); destruct (add_equation D sets top da q) as [d1|] eqn:AE; [|discriminate]; cbn [next] in H.
    destruct (add_equation_done _ _ _ AE) as (F & NB & AF); destruct (proj1 (IH d1) (ex_intro _ _ H)) as (FS & NBS & AP).
    rewrite Forall_forall in FS.
    assert (X : forall q', In q' qs -> free da q' /\ apart D sets top q q') by (intros q' IN; apply (free_after da d1); [exact NB|exact AF|apply FS, IN]).
    split; [constructor; [exact F|apply Forall_forall; intros q' IN; apply X, IN]|split; [constructor; assumption|]].
    split; [apply Forall_forall; intros q' IN; apply X, IN|exact AP].
  - intros (FS & NBS & AP & APS); inversion FS as [|? ? F FS']; inversion NBS as [|? ? NB NBS']; subst.
    destruct (add_equation_can da q F NB) as (d1 & AE); rewrite AE; cbn [next]; apply IH.
    destruct (add_equation_done _ _ _ AE) as (_ & _ & AF); split; [|auto].
    rewrite Forall_forall in *; intros q' IN; apply (free_after da d1 q q' NB AF); auto.
Qed.
Lemma eval_equations_entries qs : forall da da', eval_equations D sets top da qs = Done da' -> forall f, In f (indices D sets) ->
  (forall q, In q qs -> selected q f -> da' f = value q f) /\ ((forall q, In q qs -> ~ selected q f) -> da' f = da f).
Proof.
  induction qs as [|q qs IH]; intros da da' H f IN; cbn [eval_equations] in H; [injection H as <-; split; [intros q []|reflexivity]|].
  pose proof (proj1 (eval_equations_done (q :: qs) da) (ex_intro _ da' H)) as (_ & _ & AP & _); rewrite Forall_forall in AP.
  destruct (add_equation D sets top da q) as [d1|] eqn:AE; [|discriminate]; cbn [next] in H.
  destruct (add_equation_done _ _ _ AE) as (_ & _ & AF); destruct (IH d1 da' H f IN) as (I1 & I2), (AF f IN) as (A1 & A2); split.
  - intros q' [<- |IQ] SE; [|apply I1; assumption].
    rewrite I2; [apply A1, SE|]; intros q' IQ SQ; exact (AP q' IQ f IN SE SQ).
  - intros NS; rewrite I2 by (intros q' IQ; apply NS; right; exact IQ); apply A2, NS; left; reflexivity.
Qed.

Lemma apart_sym q q' : apart D sets top q q' -> apart D sets top q' q.
Proof. intros H f IN S1 S2; exact (H f IN S2 S1). Qed.
Lemma all_apart_perm qs qs' : Permutation qs qs' -> all_apart D sets top qs -> all_apart D sets top qs'.
Proof.
  induction 1 as [|q a b P IH|q q' a|a b c P1 IH1 P2 IH2]; cbn [all_apart]; auto.
  - intros (F & A); split; [|auto]; rewrite Forall_forall in *; intros q' IN; apply F, (Permutation_in _ (Permutation_sym P)), IN.
  - intros (F & G & A); inversion F; subst; split; [constructor; [apply apart_sym; assumption|assumption]|auto].
Qed.
Lemma all_apart_nth qs : all_apart D sets top qs <-> forall i j q q', nth_error qs i = Some q -> nth_error qs j = Some q' -> i <> j -> apart D sets top q q'.
Proof.
  induction qs as [|q qs IH]; cbn [all_apart]; [split; [intros _ [] ? ? ? X; discriminate|auto]|]; split.
  - intros (F & A); rewrite Forall_forall in F; rewrite IH in A; intros [|i] [|j] q1 q2 E1 E2 NE; cbn [nth_error] in *; try congruence.
    + injection E1 as <-; apply F; eapply nth_error_In, E2.
    + injection E2 as <-; apply apart_sym, F; eapply nth_error_In, E1.
    + apply (A i j q1 q2 E1 E2); congruence.
  - intros H; split.
    + apply Forall_forall; intros q' IN; apply In_nth_error in IN as (j & E); apply (H 0 (S j)); [reflexivity|exact E|discriminate].
    + apply IH; intros i j q1 q2 E1 E2 NE; apply (H (S i) (S j)); auto.
Qed.
End Eqs.

(** * Masks of components *)
Lemma forallb_smem sets ds : forallb (fun s => smem s ds) sets = true <-> forall s, In s sets -> In s ds.
Proof. rewrite forallb_forall; split; intros H s IN; apply smem_in, H, IN. Qed.
Lemma top_level_where_spec D N c w : parse_where_text N (c_where c) = Some w ->
  exists top, top_level_where D N c = Done top /\ forall f, top f = true <-> top_selects D (c_foreach c) [w] f.
Proof.
  intros PW; unfold top_level_where, foreach_where; rewrite PW.
  destruct (forallb _ (c_foreach c)) eqn:FD.
  - destruct (any_full D (d_matrix D)) eqn:A.
    + destruct (any_full D (eval_where D (d_matrix D) [w])) eqn:B.
      * eexists; split; [reflexivity|]; intros f; rewrite drop_dims_spec; unfold top_selects; split.
        -- intros (i & IN & E & H); rewrite eval_where_eq in H; cbn [forallb] in H; rewrite andb_true_r in H; apply andb_true_iff in H as (M & H).
           split; [apply forallb_smem, FD|]; exists i; repeat split; auto; intros w' [<- |[]]; exact H.
        -- intros (_ & i & IN & E & M & H); exists i; split; [exact IN|split; [exact E|]]; rewrite eval_where_eq, M; cbn [forallb andb].
           rewrite (H w (or_introl eq_refl)); reflexivity.
      * eexists; split; [reflexivity|]; intros f; split; [discriminate|]; intros (_ & i & IN & E & M & H); exfalso.
        assert (X : any_full D (eval_where D (d_matrix D) [w]) = true); [|congruence]; apply any_full_spec; exists i; split; [exact IN|].
        rewrite eval_where_eq, M; cbn [forallb andb]; rewrite (H w (or_introl eq_refl)); reflexivity.
    + eexists; split; [reflexivity|]; intros f; split; [discriminate|]; intros (_ & i & IN & E & M & H); exfalso.
      assert (X : any_full D (d_matrix D) = true); [|congruence]; apply any_full_spec; eauto.
  - assert (A : any_full D (fun _ => false) = false) by (unfold any_full; apply existsb_false; reflexivity).
    rewrite A; eexists; split; [reflexivity|]; intros f; split; [discriminate|]; intros (SB & _); apply forallb_smem in SB; congruence.
Qed.

(** * Input checks *)
Lemma check_fires_spec D w : check_fires D w = true <->
  exists i, In i (indices D (d_dims D)) /\ weval (d_where D) w (at_index (d_dims D) i) = true /\ d_matrix D (at_index (d_dims D) i) = true.
Proof.
  unfold check_fires; rewrite andb_true_iff, !any_full_spec; split.
  - intros (_ & i & IN & H); apply andb_true_iff in H as (A & B); eauto.
  - intros (i & IN & A & B); split; [eauto|]; exists i; rewrite A, B; auto.
Qed.
(** The messages of the checks that fire, by severity. *)
Lemma check_results_in D N ks : forall warn raise, check_results D N ks = Some (warn, raise) ->
  (forall m, In m warn <-> exists k, In k ks /\ k_message k = m /\ k_raise k = false /\ violated D N k) /\
  (forall m, In m raise <-> exists k, In k ks /\ k_message k = m /\ k_raise k = true /\ violated D N k).
Proof.
  assert (CONS : forall (P : check -> Prop) k r, (exists x, In x (k :: r) /\ P x) <-> P k \/ exists x, In x r /\ P x).
  { intros P k r; split; [intros (x & [<- |IN] & HP); eauto|intros [HP|(x & IN & HP)]; [exists k|exists x]; split; auto; [left; reflexivity|right; exact IN]]. }
  induction ks as [|k ks IH]; intros warn raise H; cbn [check_results] in H.
  - injection H as <- <-; split; intros m; split; try (intros []; fail); intros (k & [] & _).
  - destruct (k_active k) eqn:A.
    + destruct (parse_where_text N (k_where k)) as [w|] eqn:PW; [|discriminate].
      destruct (check_results D N ks) as [(wn & rs)|]; [|discriminate]; destruct (IH _ _ eq_refl) as (I1 & I2).
      assert (V : violated D N k <-> check_fires D w = true).
      { unfold violated; rewrite check_fires_spec; split.
        - intros (_ & w' & i & PW' & H'); rewrite PW in PW'; injection PW' as <-; eauto.
        - intros (i & H'); split; [exact A|]; exists w, i; auto. }
      destruct (check_fires D w) eqn:CF; [destruct (k_raise k) eqn:R|]; injection H as <- <-; split; intros m;
        rewrite CONS, ?I1, ?I2; cbn [In]; rewrite ?I1, ?I2, V; intuition congruence.
    + destruct (IH _ _ H) as (I1 & I2).
      assert (V : ~ violated D N k) by (intros (X & _); congruence).
      split; intros m; rewrite CONS, ?I1, ?I2; tauto.
Qed.
Lemma check_results_none D N ks : check_results D N ks = None <-> exists k, In k ks /\ k_active k = true /\ parse_where_text N (k_where k) = None.
Proof.
  induction ks as [|k ks IH]; cbn [check_results]; [split; [discriminate|intros (k & [] & _)]|].
  assert (CONS : forall (P : check -> Prop), (exists x, In x (k :: ks) /\ P x) <-> P k \/ exists x, In x ks /\ P x).
  { intros P; split; [intros (x & [<- |IN] & HP); eauto|intros [HP|(x & IN & HP)]; [exists k|exists x]; split; auto; [left; reflexivity|right; exact IN]]. }
  rewrite CONS, <- IH; destruct (k_active k); [|intuition congruence].
  destruct (parse_where_text N (k_where k)) as [w|]; [|intuition congruence].
  destruct (check_results D N ks) as [(a & b)|]; [|intuition congruence].
  destruct (check_fires D w), (k_raise k); intuition congruence.
Qed.
