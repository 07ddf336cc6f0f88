(** Lemmas for [AttrDictModel]. *)
From Verif Require Import Base BaseProofs AttrDictModel AttrDictSpec.
Local Open Scope string_scope.
Local Open Scope list_scope.

(** Functional reading of [at_path]. *)
Fixpoint lk (p : path) (v : val) : option val :=
  match p with
  | [] => Some v
  | k :: r => match v with
              | VDict d => match d_get k d with Some w => lk r w | None => None end
              | _ => None
              end
  end.

Lemma wf_inv d : wf (VDict d) -> NoDup (d_keys d) /\ Forall (fun kv => wf (snd kv)) d.
Proof. intros H; inversion H; subst; [unfold leaf in *; simpl in *; congruence|auto]. Qed.

Lemma wf_get k w d : wf (VDict d) -> d_get k d = Some w -> wf w.
Proof.
  intros H G; apply wf_inv in H; destruct H as [_ H].
  rewrite Forall_forall in H; apply d_get_in in G; apply (H _ G).
Qed.

Lemma at_lk v p x : wf v -> (at_path v p x <-> lk p v = Some x).
Proof.
  revert v; induction p as [|k r IH]; intros v W; simpl.
  - split; intros H; [inversion H; subst; reflexivity|injection H as <-; constructor].
  - split; intros H.
    + inversion H as [|? w items ? ? Hin Hat]; subst.
      assert (G : d_get k items = Some w) by (apply d_in_get; [apply wf_inv; exact W|exact Hin]).
      rewrite G; apply IH; [eapply wf_get; eauto|exact Hat].
    + destruct v; try discriminate.
      destruct (d_get k d) as [w|] eqn:G; [|discriminate].
      econstructor; [apply d_get_in; exact G|].
      apply IH; [eapply wf_get; eauto|exact H].
Qed.

Lemma lk_app p q v : lk (p ++ q) v = match lk p v with Some w => lk q w | None => None end.
Proof.
  revert v; induction p as [|k r IH]; intros v; simpl; [reflexivity|].
  destruct v; auto. destruct (d_get k d); auto.
Qed.

Lemma lk_leaf q v : leaf v -> q <> [] -> lk q v = None.
Proof. destruct q; [congruence|]; destruct v; simpl; unfold leaf; simpl; congruence. Qed.

(** Functional reading of "not blocked". *)
Fixpoint unbl (p : path) (d : dict) : Prop :=
  match p with
  | [] | [_] => True
  | k :: r => match d_get k d with
              | None | Some VNone => True
              | Some (VDict o) => unbl r o
              | Some _ => False
              end
  end.

Lemma unbl_cons k k' r d : unbl (k :: k' :: r) d <->
  match d_get k d with None | Some VNone => True | Some (VDict o) => unbl (k' :: r) o | Some _ => False end.
Proof. reflexivity. Qed.

Lemma unbl_nil p : unbl p [].
Proof. destruct p as [|k [|k' r]]; simpl; auto. Qed.

Lemma sprefix_cons k p q : sprefix (k :: p) (k :: q) <-> sprefix p q.
Proof.
  split; intros [r [N E]]; exists r; split; auto; simpl in *; congruence.
Qed.

Lemma blocked_unbl d p : wf (VDict d) -> ~ blocked (VDict d) p <-> unbl p d.
Proof.
  revert d; induction p as [|k r IH]; intros d W.
  - simpl; split; [auto|].
    intros _ [q [Nq [[s [Ns E]] _]]]; destruct q, s; simpl in *; congruence.
  - destruct r as [|k' r].
    + simpl; split; [auto|].
      intros _ [q [Nq [[s [Ns E]] _]]].
      destruct q as [|a [|b q]]; simpl in *; [congruence| |];
        injection E; intros; destruct s; simpl in *; congruence.
    + rewrite unbl_cons; destruct (d_get k d) as [w|] eqn:G.
      * assert (Ww : wf w) by (eapply wf_get; eauto).
        destruct w as [|b|z|s|l|o].
        -- split; [auto|]. intros _ [q [Nq [Sp [x [Hat [Hl Hn]]]]]].
           rewrite at_lk in Hat by exact W.
           destruct q as [|a q]; [congruence|].
           destruct Sp as [s [Ns E]]; injection E as -> E.
           simpl in Hat; rewrite G in Hat.
           destruct q; simpl in Hat; [congruence|discriminate].
        -- split; [|tauto]; intros H; apply H; exists [k]; split; [congruence|].
           split; [exists (k' :: r); split; [congruence|reflexivity]|].
           exists (VBool b); rewrite at_lk by exact W; simpl; rewrite G.
           repeat split; congruence.
        -- split; [|tauto]; intros H; apply H; exists [k]; split; [congruence|].
           split; [exists (k' :: r); split; [congruence|reflexivity]|].
           exists (VInt z); rewrite at_lk by exact W; simpl; rewrite G.
           repeat split; congruence.
        -- split; [|tauto]; intros H; apply H; exists [k]; split; [congruence|].
           split; [exists (k' :: r); split; [congruence|reflexivity]|].
           exists (VStr s); rewrite at_lk by exact W; simpl; rewrite G.
           repeat split; congruence.
        -- split; [|tauto]; intros H; apply H; exists [k]; split; [congruence|].
           split; [exists (k' :: r); split; [congruence|reflexivity]|].
           exists (VList l); rewrite at_lk by exact W; simpl; rewrite G.
           repeat split; congruence.
        -- rewrite <- (IH o Ww); split; intros H [q [Nq [Sp [x [Hat [Hl Hn]]]]]]; apply H.
           ++ exists (k :: q); split; [congruence|]; split; [apply sprefix_cons; exact Sp|].
              exists x; split; [|auto]; rewrite at_lk in * by assumption; simpl; rewrite G; exact Hat.
           ++ destruct q as [|a q]; [congruence|].
              assert (a = k) as -> by (destruct Sp as [s [_ E]]; simpl in E; congruence).
              rewrite sprefix_cons in Sp.
              rewrite at_lk in Hat by exact W; simpl in Hat; rewrite G in Hat.
              destruct q as [|b q].
              ** simpl in Hat; injection Hat as <-; unfold leaf in Hl; simpl in Hl; congruence.
              ** exists (b :: q); split; [congruence|]; split; [exact Sp|].
                 exists x; rewrite at_lk by exact Ww; auto.
      * split; [auto|]. intros _ [q [Nq [Sp [x [Hat _]]]]].
        rewrite at_lk in Hat by exact W.
        destruct q as [|a q]; [congruence|].
        destruct Sp as [s [Ns E]]; injection E as -> E.
        simpl in Hat; rewrite G in Hat; discriminate.
Qed.

(** ** [set_key] *)
Definition sub (k : string) (d : dict) : dict :=
  match d_get k d with Some (VDict o) => o | _ => [] end.

(** Values that [union] and [init_from_dict] hand to [set_key]: leaves or
    (possibly empty) dictionaries; first the leaf case. *)
Lemma set_key_cons k k' r v d : 
  set_key (k :: k' :: r) v d =
  let fresh (d : dict) :=
        let '(o, e) := set_key (k' :: r) v [] in (d_set k (VDict o) d, e) in
      match d_get k d with
      | None => fresh d
      | Some VNone => fresh d
      | Some (VDict o) =>
          let '(o', e) := set_key (k' :: r) v o in
          let d' := d_set k (VDict o') d in
          match e with
          | None => (d', None)
          | Some EKey => fresh d'
          | Some EAttr => (d', Some EKey)
          | Some e' => (d', Some e')
          end
      | Some _ => (d, Some EKey)
      end.
Proof. reflexivity. Qed.

(** One structural step: an unblocked path whose setting works in the
    sub-dictionary. *)
Lemma set_key_step k k' r v d o' :
  unbl (k :: k' :: r) d -> set_key (k' :: r) v (sub k d) = (o', None) ->
  set_key (k :: k' :: r) v d = (d_set k (VDict o') d, None).
Proof.
  intros U E; rewrite set_key_cons; rewrite unbl_cons in U; unfold sub in E.
  destruct (d_get k d) as [[|b|z|s|l|o]|]; try contradiction; cbv zeta; rewrite E; reflexivity.
Qed.

Lemma unbl_sub k k' r d : unbl (k :: k' :: r) d -> unbl (k' :: r) (sub k d).
Proof.
  rewrite unbl_cons; unfold sub.
  destruct (d_get k d) as [[|b|z|s|l|o]|]; try contradiction; auto; intros; apply unbl_nil.
Qed.

Lemma lk_set_other k v d a q : a <> k -> lk (a :: q) (VDict (d_set k v d)) = lk (a :: q) (VDict d).
Proof. intros N; simpl; rewrite d_get_set_other by exact N; reflexivity. Qed.

Lemma lk_set_same k v d q : lk (k :: q) (VDict (d_set k v d)) = lk q v.
Proof. simpl; rewrite d_get_set_same; reflexivity. Qed.

Lemma lk_sub k q d : q <> [] -> lk (k :: q) (VDict d) = lk q (VDict (sub k d)).
Proof.
  intros N; simpl; unfold sub; destruct (d_get k d) as [w|].
  - destruct w; try reflexivity; destruct q; [congruence|reflexivity|congruence|reflexivity|
      congruence|reflexivity|congruence|reflexivity|congruence|reflexivity].
  - destruct q; [congruence|reflexivity].
Qed.

Lemma prefix_cons k p q : prefix (k :: p) (k :: q) <-> prefix p q.
Proof. split; intros [r E]; exists r; simpl in *; congruence. Qed.

Lemma prefix_cons_neq k a p q : k <> a -> ~ prefix (k :: p) (a :: q).
Proof. intros N [r E]; simpl in E; congruence. Qed.

Lemma prefix_nil q : prefix [] q.
Proof. exists q; reflexivity. Qed.

Lemma comparable_cons k p q : comparable (k :: p) (k :: q) <-> comparable p q.
Proof. unfold comparable; rewrite !prefix_cons; tauto. Qed.

Lemma comparable_sym p q : comparable p q <-> comparable q p.
Proof. unfold comparable; tauto. Qed.

(** What a successful setting of a leaf does to all lookups. *)
Record set_effect (p : path) (v : val) (d d' : dict) : Prop := {
  se_here : lk p (VDict d') = Some v;
  se_frame : forall q, ~ comparable p q -> lk q (VDict d') = lk q (VDict d);
  se_prefix : forall q, sprefix q p -> exists o, o <> [] /\ lk q (VDict d') = Some (VDict o)
}.

Lemma d_set_nonnil {V} k (v : V) d : d_set k v d <> [].
Proof. destruct d as [|[k' v'] t]; simpl; [congruence|destruct (String.eqb k k'); congruence]. Qed.

(** Any value: if [set_leaf] behaves at the last segment, [set_key] behaves. *)
Lemma set_key_unbl p v : p <> [] -> is_dict v = false -> forall d, unbl p d ->
  exists d', set_key p v d = (d', None) /\ set_effect p v d d'.
Proof.
  intros NN L; induction p as [|k r IH]; [congruence|].
  intros d U; destruct r as [|k' r].
  - simpl; unfold set_leaf.
    exists (d_set k v d); split; [destruct v; try reflexivity; discriminate|].
    split.
    + rewrite lk_set_same; reflexivity.
    + intros q NC; destruct q as [|a q]; [exfalso; apply NC; right; apply prefix_nil|].
      destruct (string_dec a k) as [->|N]; [|apply lk_set_other; exact N].
      exfalso; apply NC; apply comparable_cons; left; apply prefix_nil.
    + intros q [s [Ns E]]. destruct q as [|a q]; simpl in E.
      * simpl; eexists; split; [|reflexivity]; apply d_set_nonnil.
      * injection E as -> E; destruct q, s; simpl in E; congruence.
  - destruct (IH ltac:(congruence) (sub k d) (unbl_sub _ _ _ _ U)) as [o' [E [H1 H2 H3]]].
    exists (d_set k (VDict o') d); split; [apply set_key_step; assumption|].
    split.
    + rewrite lk_set_same; exact H1.
    + intros q NC; destruct q as [|a q]; [exfalso; apply NC; right; apply prefix_nil|].
      destruct (string_dec a k) as [->|N]; [|apply lk_set_other; exact N].
      rewrite comparable_cons in NC.
      rewrite lk_set_same, H2 by exact NC.
      symmetry; apply lk_sub; intros ->; apply NC; right; apply prefix_nil.
    + intros q Sp; destruct q as [|a q].
      * simpl; eexists; split; [|reflexivity]; apply d_set_nonnil.
      * assert (a = k) as -> by (destruct Sp as [s [_ E']]; simpl in E'; congruence).
        rewrite lk_set_same; apply H3; rewrite sprefix_cons in Sp; exact Sp.
Qed.

(** A refused call leaves the dictionary unchanged. *)
Lemma set_key_err p v d : is_dict v = false -> forall d' e, set_key p v d = (d', Some e) -> d' = d /\ e = EKey.
Proof.
  intros L; revert d; induction p as [|k r IH]; intros d d' e.
  - simpl; intros H; injection H; auto.
  - destruct r as [|k' r].
    + simpl; unfold set_leaf; destruct v; simpl in L; discriminate.
    + rewrite set_key_cons; cbv zeta.
      assert (F : exists o, set_key (k' :: r) v [] = (o, None)).
      { destruct (set_key_unbl (k' :: r) v ltac:(congruence) L [] (unbl_nil _)) as [o [E _]].
        exists o; exact E. }
      destruct F as [o0 F]; rewrite F.
      destruct (d_get k d) as [[|b|z|s|l|o]|]; try (intros H; injection H; auto; fail);
        try (intros H; discriminate).
      destruct (set_key (k' :: r) v o) as [o' e'] eqn:E.
      destruct e' as [e'|]; [|discriminate].
      destruct (IH _ _ _ E) as [-> ->]; discriminate.
Qed.

(** Reading back what was stored holds for every successful call, including the
    ones that wiped a sub-dictionary. *)
Lemma set_key_read p v : is_dict v = false -> forall d d', set_key p v d = (d', None) ->
  lk p (VDict d') = Some v.
Proof.
  intros L; induction p as [|k r IH]; intros d d'; [simpl; discriminate|].
  destruct r as [|k' r].
  - simpl; unfold set_leaf; intros H.
    assert (d' = d_set k v d) as -> by (destruct v; simpl in L, H; congruence).
    rewrite d_get_set_same; reflexivity.
  - rewrite set_key_cons; cbv zeta.
    assert (F : exists o, set_key (k' :: r) v [] = (o, None)).
    { destruct (set_key_unbl (k' :: r) v ltac:(congruence) L [] (unbl_nil _)) as [o [E _]].
      exists o; exact E. }
    destruct F as [o0 F]; rewrite F.
    destruct (d_get k d) as [[|b|z|s|l|o]|]; try discriminate;
      try (intros H; injection H as <-; rewrite lk_set_same; eapply IH; exact F).
    destruct (set_key (k' :: r) v o) as [o' e'] eqn:E.
    destruct e' as [e'|].
    + destruct e'; try discriminate.
      intros H; injection H as <-; rewrite lk_set_same; eapply IH; exact F.
    + intros H; injection H as <-; rewrite lk_set_same; eapply IH; exact E.
Qed.

(** Well-formedness is preserved. *)
Lemma wf_set k v d : wf v -> wf (VDict d) -> wf (VDict (d_set k v d)).
Proof.
  intros Wv W; apply wf_inv in W; destruct W as [ND F]; apply wf_dict.
  - apply d_nodup_set; exact ND.
  - apply d_set_forall; [intros; exact Wv|exact F].
Qed.

Lemma wf_nil : wf (VDict []).
Proof. apply wf_dict; constructor. Qed.

Lemma set_into_wf v : wf v -> forall old, wf old -> wf (fst (set_into v old)).
Proof.
  induction v as [| | | | |items IH] using val_ind'; intros Wv old Wo; simpl; auto.
  apply wf_inv in Wv; destruct Wv as [_ F].
  revert old Wo; induction items as [|[k w] t IHt]; intros old Wo; [exact Wo|].
  inversion IH as [|? ? IHw IHrest]; subst; inversion F as [|? ? Fw Frest]; subst.
  simpl in IHw, Fw.
  destruct old as [| | | | |o]; try exact Wo.
  assert (S : forall st : step dict, wf (VDict (fst st)) ->
     wf (fst (let '(o', e) := st in match e with
              | None => (fix go (items : list (string * val)) (old : val) {struct items} : step val :=
         match items with
         | [] => (old, None)
         | (k, w) :: t =>
             match old with
             | VDict o =>
                 let '(o', e) :=
                   match w, d_get k o with
                   | VDict _, Some x =>
                       let '(x', e) := set_into w x in (d_set k x' o, e)
                   | _, _ => (d_set k w o, None)
                   end in
                 match e with
                 | None => go t (VDict o')
                 | Some _ => (VDict o', e)
                 end
             | _ => (old, Some EAttr)
             end
         end) t (VDict o')
              | Some _ => (VDict o', e) end))).
  { intros [o' e] H; destruct e; simpl in *; [exact H|]. apply IHt; auto. }
  apply S; clear S IHt.
  destruct w as [| | | | |w]; try (simpl; apply wf_set; assumption).
  destruct (d_get k o) as [x|] eqn:G; [|simpl; apply wf_set; assumption].
  pose proof (wf_get _ _ _ Wo G) as Wx.
  specialize (IHw Fw x Wx).
  destruct (set_into (VDict w) x) as [x' e]; simpl in *; apply wf_set; assumption.
Qed.

Lemma set_key_wf p v d : wf v -> wf (VDict d) -> wf (VDict (fst (set_key p v d))).
Proof.
  intros Wv; revert d; induction p as [|k r IH]; intros d W; [exact W|].
  destruct r as [|k' r].
  - simpl; unfold set_leaf.
    destruct v as [| | | | |w]; try (simpl; apply wf_set; assumption).
    destruct (d_get k d) as [x|] eqn:G; [|simpl; apply wf_set; assumption].
    pose proof (set_into_wf (VDict w) Wv x (wf_get _ _ _ W G)) as H.
    destruct (set_into (VDict w) x) as [x' e]; simpl in *; apply wf_set; assumption.
  - rewrite set_key_cons; cbv zeta.
    assert (FR : forall d, wf (VDict d) ->
       wf (VDict (fst (let '(o, e) := set_key (k' :: r) v [] in (d_set k (VDict o) d, e))))).
    { intros d0 W0; pose proof (IH [] wf_nil) as H.
      destruct (set_key (k' :: r) v []) as [o e]; simpl in *; apply wf_set; assumption. }
    destruct (d_get k d) as [[| | | | |o]|] eqn:G; try exact W; try (apply FR; exact W).
    pose proof (IH o (wf_get _ _ _ W G)) as Ho.
    destruct (set_key (k' :: r) v o) as [o' e]; simpl in Ho.
    assert (W' : wf (VDict (d_set k (VDict o') d))) by (apply wf_set; assumption).
    destruct e as [[]|]; try exact W'; apply FR; exact W'.
Qed.

(** A boolean check for [wf], used for concrete examples. *)
Fixpoint wfb (v : val) : bool :=
  match v with
  | VDict d => (fix go (d : list (string * val)) := match d with
                 | [] => true
                 | (k, w) :: t => negb (smem k (map fst t)) && wfb w && go t
                 end) d
  | _ => true
  end.
Lemma wfb_wf v : wfb v = true -> wf v.
Proof.
  induction v as [| | | | |d IH] using val_ind'; try (intros _; apply wf_leaf; reflexivity).
  intros H; apply wf_dict.
  - clear IH; induction d as [|[k w] t IHt]; [constructor|]; simpl in H |- *.
    apply andb_prop in H; destruct H as [H H2]; apply andb_prop in H; destruct H as [H0 H1].
    constructor; [|apply IHt; exact H2].
    apply negb_true_iff in H0; intros Hin; rewrite (proj2 (smem_in _ _) Hin) in H0; discriminate.
  - induction d as [|[k w] t IHt]; [constructor|]; simpl in H.
    apply andb_prop in H; destruct H as [H H2]; apply andb_prop in H; destruct H as [H0 H1].
    inversion IH as [|? ? IHw IHr]; subst; constructor; [apply IHw; exact H1|apply IHt; assumption].
Qed.
