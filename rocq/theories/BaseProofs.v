(** Lemmas about [Base]. *)
From Verif Require Import Base.
Local Open Scope string_scope.
Local Open Scope list_scope.

Lemma exn_eqb_spec a b : reflect (a = b) (exn_eqb a b).
Proof. destruct a, b; simpl; constructor; congruence. Qed.

Section Dict.
  Context {V : Type}.
  Implicit Types (d : list (string * V)) (k : string) (v : V).

  Lemma d_get_set_same k v d : d_get k (d_set k v d) = Some v.
  Proof.
    induction d as [|[k' v'] t IH]; simpl.
    - rewrite String.eqb_refl; reflexivity.
    - destruct (String.eqb k k') eqn:E; simpl; rewrite E; auto.
  Qed.

  Lemma d_get_set_other k k' v d : k <> k' -> d_get k (d_set k' v d) = d_get k d.
  Proof.
    intros N; induction d as [|[k1 v1] t IH]; simpl.
    - destruct (String.eqb_spec k k'); congruence.
    - destruct (String.eqb_spec k' k1) as [->|N1]; simpl.
      + destruct (String.eqb_spec k k1); congruence.
      + destruct (String.eqb k k1); auto.
  Qed.

  Lemma d_get_set k k' v d :
    d_get k (d_set k' v d) = if String.eqb k k' then Some v else d_get k d.
  Proof.
    destruct (String.eqb_spec k k') as [->|N].
    - apply d_get_set_same.
    - apply d_get_set_other; exact N.
  Qed.

  Lemma d_keys_set_in k v d : In k (d_keys d) -> d_keys (d_set k v d) = d_keys d.
  Proof.
    induction d as [|[k' v'] t IH]; simpl; [tauto|].
    intros H; destruct (String.eqb_spec k k') as [->|N]; simpl; [reflexivity|].
    f_equal; apply IH; destruct H; [congruence|assumption].
  Qed.

  Lemma d_keys_set_notin k v d : ~ In k (d_keys d) -> d_set k v d = d ++ [(k, v)].
  Proof.
    induction d as [|[k' v'] t IH]; simpl; intros H; [reflexivity|].
    destruct (String.eqb_spec k k') as [->|N]; [tauto|].
    f_equal; apply IH; tauto.
  Qed.

  Lemma d_get_in k v d : d_get k d = Some v -> In (k, v) d.
  Proof.
    induction d as [|[k' v'] t IH]; simpl; [congruence|].
    destruct (String.eqb_spec k k') as [->|N]; intros H.
    - left; congruence.
    - right; auto.
  Qed.

  Lemma d_get_none k d : d_get k d = None <-> ~ In k (d_keys d).
  Proof.
    induction d as [|[k' v'] t IH]; simpl; [tauto|].
    destruct (String.eqb_spec k k') as [->|N].
    - split; [congruence|intros H; exfalso; apply H; auto].
    - rewrite IH; split; intros H; [intros [E|E]; [congruence|tauto]|tauto].
  Qed.

  Lemma d_get_some_key k v d : d_get k d = Some v -> In k (d_keys d).
  Proof. intros H; apply d_get_in in H; apply (in_map fst) in H; exact H. Qed.

  Lemma d_in_get k v d : NoDup (d_keys d) -> In (k, v) d -> d_get k d = Some v.
  Proof.
    induction d as [|[k' v'] t IH]; simpl; [tauto|].
    intros ND H; inversion ND as [|? ? NI ND']; subst.
    destruct (String.eqb_spec k k') as [->|N].
    - destruct H as [H|H]; [congruence|].
      exfalso; apply NI; apply (in_map fst) in H; exact H.
    - destruct H as [H|H]; [congruence|auto].
  Qed.

  Lemma d_nodup_set k v d : NoDup (d_keys d) -> NoDup (d_keys (d_set k v d)).
  Proof.
    intros ND; destruct (in_dec string_dec k (d_keys d)) as [I|I].
    - rewrite d_keys_set_in; assumption.
    - rewrite d_keys_set_notin by assumption.
      unfold d_keys; rewrite map_app; simpl.
      apply NoDup_Add with (a := k) (l := map fst d).
      + replace (map fst d) with (map fst d ++ []) at 1 by apply app_nil_r.
        apply Add_app.
      + split; assumption.
  Qed.

  Lemma d_set_forall (P : string * V -> Prop) k v d :
    (forall k', P (k', v)) -> Forall P d -> Forall P (d_set k v d).
  Proof.
    intros Hv; induction d as [|[k' v'] t IH]; simpl; intros H.
    - constructor; auto.
    - inversion H; subst; destruct (String.eqb k k'); constructor; auto.
  Qed.

  Lemma d_del_keys k d : NoDup (d_keys d) ->
    forall k', In k' (d_keys (d_del k d)) <-> In k' (d_keys d) /\ k' <> k.
  Proof.
    induction d as [|[k1 v1] t IH]; simpl; [tauto|].
    intros ND k'; inversion ND as [|? ? NI ND']; subst.
    destruct (String.eqb_spec k k1) as [->|N]; simpl.
    - split; [intros H|intros [[H|H] Hn]]; [|congruence|assumption].
      split; [right; exact H|intros ->; tauto].
    - rewrite IH by assumption; split.
      + intros [H|[H Hn]]; [subst; split; [auto|congruence]|tauto].
      + intros [[H|H] Hn]; tauto.
  Qed.

  Lemma d_nodup_del k d : NoDup (d_keys d) -> NoDup (d_keys (d_del k d)).
  Proof.
    induction d as [|[k1 v1] t IH]; simpl; [auto|].
    intros ND; inversion ND as [|? ? NI ND']; subst.
    destruct (String.eqb_spec k k1) as [->|N]; simpl; [assumption|].
    constructor; [|auto].
    intros H; apply d_del_keys in H; tauto.
  Qed.

  Lemma d_get_del_other k k' d : k <> k' -> d_get k (d_del k' d) = d_get k d.
  Proof.
    intros N; induction d as [|[k1 v1] t IH]; simpl; [reflexivity|].
    destruct (String.eqb_spec k' k1) as [->|N1]; simpl.
    - destruct (String.eqb_spec k k1); congruence.
    - destruct (String.eqb k k1); auto.
  Qed.

  Lemma d_get_del_same k d : NoDup (d_keys d) -> d_get k (d_del k d) = None.
  Proof.
    intros ND; apply d_get_none; intros H; apply d_del_keys in H; tauto.
  Qed.

  Lemma d_del_forall (P : string * V -> Prop) k d :
    Forall P d -> Forall P (d_del k d).
  Proof.
    induction d as [|[k' v'] t IH]; simpl; intros H; [auto|].
    inversion H; subst; destruct (String.eqb k k'); auto.
  Qed.

  Lemma d_mem_keys k d : d_mem k d = true <-> In k (d_keys d).
  Proof.
    unfold d_mem; destruct (d_get k d) eqn:E.
    - split; [intros _; eapply d_get_some_key; eauto|auto].
    - apply d_get_none in E; split; [congruence|tauto].
  Qed.

  Lemma d_set_self k v d : d_get k d = Some v -> d_set k v d = d.
  Proof.
    induction d as [|[k' v'] t IH]; simpl; [congruence|].
    destruct (String.eqb_spec k k') as [->|N]; intros H; [congruence|].
    f_equal; auto.
  Qed.
End Dict.

Lemma smem_in s l : smem s l = true <-> In s l.
Proof.
  unfold smem; rewrite existsb_exists; split.
  - intros [x [H E]]; apply String.eqb_eq in E; subst; exact H.
  - intros H; exists s; split; [exact H|apply String.eqb_refl].
Qed.

(** ** Dotted keys *)
Lemma split_on_nonnil c s : split_on c s <> [].
Proof.
  induction s as [|a t IH]; simpl; [congruence|].
  destruct (Ascii.eqb a c); [congruence|destruct (split_on c t); congruence].
Qed.

Lemma join_split c s : join_on c (split_on c s) = s.
Proof.
  induction s as [|a t IH]; [reflexivity|].
  cbn [split_on]; destruct (Ascii.eqb_spec a c) as [->|N].
  - pose proof (split_on_nonnil c t) as NN.
    destruct (split_on c t) as [|h r] eqn:E; [congruence|].
    cbn [join_on] in *; rewrite <- IH; simpl; reflexivity.
  - destruct (split_on c t) as [|h r] eqn:E.
    + exfalso; eapply split_on_nonnil; eauto.
    + rewrite <- IH; destruct r as [|h' r']; simpl; reflexivity.
Qed.

Lemma split_on_nochar c s : has_char c s = false -> split_on c s = [s].
Proof.
  induction s as [|a t IH]; simpl; [reflexivity|].
  intros H; apply orb_false_elim in H; destruct H as [H1 H2].
  rewrite H1, (IH H2); reflexivity.
Qed.

Lemma split_app_char c s t : has_char c s = false ->
  split_on c (String.append s (String c t)) = s :: split_on c t.
Proof.
  induction s as [|a r IH]; simpl; intros H.
  - rewrite Ascii.eqb_refl; reflexivity.
  - apply orb_false_elim in H; destruct H as [H1 H2].
    rewrite H1, (IH H2); reflexivity.
Qed.

Lemma split_join c l : l <> [] -> Forall (fun s => has_char c s = false) l ->
  split_on c (join_on c l) = l.
Proof.
  induction l as [|s [|s' t] IH]; intros NN H; [congruence| |].
  - inversion H; subst; apply split_on_nochar; assumption.
  - inversion H; subst.
    change (join_on c (s :: s' :: t)) with (String.append s (String c (join_on c (s' :: t)))).
    rewrite split_app_char by assumption.
    rewrite IH; [reflexivity|congruence|assumption].
Qed.

Lemma split_on_parts c s : Forall (fun x => has_char c x = false) (split_on c s).
Proof.
  induction s as [|a t IH]; simpl; [repeat constructor|].
  destruct (Ascii.eqb a c) eqn:E; [constructor; auto|].
  pose proof (split_on_nonnil c t) as NN.
  destruct (split_on c t) as [|h r]; [congruence|].
  inversion IH; subst; constructor; [simpl; rewrite E; assumption|assumption].
Qed.

(** ** Induction over nested values *)
Section ValInd.
  Variable P : val -> Prop.
  Hypothesis HN : P VNone.
  Hypothesis HB : forall b, P (VBool b).
  Hypothesis HI : forall z, P (VInt z).
  Hypothesis HS : forall s, P (VStr s).
  Hypothesis HL : forall l, Forall P l -> P (VList l).
  Hypothesis HD : forall d, Forall (fun kv => P (snd kv)) d -> P (VDict d).

  Fixpoint val_ind' (v : val) : P v :=
    match v with
    | VNone => HN
    | VBool b => HB b
    | VInt z => HI z
    | VStr s => HS s
    | VList l => HL l ((fix go l : Forall P l :=
                          match l with [] => Forall_nil _ | x :: t => Forall_cons x (val_ind' x) (go t) end) l)
    | VDict d => HD d ((fix go d : Forall (fun kv => P (snd kv)) d :=
                          match d with [] => Forall_nil _ | kv :: t => Forall_cons kv (val_ind' (snd kv)) (go t) end) d)
    end.
End ValInd.
