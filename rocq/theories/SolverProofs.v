(** Proofs about objectives, bounds and fixed variables. *)
From Coq Require Import QArith Qcanon Sorted Lia.
From Verif Require Import Base BaseProofs EvalModel HelperModel HelperProofs UpdateModel UpdateProofs SolverModel SolverSpec.
Local Open Scope nat_scope.
Local Open Scope string_scope.
Local Open Scope list_scope.

(** * Objectives *)
Lemma d_get_del_other {V} k n (D : list (string * V)) : k <> n -> d_get k (d_del n D) = d_get k D.
Proof.
  intros N. induction D as [|[x v] D IH]; cbn; [reflexivity|]. destruct (String.eqb_spec n x) as [->|N1]; cbn.
  - destruct (String.eqb_spec k x); [congruence|reflexivity].
  - now rewrite IH.
Qed.
Lemma get_none_app {V} k (D : list (string * V)) v : d_get k D = None -> d_get k (D ++ [(k, v)]) = Some v.
Proof. intros H. rewrite get_app, H. cbn. now rewrite String.eqb_refl. Qed.
Lemma get_app_other {V} k n (D : list (string * V)) v : k <> n -> d_get k (D ++ [(n, v)]) = d_get k D.
Proof. intros N. rewrite get_app. destruct (d_get k D); [reflexivity|]. cbn. destruct (String.eqb_spec k n); [congruence|reflexivity]. Qed.

Lemma add_settled_not l : forall o o', add_objectives l o = Some o' -> ~ In (o_named o) (map fst l) -> o_named o' = o_named o /\ o_on o' = o_on o /\
  d_get (o_named o) (o_built o') = d_get (o_named o) (o_built o).
Proof.
  induction l as [|[n x] l IH]; cbn; intros o o' H N; [injection H as <-; auto|].
  destruct (add_objective n x o) as [o1|] eqn:E; [|discriminate].
  unfold add_objective in E. destruct (d_get n (o_built o)) eqn:G; [discriminate|]. injection E as <-.
  apply IH in H; cbn [o_named] in *; [|tauto]. cbn [o_on o_built] in H. destruct H as (-> & -> & ->).
  rewrite get_app_other by (intros E; apply N; auto).
  destruct (String.eqb_spec n (o_named o)) as [E|_]; [exfalso; apply N; auto|]. now destruct x.
Qed.
Lemma build_settled named l o : NoDup (map fst l) -> build_objectives named l = Some o ->
  (exists e, In (named, Some e) l) -> settled o /\ o_named o = named.
Proof.
  intros ND H [e HI]. unfold build_objectives in H.
  assert (G : forall l o0, o_on o0 = [] -> o_named o0 = named -> d_get named (o_built o0) = None -> NoDup (map fst l) ->
    In (named, Some e) l -> add_objectives l o0 = Some o -> settled o /\ o_named o = named).
  { clear. induction l as [|[n x] l IH]; cbn; intros o0 Hon Hn HG ND HI H; [tauto|].
    destruct (add_objective n x o0) as [o1|] eqn:E; [|discriminate].
    unfold add_objective in E. destruct (d_get n (o_built o0)) eqn:G; [discriminate|].
    rewrite NoDup_cons_iff in ND. destruct ND as [N ND]. destruct HI as [HI|HI].
    - injection HI as -> ->. rewrite Hn, String.eqb_refl, Hon in E. injection E as <-.
      apply add_settled_not in H; [|cbn; exact N]. cbn in H. destruct H as (H1 & H2 & H3).
      rewrite get_none_app in H3 by exact G.
      split; [|congruence]. split; [congruence|]. exists e. rewrite H1. exact H3.
    - assert (D : n <> named) by (intros ->; apply N; apply in_map_iff; exists (named, Some e); auto).
      apply (IH o1); auto; injection E as <-; cbn; auto.
      + rewrite Hn. destruct (String.eqb_spec n named); [congruence|]. now destruct x.
      + rewrite get_app_other; auto. }
  refine (G l {| o_named := named; o_built := []; o_on := [] |} eq_refl eq_refl eq_refl ND HI H).
Qed.
Lemma off_other n m : n <> m -> off n [m] = [m].
Proof. intros N. unfold off. cbn. destruct (String.eqb_spec m n); [congruence|reflexivity]. Qed.
Lemma off_same n : off n [n] = [].
Proof. unfold off. cbn. now rewrite String.eqb_refl. Qed.

Definition named_after (s : switch) (n : string) : string := match s with Choose m => m | Renew _ _ => n end.
Lemma switch_settled o s : NoDup (d_keys (o_built o)) -> settled o -> allowed (o_built o) (o_named o) s ->
  settled (switch_one o s) /\ o_named (switch_one o s) = named_after s (o_named o) /\ NoDup (d_keys (o_built (switch_one o s))).
Proof.
  intros ND [H1 [e H2]] A. destruct s as [n|n x]; cbn in *.
  - destruct A as [f A]. unfold set_objective. rewrite H2, H1. cbn. rewrite A. cbn. rewrite String.eqb_refl. cbn.
    split; [split; cbn; eauto|auto].
  - unfold rebuild_objective. destruct (d_get n (o_built o)) eqn:G; [|cbn; repeat split; eauto].
    unfold add_objective. cbn [o_built o_named o_on].
    assert (GN : d_get n (d_del n (o_built o)) = None).
    { clear -ND. induction (o_built o) as [|[y v] D IH]; cbn in *; [reflexivity|]. rewrite NoDup_cons_iff in ND. destruct ND as [N ND].
      destruct (String.eqb_spec n y) as [->|NE]; cbn.
      - destruct (d_get y D) eqn:E; [|reflexivity]. exfalso. apply N. clear -E. induction D as [|[z w] D IH]; cbn in *; [discriminate|].
        destruct (String.eqb_spec y z); [auto|]. right. apply IH. exact E.
      - destruct (String.eqb_spec n y); [congruence|]. apply IH. exact ND. }
    rewrite GN. cbn [fst].
    assert (KN : NoDup (d_keys (d_del n (o_built o) ++ [(n, x)]))).
    { rewrite keys_app, keys_del by exact ND. apply nodup_app. split; [now apply NoDup_filter|]. split; [repeat constructor; intros []|].
      intros y Hy [<-|[]]. apply filter_In in Hy as [_ Hy]. cbn in Hy. now rewrite String.eqb_refl in Hy. }
    destruct (String.eqb_spec n (o_named o)) as [E|NE].
    + specialize (A E). destruct x as [f|]; [|congruence]. subst n. rewrite H1, off_same. cbn.
      split; [split; cbn; [reflexivity|]|auto]. exists f. now apply get_none_app.
    + rewrite H1, off_other by exact NE. split; [|split; [reflexivity|exact KN]]. split; cbn.
      * now destruct x.
      * exists e. rewrite get_app_other by auto. rewrite d_get_del_other; auto.
Qed.
Lemma switches_settled l : forall o, NoDup (d_keys (o_built o)) -> settled o -> all_allowed l o ->
  settled (switch_all l o) /\ o_named (switch_all l o) = last_choice l (o_named o).
Proof.
  induction l as [|s l IH]; intros o ND S1 A; [cbn; auto|]. cbn in A. destruct A as [A1 A2].
  destruct (switch_settled o s ND S1 A1) as (S2 & N2 & K2).
  change (switch_all (s :: l) o) with (switch_all l (switch_one o s)).
  destruct (IH _ K2 S2 A2) as [R1 R2]. split; [exact R1|]. rewrite R2, N2. now destruct s.
Qed.
Lemma add_keys l : forall o o', add_objectives l o = Some o' -> d_keys (o_built o') = d_keys (o_built o) ++ map fst l.
Proof.
  induction l as [|[n x] l IH]; cbn; intros o o' H; [injection H as <-; now rewrite app_nil_r|].
  destruct (add_objective n x o) as [o1|] eqn:E; [|discriminate]. apply IH in H. rewrite H.
  unfold add_objective in E. destruct (d_get n (o_built o)); [discriminate|]. injection E as <-. cbn [o_built g_built].
  rewrite keys_app, <- app_assoc. reflexivity.
Qed.

(** Gurobi *)
Lemma g_add_settled l : forall g g', g_adds l g = Some g' -> ~ In (g_named g) (map fst l) -> g_named g' = g_named g /\ g_inst g' = g_inst g /\
  d_get (g_named g) (g_built g') = d_get (g_named g) (g_built g).
Proof.
  induction l as [|[n x] l IH]; cbn; intros o o' H N; [injection H as <-; auto|].
  destruct (g_add n x o) as [o1|] eqn:E; [|discriminate].
  unfold g_add in E. destruct (d_get n (g_built o)) eqn:G; [discriminate|]. injection E as <-.
  apply IH in H; cbn [g_named] in *; [|tauto]. cbn [g_inst g_built] in H. destruct H as (-> & -> & ->).
  rewrite get_app_other by (intros E; apply N; auto).
  destruct (String.eqb_spec n (g_named o)) as [E|_]; [exfalso; apply N; auto|]. now destruct x.
Qed.
Lemma g_build_settled named l g : NoDup (map fst l) -> g_build named l = Some g ->
  (exists e, In (named, Some e) l) -> g_settled g /\ g_named g = named.
Proof.
  intros ND H [e HI]. unfold g_build in H.
  assert (G : forall l o0, g_named o0 = named -> d_get named (g_built o0) = None -> NoDup (map fst l) ->
    In (named, Some e) l -> g_adds l o0 = Some g -> g_settled g /\ g_named g = named).
  { clear. induction l as [|[n x] l IH]; cbn; intros o0 Hn HG ND HI H; [tauto|].
    destruct (g_add n x o0) as [o1|] eqn:E; [|discriminate].
    unfold g_add in E. destruct (d_get n (g_built o0)) eqn:G; [discriminate|].
    rewrite NoDup_cons_iff in ND. destruct ND as [N ND]. destruct HI as [HI|HI].
    - injection HI as -> ->. rewrite Hn, String.eqb_refl in E. injection E as <-.
      apply g_add_settled in H; [|cbn; exact N]. cbn in H. destruct H as (H1 & H2 & H3).
      rewrite get_none_app in H3 by exact G.
      split; [|congruence]. exists e. rewrite H1. split; [exact H3|exact H2].
    - assert (D : n <> named) by (intros ->; apply N; apply in_map_iff; exists (named, Some e); auto).
      apply (IH o1); auto; injection E as <-; cbn; auto.
      rewrite get_app_other; auto. }
  refine (G l {| g_named := named; g_built := []; g_inst := None |} eq_refl eq_refl ND HI H).
Qed.
Lemma g_one_settled g s : NoDup (d_keys (g_built g)) -> g_settled g ->
  match s with Choose _ => True | Renew n x => n = g_named g -> x <> None end ->
  g_settled (g_one g s) /\ NoDup (d_keys (g_built (g_one g s))).
Proof.
  intros ND (e & H1 & H2) A. destruct s as [n|n x]; cbn in *.
  - unfold g_set. destruct (d_get n (g_built g)) as [[f|]|] eqn:G; cbn; split; auto; try (exists e; auto; fail).
    exists f. auto.
  - unfold g_rebuild. destruct (d_get n (g_built g)) eqn:G; [|cbn; split; auto; exists e; auto].
    unfold g_add. cbn [g_built g_named g_inst].
    assert (GN : d_get n (d_del n (g_built g)) = None).
    { clear -ND. induction (g_built g) as [|[y v] D IH]; cbn in *; [reflexivity|]. rewrite NoDup_cons_iff in ND. destruct ND as [N ND].
      destruct (String.eqb_spec n y) as [->|NE]; cbn.
      - destruct (d_get y D) eqn:E; [|reflexivity]. exfalso. apply N. clear -E. induction D as [|[z w] D IH]; cbn in *; [discriminate|].
        destruct (String.eqb_spec y z); [auto|]. right. apply IH. exact E.
      - destruct (String.eqb_spec n y); [congruence|]. apply IH. exact ND. }
    rewrite GN. cbn [fst].
    assert (KN : NoDup (d_keys (d_del n (g_built g) ++ [(n, x)]))).
    { rewrite keys_app, keys_del by exact ND. apply nodup_app. split; [now apply NoDup_filter|]. split; [repeat constructor; intros []|].
      intros y Hy [<-|[]]. apply filter_In in Hy as [_ Hy]. cbn in Hy. now rewrite String.eqb_refl in Hy. }
    destruct (String.eqb_spec n (g_named g)) as [E|NE].
    + specialize (A E). destruct x as [f|]; [|congruence]. subst n. cbn. split; [|exact KN].
      exists f. cbn. split; [now apply get_none_app|reflexivity].
    + split; [|exact KN]. exists e. cbn. rewrite get_app_other by auto. rewrite d_get_del_other by auto. split; [exact H1|]. now destruct x.
Qed.
Lemma g_all_settled l : forall g, NoDup (d_keys (g_built g)) -> g_settled g -> keeps_current l g -> g_settled (g_all l g).
Proof.
  induction l as [|s l IH]; intros g ND S1 A; [exact S1|]. cbn in A. destruct A as [A1 A2].
  destruct (g_one_settled g s ND S1 A1) as [S2 K2]. change (g_all (s :: l) g) with (g_all l (g_one g s)). auto.
Qed.
Lemma g_add_keys l : forall o o', g_adds l o = Some o' -> d_keys (g_built o') = d_keys (g_built o) ++ map fst l.
Proof.
  induction l as [|[n x] l IH]; cbn; intros o o' H; [injection H as <-; now rewrite app_nil_r|].
  destruct (g_add n x o) as [o1|] eqn:E; [|discriminate]. apply IH in H. rewrite H.
  unfold g_add in E. destruct (d_get n (g_built o)); [discriminate|]. injection E as <-. cbn [o_built g_built].
  rewrite keys_app, <- app_assoc. reflexivity.
Qed.
