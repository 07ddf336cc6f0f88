(** Lemmas on the helper functions. *)
From Coq Require Import QArith Qcanon Permutation Lia.
From Verif Require Import Base BaseProofs LangModel EvalModel BuildProofs HelperModel HelperSpec.
From Verif Require CliModel CliProofs.
Local Open Scope nat_scope.
Local Open Scope string_scope.
Local Open Scope list_scope.
Local Arguments String.eqb : simpl never.
Local Arguments Qcplus : simpl never.
Local Arguments Qcmult : simpl never.
Local Arguments Qcopp : simpl never.
Local Arguments Q2Qc : simpl never.

(** * Positions *)
Lemma put_same p d l : put p d l d = l.
Proof. unfold put. now rewrite String.eqb_refl. Qed.
Lemma put_other p d l x : x <> d -> put p d l x = p x.
Proof. unfold put. intros H. now apply String.eqb_neq in H as ->. Qed.
Lemma puts_app p a b x y : List.length a = List.length x -> puts p (a ++ b) (x ++ y) = puts (puts p a x) b y.
Proof. revert p x. induction a as [|d a IH]; destruct x as [|l x]; cbn; try discriminate; auto. Qed.
Lemma puts_other ds : forall p ls x, ~ In x ds -> puts p ds ls x = p x.
Proof.
  induction ds as [|d ds IH]; intros p ls x H; [reflexivity|]. destruct ls as [|l ls]; [reflexivity|].
  cbn. rewrite IH; [|firstorder]. apply put_other. intros ->. apply H. now left.
Qed.
Lemma puts_ext ds : forall ls p q x, List.length ls = List.length ds ->
  (~ In x ds -> p x = q x) -> puts p ds ls x = puts q ds ls x.
Proof.
  induction ds as [|d ds IH]; intros ls p q x LN H.
  - cbn. apply H. intros [].
  - destruct ls as [|l ls]; [discriminate|]. cbn. apply IH; [now injection LN|].
    intros N. destruct (string_dec x d) as [->|NE].
    + now rewrite !put_same.
    + rewrite !put_other by assumption. apply H. intros [->|HI]; auto.
Qed.
Lemma puts_in ds : forall ls p x (P : string -> string -> Prop),
  Forall2 (fun d l => P d l) ds ls -> In x ds -> P x (puts p ds ls x).
Proof.
  induction ds as [|d ds IH]; intros ls p x P F HI; [destruct HI|].
  inversion F as [|? l ? ls' H1 H2]; subst. cbn.
  destruct (in_dec string_dec x ds) as [I1|N1].
  - now apply IH.
  - destruct HI as [->|HI]; [|contradiction]. rewrite puts_other, put_same by assumption. exact H1.
Qed.

Lemma merge_in a b d : In d (merge a b) <-> In d a \/ In d b.
Proof.
  unfold merge. rewrite in_app_iff, filter_In. destruct (smem d a) eqn:E.
  - apply smem_in in E. cbn. tauto.
  - cbn. tauto.
Qed.
Lemma without_in ds a d : In d (without ds a) <-> In d a /\ ~ In d ds.
Proof.
  unfold without. rewrite filter_In, negb_true_iff. split; intros [H1 H2]; split; auto.
  - intros H. apply smem_in in H. congruence.
  - destruct (smem d ds) eqn:E; auto. apply smem_in in E. contradiction.
Qed.
Lemma shared_in a b d : In d (shared a b) <-> In d a /\ In d b.
Proof. unfold shared. now rewrite filter_In, nodup_In, smem_in. Qed.
Lemma shared_nodup a b : NoDup (shared a b).
Proof. apply NoDup_filter, NoDup_nodup. Qed.
Lemma all_in_spec a b : all_in a b = true <-> forall d, In d a -> In d b.
Proof. unfold all_in. rewrite forallb_forall. split; intros H x HI; apply smem_in; auto. Qed.

(** * Spreading over dimensions *)
Section WithEnv.
Variable D : denv.

Lemma spread_nil p : spread D [] p = [p].
Proof. reflexivity. Qed.
Lemma spread_cons d ds p : spread D (d :: ds) p = flat_map (fun l => spread D ds (put p d l)) (n_labels D d).
Proof.
  unfold spread. cbn [map CliModel.product]. generalize (n_labels D d) as ls. induction ls as [|l ls IH]; [reflexivity|].
  cbn [flat_map]. rewrite map_app, IH. f_equal. rewrite map_map. reflexivity.
Qed.
Lemma spread_app a b p : spread D (a ++ b) p = flat_map (spread D b) (spread D a p).
Proof.
  revert p. induction a as [|d a IH]; intros p.
  - cbn. now rewrite app_nil_r.
  - cbn [app]. rewrite !spread_cons. generalize (n_labels D d) as ls. induction ls as [|l ls IHl]; [reflexivity|].
    cbn [flat_map]. now rewrite flat_map_app, IH, IHl.
Qed.
Lemma spread_in ds p q : In q (spread D ds p) -> exists ls, q = puts p ds ls /\ Forall2 (fun d l => In l (n_labels D d)) ds ls.
Proof.
  unfold spread. rewrite in_map_iff. intros (ls & <- & H). exists ls. split; [reflexivity|].
  apply CliProofs.product_in in H. clear -H. revert ls H. induction ds as [|d ds IH]; intros ls H; cbn in H.
  - inversion H. constructor.
  - inversion H as [|x l xs ? H1 H2]; subst. constructor; auto.
Qed.
Lemma spread_length_ok ds p q : In q (spread D ds p) -> forall x, ~ In x ds -> q x = p x.
Proof. intros H x N. apply spread_in in H as (ls & -> & _). now apply puts_other. Qed.
Lemma spread_labels ds p q x : In q (spread D ds p) -> In x ds -> In (q x) (n_labels D x).
Proof.
  intros H HI. apply spread_in in H as (ls & -> & F).
  apply (puts_in ds ls p x (fun d l => In l (n_labels D d))); assumption.
Qed.
Lemma spread_inside ds dims p q : inside D (without ds dims) p -> In q (spread D ds p) -> inside D dims q.
Proof.
  intros H HI d Hd. destruct (in_dec string_dec d ds) as [I1|N1].
  - now apply (spread_labels ds p).
  - rewrite (spread_length_ok ds p q HI d N1). apply H, without_in. now split.
Qed.

(** Entries over the same positions. *)
Lemma spread_map_ext {A} (f g : pos -> A) ds p p' :
  (forall q q', (forall d, In d ds -> q d = q' d) -> (forall d, ~ In d ds -> q d = p d /\ q' d = p' d) -> f q = g q') ->
  map f (spread D ds p) = map g (spread D ds p').
Proof.
  intros H. unfold spread. rewrite !map_map. apply map_ext_in. intros ls HI.
  apply CliProofs.product_in in HI.
  assert (LN : List.length ls = List.length ds).
  { rewrite <- (map_length (n_labels D) ds). clear -HI. induction HI; cbn; auto. }
  apply H.
  - intros d Hd. apply puts_ext; auto. intros N. contradiction.
  - intros d N. split; now apply puts_other.
Qed.
Lemma local_spread a ds p p' : local a -> (forall d, In d (a_dims a) -> ~ In d ds -> p d = p' d) ->
  map (a_at a) (spread D ds p) = map (a_at a) (spread D ds p').
Proof.
  intros LA H. apply spread_map_ext. intros q q' H1 H2. apply LA. intros d Hd.
  destruct (in_dec string_dec d ds) as [I1|N1]; [now apply H1|].
  destruct (H2 d N1) as [-> ->]. now apply H.
Qed.

(** * Sums *)
Definition value_sum (l : list cell) : Qc := fold_right (fun x s => (worth x + s)%Qc) 0%Qc l.
Definition summed (l : list cell) : cell := if forallb missing l then Miss else Val (value_sum l).

Lemma fold_plus l : Forall numeric l -> forall q,
  fold_left (fun a b => plus D a (numeral b)) (filter (fun c => negb (missing c)) l) (Val q) = Val (q + value_sum l)%Qc.
Proof.
  induction l as [|c l IH]; intros F q.
  - cbn. f_equal. ring.
  - inversion F as [|? ? H1 H2]; subst. cbn. destruct c as [|x|b|b|s]; cbn in H1; try contradiction; cbn.
    + rewrite IH by assumption. f_equal. unfold value_sum. ring.
    + rewrite IH by assumption. f_equal. unfold value_sum. ring.
    + rewrite IH by assumption. f_equal. unfold value_sum. destruct b; ring.
Qed.
Lemma total_summed l : Forall numeric l -> total D l = summed l.
Proof.
  unfold total, summed. induction l as [|c l IH]; intros F; [reflexivity|].
  inversion F as [|? ? H1 H2]; subst. cbn. destruct c as [|x|b|b|s]; cbn in H1; try contradiction; cbn.
  - rewrite IH by assumption. destruct (forallb missing l); [reflexivity|]. f_equal. unfold value_sum. ring.
  - now apply fold_plus.
  - destruct b; now rewrite fold_plus.
Qed.
Lemma summed_spec l : sum_of l (summed l).
Proof.
  unfold sum_of, summed. destruct (forallb missing l) eqn:E; [left|right]; (split; [|reflexivity]).
  - rewrite forallb_forall in E. intros x H. specialize (E x H). now destruct x.
  - clear -E. induction l as [|c l IH]; [discriminate|]. cbn in E. destruct (missing c) eqn:M.
    + destruct (IH E) as (x & H & N). exists x. split; [now right|assumption].
    + exists c. split; [now left|]. intros ->. discriminate.
Qed.
Lemma sum_of_fun l c c' : sum_of l c -> sum_of l c' -> c = c'.
Proof.
  intros [[A ->]|[(x & I1 & N1) ->]] [[B ->]|[(y & I2 & N2) ->]]; auto.
  - exfalso. auto.
  - exfalso. auto.
Qed.
Lemma value_sum_app a b : value_sum (a ++ b) = (value_sum a + value_sum b)%Qc.
Proof. unfold value_sum. induction a as [|c a IH]; cbn; [ring|]. rewrite IH. ring. Qed.
Lemma value_sum_missing l : forallb missing l = true -> value_sum l = 0%Qc.
Proof.
  induction l as [|c l IH]; cbn; [reflexivity|]. intros H. apply andb_true_iff in H as [H1 H2].
  unfold value_sum in IH. rewrite (IH H2). destruct c; try discriminate. cbn. ring.
Qed.
Lemma worth_summed l : worth (summed l) = value_sum l.
Proof. unfold summed. destruct (forallb missing l) eqn:E; [|reflexivity]. cbn. symmetry. now apply value_sum_missing. Qed.
Lemma missing_summed l : missing (summed l) = forallb missing l.
Proof. unfold summed. now destruct (forallb missing l). Qed.
Lemma numeric_summed l : numeric (summed l).
Proof. unfold summed. now destruct (forallb missing l). Qed.
Lemma summed_concat ls : summed (map summed ls) = summed (List.concat ls).
Proof.
  unfold summed at 1 3.
  assert (E : forallb missing (map summed ls) = forallb missing (List.concat ls)).
  { induction ls as [|l ls IH]; [reflexivity|]. cbn. now rewrite forallb_app, missing_summed, IH. }
  rewrite E. destruct (forallb missing (List.concat ls)); [reflexivity|]. f_equal. clear E.
  induction ls as [|l ls IH]; [reflexivity|]. cbn. rewrite value_sum_app, worth_summed. unfold value_sum in *. now rewrite IH.
Qed.
Lemma summed_perm l l' : Permutation l l' -> summed l = summed l'.
Proof.
  intros P. unfold summed.
  assert (forallb missing l = forallb missing l') as ->.
  { apply eq_true_iff_eq. rewrite !forallb_forall. split; intros H x HI; apply H.
    - now apply (Permutation_in _ (Permutation_sym P)).
    - now apply (Permutation_in _ P). }
  destruct (forallb missing l'); [reflexivity|]. f_equal. unfold value_sum.
  induction P; cbn; auto; [now rewrite IHP|ring|congruence].
Qed.
Lemma summed_missing_out (f : cell -> bool) l : (forall x, In x l -> f x = false -> x = Miss) -> summed (filter f l) = summed l.
Proof.
  intros H. unfold summed.
  assert (E : forallb missing (filter f l) = forallb missing l /\ value_sum (filter f l) = value_sum l).
  { induction l as [|c l IH]; [now split|]. destruct IH as [I1 I2]; [intros x HI; apply H; now right|].
    cbn. destruct (f c) eqn:F.
    - cbn. unfold value_sum in *. now rewrite I1, I2.
    - rewrite (H c (or_introl eq_refl) F). cbn. unfold value_sum in *. rewrite I1, I2. split; [reflexivity|]. ring. }
  destruct E as [-> ->]. reflexivity.
Qed.
Lemma numbers_spread a ds p : numbers D a -> inside D (without ds (a_dims a)) p -> Forall numeric (map (a_at a) (spread D ds p)).
Proof.
  intros N H. apply Forall_forall. intros c HI. apply in_map_iff in HI as (q & <- & HQ).
  apply N. now apply (spread_inside ds _ p).
Qed.
Lemma h_sum_at over a p : numbers D a -> inside D (without (shared over (a_dims a)) (a_dims a)) p ->
  a_at (h_sum D over a) p = summed (map (a_at a) (spread D (shared over (a_dims a)) p)).
Proof. intros N H. cbn. apply total_summed. now apply numbers_spread. Qed.
Lemma h_sum_numbers over a : numbers D a -> numbers D (h_sum D over a).
Proof. intros N p H. rewrite h_sum_at by assumption. apply numeric_summed. Qed.

Lemma flat_map_swap {A B C} (f : A -> B -> list C) la lb :
  Permutation (flat_map (fun a => flat_map (f a) lb) la) (flat_map (fun b => flat_map (fun a => f a b) la) lb).
Proof.
  induction la as [|a la IH]; cbn.
  - induction lb; cbn; auto.
  - rewrite IH. clear IH. induction lb as [|b lb IH]; cbn; [reflexivity|].
    rewrite <- IH. rewrite <- !app_assoc. apply Permutation_app_head. rewrite !app_assoc.
    apply Permutation_app_tail, Permutation_app_comm.
Qed.
Lemma flat_map_perm_ext {A B} (f g : A -> list B) l : (forall x, In x l -> Permutation (f x) (g x)) -> Permutation (flat_map f l) (flat_map g l).
Proof. induction l as [|x l IH]; intros H; cbn; [constructor|]. apply Permutation_app; [apply H; now left|apply IH; intros y HI; apply H; now right]. Qed.
Lemma map_flat_map {A B C} (f : B -> C) (g : A -> list B) l : map f (flat_map g l) = flat_map (fun x => map f (g x)) l.
Proof. induction l as [|x l IH]; cbn; [reflexivity|]. now rewrite map_app, IH. Qed.

Lemma spread_perm a ds ds' : local a -> NoDup ds -> Permutation ds ds' -> forall p,
  Permutation (map (a_at a) (spread D ds p)) (map (a_at a) (spread D ds' p)).
Proof.
  intros LA ND P. induction P as [|x l l' P IH|x y l|l l' l'' P1 IH1 P2 IH2]; intros p.
  - reflexivity.
  - rewrite !spread_cons, !map_flat_map. apply flat_map_perm_ext. intros v _. apply IH. now inversion ND.
  - assert (NE : y <> x). { inversion ND as [|? ? H1 H2]; subst. intros ->. apply H1. now left. }
    rewrite !spread_cons. erewrite flat_map_ext; [|intros v; apply spread_cons].
    erewrite (flat_map_ext _ _ (fun v => spread_cons y l (put p x v))).
    rewrite !map_flat_map.
    erewrite flat_map_ext; [|intros v; apply map_flat_map].
    erewrite (flat_map_ext (fun x0 => map (a_at a) (flat_map _ _))); [|intros v; apply map_flat_map].
    rewrite flat_map_swap. apply flat_map_perm_ext. intros u _. apply flat_map_perm_ext. intros v _.
    assert (forall (l1 l2 : list cell), l1 = l2 -> Permutation l1 l2) as R by (intros ? ? ->; reflexivity).
    apply R, local_spread; [assumption|]. intros d _ _. unfold put.
    destruct (String.eqb d x) eqn:E1, (String.eqb d y) eqn:E2; auto.
    apply String.eqb_eq in E1, E2. congruence.
  - rewrite IH1 by assumption. apply IH2. now apply (Permutation_NoDup P1).
Qed.
End WithEnv.
