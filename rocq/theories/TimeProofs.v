From Coq Require Import Sorted.
From Verif Require Import Base TimeModel TimeSpec.
Local Open Scope list_scope.
Local Open Scope Z_scope.

(** ** Ordered lists *)
Lemma ordered_bounds ts t : ordered ts -> In t ts -> hd 0 ts <= t <= last ts 0.
Proof.
  intros O; revert t; induction O as [|a l O IH F]; [intros ? []|]; intros t I; rewrite Forall_forall in F.
  destruct l as [|b l]; [destruct I as [->|[]]; simpl; lia|].
  change (last (a :: b :: l) 0) with (last (b :: l) 0); simpl hd in *.
  destruct I as [->|I].
  - split; [lia|]; assert (B : In b (b :: l)) by (left; reflexivity); specialize (F b B); specialize (IH b B); lia.
  - specialize (F t I); specialize (IH t I); simpl in IH; destruct l; simpl in *; lia.
Qed.

Lemma ordered_nodup ts : ordered ts -> NoDup ts.
Proof.
  induction 1 as [|a l O IH F]; constructor; [|exact IH]; rewrite Forall_forall in F; intros I; specialize (F a I); lia.
Qed.

Lemma ordered_filter p ts : ordered ts -> ordered (filter p ts).
Proof.
  induction 1 as [|a l O IH F]; simpl; [constructor|]; destruct (p a); [|exact IH]; constructor; [exact IH|].
  rewrite Forall_forall in *; intros x I; apply filter_In in I; apply F; tauto.
Qed.

(** ** Bins *)
Lemma bin_mono o step a b : 0 < step -> a <= b -> bin o step a <= bin o step b.
Proof.
  intros S L; unfold bin; assert ((a - o) / step <= (b - o) / step) by (apply Z.div_le_mono; lia); nia.
Qed.

Lemma bin_mod o step a : exists k, bin o step a = o + k * step.
Proof. eexists; reflexivity. Qed.

Lemma labels_nodup ts step : 0 < step -> NoDup (labels ts step).
Proof.
  intros S; unfold labels; apply FinFun.Injective_map_NoDup; [|apply seq_NoDup].
  intros i j E; nia.
Qed.

Lemma labels_in ts step t : 0 < step -> ordered ts -> In t ts -> In (bin (origin ts) step t) (labels ts step).
Proof.
  intros S O I; unfold labels; cbv zeta; set (o := origin ts).
  destruct (ordered_bounds ts t O I) as [L1 L2].
  pose proof (bin_mono o step _ _ S L1) as B1; pose proof (bin_mono o step _ _ S L2) as B2.
  destruct (bin_mod o step (hd 0 ts)) as [k1 K1], (bin_mod o step (last ts 0)) as [k2 K2], (bin_mod o step t) as [k K].
  rewrite K1, K2, K in *; assert (k1 <= k <= k2) by nia.
  apply in_map_iff; exists (Z.to_nat (k - k1)); split; [rewrite Z2Nat.id by lia; ring|].
  apply in_seq; split; [lia|].
  replace (o + k2 * step - (o + k1 * step)) with ((k2 - k1) * step) by ring.
  rewrite Z.div_mul by lia; lia.
Qed.

(** ** Sums *)
Lemma total_values l : total l (qsum (values l)).
Proof.
  induction l as [|[q|] l IH]; simpl; [constructor|apply to_some; exact IH|apply to_none; exact IH].
Qed.

Lemma total_fun l a b : total l a -> total l b -> a = b.
Proof.
  intros T; revert b; induction T; intros b B; inversion B; subst; [reflexivity|f_equal; auto|auto].
Qed.

Definition otot (o : option Q) : Q := match o with Some q => q | None => 0%Q end.
Lemma qsum_values l : (qsum (values l) == qsum (map otot l))%Q.
Proof. induction l as [|[q|] l IH]; simpl; rewrite ?IH; [reflexivity|reflexivity|ring]. Qed.

Lemma agg_sum l : (otot (aggregate MSum l) == qsum (values l))%Q.
Proof. unfold aggregate; destruct (values l); reflexivity. Qed.

Lemma qsum_app a b : (qsum (a ++ b) == qsum a + qsum b)%Q.
Proof. induction a as [|x a IH]; simpl; [ring|rewrite IH; ring]. Qed.

(** A sum over bins is the sum over the series. *)
Lemma partition_sum {X} (key : X -> Z) (val : X -> Q) (ls : list Z) : NoDup ls ->
  forall s : list X, (forall x, In x s -> In (key x) ls) ->
  (qsum (map (fun l => qsum (map val (filter (fun x => key x =? l) s))) ls) == qsum (map val s))%Q.
Proof.
  intros ND s; induction s as [|x s IH]; intros C.
  - simpl; clear; induction ls as [|l ls IH]; simpl; [reflexivity|rewrite IH; ring].
  - simpl; rewrite <- IH by (intros y Y; apply C; right; exact Y).
    assert (I : In (key x) ls) by (apply C; left; reflexivity).
    clear - ND I; induction ls as [|l ls IHl]; [destruct I|]; simpl; inversion ND as [|? ? NI ND']; subst.
    destruct (Z.eqb_spec (key x) l) as [E|E]; simpl.
    + rewrite (map_ext_in _ (fun l0 => qsum (map val (filter (fun x0 => key x0 =? l0) s)))); [ring|].
      intros l0 I0; destruct (Z.eqb_spec (key x) l0) as [E0|E0]; [exfalso; apply NI; congruence|reflexivity].
    + destruct I as [I|I]; [congruence|]; rewrite (IHl ND' I); ring.
Qed.

Lemma resample_total step s a b : 0 < step -> ordered (map fst s) ->
  total (map snd s) a -> total (map snd (resample MSum step s)) b -> (a == b)%Q.
Proof.
  intros S O A B.
  rewrite (total_fun _ _ _ A (total_values _)), (total_fun _ _ _ B (total_values _)), !qsum_values.
  unfold resample; cbv zeta; rewrite !map_map; cbn [snd].
  set (o := origin (map fst s)).
  pose proof (partition_sum (fun tv : Z * option Q => bin o step (fst tv)) (fun tv => otot (snd tv)) _
     (labels_nodup (map fst s) step S) s) as P.
  rewrite <- P.
  - clear; induction (labels (map fst s) step) as [|l ls IH]; simpl; [reflexivity|].
    rewrite IH, agg_sum, qsum_values, map_map; reflexivity.
  - intros x I; apply labels_in; [exact S|exact O|apply in_map; exact I].
Qed.

(** ** Ranges *)
Lemma in_values q l : In q (values l) <-> In (Some q) l.
Proof.
  induction l as [|[x|] l IH]; simpl; [tauto| |].
  - rewrite IH; split; intros [E|E]; auto; [left; congruence|injection E as ->; auto].
  - rewrite IH; split; [auto|intros [E|E]; [discriminate|exact E]].
Qed.

Lemma qsum_bounds lo hi l : (forall q, In q l -> lo <= q <= hi)%Q ->
  (lo * inject_Z (Z.of_nat (List.length l)) <= qsum l <= hi * inject_Z (Z.of_nat (List.length l)))%Q.
Proof.
  induction l as [|x l IH]; intros B; [simpl; split; simpl; rewrite Qmult_0_r; apply Qle_refl|].
  destruct IH as [I1 I2]; [intros q I; apply B; right; exact I|]; destruct (B x (or_introl eq_refl)) as [B1 B2].
  assert (E : (inject_Z (Z.of_nat (List.length (x :: l))) == 1 + inject_Z (Z.of_nat (List.length l)))%Q).
  { cbn [List.length]; rewrite Nat2Z.inj_succ; unfold Z.succ; rewrite inject_Z_plus; change (inject_Z 1) with 1%Q; ring. }
  rewrite E; cbn [qsum fold_right]; fold (qsum l); split.
  - apply (Qle_trans _ (lo + lo * inject_Z (Z.of_nat (List.length l)))); [apply Qle_lteq; right; ring|apply Qplus_le_compat; assumption].
  - apply (Qle_trans _ (hi + hi * inject_Z (Z.of_nat (List.length l)))); [apply Qplus_le_compat; assumption|apply Qle_lteq; right; ring].
Qed.

Lemma aggregate_bounds m lo hi l q : m <> MSum ->
  (forall x, In (Some x) l -> lo <= x <= hi)%Q -> aggregate m l = Some q -> (lo <= q <= hi)%Q.
Proof.
  intros M B; unfold aggregate.
  assert (V : forall x, In x (values l) -> (lo <= x <= hi)%Q) by (intros x I; apply B, in_values; exact I).
  destruct (values l) as [|x r]; [discriminate|]; intros E; injection E as <-; destruct m; [congruence| |apply V; left; reflexivity].
  destruct (qsum_bounds lo hi (x :: r) V) as [B1 B2].
  assert (P : (0 < inject_Z (Z.of_nat (List.length (x :: r))))%Q) by (unfold Qlt; simpl; lia).
  split; [apply Qle_shift_div_l; assumption|apply Qle_shift_div_r; assumption].
Qed.

Lemma resample_range m step s lo hi : m <> MSum -> within lo hi s -> within lo hi (resample m step s).
Proof.
  intros M W t q I; unfold resample in I; apply in_map_iff in I; destruct I as [l [E _]]; injection E as _ E.
  eapply aggregate_bounds; [exact M| |exact E].
  intros x X; apply in_map_iff in X; destruct X as [[t' v] [E' X]]; simpl in E'; subst v; apply filter_In in X; apply (W t'); tauto.
Qed.

(** A bin has a value exactly if a time stamp in it has one. *)
Lemma resample_missing m step s l v : In (l, v) (resample m step s) ->
  (v = None <-> forall t q, In (t, Some q) s -> bin (origin (map fst s)) step t <> l).
Proof.
  intros I; unfold resample in I; apply in_map_iff in I; destruct I as [l' [E _]]; injection E as -> E.
  unfold aggregate in E; set (vs := map snd _) in E.
  assert (V : forall q, In q (values vs) <-> exists t, In (t, Some q) s /\ bin (origin (map fst s)) step t = l).
  { intros q; rewrite in_values; unfold vs; rewrite in_map_iff; split.
    - intros [[t o] [O F]]; simpl in O; subst o; apply filter_In in F; destruct F as [F G]; apply Z.eqb_eq in G; exists t; auto.
    - intros [t [F G]]; exists (t, Some q); split; [reflexivity|]; apply filter_In; split; [exact F|apply Z.eqb_eq; exact G]. }
  destruct (values vs) as [|x r] eqn:VS; subst v; split; try discriminate; try reflexivity.
  - intros _ t q I B; assert (X : In q []) by (apply V; exists t; auto); destruct X.
  - intros H; exfalso; destruct (proj1 (V x) (or_introl eq_refl)) as [t [F G]]; exact (H t x F G).
Qed.

(** ** Resolution *)
Lemma zsum_app a b : zsum (a ++ b) = zsum a + zsum b.
Proof. induction a as [|x a IH]; simpl; [reflexivity|rewrite IH; lia]. Qed.

Lemma regular_S t0 h n : regular t0 h (S n) = t0 :: regular (t0 + h) h n.
Proof.
  unfold regular; cbn [seq map]; f_equal; [lia|]; rewrite <- seq_shift, map_map; apply map_ext; intros i; lia.
Qed.

Lemma diffs_cons a b r : diffs (a :: b :: r) = (b - a) :: diffs (b :: r).
Proof. reflexivity. Qed.

Lemma diffs_regular h n : forall t0, diffs (regular t0 h (S n)) = repeat h n.
Proof.
  induction n as [|n IH]; intros t0; [reflexivity|].
  rewrite regular_S, regular_S, diffs_cons, <- regular_S, IH; cbn [repeat]; f_equal; lia.
Qed.

Lemma last_repeat {A} (x d : A) n : last (repeat x (S n)) d = x.
Proof. induction n as [|n IH]; [reflexivity|]; change (repeat x (S (S n))) with (x :: repeat x (S n)); simpl in *; exact IH. Qed.

Lemma zsum_repeat h n : zsum (repeat h n) = Z.of_nat n * h.
Proof. induction n as [|n IH]; [reflexivity|]; cbn [repeat zsum fold_right]; fold (zsum (repeat h n)); rewrite IH; lia. Qed.

Lemma resolutions_regular t0 h n : (2 <= n)%nat -> zsum (resolutions (regular t0 h n)) = Z.of_nat n * h.
Proof.
  intros L; destruct n as [|[|n]]; try lia.
  assert (E : resolutions (regular t0 h (S (S n))) = diffs (regular t0 h (S (S n))) ++ [last (diffs (regular t0 h (S (S n)))) 0]).
  { rewrite !regular_S; reflexivity. }
  rewrite E, diffs_regular, last_repeat, zsum_app, zsum_repeat; cbn [zsum fold_right]; lia.
Qed.

Lemma regular_hd t0 h n : (0 < n)%nat -> hd 0 (regular t0 h n) = t0.
Proof. destruct n; [lia|]; rewrite regular_S; reflexivity. Qed.
Lemma regular_last t0 h n : last (regular t0 h (S n)) 0 = t0 + Z.of_nat n * h.
Proof.
  revert t0; induction n as [|n IH]; intros t0; [unfold regular; simpl; lia|].
  rewrite regular_S; destruct (regular (t0 + h) h (S n)) eqn:E; [rewrite regular_S in E; discriminate|].
  change (last (t0 :: z :: l) 0) with (last (z :: l) 0); rewrite <- E, IH; lia.
Qed.

Lemma labels_regular t0 h k n : 0 < h -> (0 < k)%nat -> (0 < n)%nat ->
  (t0 - midnight (date t0)) mod (Z.of_nat k * h) = 0 ->
  labels (regular t0 h (k * n)) (Z.of_nat k * h) = regular t0 (Z.of_nat k * h) n.
Proof.
  intros H K N M; unfold labels, origin; cbv zeta.
  assert (KN : exists m, (k * n)%nat = S m) by (exists (k * n - 1)%nat; nia); destruct KN as [m KN].
  rewrite KN, regular_hd, regular_last by lia.
  set (o := midnight (date t0)) in *; set (step := Z.of_nat k * h) in *.
  assert (SP : 0 < step) by (unfold step; nia).
  assert (B0 : bin o step t0 = t0).
  { unfold bin; pose proof (Z.div_mod (t0 - o) step ltac:(lia)); lia. }
  assert (B1 : bin o step (t0 + Z.of_nat m * h) = t0 + (Z.of_nat n - 1) * step).
  { unfold bin; rewrite <- B0 at 2; unfold bin.
    replace (t0 + Z.of_nat m * h - o) with (t0 - o + Z.of_nat m * h) by ring.
    pose proof (Z.div_mod (t0 - o) step ltac:(lia)) as DM; rewrite M in DM.
    assert (E : (t0 - o + Z.of_nat m * h) / step = (t0 - o) / step + (Z.of_nat n - 1)).
    { symmetry; apply (Z.div_unique _ _ _ (Z.of_nat m * h - (Z.of_nat n - 1) * step)); [left|nia].
      unfold step; assert (Z.of_nat m = Z.of_nat k * Z.of_nat n - 1) by lia; rewrite H0; nia. }
    rewrite E; ring. }
  rewrite B0, B1; replace ((t0 + (Z.of_nat n - 1) * step - t0)) with ((Z.of_nat n - 1) * step) by ring.
  rewrite Z.div_mul by lia; unfold regular; f_equal; f_equal; lia.
Qed.

Lemma resolution_first_total t0 h k n : 0 < h -> (0 < k)%nat -> (2 <= n)%nat ->
  (t0 - midnight (date t0)) mod (Z.of_nat k * h) = 0 ->
  zsum (resolution_first (regular t0 h (k * n)) (Z.of_nat k * h)) = zsum (resolutions (regular t0 h (k * n))).
Proof.
  intros H K N M; unfold resolution_first; rewrite labels_regular by (assumption || lia).
  rewrite !resolutions_regular by nia; nia.
Qed.

(** ** Clustering *)
Lemma memZ_in x l : memZ x l = true <-> In x l.
Proof.
  unfold memZ; rewrite existsb_exists; split; [intros [y [I E]]; apply Z.eqb_eq in E; congruence|intros I; exists x; split; [exact I|apply Z.eqb_refl]].
Qed.

Lemma insert_new_in x y l : In x (insert_new y l) <-> x = y \/ In x l.
Proof.
  induction l as [|z l IH]; simpl; [intuition|].
  destruct (Z.ltb_spec y z); [simpl; intuition|]; destruct (Z.eqb_spec y z); simpl; [subst; intuition|rewrite IH; intuition].
Qed.
Lemma groups_in x l : In x (groups l) <-> In x l.
Proof. induction l as [|y l IH]; simpl; [tauto|]; rewrite insert_new_in, IH; intuition. Qed.

Lemma index_of_in x l : In x l <-> exists i, index_of x l = Some i.
Proof.
  induction l as [|y l IH]; simpl; [split; [tauto|intros [i E]; discriminate]|].
  destruct (Z.eqb_spec x y) as [->|N]; [split; [exists O; reflexivity|auto]|].
  split.
  - intros [E|I]; [congruence|]; apply IH in I; destruct I as [i ->]; exists (S i); reflexivity.
  - intros [i E]; right; apply IH; destruct (index_of x l) as [j|]; [exists j; reflexivity|discriminate].
Qed.
Lemma index_of_inj l x y i : index_of x l = Some i -> index_of y l = Some i -> x = y.
Proof.
  revert i; induction l as [|z l IH]; simpl; intros i; [discriminate|].
  destruct (Z.eqb_spec x z) as [->|N1], (Z.eqb_spec y z) as [->|N2]; intros X Y; [reflexivity| | |].
  - destruct (index_of y l); simpl in *; congruence.
  - destruct (index_of x l); simpl in *; congruence.
  - destruct (index_of x l) as [a|] eqn:A, (index_of y l) as [b|] eqn:B; simpl in *; try discriminate.
    apply (IH a); congruence.
Qed.

Section Cluster.
Variable assignment : list (Z * Z).
Variable ts : list Z.
Hypothesis O : ordered ts.
Let reps := map snd assignment.
Let kept := filter (fun t => memZ (date t) reps) ts.
Let id d := index_of d (groups reps).

Lemma kept_in t : In t kept <-> In t ts /\ In (date t) reps.
Proof using. unfold kept; rewrite filter_In, memZ_in; tauto. Qed.
Lemma kept_ordered : ordered kept.
Proof using O. apply ordered_filter; exact O. Qed.

Lemma of_date_in d t : In t (of_date d kept) <-> In t kept /\ date t = d.
Proof using. unfold of_date; rewrite filter_In, Z.eqb_eq; tauto. Qed.

Lemma first_of_spec d f : first_of d kept = Some f <->
  (In f kept /\ date f = d /\ forall t, In t kept -> date t = d -> f <= t).
Proof using O.
  unfold first_of; pose proof (of_date_in d) as OD.
  assert (OO : ordered (of_date d kept)) by (apply ordered_filter, kept_ordered).
  destruct (of_date d kept) as [|a l]; simpl.
  - split; [discriminate|]; intros [K [D _]]; destruct (proj2 (OD f) (conj K D)).
  - inversion OO as [|? ? OO' F]; subst; rewrite Forall_forall in F; split.
    + intros E; injection E as ->; destruct (proj1 (OD f) (or_introl eq_refl)) as [K D]; split; [exact K|split; [exact D|]].
      intros t T E; destruct (proj2 (OD t) (conj T E)) as [->|I]; [lia|specialize (F t I); lia].
    + intros [K [D M]]; f_equal; destruct (proj2 (OD f) (conj K D)) as [E|I]; [exact E|].
      destruct (proj1 (OD a) (or_introl eq_refl)) as [Ka Da]; specialize (M a Ka Da); specialize (F f I); lia.
Qed.

Lemma ordered_rev l a r : ordered l -> rev l = a :: r -> In a l /\ forall t, In t l -> t <= a.
Proof using.
  intros OO E; assert (L : l = rev r ++ [a]) by (rewrite <- (rev_involutive l), E; reflexivity).
  subst l; clear E; split; [apply in_or_app; right; left; reflexivity|].
  intros t I; apply in_app_or in I; destruct I as [I|[->|[]]]; [|lia].
  induction (rev r) as [|b q IH]; [destruct I|]; simpl in OO; inversion OO as [|? ? OO' F]; subst; rewrite Forall_forall in F.
  destruct I as [->|I]; [|apply IH; assumption].
  specialize (F a); assert (t < a) by (apply F, in_or_app; right; left; reflexivity); lia.
Qed.

Lemma last_of_spec d f : last_of d kept = Some f <->
  (In f kept /\ date f = d /\ forall t, In t kept -> date t = d -> t <= f).
Proof using O.
  unfold last_of; pose proof (of_date_in d) as OD.
  assert (OO : ordered (of_date d kept)) by (apply ordered_filter, kept_ordered).
  destruct (rev (of_date d kept)) as [|a l] eqn:R; simpl.
  - split; [discriminate|]; intros [K [D _]]; pose proof (proj2 (OD f) (conj K D)) as I.
    apply in_rev in I; rewrite R in I; destruct I.
  - destruct (ordered_rev _ _ _ OO R) as [A M]; split.
    + intros E; injection E as ->; destruct (proj1 (OD f) A) as [K D]; split; [exact K|split; [exact D|]].
      intros t T E; apply M, OD; auto.
    + intros [K [D N]]; f_equal; destruct (proj1 (OD a) A) as [Ka Da].
      specialize (N a Ka Da); specialize (M f (proj2 (OD f) (conj K D))); lia.
Qed.

Lemma last_of_some d : (exists t, In t kept /\ date t = d) -> exists f, last_of d kept = Some f.
Proof using O.
  intros [t [K D]]; unfold last_of; destruct (rev (of_date d kept)) as [|a l] eqn:R; [|exists a; reflexivity].
  assert (I : In t (of_date d kept)) by (apply of_date_in; auto); apply in_rev in I; rewrite R in I; destruct I.
Qed.

(** *** Weights *)
Definition is_first t := match first_of (date t) kept with Some f => f =? t | None => false end.
Definition firsts := filter is_first kept.

Lemma firsts_dates_nodup : NoDup (map date firsts).
Proof using O.
  assert (ND : NoDup firsts) by (apply NoDup_filter, ordered_nodup, kept_ordered).
  assert (INJ : forall a b, In a firsts -> In b firsts -> date a = date b -> a = b).
  { intros a b A B E; apply filter_In in A; apply filter_In in B; destruct A as [_ A], B as [_ B]; unfold is_first in *.
    rewrite E in A; destruct (first_of (date b) kept); [|discriminate]; apply Z.eqb_eq in A; apply Z.eqb_eq in B; congruence. }
  revert ND INJ; generalize firsts; intros l; induction l as [|a l IH]; intros ND INJ; [constructor|].
  inversion ND; subst; simpl; constructor.
  - intros I; apply in_map_iff in I; destruct I as [b [E I]]; assert (a = b) by (apply INJ; [left; reflexivity|right; exact I|symmetry; exact E]); subst b; contradiction.
  - apply IH; [assumption|]; intros x y X Y; apply INJ; right; assumption.
Qed.

Lemma first_of_some d : (exists t, In t kept /\ date t = d) -> exists f, first_of d kept = Some f.
Proof using O.
  intros [t [K D]]; unfold first_of; pose proof (proj2 (of_date_in d t) (conj K D)) as I.
  destruct (of_date d kept) as [|a l]; [destruct I|exists a; reflexivity].
Qed.

Lemma firsts_dates_in r : In r (map date firsts) <-> exists t, In t kept /\ date t = r.
Proof using O.
  split.
  - intros I; apply in_map_iff in I; destruct I as [t [E I]]; apply filter_In in I; exists t; tauto.
  - intros E; destruct (first_of_some r E) as [f F]; pose proof (proj1 (first_of_spec r f) F) as [K [D _]].
    apply in_map_iff; exists f; split; [exact D|]; apply filter_In; split; [exact K|]; unfold is_first; rewrite D, F; apply Z.eqb_refl.
Qed.

Definition nsum (l : list nat) : nat := fold_right Nat.add 0%nat l.

Lemma first_weights_run : forall l, first_weights (map (fun t => (t, is_first t)) l) (map (fun t => (t, count (date t) reps)) l)
  (nsum (map (fun d => count d reps) (map date (filter is_first l)))).
Proof using.
  induction l as [|t l IH]; simpl; [constructor|].
  destruct (is_first t); simpl; [apply fw_first|apply fw_other]; exact IH.
Qed.
End Cluster.

Lemma first_weights_fun f l a b : first_weights f l a -> first_weights f l b -> a = b.
Proof. intros A; revert b; induction A; intros b B; inversion B; subst; auto. Qed.

Lemma count_cons d r l : count d (r :: l) = ((if (d =? r)%Z then 1 else 0) + count d l)%nat.
Proof. unfold count; simpl; destruct (d =? r)%Z; reflexivity. Qed.

Lemma nsum_add ds (f g : Z -> nat) : nsum (map (fun d => (f d + g d)%nat) ds) = (nsum (map f ds) + nsum (map g ds))%nat.
Proof. induction ds as [|d ds IH]; simpl; [reflexivity|]; rewrite IH; lia. Qed.

Lemma nsum_one r ds : NoDup ds -> nsum (map (fun d => if (d =? r)%Z then 1 else 0)%nat ds) = (if memZ r ds then 1 else 0)%nat.
Proof.
  induction 1 as [|d ds N ND IH]; [reflexivity|]; simpl; rewrite IH; unfold memZ; simpl; rewrite (Z.eqb_sym r d).
  destruct (Z.eqb_spec d r) as [->|]; simpl; [|reflexivity].
  destruct (existsb (Z.eqb r) ds) eqn:E; [|reflexivity]; exfalso; apply N, memZ_in; exact E.
Qed.

Lemma weights_represented (ds ts : list Z) : NoDup ds -> forall l,
  (forall d r, In (d, r) l -> In r ds <-> exists t, In t ts /\ date t = r) ->
  represented ts l (nsum (map (fun d => count d (map snd l)) ds)).
Proof.
  intros ND; induction l as [|[d r] l IH]; intros C.
  - replace (nsum _) with O; [constructor|]; clear; induction ds; simpl; auto.
  - cbn [map snd].
    rewrite (map_ext _ (fun x => ((if (x =? r)%Z then 1 else 0) + count x (map snd l))%nat)) by (intros x; apply count_cons).
    rewrite nsum_add, nsum_one by exact ND.
    assert (IH' := IH (fun d' r' I => C d' r' (or_intror I))).
    pose proof (C d r (or_introl eq_refl)) as CR.
    destruct (memZ r ds) eqn:M.
    + apply re_yes; [apply CR, memZ_in; exact M|exact IH'].
    + apply re_no; [|exact IH']; intros t T E.
      assert (X : In r ds) by (apply CR; exists t; auto); apply memZ_in in X; congruence.
Qed.

Lemma cluster_weights assignment ts n : ordered ts ->
  first_weights (c_first (cluster assignment ts)) (c_weight (cluster assignment ts)) n -> represented ts assignment n.
Proof.
  intros O F; rewrite (first_weights_fun _ _ _ _ F (first_weights_run assignment ts _)).
  apply weights_represented; [apply firsts_dates_nodup; exact O|].
  intros d r I; etransitivity; [apply firsts_dates_in; exact O|].
  split; intros [t [T E]]; exists t; split; try exact E; apply kept_in in T || apply kept_in; [tauto|].
  split; [exact T|]; rewrite E; apply in_map_iff; exists (d, r); auto.
Qed.

Lemma represented_all ts l n : (forall d r, In (d, r) l -> exists t, In t ts /\ date t = r) ->
  represented ts l n -> n = List.length l.
Proof.
  intros C R; induction R as [|d r l n E R IH|d r l n N R IH]; [reflexivity| |].
  - simpl; f_equal; apply IH; intros d' r' I; apply (C d' r'); right; exact I.
  - destruct (C d r (or_introl eq_refl)) as [t [T E]]; destruct (N t T E).
Qed.

Lemma first_weights_exist assignment ts :
  exists n, first_weights (c_first (cluster assignment ts)) (c_weight (cluster assignment ts)) n.
Proof. eexists; apply (first_weights_run assignment ts _). Qed.

(** *** Clusters *)
Lemma cluster_steps assignment ts t k : In (t, k) (c_cluster (cluster assignment ts)) ->
  In t ts /\ (exists d, In (d, date t) assignment) /\ exists i, k = Some i.
Proof.
  intros I; cbn [cluster c_cluster] in I; apply in_map_iff in I; destruct I as [t' [E I]]; injection E as -> <-.
  apply filter_In in I; destruct I as [T M]; split; [exact T|]; apply memZ_in in M; split.
  - apply in_map_iff in M; destruct M as [[d r] [E M]]; simpl in E; subst r; exists d; exact M.
  - apply index_of_in, groups_in; exact M.
Qed.

Lemma cluster_kept assignment ts t d : In t ts -> In (d, date t) assignment ->
  exists k, In (t, k) (c_cluster (cluster assignment ts)).
Proof.
  intros T I; eexists; cbn [cluster c_cluster]; apply in_map_iff; exists t; split; [reflexivity|].
  apply filter_In; split; [exact T|]; apply memZ_in, in_map_iff; exists (d, date t); auto.
Qed.

Lemma cluster_same assignment ts t k t' k' :
  In (t, k) (c_cluster (cluster assignment ts)) -> In (t', k') (c_cluster (cluster assignment ts)) ->
  (k = k' <-> date t = date t').
Proof.
  intros I I'; destruct (cluster_steps _ _ _ _ I) as [_ [_ [i K]]]; destruct (cluster_steps _ _ _ _ I') as [_ [_ [i' K']]].
  cbn [cluster c_cluster] in I, I'; apply in_map_iff in I; apply in_map_iff in I'.
  destruct I as [x [E _]], I' as [x' [E' _]]; injection E as <- E; injection E' as <- E'.
  split; intros H.
  - apply (index_of_inj (groups (map snd assignment)) _ _ i); congruence.
  - congruence.
Qed.

Lemma date_cluster_spec assignment ts d r t k : In (d, r) assignment ->
  In (t, k) (c_cluster (cluster assignment ts)) -> date t = r -> In (d, k) (c_date_cluster (cluster assignment ts)).
Proof.
  intros A I E; cbn [cluster c_cluster c_date_cluster] in *; apply in_map_iff in I; destruct I as [x [E' _]]; injection E' as <- <-.
  apply in_map_iff; exists (d, r); subst r; auto.
Qed.

Lemma hd_rev_filter_map {A B} (f : A -> B) p q (l : list A) : (forall x, p (f x) = q x) ->
  hd_error (rev (filter p (map f l))) = option_map f (hd_error (rev (filter q l))).
Proof.
  intros E; assert (F : filter p (map f l) = map f (filter q l)).
  { induction l as [|x l IH]; simpl; [reflexivity|]; rewrite E; destruct (q x); simpl; rewrite IH; reflexivity. }
  rewrite F, <- map_rev; destruct (rev (filter q l)); reflexivity.
Qed.

Lemma date_last_spec assignment ts d o : ordered ts -> In (d, o) (c_date_last (cluster assignment ts)) ->
  exists r, In (d, r) assignment /\
    match o with
    | Some t => In t ts /\ date t = r /\ forall t', In t' ts -> date t' = r -> t' <= t
    | None => forall t, In t ts -> date t <> r
    end.
Proof.
  intros O I; cbn [cluster c_date_last] in I; apply in_map_iff in I; destruct I as [[d' r] [E I]]; cbn [fst snd] in E.
  injection E as -> <-; exists r; split; [exact I|].
  set (kept := filter _ ts) in *.
  assert (R : In r (map snd assignment)) by (apply in_map_iff; exists (d, r); auto).
  assert (E : hd_error (rev (filter (fun tc : Z * option nat => match snd tc, index_of r (groups (map snd assignment)) with
      | Some x, Some y => Nat.eqb x y | _, _ => false end) (map (fun t => (t, index_of (date t) (groups (map snd assignment)))) kept)))
    = option_map (fun t => (t, index_of (date t) (groups (map snd assignment)))) (last_of r kept)).
  { unfold last_of, of_date.
    rewrite (hd_rev_filter_map _ _ (fun t => match index_of (date t) (groups (map snd assignment)), index_of r (groups (map snd assignment)) with
      | Some x, Some y => Nat.eqb x y | _, _ => false end)) by reflexivity.
    f_equal; f_equal; f_equal; apply filter_ext_in; intros t T; apply kept_in in T; destruct T as [_ T].
    apply groups_in, index_of_in in T; destruct T as [i TI]; pose proof R as R'; apply groups_in, index_of_in in R'; destruct R' as [j RJ].
    rewrite TI, RJ; destruct (Z.eqb_spec (date t) r) as [E|N]; [rewrite E, RJ in TI; injection TI as <-; apply Nat.eqb_refl|].
        apply Nat.eqb_neq; intros ->; apply N; exact (index_of_inj _ _ _ _ TI RJ). }
  rewrite E; clear E; destruct (last_of r kept) as [f|] eqn:L; simpl.
  - apply (last_of_spec assignment ts O r) in L; destruct L as [K [D M]]; apply kept_in in K; split; [tauto|split; [exact D|]].
    intros t T E; apply M; [apply kept_in; split; [exact T|rewrite E; exact R]|exact E].
  - intros t T E; destruct (last_of_some assignment ts O r) as [f F]; [|unfold kept in L; congruence].
    exists t; split; [apply kept_in; split; [exact T|rewrite E; exact R]|exact E].
Qed.

(** The look-up per time step. *)
Lemma step_last_spec assignment ts t o : ordered ts -> In (t, o) (c_last (cluster assignment ts)) ->
  match o with
  | Some f => t = midnight (date t) /\ In f ts /\ date f = date t /\ forall t', In t' ts -> date t' = date t -> t' <= f
  | None => t <> midnight (date t)
  end.
Proof.
  intros O I; cbn [cluster c_last] in I; apply in_map_iff in I; destruct I as [t' [E I]]; injection E as -> <-.
  pose proof I as K; apply (kept_in assignment ts t) in K; destruct K as [T R].
  destruct (Z.eqb_spec t (midnight (date t))) as [M|M]; [|exact M].
  destruct (last_of_some assignment ts O (date t)) as [f F]; [exists t; split; [exact I|reflexivity]|].
  rewrite F; apply (last_of_spec assignment ts O) in F; destruct F as [K [D X]].
  split; [exact M|]; apply kept_in in K; split; [tauto|split; [exact D|]].
  intros t' T' E; apply X; [|exact E]; apply kept_in; split; [exact T'|rewrite E; exact R].
Qed.

(** ** Bins as intervals *)
Lemma bin_range o step t : 0 < step -> bin o step t <= t < bin o step t + step.
Proof.
  intros S; unfold bin; pose proof (Z.div_mod (t - o) step ltac:(lia)); pose proof (Z.mod_pos_bound (t - o) step S); nia.
Qed.

Lemma labels_shape ts step l : 0 < step -> In l (labels ts step) -> exists k, l = origin ts + k * step.
Proof.
  intros S I; unfold labels in I; apply in_map_iff in I; destruct I as [i [<- _]].
  unfold bin; eexists ((_ - origin ts) / step + Z.of_nat i); ring.
Qed.

Lemma label_bin ts step l t : 0 < step -> In l (labels ts step) ->
  (bin (origin ts) step t = l <-> l <= t < l + step).
Proof.
  intros S I; destruct (labels_shape _ _ _ S I) as [k ->]; pose proof (bin_range (origin ts) step t S) as B.
  split; [intros E; rewrite E in B; exact B|]; intros R; unfold bin in *.
  assert ((t - origin ts) / step = k) by nia; nia.
Qed.

Lemma resample_windows m step s l v : 0 < step -> In (l, v) (resample m step s) -> v = aggregate m (window l step s).
Proof.
  intros S I; unfold resample in I; apply in_map_iff in I; destruct I as [l' [E I]]; injection E as -> <-.
  f_equal; unfold window; f_equal; apply filter_ext; intros [t o]; cbn [fst].
  pose proof (label_bin (map fst s) step l t S I) as L.
  destruct (Z.eqb_spec (bin (origin (map fst s)) step t) l) as [E|E]; symmetry.
  - apply L in E; apply andb_true_intro; split; [apply Z.leb_le|apply Z.ltb_lt]; lia.
  - apply andb_false_iff; destruct (Z.leb_spec l t); [|auto]; destruct (Z.ltb_spec t (l + step)); [|auto]; exfalso; apply E, L; lia.
Qed.

Lemma values_nil l : values l = [] -> forall v, In v l -> v = None.
Proof.
  intros E [q|] I; [|reflexivity]; apply in_values in I; rewrite E in I; destruct I.
Qed.
Lemma values_present l : present l (List.length (values l)).
Proof. induction l as [|[q|] l IH]; simpl; constructor; exact IH. Qed.

Lemma aggregate_meets m l : meets m l (aggregate m l).
Proof.
  unfold aggregate; destruct (values l) as [|q r] eqn:V; [apply me_none, values_nil; exact V|].
  destruct m.
  - apply me_sum; [exists q; apply in_values; rewrite V; left; reflexivity|rewrite <- V; apply total_values].
  - eapply me_mean; [apply values_present|rewrite V; simpl; lia|apply total_values|]; rewrite V.
    set (n := inject_Z _); assert (N : ~ (n == 0)%Q) by (unfold n, Qeq; simpl; lia).
    rewrite Qmult_comm; apply Qmult_div_r; exact N.
  - revert V; induction l as [|[x|] l IH]; simpl; intros V; [discriminate| |].
    + injection V as -> _; apply (me_first []); intros v [].
    + specialize (IH V); inversion IH as [| | |pre q' rest H E]; subst.
      apply (me_first (None :: pre)); intros v [<-|I]; auto.
Qed.

Lemma resolutions_length ts : List.length (resolutions ts) = List.length ts.
Proof.
  destruct ts as [|a [|b ts]]; try reflexivity.
  unfold resolutions; rewrite app_length; cbn [List.length].
  assert (D : forall l x, List.length (diffs (x :: l)) = List.length l).
  { induction l as [|y l IH]; intros x; [reflexivity|]; rewrite diffs_cons; cbn [List.length]; rewrite IH; reflexivity. }
  rewrite D; cbn [List.length]; lia.
Qed.

Lemma combine_fst {A B} (a : list A) (b : list B) : List.length b = List.length a -> map fst (combine a b) = a.
Proof. revert b; induction a as [|x a IH]; intros [|y b] E; simpl in *; try discriminate; [reflexivity|]; rewrite IH by lia; reflexivity. Qed.
Lemma combine_snd {A B} (a : list A) (b : list B) : List.length b = List.length a -> map snd (combine a b) = b.
Proof. revert b; induction a as [|x a IH]; intros [|y b] E; simpl in *; try discriminate; [reflexivity|]; rewrite IH by lia; reflexivity. Qed.

Lemma resolution_loaded_total ts step q : 0 < step -> ordered ts ->
  total (map snd (resolution_loaded ts step)) q -> (q == inject_Z (zsum (resolutions ts)))%Q.
Proof.
  intros S O T; unfold resolution_loaded in T.
  set (vs := map (fun z => Some (inject_Z z)) (resolutions ts)) in T.
  assert (L : List.length vs = List.length ts) by (unfold vs; rewrite map_length, resolutions_length; reflexivity).
  symmetry; rewrite <- (resample_total step (combine ts vs) (qsum (values vs)) q S); [| | |exact T].
  - unfold vs; clear; induction (resolutions ts) as [|z l IH]; [reflexivity|].
    cbn [map values qsum fold_right zsum]; fold (zsum l); fold (qsum (values (map (fun z => Some (inject_Z z)) l))).
    rewrite inject_Z_plus, IH; reflexivity.
  - rewrite combine_fst by exact L; exact O.
  - rewrite combine_snd by exact L; apply total_values.
Qed.
