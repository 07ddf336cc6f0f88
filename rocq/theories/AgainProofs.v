(** Proofs about time settings and models opened again. *)
From Coq Require Import Sorted.
From Verif Require Import Base BaseProofs TimeModel TimeSpec TimeProofs AgainModel AgainSpec.
Local Open Scope string_scope.
Local Open Scope list_scope.
Local Open Scope Z_scope.
Local Arguments String.eqb : simpl never.

Lemma list_eqb_refl l : list_eqb l l = true.
Proof. induction l as [|p l IH]; [reflexivity|]; cbn [list_eqb]; unfold period_eqb; rewrite !Z.eqb_refl, IH; reflexivity. Qed.
Lemma opt_eqb_refl {A} (e : A -> A -> bool) : (forall x, e x x = true) -> forall o, opt_eqb e o o = true.
Proof. intros H [x|]; cbn; auto. Qed.

(** * Opening again *)
Lemma open_runtime days c o o' : open days c o = Ok o' -> o_runtime o' = {| r_applied := c; r_instantiated := true |}.
Proof.
  unfold open; intros E.
  destruct (if opt_eqb list_eqb _ _ then _ else _); [|discriminate]; cbn [bind] in E.
  destruct (if opt_eqb Z.eqb _ _ then _ else _); [|discriminate]; cbn [bind] in E.
  destruct (match s_cluster (r_applied (o_runtime o)), s_cluster c with None, Some n => _ | _, _ => _ end); [|discriminate]; cbn [bind] in E.
  injection E as <-; reflexivity.
Qed.
Lemma open_same days c o : o_runtime o = {| r_applied := c; r_instantiated := true |} -> open days c o = Ok {| o_data := drop (o_data o); o_runtime := o_runtime o |}.
Proof.
  intros E; unfold open; rewrite E; cbn [r_applied r_instantiated].
  rewrite (opt_eqb_refl list_eqb list_eqb_refl), (opt_eqb_refl Z.eqb Z.eqb_refl); cbn [bind].
  destruct (s_cluster c) as [n|] eqn:C; cbn [opt_eqb]; [rewrite String.eqb_refl|]; cbn [bind]; destruct o as [d r]; cbn [o_runtime o_data] in *; subst r; reflexivity.
Qed.

(** * Subsets *)
Lemma keep_times p d t : In t (t_times (keep p d)) <-> In t (t_times d) /\ p t = true.
Proof. unfold keep; cbn [t_times]; apply filter_In. Qed.
Lemma keep_value p d n t v : value (keep p d) n t v <-> value d n t v /\ p t = true.
Proof.
  unfold value, keep; cbn [t_series]; split.
  - intros (m & s & I & J); apply in_map_iff in I as ((n' & m' & s') & E & I); injection E as -> -> <-; apply filter_In in J as (J & P); cbn [fst snd] in *; eauto 6.
  - intros ((m & s & I & J) & P); exists m, (filter (fun tv => p (fst tv)) s); split; [apply in_map_iff; exists (n, (m, s)); split; [reflexivity|exact I]|apply filter_In; split; [exact J|exact P]].
Qed.
Lemma gaps_none s : gaps s = true -> forall t q, ~ In (t, Some q) s.
Proof. intros G t q I; unfold gaps in G; rewrite forallb_forall in G; specialize (G _ I); discriminate. Qed.
Lemma drop_in d x : In x (t_series (drop d)) -> In x (t_series d).
Proof. cbn [drop t_series]; intros I; apply filter_In in I as (I & _); exact I. Qed.
Lemma drop_kept d n m s : In (n, (m, s)) (t_series d) -> (exists t q, In (t, Some q) s) -> In (n, (m, s)) (t_series (drop d)).
Proof.
  intros I (t & q & J); cbn [drop t_series]; apply filter_In; split; [exact I|]; cbn [snd]; destruct (gaps s) eqn:G; [|reflexivity].
  destruct (gaps_none s G t q J).
Qed.
Lemma drop_value d n t q : value (drop d) n t (Some q) <-> value d n t (Some q).
Proof.
  split; intros (m & s & I & J); exists m, s; (split; [|exact J]); [apply drop_in; exact I|apply drop_kept; [exact I|eauto]].
Qed.
Lemma drop_twice d : drop (drop d) = drop d.
Proof.
  unfold drop; cbn [t_times t_series]; f_equal; induction (t_series d) as [|x l IH]; [reflexivity|]; cbn [filter]; destruct (negb (gaps (snd (snd x)))) eqn:G; [|exact IH].
  cbn [filter]; rewrite G, IH; reflexivity.
Qed.
Lemma in_set {A} k (v : A) l k' v' : k' <> k -> In (k', v') (d_set k v l) <-> In (k', v') l.
Proof.
  intros N; induction l as [|[a w] l IH]; cbn [d_set In].
  - split; [intros [E|[]]; injection E as <- <-; congruence|tauto].
  - destruct (String.eqb_spec k a) as [->|M]; cbn [In]; [|rewrite IH; tauto].
    split; intros [E|I]; try (right; exact I); injection E as <- <-; congruence.
Qed.
Lemma infer_value d n t v : ~ inferred n -> (value (infer d) n t v <-> value d n t v).
Proof.
  intros N; unfold value, infer; cbn [t_series]; split; intros (m & s & I & J); exists m, s; (split; [|exact J]).
  - apply in_set in I; [|intros ->; apply N; right; reflexivity]; apply in_set in I; [exact I|intros ->; apply N; left; reflexivity].
  - apply in_set; [intros ->; apply N; right; reflexivity|]; apply in_set; [intros ->; apply N; left; reflexivity|exact I].
Qed.
Lemma infer_times d : t_times (infer d) = t_times d.
Proof. reflexivity. Qed.

Lemma open_limited days d l : open days (limited l) (defined d) =
  bind (check_subset (t_times d) l) (fun ab => Ok {| o_data := infer (drop (keep (fun t => (fst (fst ab) <=? t) && (t <=? snd (snd ab))) (drop d))); o_runtime := {| r_applied := limited l; r_instantiated := true |} |}).
Proof. unfold open, defined, limited, no_settings; cbn [o_runtime o_data r_applied r_instantiated s_subset s_resample s_cluster opt_eqb]; unfold subset; cbn [drop t_times]; destruct (check_subset _ _) as [ab|]; reflexivity. Qed.

Lemma date_mono a b : a <= b -> date a <= date b.
Proof. intros L; unfold date; apply Z.div_le_mono; [reflexivity|exact L]. Qed.
Lemma hd_in (ts : list Z) : ts <> [] -> In (hd 0 ts) ts.
Proof. destruct ts; [congruence|left; reflexivity]. Qed.
Lemma last_in (ts : list Z) : ts <> [] -> In (last ts 0) ts.
Proof. intros N; destruct (exists_last N) as (l & x & ->); rewrite last_last; apply in_or_app; right; left; reflexivity. Qed.
Lemma check_spec ts a b : ordered ts -> ts <> [] -> date (fst b) = date (snd b) ->
  (check_subset ts [a; b] = Err EModel /\ apart ts (fst a) (snd b)) \/ (check_subset ts [a; b] = Ok (a, b) /\ ~ apart ts (fst a) (snd b)).
Proof.
  intros O N D; cbn [check_subset]; destruct (Z.ltb_spec (date (fst b)) (date (hd 0 ts))) as [X|X]; cbn [orb].
  - left; split; [reflexivity|left]; intros t I; pose proof (ordered_bounds ts t O I) as [L _]; apply date_mono in L; lia.
  - destruct (Z.ltb_spec (date (last ts 0)) (date (fst a))) as [Y|Y].
    + left; split; [reflexivity|right]; intros t I; pose proof (ordered_bounds ts t O I) as [_ L]; apply date_mono in L; lia.
    + right; split; [reflexivity|]; intros [H|H]; [specialize (H _ (hd_in ts N))|specialize (H _ (last_in ts N))]; lia.
Qed.

(** * Resampling *)
Lemma labels_ordered ts step : 0 < step -> ordered (labels ts step).
Proof.
  intros S; unfold labels; cbv zeta; set (a := bin _ _ _); generalize (Z.to_nat ((bin (origin ts) step (last ts 0) - a) / step + 1)) as n; intros n.
  assert (G : forall n i, ordered (map (fun j => a + Z.of_nat j * step) (seq i n))).
  { clear n; induction n as [|n IH]; intros i; [constructor|]; cbn [seq map]; constructor; [apply IH|].
    apply Forall_forall; intros x X; apply in_map_iff in X as (j & <- & J); apply in_seq in J; nia. }
  apply G.
Qed.
Lemma resample_fst m step s : map fst (resample m step s) = labels (map fst s) step.
Proof. unfold resample; rewrite map_map; apply map_id. Qed.
Lemma labels_nonempty ts step : 0 < step -> ordered ts -> ts <> [] -> labels ts step <> [].
Proof. intros S O N E; pose proof (labels_in ts step (hd 0 ts) S O (hd_in ts N)) as I; rewrite E in I; exact I. Qed.

Lemma resample_all_in step l : forall l', resample_all step l = Ok l' ->
  map fst l' = map fst l /\
  (forall n m s, In (n, (m, s)) l -> exists m', m = Some m' /\ In (n, (m, resample m' step s)) l') /\
  (forall n m s, In (n, (m, s)) l' -> exists m' s0, m = Some m' /\ In (n, (m, s0)) l /\ s = resample m' step s0).
Proof.
  induction l as [|[n [[m|] s]] l IH]; intros l' E; cbn [resample_all] in E; [injection E as <-|destruct (resample_all step l) as [r|] eqn:R; [|discriminate]; cbn [bind] in E; injection E as <-|discriminate].
  - split; [reflexivity|split; intros ? ? ? []].
  - destruct (IH r eq_refl) as (A & B & C); split; [cbn [map fst]; rewrite A; reflexivity|split].
    + intros n' m' s' [Q|I]; [injection Q as <- <- <-; exists m; split; [reflexivity|left; reflexivity]|destruct (B n' m' s' I) as (x & X & Y); exists x; split; [exact X|right; exact Y]].
    + intros n' m' s' [Q|I]; [injection Q as <- <- <-; exists m, s; split; [reflexivity|split; [left; reflexivity|reflexivity]]|].
      destruct (C n' m' s' I) as (x & y & X & Y & W); exists x, y; split; [exact X|split; [right; exact Y|exact W]].
Qed.
Lemma resample_consistent step d d' : 0 < step -> consistent d -> resample_data (Some step) d = Ok d' -> consistent d'.
Proof.
  intros S (O & N & ND & F) E; cbn [resample_data] in E; destruct (resample_all step (t_series d)) as [l|] eqn:R; [|discriminate]; cbn [bind] in E; injection E as <-.
  destruct (resample_all_in _ _ _ R) as (A & _ & C); split; [apply labels_ordered; exact S|split; [apply labels_nonempty; assumption|split; cbn [t_series t_times]; [rewrite A; exact ND|]]].
  intros n m s I; destruct (C n m s I) as (m' & s0 & _ & I0 & ->); rewrite resample_fst, (F n m s0 I0); reflexivity.
Qed.
Lemma nodup_fst {A} (l : list (string * A)) n a b : NoDup (map fst l) -> In (n, a) l -> In (n, b) l -> a = b.
Proof.
  induction l as [|[k v] l IH]; intros ND I J; [destruct I|]; cbn [map fst] in ND; inversion ND as [|? ? NI ND']; subst.
  destruct I as [E|I], J as [F|J]; [congruence| | |exact (IH ND' I J)]; exfalso; apply NI.
  - injection E as <- <-; apply in_map_iff; exists (k, b); split; [reflexivity|exact J].
  - injection F as <- <-; apply in_map_iff; exists (k, a); split; [reflexivity|exact I].
Qed.
Lemma resample_has m step s t x : 0 < step -> ordered (map fst s) -> In (t, Some x) s -> exists t' x', In (t', Some x') (resample m step s).
Proof.
  intros S O I; pose proof (labels_in (map fst s) step t S O (in_map fst _ _ I)) as L; unfold resample; cbv zeta.
  assert (A : exists x', aggregate m (map snd (filter (fun tv => bin (origin (map fst s)) step (fst tv) =? bin (origin (map fst s)) step t) s)) = Some x').
  { assert (J : In (Some x) (map snd (filter (fun tv => bin (origin (map fst s)) step (fst tv) =? bin (origin (map fst s)) step t) s))).
    { apply in_map_iff; exists (t, Some x); split; [reflexivity|apply filter_In; split; [exact I|cbn [fst]; apply Z.eqb_refl]]. }
    revert J; generalize (map snd (filter (fun tv => bin (origin (map fst s)) step (fst tv) =? bin (origin (map fst s)) step t) s)) as l; intros l J.
    assert (V : values l <> []) by (induction l as [|[q|] l IH]; [destruct J|discriminate|destruct J as [J|J]; [discriminate|exact (IH J)]]).
    unfold aggregate; destruct (values l); [congruence|eauto]. }
  destruct A as (x' & A); exists (bin (origin (map fst s)) step t), x'; apply in_map_iff; eexists; split; [|exact L]; cbv beta; rewrite A; reflexivity.
Qed.
Lemma resample_amount step d d' n q : 0 < step -> consistent d -> resample_data (Some step) d = Ok d' ->
  (amount d n q -> exists q', amount d' n q' /\ (q == q')%Q).
Proof.
  intros S (O & N & ND & F) E (s & I & T & t & x & V); cbn [resample_data] in E; destruct (resample_all step (t_series d)) as [l|] eqn:R; [|discriminate]; cbn [bind] in E; injection E as <-.
  destruct (resample_all_in _ _ _ R) as (_ & B & _); destruct (B n _ s I) as (m' & Q & J); injection Q as <-.
  exists (qsum (values (map snd (resample MSum step s)))); split; [exists (resample MSum step s); split; [exact J|split; [apply total_values|apply (resample_has MSum step s t x); [exact S|rewrite (F _ _ _ I); exact O|exact V]]]|].
  apply (resample_total step s); [exact S|rewrite (F _ _ _ I); exact O|exact T|apply total_values].
Qed.

(** * Histories *)
Lemma resolutions_length ts : List.length (resolutions ts) = List.length ts.
Proof.
  assert (D : forall l a, List.length (diffs (a :: l)) = List.length l) by (induction l as [|b l IH]; intros a; [reflexivity|]; rewrite diffs_cons; cbn [List.length]; rewrite IH; reflexivity).
  destruct ts as [|a [|b r]]; [reflexivity|reflexivity|]; unfold resolutions; rewrite app_length, D; cbn [List.length]; lia.
Qed.
Lemma combine_fst {A B} (a : list A) : forall b : list B, List.length b = List.length a -> map fst (combine a b) = a.
Proof. induction a as [|x a IH]; intros [|y b] L; try discriminate; [reflexivity|]; cbn [combine map fst]; rewrite IH; [reflexivity|injection L as L; exact L]. Qed.
Lemma in_set_same {A} k (v : A) l v' : NoDup (map fst l) -> In (k, v') (d_set k v l) -> v' = v.
Proof.
  induction l as [|[a w] l IH]; intros ND I; cbn [d_set] in I; [destruct I as [E|[]]; injection E as <-; reflexivity|].
  cbn [map fst] in ND; inversion ND as [|? ? NI ND']; subst; destruct (String.eqb_spec k a) as [->|M]; destruct I as [E|I].
  - injection E as <-; reflexivity.
  - exfalso; apply NI; apply in_map_iff; exists (a, v'); split; [reflexivity|exact I].
  - injection E as <- <-; congruence.
  - exact (IH ND' I).
Qed.
Lemma set_consistent d n m s : consistent d -> map fst s = t_times d -> consistent {| t_times := t_times d; t_series := d_set n (m, s) (t_series d) |}.
Proof.
  intros (O & N & ND & F) E; split; [exact O|split; [exact N|split; cbn [t_series t_times]; [apply d_nodup_set; exact ND|]]].
  intros n' m' s' I; destruct (String.eqb_spec n' n) as [->|M]; [apply in_set_same in I; [injection I as -> ->; exact E|exact ND]|apply in_set in I; [exact (F _ _ _ I)|exact M]].
Qed.
Lemma infer_consistent d : consistent d -> consistent (infer d).
Proof.
  intros C; unfold infer; refine (set_consistent {| t_times := t_times d; t_series := _ |} _ _ _ _ _); [|cbn [t_times]; rewrite map_map; apply map_id].
  apply set_consistent; [exact C|]; apply combine_fst; rewrite map_length; apply resolutions_length.
Qed.
Lemma drop_consistent d : consistent d -> consistent (drop d).
Proof.
  intros (O & N & ND & F); split; [exact O|split; [exact N|split]].
  - cbn [drop t_series]; clear F; induction (t_series d) as [|x l IH]; [exact ND|]; cbn [map fst] in ND; inversion ND as [|? ? NI ND']; subst; cbn [filter]; destruct (negb _); [|exact (IH ND')].
    cbn [map]; apply NoDup_cons; [|exact (IH ND')]; intros X; apply NI; apply in_map_iff in X as (y & E & Y); apply filter_In in Y as (Y & _); rewrite <- E; apply in_map; exact Y.
  - intros n m s I; apply (F n m s), drop_in; exact I.
Qed.
Lemma drop_amount d n q : amount d n q -> amount (drop d) n q.
Proof. intros (s & I & T & V); exists s; split; [apply drop_kept; assumption|split; assumption]. Qed.
Lemma infer_amount d n q : ~ inferred n -> (amount (infer d) n q <-> amount d n q).
Proof.
  intros N; unfold amount, infer; cbn [t_series]; split; intros (s & I & J); exists s; (split; [|exact J]).
  - apply in_set in I; [|intros ->; apply N; right; reflexivity]; apply in_set in I; [exact I|intros ->; apply N; left; reflexivity].
  - apply in_set; [intros ->; apply N; right; reflexivity|]; apply in_set; [intros ->; apply N; left; reflexivity|exact I].
Qed.
Definition only_resampled (c : settings) : Prop := s_subset c = None /\ s_cluster c = None /\ forall step, s_resample c = Some step -> 0 < step.
Lemma open_amount days c o o' n q : only_resampled c -> only_resampled (r_applied (o_runtime o)) -> consistent (o_data o) ->
  r_instantiated (o_runtime o) = true \/ ~ inferred n -> open days c o = Ok o' ->
  consistent (o_data o') /\ (amount (o_data o) n q -> exists q', amount (o_data o') n q' /\ (q == q')%Q).
Proof.
  intros (C1 & C2 & C3) (R1 & R2 & R3) CO0 IN E; unfold open in E; cbv zeta in E; pose proof (drop_consistent _ CO0) as CO; pose proof (drop_amount (o_data o) n q) as DA; rewrite C1, R1, C2, R2 in E; cbn [opt_eqb bind] in E.
  set (D0 := drop (o_data o)) in *.
  assert (ST : exists d2, (if opt_eqb Z.eqb (s_resample c) (s_resample (r_applied (o_runtime o))) then Ok D0 else resample_data (s_resample c) D0) = Ok d2).
  { destruct (if opt_eqb Z.eqb (s_resample c) (s_resample (r_applied (o_runtime o))) then Ok D0 else resample_data (s_resample c) D0); [eauto|discriminate]. }
  destruct ST as (d2 & ST); rewrite ST in E; cbn [bind] in E; injection E as <-; cbn [o_data].
  assert (S2 : consistent d2 /\ (amount D0 n q -> exists q', amount d2 n q' /\ (q == q')%Q)).
  { destruct (opt_eqb Z.eqb (s_resample c) (s_resample (r_applied (o_runtime o)))); [injection ST as <-; split; [exact CO|intros A; exists q; split; [exact A|reflexivity]]|].
    destruct (s_resample c) as [step|]; [|injection ST as <-; split; [exact CO|intros A; exists q; split; [exact A|reflexivity]]].
    split; [exact (resample_consistent step _ _ (C3 _ eq_refl) CO ST)|exact (resample_amount step _ _ n q (C3 _ eq_refl) CO ST)]. }
  destruct S2 as (CD & AD); destruct (r_instantiated (o_runtime o)); [split; [exact CD|intros A; exact (AD (DA A))]|]; split; [apply infer_consistent; exact CD|].
  intros A; destruct (AD (DA A)) as (q' & A' & Q); exists q'; split; [apply infer_amount; [destruct IN as [X|X]; [discriminate|exact X]|exact A']|exact Q].
Qed.
Lemma opens_amount days n cs : forall o o' q, Forall only_resampled cs -> only_resampled (r_applied (o_runtime o)) -> consistent (o_data o) ->
  r_instantiated (o_runtime o) = true \/ ~ inferred n -> opens days cs o = Ok o' ->
  amount (o_data o) n q -> exists q', amount (o_data o') n q' /\ (q == q')%Q.
Proof.
  induction cs as [|c cs IH]; intros o o' q FA R CO IN E A; cbn [opens] in E; [injection E as <-; exists q; split; [exact A|reflexivity]|].
  inversion FA as [|? ? F1 F2]; subst; destruct (open days c o) as [o1|] eqn:OP; [|discriminate]; cbn [bind] in E.
  destruct (open_amount days c o o1 n q F1 R CO IN OP) as (C1 & A1); destruct (A1 A) as (q1 & Q1 & EQ); pose proof (open_runtime _ _ _ _ OP) as RT.
  destruct (IH o1 o' q1 F2) as (q' & Q' & EQ'); [rewrite RT; exact F1|exact C1|left; rewrite RT; reflexivity|exact E|exact Q1|].
  exists q'; split; [exact Q'|rewrite EQ; exact EQ'].
Qed.

(** * Two steps *)
Lemma split_first {X} (key : X -> Z) (l1 : Z) (s : list X) : StronglySorted Z.le (map key s) -> (forall x, In x s -> l1 <= key x) ->
  s = filter (fun x => key x =? l1) s ++ filter (fun x => negb (key x =? l1)) s.
Proof.
  induction s as [|x s IH]; intros SS G; [reflexivity|]; cbn [map] in SS; inversion SS as [|? ? SS' FA]; subst; cbn [filter].
  destruct (Z.eqb_spec (key x) l1) as [E|E]; cbn [negb app].
  - f_equal; apply IH; [exact SS'|intros y I; apply G; right; exact I].
  - assert (NO : forall y, In y s -> key y <> l1) by (intros y I; rewrite Forall_forall in FA; specialize (FA (key y) (in_map key s y I)); specialize (G x (or_introl eq_refl)); lia).
    assert (F0 : forall s', (forall y, In y s' -> key y <> l1) -> filter (fun y => key y =? l1) s' = [] /\ filter (fun y => negb (key y =? l1)) s' = s').
    { induction s' as [|y s' IH']; intros H; [split; reflexivity|]; cbn [filter]; destruct (Z.eqb_spec (key y) l1) as [Q|Q]; [exfalso; exact (H y (or_introl eq_refl) Q)|].
      destruct IH' as (A & B); [intros z I; apply H; right; exact I|]; cbn [negb]; rewrite A, B; split; reflexivity. }
    destruct (F0 s NO) as (-> & ->); reflexivity.
Qed.
Lemma filter_none {X} (p q : X -> bool) s : (forall x, In x s -> p x = true -> q x = true) -> filter p (filter q s) = filter p s.
Proof.
  intros H; induction s as [|x s IH]; [reflexivity|]; cbn [filter]; destruct (q x) eqn:Q; cbn [filter]; [destruct (p x); [f_equal|]; apply IH; intros y I; apply H; right; exact I|].
  destruct (p x) eqn:P; [rewrite (H x (or_introl eq_refl) P) in Q; discriminate|]; apply IH; intros y I; apply H; right; exact I.
Qed.
Lemma sorted_filter {X} (key : X -> Z) p s : StronglySorted Z.le (map key s) -> StronglySorted Z.le (map key (filter p s)).
Proof.
  induction s as [|x s IH]; intros SS; [constructor|]; cbn [map] in SS; inversion SS as [|? ? SS' FA]; subst; cbn [filter]; destruct (p x); [|apply IH; exact SS'].
  cbn [map]; constructor; [apply IH; exact SS'|]; rewrite Forall_forall in *; intros y I; apply in_map_iff in I as (z & <- & I); apply filter_In in I as (I & _); apply FA, in_map, I.
Qed.
Lemma regroup {X} (key : X -> Z) ls : ordered ls -> forall s, StronglySorted Z.le (map key s) -> (forall x, In x s -> In (key x) ls) ->
  flat_map (fun l => filter (fun x => key x =? l) s) ls = s.
Proof.
  induction 1 as [|l1 ls O IH F]; intros s SS G; cbn [flat_map]; [destruct s as [|x s]; [reflexivity|destruct (G x (or_introl eq_refl))]|].
  rewrite Forall_forall in F.
  assert (LE : forall x, In x s -> l1 <= key x) by (intros x I; destruct (G x I) as [->|J]; [lia|specialize (F _ J); lia]).
  transitivity (filter (fun x => key x =? l1) s ++ filter (fun x => negb (key x =? l1)) s); [|symmetry; exact (split_first key l1 s SS LE)].
  f_equal; rewrite <- (IH (filter (fun x => negb (key x =? l1)) s)).
  - rewrite !flat_map_concat_map; f_equal; apply map_ext_in; intros l I; symmetry; apply filter_none; intros x J P; apply Z.eqb_eq in P; specialize (F l I); destruct (Z.eqb_spec (key x) l1); [lia|reflexivity].
  - apply sorted_filter; exact SS.
  - intros x I; apply filter_In in I as (I & P); destruct (G x I) as [E|J]; [rewrite E, Z.eqb_refl in P; discriminate|exact J].
Qed.

Lemma values_app a b : values (a ++ b) = values a ++ values b.
Proof. induction a as [|[x|] a IH]; cbn [app values]; [reflexivity|rewrite IH; reflexivity|exact IH]. Qed.
Lemma aggregate_groups m gs : m = MSum \/ m = MFirst -> same_value (aggregate m (List.concat gs)) (aggregate m (map (aggregate m) gs)).
Proof.
  intros M.
  assert (G : match values (List.concat gs), values (map (aggregate m) gs) with
              | [], [] => True
              | q :: r, q' :: r' => match m with MSum => (qsum (q :: r) == qsum (q' :: r'))%Q | _ => q = q' end
              | _, _ => False
              end).
  { induction gs as [|g gs IH]; [exact Logic.I|]; cbn [List.concat map]; rewrite values_app.
    assert (AG : aggregate m g = match values g with [] => None | q :: r => Some (match m with MSum => qsum (q :: r) | MMean => (qsum (q :: r) / inject_Z (Z.of_nat (List.length (q :: r))))%Q | MFirst => q end) end) by reflexivity.
    rewrite AG; destruct (values g) as [|q r]; cbn [app values]; [exact IH|].
    destruct M as [->| ->]; [|reflexivity]; cbn [qsum fold_right]; fold (qsum (r ++ values (List.concat gs))) (qsum r) (qsum (values (map (aggregate MSum) gs))); rewrite qsum_app.
    destruct (values (List.concat gs)) as [|a b], (values (map (aggregate MSum) gs)) as [|c e]; try (destruct IH; fail); [cbn; ring|cbn [qsum fold_right] in *; rewrite IH; ring]. }
  unfold aggregate at 1 2; destruct (values (List.concat gs)) as [|a b], (values (map (aggregate m) gs)) as [|c e]; try (destruct G; fail); [constructor|constructor; destruct M as [->| ->]; [exact G|rewrite G; reflexivity]].
Qed.

Lemma bin_twice o step k t : 0 < step -> 0 < k -> bin o (k * step) (bin o step t) = bin o (k * step) t.
Proof.
  intros S K; unfold bin; do 2 f_equal; replace (o + (t - o) / step * step - o) with (step * ((t - o) / step)) by lia.
  rewrite (Z.mul_comm k step), Z.div_mul_cancel_l, Z.div_div by lia; reflexivity.
Qed.
Lemma labels_ends ts step : 0 < step -> ordered ts -> ts <> [] ->
  hd 0 (labels ts step) = bin (origin ts) step (hd 0 ts) /\ last (labels ts step) 0 = bin (origin ts) step (last ts 0).
Proof.
  intros S O N; unfold labels; cbv zeta; set (a := bin (origin ts) step (hd 0 ts)); set (b := bin (origin ts) step (last ts 0)).
  assert (L : a <= b) by (apply bin_mono; [exact S|]; apply (ordered_bounds ts _ O (hd_in ts N))).
  assert (DIV : exists j, 0 <= j /\ b = a + j * step).
  { exists ((last ts 0 - origin ts) / step - (hd 0 ts - origin ts) / step); unfold a, b, bin in *; split; [nia|nia]. }
  destruct DIV as (j & J & B); rewrite B; replace (a + j * step - a) with (j * step) by lia; rewrite Z.div_mul by lia.
  replace (Z.to_nat (j + 1)) with (Datatypes.S (Z.to_nat j)) by lia; split; [cbn [seq map hd]; lia|].
  rewrite seq_S, map_app; cbn [map]; rewrite last_last, Nat.add_0_l, Z2Nat.id by exact J; reflexivity.
Qed.
Lemma bin_date o step t : 0 < step -> o = midnight (date t) -> date (bin o step t) = date t.
Proof.
  intros S ->; unfold bin; pose proof (Z.mul_div_le (t - midnight (date t)) step S) as U.
  assert (P : 0 <= (t - midnight (date t)) / step * step).
  { assert (0 <= (t - midnight (date t)) / step) by (apply Z.div_pos; [unfold midnight, date, day; pose proof (Z.mul_div_le t 1440); lia|exact S]); nia. }
  unfold midnight, date, day in *; pose proof (Z.mul_div_le t 1440); symmetry; apply Z.div_unique with (r := (t - t / 1440 * 1440) / step * step); [|lia].
  left; split; [exact P|]; pose proof (Z.mod_pos_bound t 1440); rewrite Z.mod_eq in * by lia; lia.
Qed.
Lemma labels_twice ts step k : 0 < step -> 0 < k -> ordered ts -> ts <> [] ->
  origin (labels ts step) = origin ts /\ labels (labels ts step) (k * step) = labels ts (k * step).
Proof.
  intros S K O N; destruct (labels_ends ts step S O N) as (H & L).
  assert (OR : origin (labels ts step) = origin ts) by (unfold origin at 1; rewrite H, bin_date; [reflexivity|exact S|reflexivity]).
  split; [exact OR|]; unfold labels at 1; cbv zeta; rewrite OR, H, L, !bin_twice by assumption; reflexivity.
Qed.
Lemma bins_sorted o step (s : series) : 0 < step -> ordered (map fst s) -> StronglySorted Z.le (map (fun tv => bin o step (fst tv)) s).
Proof.
  intros S; induction s as [|x s IH]; intros O; [constructor|]; cbn [map] in *; inversion O as [|? ? O' F]; subst; constructor; [apply IH; exact O'|].
  rewrite Forall_forall in *; intros y I; apply in_map_iff in I as (z & <- & I); apply bin_mono; [exact S|]; specialize (F (fst z) (in_map fst s z I)); lia.
Qed.
Lemma filter_map_comm {A B} (f : A -> B) (p : B -> bool) l : filter p (map f l) = map f (filter (fun x => p (f x)) l).
Proof. induction l as [|x l IH]; [reflexivity|]; cbn [map filter]; destruct (p (f x)); cbn [map]; rewrite IH; reflexivity. Qed.
Lemma resample_twice m step k s : m = MSum \/ m = MFirst -> 0 < step -> 0 < k -> ordered (map fst s) -> s <> [] ->
  Forall2 (fun a b => fst a = fst b /\ same_value (snd a) (snd b)) (resample m (k * step) s) (resample m (k * step) (resample m step s)).
Proof.
  intros M S K O N; assert (N' : map fst s <> []) by (destruct s; [congruence|discriminate]).
  destruct (labels_twice (map fst s) step k S K O N') as (OR & LB); unfold resample at 1 2; cbv zeta; rewrite resample_fst, LB, OR.
  set (o := origin (map fst s)); set (LL := labels (map fst s) (k * step)); clearbody LL.
  induction LL as [|l LL IH]; cbn [map]; constructor; [|exact IH]; cbn [fst snd]; split; [reflexivity|].
  unfold resample; cbv zeta; fold o; rewrite filter_map_comm; cbn [fst]; set (ls := filter (fun x => bin o (k * step) x =? l) (labels (map fst s) step)).
  rewrite map_map; cbn [snd].
  set (sl := filter (fun tv => bin o (k * step) (fst tv) =? l) s).
  assert (RG : flat_map (fun l1 => filter (fun tv => bin o step (fst tv) =? l1) sl) ls = sl).
  { apply regroup; [apply ordered_filter, labels_ordered; exact S|apply sorted_filter, bins_sorted; assumption|].
    intros x I; apply filter_In in I as (I & P); apply filter_In; split; [apply labels_in; [exact S|exact O|apply in_map; exact I]|rewrite bin_twice by assumption; exact P]. }
  rewrite <- RG at 1; rewrite flat_map_concat_map, concat_map, map_map.
  assert (EQ : map (fun x => map snd (filter (fun tv => bin o step (fst tv) =? x) sl)) ls = map (fun x => map snd (filter (fun tv => bin o step (fst tv) =? x) s)) ls).
  { apply map_ext_in; intros l1 I; f_equal; unfold sl; apply filter_none; intros x J P; apply Z.eqb_eq in P; apply filter_In in I as (_ & I); rewrite <- P, bin_twice in I by assumption; exact I. }
  rewrite EQ; pose proof (aggregate_groups m (map (fun x => map snd (filter (fun tv => bin o step (fst tv) =? x) s)) ls) M) as A; rewrite map_map in A; exact A.
Qed.

Lemma open_resampled days step d o : open days (resampled step) (defined d) = Ok o -> exists l, resample_all step (t_series (drop d)) = Ok l /\
  o = {| o_data := infer {| t_times := labels (t_times d) step; t_series := l |}; o_runtime := {| r_applied := resampled step; r_instantiated := true |} |}.
Proof.
  unfold open, defined, resampled, no_settings; cbn [o_runtime o_data r_applied r_instantiated s_subset s_resample s_cluster opt_eqb bind]; cbn [resample_data]; intros E.
  destruct (resample_all step (t_series (drop d))) as [l|]; [|discriminate]; cbn [bind] in E; injection E as <-; eauto.
Qed.
Lemma open_resampled_again days step step' d o : step <> step' -> open days (resampled step') {| o_data := d; o_runtime := {| r_applied := resampled step; r_instantiated := true |} |} = Ok o ->
  exists l, resample_all step' (t_series (drop d)) = Ok l /\ o_data o = {| t_times := labels (t_times d) step'; t_series := l |}.
Proof.
  intros N; unfold open, resampled; cbn [o_runtime o_data r_applied r_instantiated s_subset s_resample s_cluster opt_eqb bind].
  destruct (Z.eqb_spec step' step) as [->|_]; [congruence|]; cbn [resample_data]; intros E.
  destruct (resample_all step' (t_series (drop d))) as [l|]; [|discriminate]; cbn [bind] in E; injection E as <-; eauto.
Qed.
Lemma two_steps days step k d o1 o2 n m : 0 < step -> 1 < k -> consistent d -> ~ inferred n -> (exists s, In (n, (Some m, s)) (t_series d) /\ exists t x, In (t, Some x) s) -> m = MSum \/ m = MFirst ->
  open days (resampled (k * step)) (defined d) = Ok o1 -> opens days [resampled step; resampled (k * step)] (defined d) = Ok o2 ->
  t_times (o_data o1) = t_times (o_data o2) /\
  exists s1 s2, In (n, (Some m, s1)) (t_series (o_data o1)) /\ In (n, (Some m, s2)) (t_series (o_data o2)) /\
    Forall2 (fun a b => fst a = fst b /\ same_value (snd a) (snd b)) s1 s2.
Proof.
  intros S K (O & N & ND & F) NI (s & I0 & V) M E1 E2.
  destruct (open_resampled _ _ _ _ E1) as (l1 & R1 & ->); cbn [opens] in E2; destruct (open days (resampled step) (defined d)) as [oa|] eqn:EA; [|discriminate]; cbn [bind] in E2.
  destruct (open_resampled _ _ _ _ EA) as (la & RA & ->); destruct (open days (resampled (k * step)) _) as [ob|] eqn:EB in E2; [|discriminate]; cbn [bind] in E2; injection E2 as <-.
  apply open_resampled_again in EB; [|nia]; destruct EB as (lb & RB & ->); cbn [o_data t_times t_series] in *; pose proof (drop_kept d n _ s I0 V) as I.
  split; [symmetry; apply labels_twice; try assumption; lia|].
  destruct (resample_all_in _ _ _ R1) as (_ & B1 & _); destruct (B1 n _ s I) as (m1 & Q1 & J1); injection Q1 as <-.
  destruct (resample_all_in _ _ _ RA) as (_ & BA & _); destruct (BA n _ s I) as (ma & QA & JA); injection QA as <-.
  destruct (resample_all_in _ _ _ RB) as (_ & BB & _); destruct (BB n (Some m) (resample m step s)) as (mb & QB & JB).
  { destruct V as (t & x & V); apply drop_kept; [|apply (resample_has m step s t x); [exact S|rewrite (F _ _ _ I0); exact O|exact V]]; cbn [infer t_series]; apply in_set; [intros ->; apply NI; right; reflexivity|]; apply in_set; [intros ->; apply NI; left; reflexivity|exact JA]. }
  injection QB as <-; exists (resample m (k * step) s), (resample m (k * step) (resample m step s)); split; [|split; [exact JB|]].
  - apply in_set; [intros ->; apply NI; right; reflexivity|]; apply in_set; [intros ->; apply NI; left; reflexivity|exact J1].
  - apply resample_twice; [exact M|exact S|lia|rewrite (F _ _ _ I0); exact O|intros ->; apply N; rewrite <- (F _ _ _ I0); reflexivity].
Qed.
