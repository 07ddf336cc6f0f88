(** The state after a fresh build, and why it is the only consistent one. *)
From Coq Require Import QArith Qcanon Lia.
From Verif Require Import Base BaseProofs EvalModel HelperModel HelperSpec HelperProofs UpdateModel UpdateSpec UpdateProofs.
Local Open Scope nat_scope.
Local Open Scope string_scope.
Local Open Scope list_scope.

Section Fresh.
Variable L : string -> list string.
Variable mutable : bool.
Variable M : math.
Hypothesis WF : well_formed M.

Definition names (cs : list comp) : list string := map fst (m_inputs M) ++ map k_name cs.
Notation all_names := (names (build_order M)).

(** ** The build order *)
Lemma kind_eqb_spec a b : reflect (a = b) (kind_eqb a b).
Proof. destruct a, b; constructor; congruence. Qed.
Lemma order_in c : In c (build_order M) <-> In c (m_comps M).
Proof.
  unfold build_order. rewrite in_flat_map. split.
  - intros (k & _ & H). now apply filter_In in H.
  - intros H. exists (k_kind c). split; [now apply WF|]. apply filter_In. split; [assumption|].
    now destruct (kind_eqb_spec (k_kind c) (k_kind c)).
Qed.
Lemma nodup_map_filter {A B} (f : A -> B) g l : NoDup (map f l) -> NoDup (map f (filter g l)).
Proof.
  induction l as [|x l IH]; cbn; [auto|]. rewrite NoDup_cons_iff. intros [N ND]. destruct (g x); cbn; auto.
  constructor; auto. intros H. apply N. apply in_map_iff in H as (y & E & Hy). apply filter_In in Hy as [Hy _].
  rewrite <- E. now apply in_map.
Qed.
Lemma nodup_map_in {A B} (f : A -> B) l x y : NoDup (map f l) -> In x l -> In y l -> f x = f y -> x = y.
Proof.
  induction l as [|z l IH]; cbn; [intros _ []|]. rewrite NoDup_cons_iff. intros [N ND] [->|Hx] [->|Hy] E; auto.
  - destruct N. rewrite E. now apply in_map.
  - destruct N. rewrite <- E. now apply in_map.
Qed.
Lemma nodup_by_kind ks : NoDup ks ->
  NoDup (map k_name (flat_map (fun k => filter (fun c => kind_eqb (k_kind c) k) (m_comps M)) ks)).
Proof.
  assert (ND : NoDup (map k_name (m_comps M))) by (destruct WF as (W & _); apply nodup_app in W; tauto).
  induction ks as [|k ks IH]; cbn; [constructor|]. rewrite NoDup_cons_iff. intros [N NK].
  rewrite map_app. apply nodup_app. split; [now apply nodup_map_filter|]. split; [auto|].
  intros x H1 H2. apply in_map_iff in H1 as (c & <- & H1). apply in_map_iff in H2 as (c' & E & H2).
  apply in_flat_map in H2 as (k' & Hk' & H2). apply filter_In in H1 as [H1 K1]. apply filter_In in H2 as [H2 K2].
  assert (c' = c) by (eapply nodup_map_in; eauto). subst c'.
  destruct (kind_eqb_spec (k_kind c) k); [|discriminate]. destruct (kind_eqb_spec (k_kind c) k'); [|discriminate].
  subst. auto.
Qed.
Lemma ordered_nodup : NoDup ordered_kinds.
Proof. repeat constructor; cbn; intuition discriminate. Qed.
Lemma comps_nodup : NoDup (map k_name (build_order M)).
Proof. apply nodup_by_kind, ordered_nodup. Qed.
Lemma inputs_nodup : NoDup (map fst (m_inputs M)).
Proof. destruct WF as (W & _). apply nodup_app in W. tauto. Qed.
Lemma disjoint_names n : In n (map fst (m_inputs M)) -> ~ In n (map k_name (build_order M)).
Proof.
  destruct WF as (W & _). apply nodup_app in W as (_ & _ & D). intros H1 H2. apply (D n H1).
  apply in_map_iff in H2 as (c & <- & H2). apply in_map. now apply order_in.
Qed.
Lemma all_nodup : NoDup all_names.
Proof.
  apply nodup_app. split; [apply inputs_nodup|]. split; [apply comps_nodup|]. apply disjoint_names.
Qed.

(** ** Consistent states *)
Record good (cs : list comp) (st : state) : Prop := {
  g_nodup : NoDup (d_keys (s_data st));
  g_set : forall n, In n (d_keys (s_data st)) <-> In n (names cs);
  g_input : forall n b, In (n, b) (m_inputs M) ->
    same_array (d_get n (s_data st)) (Some (input_entry L mutable n b (s_inputs st n)));
  g_comp : forall c, In c cs -> exists refs dims at_ e,
    run (s_inputs st) (s_data st) (k_prog c) = Some (refs, (dims, at_)) /\
    d_get (k_name c) (s_data st) = Some e /\ t_kind e = k_kind c /\ t_dims e = dims /\ (forall p, t_at e p = at_ p) /\
    forall r, In r refs -> before (names cs) r (k_name c) /\
      exists e', d_get r (s_data st) = Some e' /\ In (k_name c) (t_refs e');
  g_edge : forall r e c, d_get r (s_data st) = Some e -> In c (t_refs e) ->
    before (names cs) r c /\ In c (map k_name cs);
  g_vals : forall n p, In (n, false) (m_inputs M) -> within L (a_dims (s_inputs st n)) p = true ->
    s_vals st n p = a_at (s_inputs st n) p
}.

Lemma same_like a b : same_array a b -> like a b.
Proof. destruct a, b; cbn; tauto. Qed.
Lemma same_refl a : same_array a a.
Proof. destruct a; cbn; auto. Qed.
Lemma same_sym a b : same_array a b -> same_array b a.
Proof. destruct a, b; cbn; auto. intros (? & ? & ?). auto. Qed.
Lemma same_trans a b c : same_array a b -> same_array b c -> same_array a c.
Proof.
  destruct a, b, c; cbn; try tauto. intros (E1 & E2 & E3) (F1 & F2 & F3).
  split; [congruence|]. split; [congruence|]. intros p. now rewrite E3.
Qed.

(** ** Loading the inputs *)
Definition input_entries (I : inputs) (l : list (string * bool)) : dataset :=
  map (fun x => (fst x, input_entry L mutable (fst x) (snd x) (I (fst x)))) l.
Lemma load_fold I l st : let st' := fold_left (fun st x => add_input L mutable (fst x) (snd x) (I (fst x)) st) l st in
  s_inputs st' = s_inputs st /\ s_data st' = s_data st ++ input_entries I l /\
  forall n p, s_vals st' n p = if smem n (map fst l) then a_at (I n) p else s_vals st n p.
Proof.
  revert st. induction l as [|[n b] l IH]; intros st; cbn -[input_entry].
  - rewrite app_nil_r. auto.
  - destruct (IH (add_input L mutable n b (I n) st)) as (H1 & H2 & H3). split; [exact H1|]. split.
    + rewrite H2. cbn. now rewrite <- app_assoc.
    + intros m p. rewrite H3. cbn. destruct (String.eqb_spec m n) as [->|N]; cbn; [|reflexivity].
      now destruct (smem n (map fst l)).
Qed.
Lemma input_entries_keys I l : d_keys (input_entries I l) = map fst l.
Proof. unfold d_keys, input_entries. now rewrite map_map. Qed.
Lemma entry_norefs n b a : t_refs (input_entry L mutable n b a) = [].
Proof. unfold input_entry. now destruct (all_missing L a). Qed.

Lemma load_good I : good [] (load_inputs L mutable M I) /\
  s_inputs (load_inputs L mutable M I) = I /\ d_keys (s_data (load_inputs L mutable M I)) = names [].
Proof.
  destruct (load_fold I (m_inputs M) {| s_inputs := I; s_data := []; s_vals := fun _ _ => Miss |}) as (H1 & H2 & H3).
  fold (load_inputs L mutable M I) in *. cbn [s_inputs s_data s_vals app] in *.
  assert (K : d_keys (s_data (load_inputs L mutable M I)) = names [])
    by (rewrite H2, input_entries_keys; unfold names; cbn; now rewrite app_nil_r).
  assert (ND : NoDup (d_keys (s_data (load_inputs L mutable M I)))).
  { rewrite K. unfold names. cbn. rewrite app_nil_r. apply inputs_nodup. }
  split; [|auto]. split.
  - exact ND.
  - intros n. now rewrite K.
  - intros n b HI. erewrite (d_in_get n _ (s_data _)); [|exact ND|].
    + rewrite H1. apply same_refl.
    + rewrite H2. unfold input_entries. apply in_map_iff. exists (n, b). auto.
  - intros c [].
  - intros r e c G HI. apply d_get_in in G. rewrite H2 in G. apply in_map_iff in G as ([n b] & E & _).
    injection E as <- <-. cbn [fst snd] in HI. rewrite entry_norefs in HI. destruct HI.
  - intros n p HI _. rewrite H3, H1. replace (smem n (map fst (m_inputs M))) with true; [reflexivity|].
    symmetry. apply smem_in. apply (in_map fst) in HI. exact HI.
Qed.

(** ** Adding a component *)
Lemma get_added c e refs D n : ~ In (k_name c) (d_keys D) -> ~ In (k_name c) refs ->
  d_get n (update_references (k_name c) refs (D ++ [(k_name c, e)])) =
  if String.eqb n (k_name c) then Some e
  else match d_get n D with Some x => Some (if smem n refs then note (k_name c) x else x) | None => None end.
Proof.
  intros N1 N2. rewrite get_update, get_app. destruct (String.eqb_spec n (k_name c)) as [->|N].
  - replace (d_get (k_name c) D) with (@None entry) by (symmetry; now apply d_get_none).
    cbn. rewrite String.eqb_refl.
    destruct (smem (k_name c) refs) eqn:E; [|reflexivity]. apply smem_in in E. tauto.
  - destruct (d_get n D) as [x|]; [reflexivity|]. cbn. apply String.eqb_neq in N. now rewrite N.
Qed.
Lemma like_added c e refs D n : ~ In (k_name c) (d_keys D) -> ~ In (k_name c) refs ->
  same_array (d_get n (update_references (k_name c) refs (D ++ [(k_name c, e)])))
             (if String.eqb n (k_name c) then Some e else d_get n D).
Proof.
  intros N1 N2. rewrite (get_added c e refs D n N1 N2). destruct (String.eqb n (k_name c)); [apply same_refl|].
  destruct (d_get n D) as [x|]; [|exact I]. destruct (smem n refs); cbn; auto.
Qed.
Lemma asks_inputs c : In c (build_order M) -> asks (fun n => In n (map fst (m_inputs M))) (k_prog c).
Proof. intros H. apply WF. now apply order_in. Qed.

Lemma names_snoc cs c : names (cs ++ [c]) = names cs ++ [k_name c].
Proof. unfold names. now rewrite map_app, app_assoc. Qed.

Lemma add_good cs c st st' : In c (build_order M) -> ~ In (k_name c) (names cs) ->
  good cs st -> add_comp c st = Some st' ->
  good (cs ++ [c]) st' /\ s_inputs st' = s_inputs st /\ d_keys (s_data st') = d_keys (s_data st) ++ [k_name c].
Proof.
  intros HC NC G H. unfold add_comp in H.
  destruct (d_get (k_name c) (s_data st)) eqn:EG; [discriminate|].
  destruct (run (s_inputs st) (s_data st) (k_prog c)) as [[refs [dims at_]]|] eqn:R; [|discriminate].
  injection H as <-. cbn [s_inputs s_data].
  assert (ND : ~ In (k_name c) (d_keys (s_data st))) by now apply d_get_none.
  assert (RD : forall r, In r refs -> In r (names cs)).
  { intros r Hr. destruct (run_reads _ _ _ _ _ _ R (asks_inputs c HC) r Hr) as [H|H].
    - unfold names. rewrite in_app_iff. now left.
    - now apply (g_set _ _ G). }
  assert (NR : ~ In (k_name c) refs) by (intros H; apply NC; auto).
  set (e := {| t_kind := k_kind c; t_dims := dims; t_at := at_; t_refs := [] |}).
  assert (K : d_keys (update_references (k_name c) refs (s_data st ++ [(k_name c, e)])) = d_keys (s_data st) ++ [k_name c])
    by (rewrite keys_update, keys_app; reflexivity).
  assert (LK : forall n, In n (names cs) ->
      like (d_get n (s_data st)) (d_get n (update_references (k_name c) refs (s_data st ++ [(k_name c, e)])))).
  { intros n Hn. apply same_like, same_sym. eapply same_trans; [apply like_added; assumption|].
    destruct (String.eqb_spec n (k_name c)) as [->|N]; [tauto|apply same_refl]. }
  assert (REFS : forall r x, d_get r (s_data st) = Some x -> exists x',
      d_get r (update_references (k_name c) refs (s_data st ++ [(k_name c, e)])) = Some x' /\
      (forall m, In m (t_refs x) -> In m (t_refs x')) /\ (In r refs -> In (k_name c) (t_refs x'))).
  { intros r x Hx. rewrite get_added by assumption. rewrite Hx.
    destruct (String.eqb_spec r (k_name c)) as [->|N]; [apply d_get_some_key in Hx; tauto|].
    eexists. split; [reflexivity|]. destruct (smem r refs) eqn:E.
    - split; intros; apply note_in; auto.
    - split; [auto|]. intros Hr. apply smem_in in Hr. congruence. }
  split; [|split; [reflexivity|exact K]]. split; cbn [s_inputs s_data s_vals].
  - rewrite K. apply nodup_app. split; [apply G|]. split; [repeat constructor; intros []|].
    intros x H [<-|[]]. auto.
  - intros n. rewrite K, names_snoc, !in_app_iff, (g_set _ _ G). reflexivity.
  - intros n b HI. eapply same_trans; [apply like_added; assumption|].
    destruct (String.eqb_spec n (k_name c)) as [->|N].
    + exfalso. apply NC. unfold names. rewrite in_app_iff. left. apply (in_map fst) in HI. exact HI.
    + apply (g_input _ _ G n b HI).
  - intros c' HI. apply in_app_iff in HI as [HI|[<-|[]]].
    + destruct (g_comp _ _ G c' HI) as (refs' & dims' & at' & e' & R' & G' & E1 & E2 & E3 & Q).
      assert (Rn : forall n, In n refs' -> In n (names cs)) by (intros n Hn; destruct (Q n Hn) as [B _]; now apply before_in in B).
      assert (G2 := get_added c e refs (s_data st) (k_name c') ND NR). rewrite G' in G2.
      destruct (String.eqb_spec (k_name c') (k_name c)) as [E|N].
      { exfalso. apply ND. rewrite <- E. now apply d_get_some_key in G'. }
      exists refs', dims', at', (if smem (k_name c') refs then note (k_name c) e' else e').
      split; [eapply run_same; [intros; split; reflexivity|exact R'|auto]|]. split; [exact G2|].
      split; [now destruct (smem (k_name c') refs)|]. split; [now destruct (smem (k_name c') refs)|].
      split; [now destruct (smem (k_name c') refs)|].
      intros r Hr. destruct (Q r Hr) as (B & x & Gx & Ix). split; [rewrite names_snoc; now apply before_app_l|].
      destruct (REFS r x Gx) as (x' & Gx' & I1 & _). exists x'. auto.
    + exists refs, dims, at_, e. split; [eapply run_same; [intros; split; reflexivity|exact R|auto]|].
      split; [rewrite get_added by assumption; now rewrite String.eqb_refl|].
      split; [reflexivity|]. split; [reflexivity|]. split; [reflexivity|].
      intros r Hr. split.
      * rewrite names_snoc. apply before_across; [auto|now left].
      * assert (Hk : In r (d_keys (s_data st))) by (apply (g_set _ _ G); auto).
        destruct (d_get r (s_data st)) as [x|] eqn:Gx; [|apply d_get_none in Gx; tauto].
        destruct (REFS r x Gx) as (x' & Gx' & _ & I2). exists x'. auto.
  - intros r x m Gx Im. rewrite get_added in Gx by assumption. rewrite names_snoc.
    destruct (String.eqb_spec r (k_name c)) as [->|N]; [injection Gx as <-; destruct Im|].
    destruct (d_get r (s_data st)) as [x0|] eqn:G0; [|discriminate]. injection Gx as <-.
    assert (OLD : In m (t_refs x0) -> before (names cs ++ [k_name c]) r m /\ In m (map k_name (cs ++ [c]))).
    { intros H. destruct (g_edge _ _ G r x0 m G0 H) as [B1 B2]. split; [now apply before_app_l|].
      rewrite map_app, in_app_iff. now left. }
    destruct (smem r refs) eqn:E; [|auto]. apply note_in in Im as [->|Im]; [|auto].
    split; [apply before_across; [|now left]|rewrite map_app, in_app_iff; right; now left].
    apply (g_set _ _ G). now apply d_get_some_key in G0.
  - apply (g_vals _ _ G).
Qed.

Lemma adds_good cs : forall done st st', build_order M = done ++ cs -> good done st ->
  d_keys (s_data st) = names done -> add_comps cs st = Some st' ->
  good (build_order M) st' /\ s_inputs st' = s_inputs st /\ d_keys (s_data st') = all_names.
Proof.
  induction cs as [|c cs IH]; intros done st st' E G K H.
  - rewrite app_nil_r in E. cbn in H. injection H as <-. rewrite E. auto.
  - cbn in H. destruct (add_comp c st) as [st1|] eqn:A; [|discriminate].
    assert (NC : ~ In (k_name c) (names done)).
    { pose proof all_nodup as ND. rewrite E in ND. unfold names in ND. rewrite map_app, app_assoc in ND.
      apply nodup_app in ND as (_ & _ & D). intros H1. apply (D _ H1). now left. }
    destruct (add_good done c st st1) as (G1 & I1 & K1); auto.
    { rewrite E. apply in_app_iff. right. now left. }
    destruct (IH (done ++ [c]) st1 st') as (G2 & I2 & K2); auto.
    + now rewrite <- app_assoc.
    + rewrite K1, K. now rewrite names_snoc.
    + rewrite I2. auto.
Qed.
Theorem fresh_good I st : fresh L mutable M I = Some st ->
  good (build_order M) st /\ s_inputs st = I /\ d_keys (s_data st) = all_names.
Proof.
  intros H. destruct (load_good I) as (G & E & K).
  destruct (adds_good (build_order M) [] (load_inputs L mutable M I) st) as (G1 & E1 & K1); auto.
  split; [exact G1|]. split; [congruence|exact K1].
Qed.

(** ** Consistent states with the same inputs are the same *)
Lemma all_missing_ext a b : a_dims a = a_dims b -> (forall p, missing (a_at a p) = missing (a_at b p)) -> all_missing L a = all_missing L b.
Proof.
  intros E H. unfold all_missing. rewrite E. induction (cells L (a_dims b)) as [|p l IH]; cbn; [reflexivity|]. now rewrite H, IH.
Qed.
Lemma input_entry_ext n b x y : a_dims x = a_dims y -> (forall p, a_at x p = a_at y p) ->
  same_array (Some (input_entry L mutable n b x)) (Some (input_entry L mutable n b y)).
Proof.
  intros E H. unfold input_entry. rewrite (all_missing_ext x y E) by (intros; now rewrite H).
  destruct (all_missing L y); [apply same_refl|]. cbn. rewrite E. split; [reflexivity|]. split; [reflexivity|].
  intros p. now rewrite H.
Qed.

Lemma good_data st1 st2 : good (build_order M) st1 -> good (build_order M) st2 ->
  (forall n, agree (s_inputs st1) (s_inputs st2) n) ->
  forall n, same_array (d_get n (s_data st1)) (d_get n (s_data st2)).
Proof.
  intros G1 G2 A.
  assert (K : forall k n, idx all_names n < k -> same_array (d_get n (s_data st1)) (d_get n (s_data st2))).
  { induction k as [|k IH]; intros n Hn; [lia|].
    destruct (in_dec string_dec n all_names) as [HI|HN].
    - unfold names in HI. apply in_app_iff in HI as [HI|HI].
      + apply in_map_iff in HI as ([n' b] & <- & HI). cbn [fst].
        eapply same_trans; [apply (g_input _ _ G1 n' b HI)|]. apply same_sym.
        eapply same_trans; [apply (g_input _ _ G2 n' b HI)|]. apply same_sym.
        destruct (A n'). now apply input_entry_ext.
      + apply in_map_iff in HI as (c & <- & HC).
        destruct (g_comp _ _ G1 c HC) as (refs & dims & at_ & e & R & Ge & E1 & E2 & E3 & Q).
        destruct (g_comp _ _ G2 c HC) as (refs' & dims' & at' & e' & R' & Ge' & E1' & E2' & E3' & Q').
        assert (R2 : run (s_inputs st2) (s_data st2) (k_prog c) = Some (refs, (dims, at_))).
        { eapply run_same; [exact A|exact R|]. intros r Hr. apply same_like. apply IH.
          destruct (Q r Hr) as [B _]. apply before_idx in B; [lia|apply all_nodup]. }
        rewrite R2 in R'. injection R' as <- <- <-. rewrite Ge, Ge'. cbn.
        split; [congruence|]. split; [congruence|]. intros p. now rewrite E3, E3'.
    - assert (N1 : d_get n (s_data st1) = None) by (apply d_get_none; rewrite (g_set _ _ G1); exact HN).
      assert (N2 : d_get n (s_data st2) = None) by (apply d_get_none; rewrite (g_set _ _ G2); exact HN).
      now rewrite N1, N2. }
  intros n. apply (K (S (idx all_names n))). lia.
Qed.

Lemma parameter_input st n e : good (build_order M) st -> d_get n (s_data st) = Some e -> t_kind e = KParameter ->
  In (n, false) (m_inputs M) /\ same_array (Some e) (Some (input_entry L mutable n false (s_inputs st n))).
Proof.
  intros G Ge K. assert (HI : In n all_names) by (apply (g_set _ _ G); now apply d_get_some_key in Ge).
  unfold names in HI. apply in_app_iff in HI as [HI|HI].
  - apply in_map_iff in HI as ([n' b] & <- & HI). cbn [fst] in *. pose proof (g_input _ _ G n' b HI) as S1. rewrite Ge in S1.
    destruct b; [|auto]. exfalso. destruct S1 as (S1 & _). rewrite K in S1. unfold input_entry in S1.
    destruct (all_missing L _); discriminate.
  - exfalso. apply in_map_iff in HI as (c & <- & HC).
    destruct (g_comp _ _ G c HC) as (refs & dims & at_ & e' & R & Ge' & E1 & _). rewrite Ge in Ge'. injection Ge' as <-.
    rewrite K in E1. destruct WF as (_ & W & _). apply order_in in HC. apply W in HC. rewrite <- E1 in HC.
    cbn in HC. intuition discriminate.
Qed.
Lemma proper_within a p : proper L a -> a_at a p <> Miss -> within L (a_dims a) p = true.
Proof.
  intros (_ & _ & P) N. unfold within. apply forallb_forall. intros d Hd. apply smem_in.
  destruct (in_dec string_dec (p d) (L d)) as [H|H]; [assumption|]. destruct N. now apply (P p d).
Qed.

Theorem good_same st1 st2 : good (build_order M) st1 -> good (build_order M) st2 ->
  (forall n, agree (s_inputs st1) (s_inputs st2) n) -> (forall n, In n (map fst (m_inputs M)) -> proper L (s_inputs st1 n)) ->
  same_problem st1 st2.
Proof.
  intros G1 G2 A PR. split; [now apply good_data|]. intros n e p Ge K T.
  destruct (parameter_input st1 n e G1 Ge K) as (HI & _ & _ & S3).
  assert (N : a_at (s_inputs st1 n) p <> Miss).
  { intros Z. rewrite S3 in T. unfold input_entry in T. destruct (all_missing L _); [discriminate|]. cbn in T.
    now rewrite Z in T. }
  destruct (A n) as [A1 A2].
  assert (W : within L (a_dims (s_inputs st1 n)) p = true).
  { apply proper_within; [|exact N]. apply PR. apply (in_map fst) in HI. exact HI. }
  rewrite (g_vals _ _ G1 n p HI W), (g_vals _ _ G2 n p HI); [now rewrite A2|now rewrite <- A1].
Qed.
End Fresh.
