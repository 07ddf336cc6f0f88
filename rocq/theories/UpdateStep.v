(** One update of an input. *)
From Coq Require Import QArith Qcanon Lia.
From Verif Require Import Base BaseProofs EvalModel HelperModel HelperSpec HelperProofs HelperLaws
  UpdateModel UpdateSpec UpdateProofs UpdateFresh UpdateRebuild.
Local Open Scope nat_scope.
Local Open Scope string_scope.
Local Open Scope list_scope.

Section Step.
Variable L : string -> list string.
Variable mutable : bool.
Variable M : math.
Hypothesis WF : well_formed M.
Notation all_names := (names M (build_order M)).
Notation good := (good L mutable M (build_order M)).

(** Everything read comes earlier in the dataset. *)
Definition in_order (st : state) : Prop :=
  forall c r, In c (build_order M) -> reads st c r -> before (d_keys (s_data st)) r (k_name c).

Variable st F : state.
Variable s : string.
Variable new : darr.
Variable b : bool.
Hypothesis G : good st.
Hypothesis GF : good F.
Hypothesis HS : In (s, b) (m_inputs M).
Hypothesis AG : forall n, n <> s -> agree (s_inputs st) (s_inputs F) n.
Hypothesis AS : a_dims (merged L new (s_inputs st s)) = a_dims (s_inputs F s) /\
                forall p, a_at (merged L new (s_inputs st s)) p = a_at (s_inputs F s) p.

Lemma s_lookup : d_get s (m_inputs M) = Some b.
Proof. apply d_in_get; [|assumption]. apply (inputs_nodup M WF). Qed.
Lemma s_entry : exists e, d_get s (s_data st) = Some e.
Proof.
  destruct (d_get s (s_data st)) as [e|] eqn:E; [eauto|]. exfalso. apply d_get_none in E. apply E.
  apply (g_set _ _ _ _ _ G). unfold names. apply in_app_iff. left. apply (in_map fst) in HS. exact HS.
Qed.
Lemma s_not_comp : ~ In s (map k_name (build_order M)).
Proof. apply (disjoint_names M WF). apply (in_map fst) in HS. exact HS. Qed.

Definition changed : inputs := fun n => if String.eqb n s then merged L new (s_inputs st s) else s_inputs st n.
Lemma changed_agree n : agree changed (s_inputs F) n.
Proof. unfold changed, agree. destruct (String.eqb_spec n s) as [->|N]; [exact AS|now apply AG]. Qed.

Definition st0 : state :=
  add_input L mutable s b (merged L new (s_inputs st s))
    (delete s {| s_inputs := changed; s_data := s_data st; s_vals := s_vals st |}).
Lemma st0_get n : d_get n (s_data st0) =
  if String.eqb n s then Some (input_entry L mutable s b (merged L new (s_inputs st s))) else d_get n (s_data st).
Proof.
  cbn [st0 add_input s_data delete]. rewrite get_app. destruct (String.eqb_spec n s) as [->|N].
  - rewrite d_get_del_same by apply G. cbn. now rewrite String.eqb_refl.
  - rewrite d_get_del_other by assumption. destruct (d_get n (s_data st)); [reflexivity|]. cbn.
    apply String.eqb_neq in N. now rewrite N.
Qed.
Lemma st0_keys : d_keys (s_data st0) = filter (fun n => negb (String.eqb n s)) (d_keys (s_data st)) ++ [s].
Proof. cbn [st0 add_input s_data delete]. rewrite keys_app, keys_del by apply G. reflexivity. Qed.
Lemma s_in : In s (d_keys (s_data st)).
Proof. destruct s_entry as (e & H). now apply d_get_some_key in H. Qed.
Lemma st0_nodup : NoDup (d_keys (s_data st0)).
Proof. rewrite st0_keys. apply nodup_moved, G. Qed.
Lemma st0_set n : In n (d_keys (s_data st0)) <-> In n all_names.
Proof. rewrite st0_keys, in_moved by apply s_in. apply (g_set _ _ _ _ _ G). Qed.
Lemma st0_kinds : kinds_ok M (s_data st0).
Proof.
  intros n e c Ge DF. destruct (def_of_some M WF n c DF) as [<- HC]. rewrite st0_get in Ge.
  destruct (String.eqb_spec (k_name c) s) as [E|N].
  - exfalso. apply s_not_comp. rewrite <- E. now apply in_map.
  - destruct (g_comp _ _ _ _ _ G c HC) as (refs & dims & at_ & e' & R & Ge' & E1 & _). congruence.
Qed.

(** *** The components to rebuild *)
Variable e : entry.
Hypothesis SE : d_get s (s_data st) = Some e.
Lemma length_names : List.length (d_keys (s_data st0)) = List.length all_names.
Proof.
  apply Nat.le_antisymm; apply NoDup_incl_length.
  - apply st0_nodup.
  - intros n. apply st0_set.
  - apply (all_nodup M WF).
  - intros n. apply st0_set.
Qed.
Lemma closure : exists l, find_all (S (List.length (s_data st0))) (s_data st0) (t_refs e) = Some l /\
  (forall r, In r (t_refs e) -> In r l) /\
  (forall x, In x l -> In x (map k_name (build_order M))) /\
  (forall x d y, In x l -> d_get x (s_data st0) = Some d -> In y (t_refs d) -> In y l).
Proof.
  assert (ED : forall r d c, d_get r (s_data st0) = Some d -> In c (t_refs d) ->
             before all_names r c /\ In c (map k_name (build_order M))).
  { intros r d c Gr Hc. rewrite st0_get in Gr. destruct (String.eqb r s); [|eapply (g_edge _ _ _ _ _ G); eauto].
    injection Gr as <-. rewrite entry_norefs in Hc. destruct Hc. }
  assert (EL : List.length (s_data st0) = List.length all_names).
  { rewrite <- length_names. unfold d_keys. now rewrite map_length. }
  destruct (find_all_ok all_names (s_data st0) (all_nodup M WF) st0_set (fun r d c H1 H2 => proj1 (ED r d c H1 H2))
             (List.length (s_data st0)) (t_refs e)) as (l & F1 & L1 & L2 & L3).
  { intros r Hr. destruct (g_edge _ _ _ _ _ G s e r SE Hr) as [B1 _]. split; [now apply before_in in B1|]. lia. }
  exists l. split; [exact F1|]. split; [exact L1|]. split; [|exact L3].
  intros x Hx. destruct (L2 x Hx) as [H|(r & d & Gr & H)].
  - now apply (g_edge _ _ _ _ _ G s e x SE).
  - now apply (ED r d x).
Qed.

Variable l : list string.
Hypothesis FL : find_all (S (List.length (s_data st0))) (s_data st0) (t_refs e) = Some l.
Hypothesis L1 : forall r, In r (t_refs e) -> In r l.
Hypothesis L2 : forall x, In x l -> In x (map k_name (build_order M)).
Hypothesis L3 : forall x d y, In x l -> d_get x (s_data st0) = Some d -> In y (t_refs d) -> In y l.
Hypothesis NPK : forall c, In c (build_order M) -> never_peeks s (k_prog c).
Hypothesis ORD : forall c c', In c (build_order M) -> In c' (build_order M) -> k_kind c = k_kind c' ->
  reads F c (k_name c') -> before (d_keys (s_data st)) (k_name c') (k_name c).

Definition work : list string := todo l ordered_kinds (s_data st0).
Lemma kind_of_comp c : In c (build_order M) -> kind_in (s_data st0) (k_name c) = Some (k_kind c).
Proof.
  intros HC. unfold kind_in. rewrite st0_get. destruct (String.eqb_spec (k_name c) s) as [E|N].
  { exfalso. apply s_not_comp. rewrite <- E. now apply in_map. }
  destruct (g_comp _ _ _ _ _ G c HC) as (refs & dims & at_ & e' & R & Ge' & E1 & _). rewrite Ge'. cbn. now rewrite E1.
Qed.
Lemma comp_in_keys c : In c (build_order M) -> In (k_name c) (d_keys (s_data st0)).
Proof. intros HC. apply st0_set. unfold names. apply in_app_iff. right. now apply in_map. Qed.
Lemma comp_kind c : In c (build_order M) -> In (k_kind c) ordered_kinds.
Proof. intros HC. apply WF. now apply (order_in M WF). Qed.
Definition part (k : kind) : list string := filter (fun s => smem s l) (names_of_kind k (s_data st0)).
Lemma part_comp c : In c (build_order M) -> In (k_name c) l -> In (k_name c) (part (k_kind c)).
Proof.
  intros HC Hl. unfold part. apply filter_In. split; [|now apply smem_in].
  rewrite names_of_kind_keys by apply st0_nodup. apply filter_In. split; [now apply comp_in_keys|].
  rewrite kind_of_comp by assumption. now destruct (kind_eqb_spec (k_kind c) (k_kind c)).
Qed.
Lemma work_in n : In n work <-> In n l.
Proof.
  unfold work, todo. rewrite in_flat_map. split.
  - intros (k & _ & H). apply filter_In in H as [_ H]. now apply smem_in.
  - intros H. apply L2 in H as HN. apply in_map_iff in HN as (c & <- & HC).
    exists (k_kind c). split; [now apply comp_kind|]. now apply part_comp.
Qed.
Lemma part_kind k n : In n (part k) -> kind_in (s_data st0) n = Some k.
Proof.
  intros H. apply filter_In in H as [H _]. rewrite names_of_kind_keys in H by apply st0_nodup.
  apply filter_In in H as [_ H]. destruct (kind_in (s_data st0) n) as [k'|]; [|discriminate].
  destruct (kind_eqb_spec k' k); [congruence|discriminate].
Qed.
Lemma work_nodup : NoDup work.
Proof.
  unfold work, todo. change (NoDup (flat_map part ordered_kinds)). generalize ordered_nodup.
  generalize ordered_kinds as ks. induction ks as [|k ks IH]; cbn [flat_map]; [constructor|]. rewrite NoDup_cons_iff. intros [N NK].
  apply nodup_app. split.
  - unfold part. apply NoDup_filter. rewrite names_of_kind_keys by apply st0_nodup. apply NoDup_filter, st0_nodup.
  - split; [auto|]. intros x H1 H2. apply in_flat_map in H2 as (k' & Hk & H2). apply part_kind in H1. apply part_kind in H2.
    assert (k = k') by congruence. subst. auto.
Qed.
Lemma work_comps n : In n work -> In n (map k_name (build_order M)).
Proof. intros H. apply L2. now apply work_in. Qed.

Lemma input_case n bb : In (n, bb) (m_inputs M) -> n <> s -> same_array (d_get n (s_data st)) (d_get n (s_data F)).
Proof.
  intros HI N. eapply same_trans; [apply (g_input _ _ _ _ _ G n bb HI)|]. apply same_sym.
  eapply same_trans; [apply (g_input _ _ _ _ _ GF n bb HI)|]. apply same_sym. destruct (AG n N). now apply input_entry_ext.
Qed.
(** Components that are not rebuilt read nothing that changes. *)
Lemma untouched c : In c (build_order M) -> ~ In (k_name c) l ->
  forall r, reads st c r -> r <> s /\ ~ In r l.
Proof.
  intros HC Hl r (refs & res & R & Hr).
  destruct (g_comp _ _ _ _ _ G c HC) as (refs' & dims & at_ & e' & R' & Ge & E1 & E2 & E3 & Q).
  rewrite R in R'. injection R' as <- ->. destruct (Q r Hr) as (B1 & d & Gd & Id). split.
  - intros ->. apply Hl. apply L1. rewrite SE in Gd. injection Gd as <-. exact Id.
  - intros H. apply Hl. apply (L3 r d); auto. rewrite st0_get. destruct (String.eqb_spec r s) as [->|N]; [|exact Gd].
    exfalso. apply s_not_comp. now apply L2.
Qed.
Lemma outside : forall n, n <> s -> ~ In n l -> same_array (d_get n (s_data st)) (d_get n (s_data F)).
Proof.
  assert (K : forall k n, idx all_names n < k -> n <> s -> ~ In n l -> same_array (d_get n (s_data st)) (d_get n (s_data F))).
  { induction k as [|k IH]; intros n Hn Ns Nl; [lia|].
    destruct (in_dec string_dec n all_names) as [HI|HN].
    - unfold names in HI. apply in_app_iff in HI as [HI|HI].
      + apply in_map_iff in HI as ([n' bb] & <- & HI). cbn [fst] in *. eapply input_case; eauto.
      + apply in_map_iff in HI as (c & <- & HC).
        destruct (g_comp _ _ _ _ _ G c HC) as (refs & dims & at_ & e1 & R & Ge & E1 & E2 & E3 & Q).
        destruct (g_comp _ _ _ _ _ GF c HC) as (refs' & dims' & at' & e' & R' & Ge' & E1' & E2' & E3' & Q').
        assert (U : forall r, In r refs -> r <> s /\ ~ In r l).
        { intros r Hr. apply (untouched c HC Nl). exists refs, (dims, at_). auto. }
        assert (R2 : run (s_inputs F) (s_data F) (k_prog c) = Some (refs, (dims, at_))).
        { eapply run_agree; [exact AG|exact R|now apply NPK|intros H; now destruct (U s H)|].
          intros r Hr. destruct (U r Hr). apply same_like. apply IH; auto.
          destruct (Q r Hr) as [B1 _]. apply before_idx in B1; [lia|apply (all_nodup M WF)]. }
        rewrite R2 in R'. injection R' as <- <- <-. rewrite Ge, Ge'. cbn.
        split; [congruence|]. split; [congruence|]. intros p. now rewrite E3, E3'.
    - assert (N1 : d_get n (s_data st) = None) by (apply d_get_none; rewrite (g_set _ _ _ _ _ G); exact HN).
      assert (N2 : d_get n (s_data F) = None) by (apply d_get_none; rewrite (g_set _ _ _ _ _ GF); exact HN).
      now rewrite N1, N2. }
  intros n. apply (K (S (idx all_names n))). lia.
Qed.
Lemma outside_reads c r : In c (build_order M) -> ~ In (k_name c) l -> reads F c r -> reads st c r.
Proof.
  intros HC Nl (refs' & res' & R' & Hr).
  destruct (g_comp _ _ _ _ _ G c HC) as (refs & dims & at_ & e1 & R & Ge & E1 & E2 & E3 & Q).
  assert (U : forall r, In r refs -> r <> s /\ ~ In r l).
  { intros x Hx. apply (untouched c HC Nl). exists refs, (dims, at_). auto. }
  assert (R2 : run (s_inputs F) (s_data F) (k_prog c) = Some (refs, (dims, at_))).
  { eapply run_agree; [exact AG|exact R|now apply NPK|intros H; now destruct (U s H)|].
    intros x Hx. destruct (U x Hx). apply same_like. now apply outside. }
  rewrite R2 in R'. injection R' as <- <-. exists refs, (dims, at_). auto.
Qed.

(** What is read is rebuilt first. *)
Lemma reads_before c r : In c (build_order M) -> reads F c r -> before all_names r (k_name c).
Proof.
  intros HC (refs & res & R & Hr).
  destruct (g_comp _ _ _ _ _ GF c HC) as (refs' & dims & at_ & e' & R' & Ge & E1 & E2 & E3 & Q).
  rewrite R in R'. injection R' as <- ->. now apply Q.
Qed.
Lemma kinds_order c c' : In c (build_order M) -> In c' (build_order M) -> before all_names (k_name c') (k_name c) ->
  k_kind c' <> k_kind c -> before ordered_kinds (k_kind c') (k_kind c).
Proof.
  intros HC HC' B1 N.
  set (f := fun k => map k_name (filter (fun c => kind_eqb (k_kind c) k) (m_comps M))).
  assert (E : map k_name (build_order M) = flat_map f ordered_kinds).
  { unfold build_order, f. generalize ordered_kinds as ks. induction ks as [|k ks IH]; cbn; [reflexivity|].
    now rewrite map_app, IH. }
  assert (I1 : forall x, In x (build_order M) -> In (k_name x) (f (k_kind x))).
  { intros x Hx. unfold f. apply in_map, filter_In. split; [now apply (order_in M WF)|].
    now destruct (kind_eqb_spec (k_kind x) (k_kind x)). }
  apply (flat_before f ordered_kinds _ _ (k_name c') (k_name c)); auto using comp_kind.
  - rewrite <- E. apply (comps_nodup M WF).
  - rewrite <- E. assert (N1 : k_name c' <> k_name c).
    { intros H. apply N. f_equal. eapply nodup_map_in; [apply (comps_nodup M WF)|..]; auto. }
    destruct (before_total (map k_name (build_order M)) (k_name c') (k_name c)) as [H|H]; auto using in_map.
    exfalso. assert (H2 : before all_names (k_name c) (k_name c')) by (unfold names; now apply before_app_r).
    destruct H2 as (x & y & Ex & X1 & X2). eapply before_split; [apply (all_nodup M WF)|exact B1|exact Ex|..]; assumption.
Qed.
Lemma work_before c c' : In c (build_order M) -> In c' (build_order M) -> In (k_name c) l -> In (k_name c') l ->
  reads F c (k_name c') -> before work (k_name c') (k_name c).
Proof.
  intros HC HC' Hl Hl' RD. pose proof (reads_before c _ HC RD) as B1.
  unfold work, todo. change (before (flat_map part ordered_kinds) (k_name c') (k_name c)).
  destruct (kind_eqb_spec (k_kind c) (k_kind c')) as [E|N].
  - apply before_flat_in with (k := k_kind c); [now apply comp_kind|].
    pose proof (ORD c c' HC HC' E RD) as B2. unfold part. apply before_filter; [|now apply smem_in|now apply smem_in].
    rewrite names_of_kind_keys by apply st0_nodup.
    apply before_filter; [|rewrite kind_of_comp by assumption; rewrite E; now destruct (kind_eqb_spec (k_kind c') (k_kind c'))
                          |rewrite kind_of_comp by assumption; now destruct (kind_eqb_spec (k_kind c) (k_kind c))].
    rewrite st0_keys. apply before_app_l. apply before_filter; [exact B2|..];
      apply Bool.negb_true_iff, String.eqb_neq; intros Z; apply s_not_comp; rewrite <- Z; now apply in_map.
  - apply before_flat with (k1 := k_kind c') (k2 := k_kind c); auto using part_comp.
    apply kinds_order; auto.
Qed.
Lemma work_topo : topo M F work.
Proof.
  intros B1 B2 EW c r HC N RD HI.
  assert (Hr : In r l) by (apply work_in; rewrite EW; apply in_app_iff; now right).
  destruct (in_dec string_dec (k_name c) l) as [Hl|Nl].
  - apply L2 in Hr as HN. apply in_map_iff in HN as (c' & <- & HC').
    assert (HB : In (k_name c) B1).
    { apply work_in in Hl. rewrite EW in Hl. apply in_app_iff in Hl as [H|H]; [exact H|tauto]. }
    eapply before_split; [apply work_nodup|apply (work_before c c'); eauto|exact EW|..]; assumption.
  - apply (untouched c HC Nl r); [|exact Hr]. now apply outside_reads.
Qed.

Lemma work_inv : inv L M F work st0.
Proof.
  split.
  - apply st0_nodup.
  - apply st0_set.
  - intros n. apply changed_agree.
  - intros n Hn. rewrite st0_get. destruct (String.eqb_spec n s) as [->|N].
    + apply same_sym. eapply same_trans; [apply (g_input _ _ _ _ _ GF s b HS)|]. apply same_sym.
      destruct AS. now apply input_entry_ext.
    + apply outside; [exact N|]. intros H. apply Hn. now apply work_in.
  - intros c r HC Hn RD. assert (Nl : ~ In (k_name c) l) by (intros H; apply Hn; now apply work_in).
    apply outside_reads in RD; [|assumption|assumption]. destruct (untouched c HC Nl r RD) as [Ns _].
    destruct RD as (refs & res & R & Hr).
    destruct (g_comp _ _ _ _ _ G c HC) as (refs' & dims & at_ & e' & R' & Ge & E1 & E2 & E3 & Q).
    rewrite R in R'. injection R' as <- ->. destruct (Q r Hr) as (B1 & d & Gd & Id). exists d. split; [|exact Id].
    rewrite st0_get. apply String.eqb_neq in Ns. now rewrite Ns.
  - intros r d c Gd Ic. rewrite st0_get in Gd. destruct (String.eqb r s).
    + injection Gd as <-. rewrite entry_norefs in Ic. destruct Ic.
    + eapply (g_edge _ _ _ _ _ G); eauto.
  - intros n p HI W. cbn [st0 add_input delete s_vals s_inputs changed] in *. unfold changed in W. unfold changed.
    destruct (String.eqb_spec n s) as [->|N]; [reflexivity|]. now apply (g_vals _ _ _ _ _ G).
Qed.


Lemma rebuild_result : exists st', rebuild M l st0 = Ok st' /\ good st' /\
  (forall n, agree (s_inputs st') (s_inputs F) n) /\ s_inputs st' = changed /\
  d_keys (s_data st') = filter (fun x => negb (smem x work)) (d_keys (s_data st0)) ++ work /\
  (forall n, same_array (d_get n (s_data st')) (d_get n (s_data F))).
Proof.
  destruct (loop L mutable M WF F GF work st0) as (st' & R & IV & K);
    [apply work_nodup|apply work_topo|apply work_comps|apply work_inv|].
  exists st'. split.
  { unfold rebuild. rewrite rebuild_flat; auto using ordered_nodup, st0_nodup, st0_kinds. }
  split; [eapply inv_good; eauto|]. split; [apply IV|]. split.
  { assert (FI : forall wl x y, fold_left (rebuild_one M) wl (Ok x) = Ok y -> s_inputs y = s_inputs x).
    { induction wl as [|w wl IH]; intros x y H; cbn [fold_left] in H; [now injection H as <-|].
      destruct (rebuild_one M (Ok x) w) as [x1|x1] eqn:E; [|rewrite fold_err in H; discriminate].
      rewrite (IH x1 y H). unfold rebuild_one in E. destruct (def_of M w) as [c|]; [|discriminate].
      destruct (add_comp c (delete w x)) as [x2|] eqn:A; [|discriminate]. injection E as ->.
      unfold add_comp in A. destruct (d_get (k_name c) (s_data (delete w x))); [discriminate|].
      destruct (run (s_inputs (delete w x)) _ _) as [[? [? ?]]|]; [|discriminate].
      now injection A as <-. }
    rewrite (FI _ _ _ R). reflexivity. }
  split; [exact K|]. intros n. apply (i_same _ _ _ _ _ IV). intros [].
Qed.

Lemma reads_same st' c r : (forall n, agree (s_inputs st') (s_inputs F) n) ->
  (forall n, same_array (d_get n (s_data st')) (d_get n (s_data F))) -> reads st' c r -> reads F c r.
Proof.
  intros A D (refs & res & R & Hr). exists refs, res. split; [|exact Hr]. eapply run_same; [exact A|exact R|].
  intros n _. apply same_like, D.
Qed.
Lemma step_order st' : in_order st -> (forall n, agree (s_inputs st') (s_inputs F) n) ->
  (forall n, same_array (d_get n (s_data st')) (d_get n (s_data F))) ->
  d_keys (s_data st') = filter (fun x => negb (smem x work)) (d_keys (s_data st0)) ++ work -> in_order st'.
Proof.
  intros IO A D K c r HC RD. apply (reads_same st' c r A D) in RD. rewrite K.
  assert (NS : k_name c <> s) by (intros E; apply s_not_comp; rewrite <- E; now apply in_map).
  destruct (in_dec string_dec (k_name c) l) as [Hl|Nl].
  - destruct (in_dec string_dec r l) as [Hr|Nr].
    + apply before_app_r. apply L2 in Hr as HN. apply in_map_iff in HN as (c' & <- & HC'). now apply work_before.
    + apply before_across; [|now apply work_in]. apply filter_In. split.
      * apply st0_set. apply reads_before in RD; [|assumption]. now apply before_in in RD.
      * apply Bool.negb_true_iff. destruct (smem r work) eqn:E; [|reflexivity]. apply smem_in, work_in in E. tauto.
  - apply outside_reads in RD; [|assumption|assumption]. destruct (untouched c HC Nl r RD) as [Ns Nr].
    apply before_app_l. apply before_filter.
    + rewrite st0_keys. apply before_app_l. apply before_filter; [now apply IO|..];
        now apply Bool.negb_true_iff, String.eqb_neq.
    + apply Bool.negb_true_iff. destruct (smem r work) eqn:E; [|reflexivity]. apply smem_in, work_in in E. tauto.
    + apply Bool.negb_true_iff. destruct (smem (k_name c) work) eqn:E; [|reflexivity]. apply smem_in, work_in in E. tauto.
Qed.
End Step.
