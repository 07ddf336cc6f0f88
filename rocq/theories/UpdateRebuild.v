(** The rebuilding of everything that refers to a changed input. *)
From Coq Require Import QArith Qcanon Lia.
From Verif Require Import Base BaseProofs EvalModel HelperModel HelperSpec HelperProofs UpdateModel UpdateSpec UpdateProofs UpdateFresh.
Local Open Scope nat_scope.
Local Open Scope string_scope.
Local Open Scope list_scope.

(** ** Following references *)
Lemma find_fold n D refs : (forall r, In r refs -> exists e l, d_get r D = Some e /\ find_all n D (t_refs e) = Some l) ->
  forall acc, exists l', fold_left (fun acc r =>
        match acc, d_get r D with
        | Some acc, Some e => match find_all n D (t_refs e) with Some l => Some (acc ++ l) | None => None end
        | _, _ => None
        end) refs (Some acc) = Some (acc ++ l') /\
    forall x, In x l' <-> exists r e l, In r refs /\ d_get r D = Some e /\ find_all n D (t_refs e) = Some l /\ In x l.
Proof.
  induction refs as [|r refs IH]; intros H acc; cbn [fold_left].
  - exists []. rewrite app_nil_r. split; [reflexivity|]. intros x. split; [intros []|]. intros (r & e & l & [] & _).
  - destruct (H r (or_introl eq_refl)) as (e & l & G & F). rewrite G, F.
    destruct (IH (fun r' Hr => H r' (or_intror Hr)) (acc ++ l)) as (l' & E & Q). exists (l ++ l').
    split; [now rewrite app_assoc|]. intros x. rewrite in_app_iff, Q. split.
    + intros [Hx|(r' & e' & l1 & H1 & H2 & H3 & H4)].
      * exists r, e, l. cbn. auto.
      * exists r', e', l1. cbn. auto.
    + intros (r' & e' & l1 & [<-|H1] & H2 & H3 & H4).
      * left. rewrite G in H2. injection H2 as <-. congruence.
      * right. exists r', e', l1. auto.
Qed.

Lemma find_all_ok names D : NoDup names -> (forall n, In n (d_keys D) <-> In n names) ->
  (forall r e c, d_get r D = Some e -> In c (t_refs e) -> before names r c) ->
  forall n refs, (forall r, In r refs -> In r names /\ List.length names <= idx names r + n) ->
  exists l, find_all (S n) D refs = Some l /\ (forall r, In r refs -> In r l) /\
    (forall x, In x l -> In x refs \/ exists r e, d_get r D = Some e /\ In x (t_refs e)) /\
    (forall x e y, In x l -> d_get x D = Some e -> In y (t_refs e) -> In y l).
Proof.
  intros ND KS ED. induction n as [|n IH]; intros refs H.
  - assert (refs = []) as ->.
    { destruct refs as [|r refs]; [reflexivity|]. destruct (H r (or_introl eq_refl)) as [H1 H2].
      apply idx_lt in H1. lia. }
    exists []. cbn. firstorder.
  - assert (STEP : forall r, In r refs -> exists e l, d_get r D = Some e /\ find_all (S n) D (t_refs e) = Some l /\
      (forall y, In y (t_refs e) -> In y l) /\
      (forall x, In x l -> In x (t_refs e) \/ exists r e, d_get r D = Some e /\ In x (t_refs e)) /\
      (forall x e y, In x l -> d_get x D = Some e -> In y (t_refs e) -> In y l)).
    { intros r Hr. destruct (H r Hr) as [H1 H2]. apply KS in H1.
      destruct (d_get r D) as [e|] eqn:G; [|apply d_get_none in G; tauto].
      destruct (IH (t_refs e)) as (l & F & L1 & L2 & L3).
      - intros c Hc. pose proof (ED r e c G Hc) as B. split; [now apply before_in in B|].
        apply before_idx in B; [|assumption]. lia.
      - exists e, l. auto. }
    destruct (find_fold (S n) D refs) with (acc := refs) as (l' & E & Q).
    { intros r Hr. destruct (STEP r Hr) as (e & l & G & F & _). eauto. }
    exists (refs ++ l'). split; [exact E|]. split; [intros r Hr; apply in_app_iff; now left|]. split.
    + intros x Hx. apply in_app_iff in Hx as [Hx|Hx]; [now left|]. right.
      apply Q in Hx as (r & e & l & Hr & G & F & Hx). destruct (STEP r Hr) as (e1 & l1 & G1 & F1 & L1 & L2 & L3).
      rewrite G in G1. injection G1 as <-. rewrite F in F1. injection F1 as <-.
      destruct (L2 x Hx) as [Hx'|Hx']; [exists r, e; auto|assumption].
    + intros x e y Hx G Hy. apply in_app_iff. right. apply Q. apply in_app_iff in Hx as [Hx|Hx].
      * destruct (STEP x Hx) as (e1 & l1 & G1 & F1 & L1 & L2 & L3). rewrite G in G1. injection G1 as <-.
        exists x, e, l1. auto.
      * apply Q in Hx as (r & e1 & l & Hr & G1 & F & Hx). destruct (STEP r Hr) as (e2 & l2 & G2 & F2 & L1 & L2 & L3).
        rewrite G1 in G2. injection G2 as <-. rewrite F in F2. injection F2 as <-.
        exists r, e1, l. repeat split; auto. eapply L3; eauto.
Qed.

Lemma nodup_moved s l : NoDup l -> NoDup (filter (fun n => negb (String.eqb n s)) l ++ [s]).
Proof.
  intros ND. apply nodup_app. split; [now apply NoDup_filter|]. split; [repeat constructor; intros []|].
  intros x H [<-|[]]. apply filter_In in H as [_ H]. now rewrite String.eqb_refl in H.
Qed.
Lemma in_moved s l n : In s l -> (In n (filter (fun n => negb (String.eqb n s)) l ++ [s]) <-> In n l).
Proof.
  intros HI. rewrite in_app_iff, filter_In. cbn. destruct (String.eqb_spec n s) as [->|N]; cbn; intuition congruence.
Qed.

Definition kind_in (D : dataset) (n : string) : option kind := option_map t_kind (d_get n D).
Lemma names_of_kind_keys k D : NoDup (d_keys D) ->
  names_of_kind k D = filter (fun n => match kind_in D n with Some k' => kind_eqb k' k | None => false end) (d_keys D).
Proof.
  unfold names_of_kind, kind_in, d_keys. induction D as [|[s e] D IH]; cbn; [reflexivity|]. rewrite NoDup_cons_iff. intros [N ND].
  rewrite String.eqb_refl. cbn.
  assert (E : filter (fun n => match option_map t_kind (if String.eqb n s then Some e else d_get n D) with
                               | Some k' => kind_eqb k' k | None => false end) (map fst D)
              = filter (fun n => match option_map t_kind (d_get n D) with Some k' => kind_eqb k' k | None => false end) (map fst D)).
  { apply filter_ext_in. intros x Hx. destruct (String.eqb_spec x s) as [->|]; [tauto|reflexivity]. }
  destruct (kind_eqb (t_kind e) k); cbn; rewrite E, IH; auto.
Qed.

Lemma names_of_kind_moved k s D D' : NoDup (d_keys D) -> In s (d_keys D) ->
  d_keys D' = filter (fun n => negb (String.eqb n s)) (d_keys D) ++ [s] ->
  (forall n, kind_in D' n = kind_in D n) -> kind_in D s <> Some k -> names_of_kind k D' = names_of_kind k D.
Proof.
  intros ND HI EK EI NK.
  rewrite !names_of_kind_keys by (assumption || (rewrite EK; now apply nodup_moved)). rewrite EK, filter_app. cbn.
  rewrite EI.
  replace (match kind_in D s with Some k' => kind_eqb k' k | None => false end) with false.
  2:{ destruct (kind_in D s) as [k'|]; [|reflexivity]. destruct (kind_eqb_spec k' k); [congruence|reflexivity]. }
  rewrite app_nil_r. clear ND HI EK.
  induction (d_keys D) as [|x l IH]; cbn; [reflexivity|].
  destruct (String.eqb_spec x s) as [->|N]; cbn; rewrite ?EI.
  - replace (match kind_in D s with Some k' => kind_eqb k' k | None => false end) with false; [exact IH|].
    destruct (kind_in D s) as [k'|]; [|reflexivity]. destruct (kind_eqb_spec k' k); [congruence|reflexivity].
  - destruct (match kind_in D x with Some k' => kind_eqb k' k | None => false end); [f_equal|]; exact IH.
Qed.


Section Rebuild.
Variable L : string -> list string.
Variable mutable : bool.
Variable M : math.
Hypothesis WF : well_formed M.
Notation all_names := (names M (build_order M)).

Lemma def_of_name c : In c (build_order M) -> def_of M (k_name c) = Some c.
Proof.
  intros H. apply (order_in M WF) in H. unfold def_of.
  assert (ND : NoDup (map k_name (m_comps M))) by (destruct WF as (W & _); apply nodup_app in W; tauto).
  destruct (find _ (m_comps M)) as [c'|] eqn:E.
  - apply find_some in E as [H1 H2]. apply String.eqb_eq in H2. f_equal. eapply nodup_map_in; eauto.
  - apply find_none with (x := c) in E; [|assumption]. now rewrite String.eqb_refl in E.
Qed.
Lemma def_of_some n c : def_of M n = Some c -> k_name c = n /\ In c (build_order M).
Proof.
  intros H. apply find_some in H as [H1 H2]. apply String.eqb_eq in H2. split; [assumption|]. now apply (order_in M WF).
Qed.

(** ** One kind after the other *)
Definition kinds_ok (D : dataset) : Prop := forall n e c, d_get n D = Some e -> def_of M n = Some c -> t_kind e = k_kind c.

Lemma rebuild_one_kinds st s st' : NoDup (d_keys (s_data st)) -> kinds_ok (s_data st) -> In s (d_keys (s_data st)) ->
  rebuild_one M (Ok st) s = Ok st' ->
  d_keys (s_data st') = filter (fun n => negb (String.eqb n s)) (d_keys (s_data st)) ++ [s] /\
  forall n, kind_in (s_data st') n = kind_in (s_data st) n.
Proof.
  intros ND KO HI H. cbn in H. destruct (def_of M s) as [c|] eqn:DF; [|discriminate].
  destruct (add_comp c _) as [st1|] eqn:A; [|discriminate]. injection H as ->.
  unfold add_comp in A. destruct (def_of_some s c DF) as [EN HC]. rewrite EN in A.
  cbn [delete s_data s_inputs] in A. rewrite (d_get_del_same s _ ND) in A.
  destruct (run _ _ (k_prog c)) as [[refs [dims at_]]|]; [|discriminate]. injection A as <-. cbn [s_data].
  split.
  - rewrite keys_update, keys_app, keys_del by assumption. reflexivity.
  - intros n. unfold kind_in. rewrite get_update, get_app.
    destruct (String.eqb_spec n s) as [->|N].
    + rewrite (d_get_del_same s _ ND). cbn. rewrite String.eqb_refl.
      destruct (d_get s (s_data st)) as [e|] eqn:G; [|apply d_get_none in G; tauto].
      cbn. rewrite (KO s e c G DF). now destruct (smem s refs).
    + rewrite (d_get_del_other n s) by assumption. destruct (d_get n (s_data st)) as [e|].
      * cbn. now destruct (smem n refs).
      * cbn. apply String.eqb_neq in N. now rewrite N.
Qed.
Lemma kinds_ok_same D D' : (forall n, kind_in D' n = kind_in D n) -> kinds_ok D -> kinds_ok D'.
Proof.
  intros E KO n e c G DF. specialize (E n). unfold kind_in in E. rewrite G in E.
  destruct (d_get n D) as [e'|] eqn:G'; [|discriminate]. injection E as E. rewrite E. eapply KO; eauto.
Qed.
Lemma fold_err l st : fold_left (rebuild_one M) l (Err st) = Err st.
Proof. induction l; cbn; auto. Qed.
Lemma fold_kind_err refs l st : fold_left (rebuild_kind M refs) l (Err st) = Err st.
Proof. induction l; cbn; auto. Qed.

Lemma fold_one_kinds k l : forall st st', NoDup (d_keys (s_data st)) -> kinds_ok (s_data st) ->
  (forall s, In s l -> kind_in (s_data st) s = Some k) ->
  fold_left (rebuild_one M) l (Ok st) = Ok st' ->
  NoDup (d_keys (s_data st')) /\ kinds_ok (s_data st') /\
  forall k', k' <> k -> names_of_kind k' (s_data st') = names_of_kind k' (s_data st).
Proof.
  induction l as [|s l IH]; intros st st' ND KO HK H.
  - cbn in H. injection H as <-. auto.
  - cbn [fold_left] in H. destruct (rebuild_one M (Ok st) s) as [st1|st1] eqn:R; [|rewrite fold_err in H; discriminate].
    assert (HI : In s (d_keys (s_data st))).
    { specialize (HK s (or_introl eq_refl)). unfold kind_in in HK. destruct (d_get s (s_data st)) eqn:G; [|discriminate].
      now apply d_get_some_key in G. }
    destruct (rebuild_one_kinds st s st1 ND KO HI R) as [EK EI].
    destruct (IH st1 st') as (N' & K' & Q); auto.
    + rewrite EK. now apply nodup_moved.
    + eapply kinds_ok_same; eauto.
    + intros x Hx. rewrite EI. apply HK. now right.
    + split; [assumption|]. split; [assumption|]. intros k' Nk. rewrite Q by assumption.
      eapply names_of_kind_moved; eauto. rewrite (HK s (or_introl eq_refl)). congruence.
Qed.

Definition todo (refs : list string) (ks : list kind) (D : dataset) : list string :=
  flat_map (fun k => filter (fun s => smem s refs) (names_of_kind k D)) ks.
Lemma rebuild_flat refs ks : NoDup ks -> forall st, NoDup (d_keys (s_data st)) -> kinds_ok (s_data st) ->
  fold_left (rebuild_kind M refs) ks (Ok st) = fold_left (rebuild_one M) (todo refs ks (s_data st)) (Ok st).
Proof.
  induction ks as [|k ks IH]; intros NK st ND KO; [reflexivity|].
  apply NoDup_cons_iff in NK as [N NK]. cbn [fold_left todo flat_map]. rewrite fold_left_app.
  cbn [rebuild_kind]. set (l := filter _ (names_of_kind k (s_data st))).
  destruct (fold_left (rebuild_one M) l (Ok st)) as [st1|st1] eqn:F; [|now rewrite fold_err, fold_kind_err].
  destruct (fold_one_kinds k l st st1) as (N1 & K1 & Q); auto.
  { intros s Hs. unfold l in Hs. apply filter_In in Hs as [Hs _]. rewrite names_of_kind_keys in Hs by assumption.
    apply filter_In in Hs as [_ Hs]. destruct (kind_in (s_data st) s) as [k'|]; [|discriminate].
    destruct (kind_eqb_spec k' k); [congruence|discriminate]. }
  rewrite (IH NK st1 N1 K1). f_equal. unfold todo. clear -N Q.
  induction ks as [|k' ks IHk]; cbn; [reflexivity|]. rewrite Q, IHk; auto.
  - intros H. apply N. now right.
  - intros ->. apply N. now left.
Qed.

(** ** The loop *)
Variable F : state.
Hypothesis GF : good L mutable M (build_order M) F.
Definition reads (c : comp) (r : string) : Prop :=
  exists refs res, run (s_inputs F) (s_data F) (k_prog c) = Some (refs, res) /\ In r refs.

Record inv (B : list string) (st : state) : Prop := {
  i_nodup : NoDup (d_keys (s_data st));
  i_set : forall n, In n (d_keys (s_data st)) <-> In n all_names;
  i_agree : forall n, agree (s_inputs st) (s_inputs F) n;
  i_same : forall n, ~ In n B -> same_array (d_get n (s_data st)) (d_get n (s_data F));
  i_refs : forall c r, In c (build_order M) -> ~ In (k_name c) B -> reads c r ->
    exists e, d_get r (s_data st) = Some e /\ In (k_name c) (t_refs e);
  i_edge : forall r e c, d_get r (s_data st) = Some e -> In c (t_refs e) ->
    before all_names r c /\ In c (map k_name (build_order M));
  i_vals : forall n p, In (n, false) (m_inputs M) -> within L (a_dims (s_inputs st n)) p = true ->
    s_vals st n p = a_at (s_inputs st n) p
}.
Definition topo (B : list string) : Prop :=
  forall B1 B2, B = B1 ++ B2 -> forall c r, In c (build_order M) -> ~ In (k_name c) B2 -> reads c r -> ~ In r B2.

Lemma agree_sym I J n : agree I J n -> agree J I n.
Proof. intros [H1 H2]. split; auto. Qed.

Lemma loop_step n B st : NoDup (n :: B) -> topo (n :: B) -> In n (map k_name (build_order M)) -> inv (n :: B) st ->
  exists st', rebuild_one M (Ok st) n = Ok st' /\ inv B st' /\
    d_keys (s_data st') = filter (fun x => negb (String.eqb x n)) (d_keys (s_data st)) ++ [n].
Proof.
  intros NB TP HN IV. apply NoDup_cons_iff in NB as [NB1 NB2].
  apply in_map_iff in HN as (c & <- & HC).
  destruct (g_comp _ _ _ _ _ GF c HC) as (refs & dims & at_ & e & R & Ge & E1 & E2 & E3 & Q).
  assert (NR : ~ In (k_name c) refs).
  { intros H. destruct (Q _ H) as [B1 _]. apply before_irrefl in B1; [assumption|apply all_nodup, WF]. }
  assert (RB : forall r, In r refs -> ~ In r (k_name c :: B)).
  { intros r Hr [<-|H]; [auto|]. eapply (TP [k_name c] B eq_refl c r); eauto. exists refs, (dims, at_). auto. }
  assert (ND := i_nodup _ _ IV).
  assert (HI : In (k_name c) (d_keys (s_data st))).
  { apply (i_set _ _ IV). unfold names. apply in_app_iff. right. now apply in_map. }
  assert (R1 : run (s_inputs st) (d_del (k_name c) (s_data st)) (k_prog c) = Some (refs, (dims, at_))).
  { eapply run_same; [|exact R|].
    - intros n. apply agree_sym, IV.
    - intros r Hr. rewrite d_get_del_other by (intros ->; auto). apply same_like, same_sym, IV. auto. }
  set (e0 := {| t_kind := k_kind c; t_dims := dims; t_at := at_; t_refs := [] |}).
  set (st' := {| s_inputs := s_inputs st;
                 s_data := update_references (k_name c) refs (d_del (k_name c) (s_data st) ++ [(k_name c, e0)]);
                 s_vals := s_vals st |}).
  assert (RO : rebuild_one M (Ok st) (k_name c) = Ok st').
  { cbn. rewrite (def_of_name c HC). unfold add_comp. cbn [delete s_data s_inputs s_vals].
    rewrite (d_get_del_same _ _ ND), R1. reflexivity. }
  assert (EK : d_keys (s_data st') = filter (fun x => negb (String.eqb x (k_name c))) (d_keys (s_data st)) ++ [k_name c]).
  { cbn [st' s_data]. rewrite keys_update, keys_app, keys_del by assumption. reflexivity. }
  assert (ND1 : ~ In (k_name c) (d_keys (d_del (k_name c) (s_data st)))).
  { rewrite keys_del by assumption. intros H. apply filter_In in H as [_ H]. now rewrite String.eqb_refl in H. }
  assert (GA : forall n, d_get n (s_data st') = if String.eqb n (k_name c) then Some e0 else
      match d_get n (s_data st) with Some x => Some (if smem n refs then note (k_name c) x else x) | None => None end).
  { intros n. cbn [st' s_data]. rewrite get_added by assumption. destruct (String.eqb_spec n (k_name c)) as [->|N]; [reflexivity|].
    now rewrite d_get_del_other. }
  exists st'. split; [exact RO|]. split; [|exact EK]. split.
  - rewrite EK. now apply nodup_moved.
  - intros n. rewrite EK, in_moved by assumption. apply IV.
  - apply IV.
  - intros n Hn. rewrite GA. destruct (String.eqb_spec n (k_name c)) as [->|N].
    + rewrite Ge. cbn. split; [congruence|]. split; [congruence|]. intros p. now rewrite E3.
    + assert (S1 := i_same _ _ IV n). destruct (d_get n (s_data st)) as [x|].
      * eapply same_trans; [|apply S1; intros [H|H]; congruence || auto]. destruct (smem n refs); cbn; auto.
      * apply S1. intros [H|H]; [congruence|auto].
  - intros c2 r HC2 N2 RD. destruct (String.eqb_spec (k_name c2) (k_name c)) as [E|N].
    + assert (c2 = c) by (eapply nodup_map_in; [apply comps_nodup, WF|..]; eauto). subst c2.
      destruct RD as (refs' & res' & R' & Hr). rewrite R in R'. injection R' as <- <-.
      assert (r <> k_name c) by (intros ->; auto). rewrite GA. apply String.eqb_neq in H. rewrite H.
      destruct (Q r Hr) as [B1 _]. apply before_in in B1 as [B1 _]. apply (i_set _ _ IV) in B1.
      destruct (d_get r (s_data st)) as [x|] eqn:Gx; [|apply d_get_none in Gx; tauto].
      apply smem_in in Hr as Hm. rewrite Hm. eexists. split; [reflexivity|]. apply note_in. now left.
    + assert (N3 : ~ In (k_name c2) (k_name c :: B)) by (intros [H|H]; congruence || auto).
      destruct (i_refs _ _ IV c2 r HC2 N3 RD) as (x & Gx & Ix).
      assert (r <> k_name c).
      { intros ->. eapply (TP [] (k_name c :: B) eq_refl c2); eauto. now left. }
      rewrite GA. apply String.eqb_neq in H. rewrite H, Gx. eexists. split; [reflexivity|].
      destruct (smem r refs); [apply note_in; now right|exact Ix].
  - intros r x m Gx Im. rewrite GA in Gx. destruct (String.eqb_spec r (k_name c)) as [->|N]; [injection Gx as <-; destruct Im|].
    destruct (d_get r (s_data st)) as [x0|] eqn:G0; [|discriminate]. injection Gx as <-.
    destruct (smem r refs) eqn:Es; [|eapply (i_edge _ _ IV); eauto].
    apply note_in in Im as [->|Im]; [|eapply (i_edge _ _ IV); eauto].
    apply smem_in in Es. split; [now apply (Q r Es)|now apply in_map].
  - apply IV.
Qed.

Lemma topo_tail n B : topo (n :: B) -> topo B.
Proof. intros T B1 B2 ->. apply (T (n :: B1) B2 eq_refl). Qed.

Lemma loop B : forall st, NoDup B -> topo B -> (forall n, In n B -> In n (map k_name (build_order M))) -> inv B st ->
  exists st', fold_left (rebuild_one M) B (Ok st) = Ok st' /\ inv [] st' /\
    d_keys (s_data st') = filter (fun x => negb (smem x B)) (d_keys (s_data st)) ++ B.
Proof.
  induction B as [|n B IH]; intros st NB TP HB IV.
  - exists st. split; [reflexivity|]. split; [exact IV|]. rewrite app_nil_r. symmetry. apply filter_id. reflexivity.
  - destruct (loop_step n B st) as (st1 & R & IV1 & K1); auto.
    { apply HB. now left. }
    apply NoDup_cons_iff in NB as [NB1 NB2].
    destruct (IH st1) as (st2 & R2 & IV2 & K2); auto.
    { eapply topo_tail; eauto. }
    { intros x Hx. apply HB. now right. }
    exists st2. split; [cbn [fold_left]; rewrite R; exact R2|]. split; [exact IV2|].
    rewrite K2, K1, filter_app. cbn [filter smem existsb].
    replace (smem n B) with false.
    2:{ symmetry. destruct (smem n B) eqn:E; [|reflexivity]. apply smem_in in E. tauto. }
    cbn [negb]. rewrite <- app_assoc. cbn [app]. f_equal.
    clear. induction (d_keys (s_data st)) as [|x l IH]; cbn; [reflexivity|].
    destruct (String.eqb_spec x n) as [->|N]; cbn.
    + exact IH.
    + change (existsb (String.eqb x) B) with (smem x B). destruct (smem x B); cbn; [exact IH|f_equal; exact IH].
Qed.

(** When nothing is left to do, the state is consistent. *)
Lemma inv_good st : inv [] st -> good L mutable M (build_order M) st.
Proof.
  intros IV. split; try apply IV.
  - intros n b HI. eapply same_trans; [apply (i_same _ _ IV); intros []|].
    eapply same_trans; [apply (g_input _ _ _ _ _ GF n b HI)|].
    destruct (i_agree _ _ IV n). apply input_entry_ext; auto.
  - intros c HC. destruct (g_comp _ _ _ _ _ GF c HC) as (refs & dims & at_ & e & R & Ge & E1 & E2 & E3 & Q).
    pose proof (i_same _ _ IV (k_name c) (fun H => H)) as S1. rewrite Ge in S1.
    destruct (d_get (k_name c) (s_data st)) as [e'|] eqn:Ge'; [|destruct S1]. destruct S1 as (S1 & S2 & S3).
    exists refs, dims, at_, e'. split.
    { eapply run_same; [|exact R|].
      - intros n. apply agree_sym, IV.
      - intros r _. apply same_like, same_sym, IV. intros []. }
    split; [reflexivity|]. split; [congruence|]. split; [congruence|]. split; [intros p; now rewrite S3|].
    intros r Hr. split; [now apply (Q r Hr)|]. apply (i_refs _ _ IV c r HC (fun H => H)).
    exists refs, (dims, at_). auto.
Qed.
End Rebuild.
