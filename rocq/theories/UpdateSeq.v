(** Updates in place, and series of updates. *)
From Coq Require Import QArith Qcanon Lia.
From Verif Require Import Base BaseProofs EvalModel HelperModel HelperSpec HelperProofs HelperLaws
  UpdateModel UpdateSpec UpdateProofs UpdateFresh UpdateRebuild UpdateStep.
Local Open Scope nat_scope.
Local Open Scope string_scope.
Local Open Scope list_scope.

Lemma missing_miss c : missing c = true <-> c = Miss.
Proof. destruct c; cbn; split; congruence. Qed.
Lemma missing_false c : missing c = false <-> c <> Miss.
Proof. destruct c; cbn; split; congruence. Qed.

Lemma filter_known a b : (forall d, In d b -> In d a) -> filter (fun d => negb (smem d a)) b = [].
Proof.
  induction b as [|d b IH]; intros H; [reflexivity|]. cbn.
  replace (smem d a) with true by (symmetry; apply smem_in, H; now left). cbn. apply IH. intros x Hx. apply H. now right.
Qed.
Section Cells.
Variable L : string -> list string.
Lemma within_spec ds p : within L ds p = true <-> forall d, In d ds -> In (p d) (L d).
Proof.
  unfold within. rewrite forallb_forall. split; intros H d Hd; apply smem_in; auto.
Qed.
(** Every position within the labels has a representative. *)
Lemma product_pick ds p : (forall d, In d ds -> In (p d) (L d)) -> In (map p ds) (CliModel.product (map L ds)).
Proof.
  induction ds as [|d ds IH]; intros H; [now left|]. cbn. apply in_flat_map. exists (p d).
  split; [apply H; now left|]. apply in_map. apply IH. intros x Hx. apply H. now right.
Qed.
Lemma puts_pick ds p q d : In d ds -> puts q ds (map p ds) d = p d.
Proof.
  revert q. induction ds as [|x ds IH]; intros q; [intros []|]. cbn. intros [->|H]; [|now apply IH].
  destruct (in_dec string_dec d ds) as [H|H]; [now apply IH|].
  rewrite puts_other by assumption. unfold put. now rewrite String.eqb_refl.
Qed.
Lemma cell_of ds p : within L ds p = true -> exists q, In q (cells L ds) /\ forall d, In d ds -> q d = p d.
Proof.
  intros W. exists (puts (fun _ => "") ds (map p ds)). split.
  - unfold cells. apply in_map_iff. exists (map p ds). split; [reflexivity|]. apply product_pick. now apply within_spec.
  - intros d Hd. now apply puts_pick.
Qed.
Lemma cell_in ds q : In q (cells L ds) -> within L ds q = true.
Proof.
  intros H. apply within_spec. intros d Hd. unfold cells in H. apply in_map_iff in H as (ls & <- & H).
  apply (puts_in ds ls _ d (fun d l => In l (L d))); [|exact Hd].
  apply CliProofs.product_in in H. clear -H. revert ls H. induction ds as [|x ds IH]; intros ls H; cbn in H.
  - inversion H. constructor.
  - inversion H; subst. constructor; auto.
Qed.
Lemma all_missing_out a p : proper L a -> all_missing L a = true -> a_at a p = Miss.
Proof.
  intros (LO & ND & OUT) H. destruct (within L (a_dims a) p) eqn:W.
  - destruct (cell_of _ _ W) as (q & Hq & E). unfold all_missing in H. rewrite forallb_forall in H.
    apply missing_miss. rewrite <- (H q Hq). f_equal. apply LO. intros d Hd. now rewrite E.
  - destruct (a_at a p) eqn:Z; try reflexivity; exfalso;
      (rewrite (proper_within L a p) in W; [discriminate|now split|congruence]).
Qed.
Lemma mask_same ds p : (forall d, In d ds -> In (p d) (L d)) -> exists q, mask_pos L ds ds p = Some q /\ forall d, q d = p d.
Proof.
  induction ds as [|d ds IH]; intros H; [exists p; auto|]. cbn.
  destruct IH as (q & E & Q); [intros x Hx; apply H; now right|]. rewrite E, Nat.eqb_refl.
  destruct (place_in (L d) (p d)) as (i & Pi & Li & Ni); [apply H; now left|]. rewrite Pi.
  eexists. split; [reflexivity|]. intros x. cbn. destruct (String.eqb_spec x d) as [->|N]; [exact Ni|auto].
Qed.
End Cells.

Section Seq.
Variable L : string -> list string.
Variable mutable : bool.
Variable M : math.
Hypothesis WF : well_formed M.
Notation good := (good L mutable M (build_order M)).

Lemma proper_agree I J n : agree I J n -> proper L (I n) -> proper L (J n).
Proof.
  intros [E1 E2] (P1 & P2 & P3). unfold proper, local. rewrite <- E1. split; [|split; [assumption|]].
  - intros p q H. rewrite <- !E2. auto.
  - intros p d H1 H2. rewrite <- E2. eauto.
Qed.
Lemma replaced_merged s new I J : replaced L s new I J ->
  a_dims (merged L new (I s)) = a_dims (J s) /\ forall p, a_at (merged L new (I s)) p = a_at (J s) p.
Proof.
  intros (_ & E & (P1 & P2 & P3) & V). split; [symmetry; exact E|]. intros p. cbn [merged a_at].
  change (HelperModel.merge (a_dims (I s)) (a_dims new)) with (a_dims (merged L new (I s))).
  cbn [merged a_dims]. unfold HelperModel.merge. rewrite <- E.
  destruct (within L (a_dims (J s)) p) eqn:W.
  - rewrite within_spec in W. rewrite (V p W). now destruct (a_at new p).
  - destruct (a_at (J s) p) eqn:Z; try reflexivity; exfalso;
      (rewrite (proper_within L (J s) p) in W; [discriminate|repeat split; assumption|congruence]).
Qed.

(** ** In place *)
Section InPlace.
Variable st : state.
Variable s : string.
Variable new : darr.
Variable e : entry.
Hypothesis G : good st.
Hypothesis MU : mutable = true.
Hypothesis HS : In (s, false) (m_inputs M).
Hypothesis SE : d_get s (s_data st) = Some e.
Hypothesis PO : proper L (s_inputs st s).
Hypothesis PN : proper L new.
Hypothesis NR : needs_rebuild L mutable e new = false.
Let old := s_inputs st s.

Lemma entry_old : same_array (Some e) (Some (input_entry L mutable s false old)).
Proof. rewrite <- SE. apply (g_input _ _ _ _ _ G s false HS). Qed.
Lemma parts : (t_dims e = [] -> a_dims new = []) /\ (forall d, In d (a_dims new) -> In d (t_dims e)) /\
  forall p, In p (cells L (t_dims e)) -> is_null (t_at e p) = true -> missing (a_at new p) = true.
Proof.
  pose proof NR as H. unfold needs_rebuild in H.
  apply Bool.orb_false_iff in H as [H _]. apply Bool.orb_false_iff in H as [H _].
  apply Bool.orb_false_iff in H as [H X]. apply Bool.orb_false_iff in H as [H H5].
  apply Bool.negb_false_iff in H5. rewrite all_in_spec in H5.
  split; [intros E; rewrite E in H; destruct (a_dims new); [reflexivity|discriminate]|].
  split; [exact H5|]. intros p Hp Z.
  assert (E : HelperModel.merge (t_dims e) (a_dims new) = t_dims e).
  { unfold HelperModel.merge. rewrite (filter_known _ _ H5). apply app_nil_r. }
  rewrite E in X.
  destruct (missing (a_at new p)) eqn:Z2; [reflexivity|]. exfalso.
  assert (existsb (fun p => is_null (t_at e p) && negb (missing (a_at new p))) (cells L (t_dims e)) = true).
  { apply existsb_exists. exists p. rewrite Z, Z2. auto. }
  congruence.
Qed.
Lemma in_place_values : values_only L (s_inputs st) s new.
Proof.
  destruct parts as (P1 & P2 & P3). destruct entry_old as (E1 & E2 & E3). unfold values_only. fold old.
  unfold input_entry in E2, E3. destruct (all_missing L old) eqn:AM; cbn in E2, E3.
  - split; [rewrite (P1 E2); intros d []|].
    intros p _ N. exfalso. apply N. apply missing_miss.
    rewrite E2 in P3. specialize (P3 (fun _ => "") (or_introl eq_refl)). rewrite E3 in P3. rewrite <- (P3 eq_refl).
    f_equal. apply PN. rewrite (P1 E2). intros d [].
  - rewrite E2 in *. split; [exact P2|]. intros p W N Z. apply N. apply missing_miss.
    destruct (cell_of L (a_dims old) p) as (q & Hq & EQ); [now apply within_spec|].
    replace (a_at new p) with (a_at new q).
    + apply P3; [exact Hq|]. rewrite E3. replace (a_at old q) with (a_at old p); [now rewrite Z|].
      apply PO. intros d Hd. symmetry. now apply EQ.
    + apply PN. intros d Hd. apply EQ. auto.
Qed.

Hypothesis FULL : a_dims new = [] \/ forall d, In d (a_dims old) -> In d (a_dims new).
Hypothesis BL : forall c, In c (m_comps M) -> blind s (k_prog c).
Hypothesis INF : forall p, a_at new p <> Miss -> is_inf (a_at new p) = is_inf (a_at old p).

Lemma same_dims : HelperModel.merge (a_dims old) (a_dims new) = a_dims old.
Proof.
  destruct in_place_values as [H _]. fold old in H. unfold HelperModel.merge.
  rewrite (filter_known _ _ H). apply app_nil_r.
Qed.
Lemma old_outside p : within L (a_dims old) p = false -> a_at old p = Miss.
Proof.
  intros W. destruct (a_at old p) eqn:Z; try reflexivity; exfalso;
    (rewrite (proper_within L old p) in W; [discriminate|exact PO|congruence]).
Qed.
Lemma presence p : same_presence (a_at old p) (a_at (merged L new old) p).
Proof.
  cbn [merged a_at]. rewrite same_dims. destruct (within L (a_dims old) p) eqn:W.
  - destruct (a_at new p) eqn:Z; cbn [missing]; try (split; reflexivity);
      (rewrite <- Z; split; [|rewrite INF by congruence; reflexivity]);
      (destruct in_place_values as [_ V]; fold old in V; specialize (V p); rewrite within_spec in W;
       rewrite Z; cbn; apply missing_false; apply V; [exact W|congruence]).
  - rewrite (old_outside p W). split; reflexivity.
Qed.
Lemma mask_exact p : within L (t_dims e) p = true -> masked L new (t_dims e) p = Some (negb (missing (a_at new p))).
Proof.
  intros W. destruct parts as (P1 & P2 & P3). destruct entry_old as (E1 & E2 & E3). unfold masked, last_axes.
  assert (FULL' : a_dims new = [] \/ forall d, In d (t_dims e) -> In d (a_dims new)).
  { unfold input_entry in E2. destruct (all_missing L old); cbn in E2; rewrite E2; [left; now apply P1|exact FULL]. }
  destruct FULL' as [E|FU].
  - rewrite E. cbn. rewrite Nat.sub_0_r, skipn_all. reflexivity.
  - replace (without (a_dims new) (t_dims e)) with (@nil string).
    + rewrite app_nil_r, Nat.sub_diag. cbn [skipn]. rewrite within_spec in W.
      destruct (mask_same L (a_dims new) p) as (q & Eq & Q); [intros d Hd; apply W; auto|]. rewrite Eq. do 3 f_equal.
      apply PN. intros d _. apply Q.
    + unfold without. now rewrite filter_known.
Qed.

Definition placed : state :=
  {| s_inputs := changed L st s new; s_data := s_data st;
     s_vals := fun n p =>
       if String.eqb n s then match masked L new (t_dims e) p with Some true => a_at new p | _ => s_vals st n p end
       else s_vals st n p |}.
Lemma in_place_ok : in_place L s e new {| s_inputs := changed L st s new; s_data := s_data st; s_vals := s_vals st |} = Ok placed.
Proof.
  unfold in_place. replace (forallb _ (cells L (t_dims e))) with true; [reflexivity|]. symmetry. apply forallb_forall.
  intros p Hp. rewrite mask_exact by now apply cell_in. destruct parts as (P1 & P2 & P3).
  specialize (P3 p Hp). destruct (is_null (t_at e p)); cbn; [rewrite P3 by reflexivity; reflexivity|].
  now rewrite Bool.orb_true_r.
Qed.
Lemma run_placed c : In c (build_order M) ->
  run (s_inputs placed) (s_data st) (k_prog c) = run (s_inputs st) (s_data st) (k_prog c).
Proof.
  intros HC. symmetry. apply (BL c); [now apply (order_in M WF)|..]; cbn [placed s_inputs]; unfold changed.
  - intros n N. apply String.eqb_neq in N. rewrite N. auto.
  - rewrite String.eqb_refl. cbn. fold old. now rewrite same_dims.
  - intros p. rewrite String.eqb_refl. apply presence.
Qed.
Lemma placed_good : good placed /\ (in_order M st -> in_order M placed).
Proof.
  split.
  - split; try apply G.
    + intros n bb HI. cbn [placed s_data s_inputs]. unfold changed. destruct (String.eqb_spec n s) as [->|N].
      * assert (bb = false) by (pose proof (s_lookup M WF s bb HI); pose proof (s_lookup M WF s false HS); congruence). subst bb.
        eapply same_trans; [apply (g_input _ _ _ _ _ G s false HS)|]. fold old.
        unfold input_entry. rewrite (all_missing_ext L old (merged L new old)).
        -- destruct (all_missing L (merged L new old)); [apply same_refl|]. cbn -[merged]. rewrite MU. cbn -[merged].
           split; [reflexivity|]. split; [symmetry; apply same_dims|]. intros p. destruct (presence p) as [P _]. rewrite P.
           reflexivity.
        -- symmetry. apply same_dims.
        -- intros p. apply presence.
      * apply (g_input _ _ _ _ _ G n bb HI).
    + intros c HC. cbn [placed s_data]. change (changed L st s new) with (s_inputs placed). rewrite run_placed by assumption.
      apply (g_comp _ _ _ _ _ G c HC).
    + intros n p HI W. cbn [placed s_vals s_inputs] in *. unfold changed in W |- *. destruct (String.eqb_spec n s) as [->|N].
      * cbn [merged a_dims] in W. fold old in W |- *. rewrite same_dims in W.
        cbn [merged a_at]. rewrite same_dims, W.
        assert (W2 : within L (t_dims e) p = true).
        { destruct entry_old as (E1 & E2 & E3). unfold input_entry in E2. destruct (all_missing L old); cbn in E2; now rewrite E2. }
        rewrite (mask_exact p W2). destruct (missing (a_at new p)) eqn:Z; cbn; [|reflexivity].
        now apply (g_vals _ _ _ _ _ G).
      * now apply (g_vals _ _ _ _ _ G).
  - intros IO c r HC (refs & res & R & Hr). cbn [placed s_data]. apply IO; [assumption|].
    exists refs, res. split; [|exact Hr]. cbn [placed s_data] in R. now rewrite run_placed in R.
Qed.
End InPlace.

(** ** One update *)
Lemma merged_ext new x y : a_dims x = a_dims y -> (forall p, a_at x p = a_at y p) ->
  a_dims (merged L new x) = a_dims (merged L new y) /\ forall p, a_at (merged L new x) p = a_at (merged L new y) p.
Proof. intros E H. cbn. rewrite E. split; [reflexivity|]. intros p. now rewrite H. Qed.
Theorem update_step st F s new I J : good st -> fresh L mutable M J = Some F -> (forall n, agree (s_inputs st) I n) ->
  replaced L s new I J -> harmless L mutable M I s new ->
  (forall n, In n (map fst (m_inputs M)) -> proper L (I n)) ->
  (forall c c', In c (build_order M) -> In c' (build_order M) -> k_kind c = k_kind c' ->
     reads F c (k_name c') -> before (d_keys (s_data st)) (k_name c') (k_name c)) ->
  exists st', update_input L mutable M s new st = Ok st' /\ good st' /\ (forall n, agree (s_inputs st') J n) /\
    (in_order M st -> in_order M st').
Proof.
  intros G FR AI RP (HIN & PN & NP & HP) PR ORD.
  destruct (fresh_good L mutable M WF J F FR) as (GF & EI & EK).
  apply in_map_iff in HIN as ([s' b] & ES & HS). cbn in ES. subst s'.
  destruct (s_entry L mutable M st s b G HS) as (e & SE).
  assert (AS : a_dims (merged L new (s_inputs st s)) = a_dims (J s) /\
               forall p, a_at (merged L new (s_inputs st s)) p = a_at (J s) p).
  { destruct (AI s) as [A1 A2]. destruct (merged_ext new _ _ A1 A2) as [M1 M2].
    destruct (replaced_merged s new I J RP) as [R1 R2]. split; [congruence|]. intros p. now rewrite M2. }
  assert (AG : forall n, n <> s -> agree (s_inputs st) J n).
  { intros n N. destruct RP as (RP & _). unfold agree. rewrite (RP n N). apply AI. }
  unfold update_input. rewrite (s_lookup M WF s b HS), SE.
  destruct (needs_rebuild L mutable e new) eqn:NR.
  - rewrite <- EI in AS, AG |- *.
    assert (NPK : forall c, In c (build_order M) -> never_peeks s (k_prog c)) by (intros c HC; apply NP; now apply (order_in M WF)).
    destruct (closure L mutable M WF st F s new b G HS AS e SE) as (l & FL & L1 & L2 & L3).
    destruct (rebuild_result L mutable M WF st F s new b G GF HS AG AS e SE l L1 L2 L3 NPK ORD)
      as (st' & R & G' & A' & I' & K' & D').
    exists st'. split.
    { change (add_input L mutable s b (merged L new (s_inputs st s)) _) with (st0 L mutable st s new b). rewrite FL. exact R. }
    split; [exact G'|]. split; [exact A'|]. intros IO.
    eapply (step_order L mutable M WF st F s new b G GF HS AG AS e SE l L1 L2 L3 NPK ORD); eauto.
  - assert (MU : mutable = true /\ b = false).
    { unfold needs_rebuild in NR. apply Bool.orb_false_iff in NR as [NR N1]. apply Bool.orb_false_iff in NR as [NR N2].
      split; [now destruct mutable|]. destruct b; [|reflexivity]. exfalso.
      pose proof (g_input _ _ _ _ _ G s true HS) as S1. rewrite SE in S1. destruct S1 as (S1 & _).
      unfold input_entry in S1. destruct (all_missing L _); cbn in S1; rewrite S1 in N2; discriminate. }
    destruct MU as [MU ->].
    assert (PO : proper L (s_inputs st s)).
    { eapply proper_agree; [apply agree_sym, AI|]. apply PR. apply (in_map fst) in HS. exact HS. }
    destruct (AI s) as [A1 A2].
    destruct (HP MU HS) as (FULL & BL & INF).
    { assert (V : values_only L (s_inputs st) s new) by (eapply in_place_values; eauto). destruct V as [V1 V2]. unfold values_only. rewrite <- A1.
      split; [exact V1|]. intros p. rewrite <- A2. apply V2. }
    rewrite <- A1 in FULL.
    assert (INF' : forall p, a_at new p <> Miss -> is_inf (a_at new p) = is_inf (a_at (s_inputs st s) p)) by (intros p; rewrite A2; apply INF).
    exists (placed st s new e). split; [|split].
    + eapply in_place_ok; eauto.
    + eapply placed_good; eauto.
    + split; [|eapply placed_good; eauto]. intros n. cbn [placed s_inputs]. unfold changed, agree.
      destruct (String.eqb_spec n s) as [->|N]; [exact AS|now apply AG].
Qed.

Lemma fresh_in_order I st : fresh L mutable M I = Some st -> in_order M st.
Proof.
  intros H c r HC RD. destruct (fresh_good L mutable M WF I st H) as (G & _ & K). rewrite K.
  eapply (reads_before L mutable M st G c r HC RD).
Qed.
Lemma replaced_proper s new I J : replaced L s new I J ->
  (forall n, In n (map fst (m_inputs M)) -> proper L (I n)) -> forall n, In n (map fst (m_inputs M)) -> proper L (J n).
Proof.
  intros (E & _ & P & _) H n Hn. destruct (string_dec n s) as [->|N]; [exact P|]. rewrite (E n N). auto.
Qed.

(** ** The first update after a build *)
Theorem update_first I J st F s new : fresh L mutable M I = Some st -> fresh L mutable M J = Some F ->
  replaced L s new I J -> harmless L mutable M I s new ->
  (forall n, In n (map fst (m_inputs M)) -> proper L (I n)) ->
  exists st', update_input L mutable M s new st = Ok st' /\ same_problem st' F.
Proof.
  intros FI FJ RP HA PR. destruct (fresh_good L mutable M WF I st FI) as (G & EI & K).
  destruct (fresh_good L mutable M WF J F FJ) as (GF & EJ & KF). rewrite <- EI in RP, HA, PR.
  destruct (update_step st F s new (s_inputs st) J G FJ) as (st' & U & G' & A' & _); auto.
  - intros n. split; reflexivity.
  - intros c c' HC HC' _ RD. rewrite K. eapply (reads_before L mutable M F GF c); eauto.
  - exists st'. split; [exact U|]. apply (good_same L mutable M WF); auto.
    + intros n. rewrite EJ. apply A'.
    + intros n Hn. eapply proper_agree; [apply agree_sym, A'|]. eapply replaced_proper; eauto.
Qed.

(** ** References *)
(** Programs with fixed reads: whoever is listed as a user of an entry reads it. *)
Definition exact (R : comp -> list string) (D : dataset) : Prop :=
  forall r e n, d_get r D = Some e -> In n (t_refs e) -> exists c, In c (build_order M) /\ k_name c = n /\ In r (R c).
Definition fixed (R : comp -> list string) : Prop :=
  forall c, In c (build_order M) -> forall I D refs res, run I D (k_prog c) = Some (refs, res) ->
    forall r, In r refs <-> In r (R c).

Lemma exact_app R D n e : exact R D -> t_refs e = [] -> exact R (D ++ [(n, e)]).
Proof.
  intros H E r x m G Hm. rewrite get_app in G. destruct (d_get r D) as [y|] eqn:Gy.
  - injection G as <-. eapply H; eauto.
  - cbn in G. destruct (String.eqb r n); [|discriminate]. injection G as <-. rewrite E in Hm. destruct Hm.
Qed.
Lemma exact_del R D n : NoDup (d_keys D) -> exact R D -> exact R (d_del n D).
Proof.
  intros ND H r e m G. destruct (string_dec r n) as [->|N].
  - rewrite d_get_del_same in G by assumption. discriminate.
  - rewrite d_get_del_other in G by assumption. eapply H; eauto.
Qed.
Lemma exact_add R c st st' : fixed R -> In c (build_order M) -> exact R (s_data st) -> add_comp c st = Some st' -> exact R (s_data st').
Proof.
  intros FX HC H A. unfold add_comp in A. destruct (d_get (k_name c) (s_data st)); [discriminate|].
  destruct (run (s_inputs st) (s_data st) (k_prog c)) as [[refs [dims at_]]|] eqn:RN; [|discriminate].
  injection A as <-. cbn [s_data]. intros r e n G Hn. rewrite get_update in G.
  assert (H2 : exact R (s_data st ++ [(k_name c, {| t_kind := k_kind c; t_dims := dims; t_at := at_; t_refs := [] |})]))
    by now apply exact_app.
  destruct (d_get r _) as [x|] eqn:Gx in G; [|discriminate]. injection G as <-.
  destruct (smem r refs) eqn:Er; [|eapply H2; eauto].
  apply note_in in Hn as [->|Hn]; [|eapply H2; eauto]. apply smem_in in Er. exists c. split; [assumption|]. split; [reflexivity|].
  now apply (FX c HC _ _ _ _ RN).
Qed.
Lemma exact_adds R cs : forall st st', fixed R -> (forall c, In c cs -> In c (build_order M)) -> exact R (s_data st) ->
  add_comps cs st = Some st' -> exact R (s_data st').
Proof.
  induction cs as [|c cs IH]; intros st st' FX HC H A; cbn in A; [now injection A as <-|].
  destruct (add_comp c st) as [st1|] eqn:E; [|discriminate].
  eapply IH; [exact FX|intros x Hx; apply HC; now right|eapply exact_add; eauto; apply HC; now left|exact A].
Qed.
Lemma exact_fresh R I st : fixed R -> fresh L mutable M I = Some st -> exact R (s_data st).
Proof.
  intros FX H. unfold fresh in H. refine (exact_adds R _ _ st FX (fun c Hc => Hc) _ H).
  destruct (load_good L mutable M WF I) as (G & _). intros r e n Gr Hn. exfalso.
  now destruct (g_edge _ _ _ _ _ G r e n Gr Hn) as [_ []].
Qed.
Lemma add_comp_nodup c st st' : NoDup (d_keys (s_data st)) -> add_comp c st = Some st' -> NoDup (d_keys (s_data st')).
Proof.
  intros ND A. unfold add_comp in A. destruct (d_get (k_name c) (s_data st)) eqn:Gc; [discriminate|].
  destruct (run (s_inputs st) (s_data st) (k_prog c)) as [[refs [dims at_]]|]; [|discriminate].
  injection A as <-. cbn [s_data]. rewrite keys_update, keys_app. apply nodup_app. split; [assumption|].
  split; [repeat constructor; intros []|]. intros x H [<-|[]]. apply d_get_none in Gc. auto.
Qed.
Lemma exact_one R st n st' : fixed R -> NoDup (d_keys (s_data st)) -> exact R (s_data st) ->
  rebuild_one M (Ok st) n = Ok st' -> NoDup (d_keys (s_data st')) /\ exact R (s_data st').
Proof.
  intros FX ND H A. unfold rebuild_one in A. destruct (def_of M n) as [c|] eqn:DF; [|discriminate].
  destruct (def_of_some M WF n c DF) as [_ HC].
  destruct (add_comp c (delete n st)) as [st1|] eqn:E; [|discriminate]. injection A as <-.
  assert (ND1 : NoDup (d_keys (s_data (delete n st)))) by (cbn; now apply d_nodup_del).
  split; [eapply add_comp_nodup; eauto|]. refine (exact_add R c (delete n st) st1 FX HC _ E). cbn. now apply exact_del.
Qed.
Lemma exact_list R l : forall st st', fixed R -> NoDup (d_keys (s_data st)) -> exact R (s_data st) ->
  fold_left (rebuild_one M) l (Ok st) = Ok st' -> NoDup (d_keys (s_data st')) /\ exact R (s_data st').
Proof.
  induction l as [|n l IH]; intros st st' FX ND H A; cbn [fold_left] in A; [injection A as <-; auto|].
  destruct (rebuild_one M (Ok st) n) as [st1|st1] eqn:E; [|rewrite fold_err in A; discriminate].
  destruct (exact_one R st n st1 FX ND H E). eapply IH; eauto.
Qed.
Lemma exact_kinds R refs ks : forall st st', fixed R -> NoDup (d_keys (s_data st)) -> exact R (s_data st) ->
  fold_left (rebuild_kind M refs) ks (Ok st) = Ok st' -> NoDup (d_keys (s_data st')) /\ exact R (s_data st').
Proof.
  induction ks as [|k ks IH]; intros st st' FX ND H A; cbn [fold_left] in A; [injection A as <-; auto|].
  destruct (rebuild_kind M refs (Ok st) k) as [st1|st1] eqn:E; [|rewrite fold_kind_err in A; discriminate].
  destruct (exact_list R _ st st1 FX ND H E). eapply IH; eauto.
Qed.
Lemma exact_update R s new st st' : fixed R -> NoDup (d_keys (s_data st)) -> exact R (s_data st) ->
  update_input L mutable M s new st = Ok st' -> exact R (s_data st').
Proof.
  intros FX ND H A. unfold update_input in A. destruct (d_get s (m_inputs M)) as [b|]; [|discriminate].
  destruct (d_get s (s_data st)) as [e|]; [|discriminate]. destruct (needs_rebuild L mutable e new).
  - match type of A with match ?f with _ => _ end = _ => destruct f as [refs|]; [|discriminate] end.
    eapply exact_kinds; [exact FX| | |exact A].
    + cbn [add_input delete s_data]. rewrite keys_app. apply nodup_app. split; [now apply d_nodup_del|].
      split; [repeat constructor; intros []|]. intros x Hx [<-|[]]. cbn in Hx. apply d_del_keys in Hx; [|assumption]. now destruct Hx.
    + cbn [add_input delete s_data]. apply exact_app; [now apply exact_del|apply entry_norefs].
  - unfold in_place in A. match type of A with (if ?f then _ else _) = _ => destruct f; [|discriminate] end.
    injection A as <-. exact H.
Qed.

(** ** Series *)
Theorem update_series R : fixed R ->
  forall us I J F st, good st -> in_order M st -> exact R (s_data st) -> (forall n, agree (s_inputs st) I n) ->
  (forall n, In n (map fst (m_inputs M)) -> proper L (I n)) ->
  series L mutable M us I J -> fresh L mutable M J = Some F ->
  exists st', update_all L mutable M us st = Ok st' /\ same_problem st' F /\ good st' /\ in_order M st' /\ exact R (s_data st').
Proof.
  intros ST. induction us as [|[s new] us IH]; intros I J F st G IO EX A PR SE FJ.
  - cbn in SE. subst J. destruct (fresh_good L mutable M WF I F FJ) as (GF & EJ & KF).
    exists st. split; [reflexivity|]. split; [|auto]. apply (good_same L mutable M WF); auto.
    + intros n. rewrite EJ. apply A.
    + intros n Hn. eapply proper_agree; [apply agree_sym, A|auto].
  - destruct SE as (J1 & RP & HA & (F1 & FR1) & SE).
    destruct (update_step st F1 s new I J1 G FR1 A RP HA PR) as (st1 & U & G1 & A1 & IO1).
    { intros c c' HC HC' _ RD. apply IO; [assumption|].
      destruct RD as (refs & res & R1 & Hr). destruct (g_comp _ _ _ _ _ G c HC) as (refs0 & dims & at_ & e & R0 & _).
      exists refs0, (dims, at_). split; [exact R0|]. apply (ST c HC _ _ _ _ R0). now apply (ST c HC _ _ _ _ R1). }
    destruct (IH J1 J F st1) as (st' & U' & SP); auto.
    { eapply exact_update; eauto. apply G. }
    { eapply replaced_proper; eauto. }
    exists st'. split; [|exact SP]. cbn. now rewrite U.
Qed.

(** Exact references are those of a fresh build. *)
Lemma refs_same R st F : fixed R -> good st -> good F -> exact R (s_data st) -> exact R (s_data F) ->
  forall r e e', d_get r (s_data st) = Some e -> d_get r (s_data F) = Some e' ->
  forall n, In n (t_refs e) <-> In n (t_refs e').
Proof.
  intros FX G GF EX EF.
  assert (ONE : forall st F, good st -> good F -> exact R (s_data st) -> forall r e e',
    d_get r (s_data st) = Some e -> d_get r (s_data F) = Some e' -> forall n, In n (t_refs e) -> In n (t_refs e')).
  { intros a b Ga Gb Ea r e e' Ge Ge' n Hn. destruct (Ea r e n Ge Hn) as (c & HC & <- & Hr).
    destruct (g_comp _ _ _ _ _ Gb c HC) as (refs & dims & at_ & x & R1 & Gx & _ & _ & _ & Q).
    destruct (Q r) as (_ & y & Gy & Iy); [now apply (FX c HC _ _ _ _ R1)|]. congruence. }
  intros r e e' Ge Ge' n. split; [eapply (ONE st F)|eapply (ONE F st)]; eauto.
Qed.
End Seq.
