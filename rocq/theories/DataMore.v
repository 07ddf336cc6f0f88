(** Further lemmas on datasets. *)
From Verif Require Import Base BaseProofs DataModel DataSpec DataProofs.
Local Open Scope string_scope.
Local Open Scope list_scope.
Local Arguments String.eqb : simpl never.

(** ** Cleaning *)
Lemma is_true_eq c : is_true c = true <-> c = Bo true.
Proof. destruct c as [|[|]| |]; simpl; split; congruence. Qed.

Section Clean.
Variable ds : dset.
Hypothesis P : proper_dset ds.
Hypothesis DM : forall n a, n = "carrier_in" \/ n = "carrier_out" -> In (n, a) (vars ds) -> incl (a_dims a) def_dims.

Lemma definition_depends def : definition_of ds = Ok def -> depends def.
Proof using P DM.
  unfold definition_of; destruct (d_get "carrier_in" (vars ds)) as [ci|] eqn:G1, (d_get "carrier_out" (vars ds)) as [co|] eqn:G2; try discriminate.
  intros E; injection E as <-; intros i j A; apply d_get_in in G1; apply d_get_in in G2.
  rewrite (pd_proper ds P _ _ G1 i j), (pd_proper ds P _ _ G2 i j); [reflexivity| |].
  - intros d I; apply A; apply (DM "carrier_out" co); auto.
  - intros d I; apply A; apply (DM "carrier_in" ci); auto.
Qed.

Lemma definition_combination def j : definition_of ds = Ok def ->
  (live def ds j <-> combination ds j).
Proof using P.
  intros E; unfold live, combination.
  assert (DE : def j = true <-> exists n a, (n = "carrier_in" \/ n = "carrier_out") /\ In (n, a) (vars ds) /\ a_at a j = Bo true).
  { unfold definition_of in E; destruct (d_get "carrier_in" (vars ds)) as [ci|] eqn:G1, (d_get "carrier_out" (vars ds)) as [co|] eqn:G2; try discriminate.
    injection E as <-; rewrite orb_true_iff, !is_true_eq; split.
    - intros [H|H]; [exists "carrier_in", ci|exists "carrier_out", co]; (split; [auto|split; [apply d_get_in; assumption|exact H]]).
    - intros [n [a [[->| ->] [I H]]]]; apply (d_in_get _ _ _ (pd_vars ds P)) in I; [left|right]; congruence. }
  rewrite DE; unfold within, def_dims.
  split; intros [A B]; (split; [|exact B]); intros x X; specialize (A x X); apply (member_in ds x _ (pd_coords ds P)); exact A.
Qed.

Definition masked def : dset := {| coords := coords ds; vars := map (fun nv => (fst nv, mask ds def (snd nv))) (vars ds) |}.

Lemma masked_members def x : members (masked def) x = members ds x.
Proof using. reflexivity. Qed.

Lemma clean_members ds' d m : clean ds = Ok ds' ->
  (member ds' d m <-> member ds d m /\ (In d def_dims -> exists i, combination ds i /\ i d = m)).
Proof using P DM.
  unfold clean; destruct (definition_of ds) as [def|] eqn:E; [|discriminate]; cbn [bind]; intros H; injection H as <-; fold (masked def).
  pose proof (definition_depends def E) as D.
  rewrite (member_in (drop_undefined def (masked def))), (member_in ds) by (rewrite ?drop_coords_names; exact (pd_coords ds P)).
  rewrite (drop_members def D (masked def) d m), masked_members.
  split; intros [A B]; (split; [exact A|]); intros X; destruct (B X) as [j [L Q]]; exists j; (split; [|exact Q]).
  - apply (definition_combination def j E); exact L.
  - apply (definition_combination def j E) in L; exact L.
Qed.

Lemma map_mask_in def n a' : In (n, a') (vars (masked def)) <-> exists a, In (n, a) (vars ds) /\ a' = mask ds def a.
Proof using.
  cbn [masked vars]; rewrite in_map_iff; split.
  - intros [[k a] [X I]]; injection X as <- <-; exists a; auto.
  - intros [a [I ->]]; exists (n, a); auto.
Qed.

Lemma mask_relevant def a i : depends def -> within ds (a_dims a) i -> typed a ->
  (exists j, agree (a_dims a) i j /\ live def ds j) -> a_at (mask ds def a) i = a_at a i.
Proof using P.
  intros D W [_ T] R.
  assert (M : any_over ds (filter (fun d => negb (smem d (a_dims a))) def_dims) def i = true).
  { apply mask_any; [exact D| |exact (pd_coords ds P)|exact R]; intros d I; apply filter_In in I; apply W, smem_in; tauto. }
  unfold mask; cbn [a_at]; rewrite M; destruct (a_bool a); [|reflexivity].
  specialize (T eq_refl i); destruct (a_at a i); simpl; congruence.
Qed.

Lemma mask_irrelevant def a i : depends def -> within ds (a_dims a) i ->
  ~ (exists j, agree (a_dims a) i j /\ live def ds j) -> a_at (mask ds def a) i = NaN \/ a_at (mask ds def a) i = Bo false.
Proof using P.
  intros D W R; unfold mask; cbn [a_at].
  destruct (any_over ds (filter (fun d => negb (smem d (a_dims a))) def_dims) def i) eqn:M.
  - exfalso; apply R; apply mask_any in M; [exact M|exact D| |exact (pd_coords ds P)]; intros d I; apply filter_In in I; apply W, smem_in; tauto.
  - destruct (a_bool a); simpl; auto.
Qed.

(** Values at positions of retained members. *)
Lemma clean_holds ds' n a i c : clean ds = Ok ds' -> n <> "definition_matrix" -> In (n, a) (vars ds) -> typed a ->
  within ds' (a_dims a) i -> (exists j, agree (a_dims a) i j /\ combination ds j) -> c <> NaN ->
  (holds ds' n i c <-> holds ds n i c).
Proof using P DM.
  intros H NM I T W R N; pose proof (fun d m => clean_members ds' d m H) as CM.
  unfold clean in H; destruct (definition_of ds) as [def|] eqn:E; [|discriminate]; cbn [bind] in H; injection H as H; fold (masked def) in H; subst ds'.
  pose proof (definition_depends def E) as D.
  assert (W0 : within ds (a_dims a) i) by (intros d X; apply (CM d (i d)); apply W; exact X).
  assert (R' : exists j, agree (a_dims a) i j /\ live def ds j).
  { destruct R as [j [A C]]; exists j; split; [exact A|apply (definition_combination def j E); exact C]. }
  assert (UA : forall b, In (n, b) (vars ds) -> b = a).
  { intros b J; apply (d_in_get _ _ _ (pd_vars ds P)) in J; pose proof (d_in_get _ _ _ (pd_vars ds P) I); congruence. }
  split.
  - intros [a' [J [W' X]]]; apply (drop_vars def) in J; [|exact NM]; destruct J as [J _]; apply map_mask_in in J; destruct J as [b [J ->]].
    rewrite (UA b J) in *; exists a; split; [exact I|split; [exact W0|]]; rewrite <- X; symmetry; apply mask_relevant; assumption.
  - intros [b [J [_ X]]]; rewrite (UA b J) in *; exists (mask ds def a); split; [|split; [exact W|rewrite mask_relevant by assumption; exact X]].
    apply (drop_vars def); [exact NM|]; split; [apply map_mask_in; exists a; auto|].
    unfold all_over; apply negb_false_iff; cbn [mask a_dims].
    apply any_over_spec; [apply T| |].
    { intros j k Q; f_equal; f_equal; unfold mask; cbn [a_at]; rewrite (pd_proper ds P n a I j k) by (intros d _; apply Q).
      assert (AO : any_over ds (filter (fun d => negb (smem d (a_dims a))) def_dims) def j = any_over ds (filter (fun d => negb (smem d (a_dims a))) def_dims) def k).
      { apply eq_iff_eq_true; rewrite !any_over_spec by (try apply filter_nodup, def_dims_nodup; apply depends_ext; exact D).
        split; intros [x [X1 [X2 X3]]]; exists x; (split; [|auto]); intros d Nd; rewrite X1 by exact Nd; rewrite Q; reflexivity. }
      rewrite AO; reflexivity. }
    set (i' := fun x => if smem x (a_dims a) then i x else origin x).
    assert (AI : agree (a_dims a) i i') by (intros d X'; unfold i'; rewrite (proj2 (smem_in d _) X'); reflexivity).
    exists i'; split; [intros d Nd; unfold i'; destruct (smem d (a_dims a)) eqn:S; [apply smem_in in S; contradiction|reflexivity]|split].
    + intros d Id; rewrite <- (AI d Id); apply member_in; [rewrite drop_coords_names; exact (pd_coords ds P)|apply W; exact Id].
    + rewrite mask_relevant; [rewrite <- (pd_proper ds P n a I i i' AI), X; destruct c; simpl; congruence|exact D| |exact T|].
      * intros d Id; rewrite <- (AI d Id); apply W0; exact Id.
      * destruct R' as [j [A L]]; exists j; split; [intros d Id; rewrite <- (AI d Id); apply A; exact Id|exact L].
Qed.

Lemma clean_irrelevant ds' n i c : clean ds = Ok ds' -> n <> "definition_matrix" ->
  holds ds' n i c -> (forall a, In (n, a) (vars ds) -> ~ exists j, agree (a_dims a) i j /\ combination ds j) ->
  c = NaN \/ c = Bo false.
Proof using P DM.
  intros H NM HO R; pose proof (fun d m => clean_members ds' d m H) as CM.
  unfold clean in H; destruct (definition_of ds) as [def|] eqn:E; [|discriminate]; cbn [bind] in H; injection H as H; fold (masked def) in H; subst ds'.
  pose proof (definition_depends def E) as D.
  destruct HO as [a' [J [W X]]]; apply (drop_vars def) in J; [|exact NM]; destruct J as [J _]; apply map_mask_in in J; destruct J as [b [J ->]].
  cbn [mask a_dims] in W; rewrite <- X; apply mask_irrelevant; [exact D| |].
  - intros d Y; apply (CM d (i d)); apply W; exact Y.
  - intros [j [A L]]; apply (R b J); exists j; split; [exact A|apply (definition_combination def j E); exact L].
Qed.

Lemma clean_matrix ds' i c : clean ds = Ok ds' -> holds ds' "definition_matrix" i c ->
  (c = Bo true /\ combination ds i) \/ (c = Bo false /\ ~ combination ds i).
Proof using P DM.
  intros H HO; pose proof (fun d m => clean_members ds' d m H) as CM.
  unfold clean in H; destruct (definition_of ds) as [def|] eqn:E; [|discriminate]; cbn [bind] in H; injection H as H; fold (masked def) in H; subst ds'.
  destruct HO as [a [J [W X]]].
  assert (AD : a_dims a = def_dims).
  { unfold drop_undefined in J; cbv zeta in J; cbn [vars] in J; apply filter_In in J; destruct J as [J _]; rewrite fold_vars in J.
    apply d_in_get in J; [|apply d_nodup_set; cbn [masked vars]; unfold d_keys; rewrite map_map; exact (pd_vars ds P)]; rewrite d_get_set_same in J; injection J as <-; reflexivity. }
  rewrite (drop_matrix def (masked def) i a J) in X by (cbn [masked vars]; rewrite map_map; exact (pd_vars ds P)).
  assert (WL : forall x, In x def_dims -> In (i x) (members ds x)).
  { intros x Y; apply member_in; [exact (pd_coords ds P)|]; apply (CM x (i x)), W; rewrite AD; exact Y. }
  pose proof (definition_combination def i E) as DC; unfold live in DC.
  destruct (def i) eqn:Q; [left|right]; (split; [congruence|]); [apply DC; auto|]; intros C; apply DC in C; destruct C; congruence.
Qed.
End Clean.

(** ** Adding *)
Lemma app_nodup (l1 l2 : list string) : NoDup l1 -> NoDup l2 -> (forall z, In z l1 -> ~ In z l2) -> NoDup (l1 ++ l2).
Proof.
  induction l1 as [|z l1 IH]; intros A B D; simpl; [exact B|]; inversion A; subst; constructor.
  - rewrite in_app_iff; intros [H|H]; [contradiction|exact (D z (or_introl eq_refl) H)].
  - apply IH; [assumption|assumption|]; intros w W; apply D; right; exact W.
Qed.
Lemma join_nodup a b : NoDup a -> NoDup b -> NoDup (join a b).
Proof.
  intros A B; unfold join; apply app_nodup; [exact A|apply NoDup_filter; exact B|].
  intros z Z H; apply filter_In in H; destruct H as [_ H]; apply negb_true_iff in H; apply smem_in in Z; congruence.
Qed.

Lemma read_agree ds n i j : proper_dset ds -> agree (dims_of ds n) i j -> read ds n i = read ds n j.
Proof.
  intros P A; unfold read, dims_of in *; destruct (d_get n (vars ds)) as [a|] eqn:G; [|reflexivity].
  assert (H : here ds (a_dims a) i = here ds (a_dims a) j).
  { unfold here; clear G; induction (a_dims a) as [|d l IH]; simpl; [reflexivity|]; rewrite (A d (or_introl eq_refl)), IH; [reflexivity|intros x X; apply A; right; exact X]. }
  rewrite H; destruct (here ds (a_dims a) j); [|reflexivity]; apply (pd_proper ds P n a (d_get_in _ _ _ G)); exact A.
Qed.

Lemma add_proper new old : proper_dset new -> proper_dset old -> proper_dset (add_to_dataset new old).
Proof.
  intros PN PO; split.
  - cbn [add_to_dataset coords]; rewrite map_map, map_id; apply join_nodup; [exact (pd_coords new PN)|exact (pd_coords old PO)].
  - cbn [add_to_dataset vars]; rewrite map_map, map_id; apply join_nodup; [exact (pd_vars new PN)|exact (pd_vars old PO)].
  - intros n a I; cbn [add_to_dataset vars] in I; apply in_map_iff in I; destruct I as [m [E _]]; injection E as -> <-.
    intros i j A; cbn [a_dims a_at] in *.
    rewrite (read_agree new n i j PN), (read_agree old n i j PO); [reflexivity| |]; intros d X; apply A, join_in; auto.
Qed.

Lemma is_nan_eq c : is_nan c = true <-> c = NaN.
Proof. destruct c; simpl; split; congruence. Qed.

Lemma add_holds new old n i c : proper_dset new -> proper_dset old ->
  (forall d, In d (dims_of new n) \/ In d (dims_of old n) -> member new d (i d) \/ member old d (i d)) -> c <> NaN ->
  (holds (add_to_dataset new old) n i c <->
   holds new n i c \/ ((forall c', c' <> NaN -> ~ holds new n i c') /\ holds old n i c)).
Proof.
  intros PN PO W N; pose proof (add_proper new old PN PO) as PA.
  rewrite <- (read_holds _ _ _ _ (pd_coords _ PA) (pd_vars _ PA) N), <- (read_holds _ _ _ _ (pd_coords _ PN) (pd_vars _ PN) N), <- (read_holds _ _ _ _ (pd_coords _ PO) (pd_vars _ PO) N).
  rewrite add_read; [|exact PN|exact PO|].
  2: { intros d X; destruct (W d X) as [H|H]; [left|right]; (apply member_in; [apply pd_coords; assumption|exact H]). }
  destruct (is_nan (read new n i)) eqn:E.
  - apply is_nan_eq in E; split.
    + intros H; right; split; [|exact H]; intros c' N' HO; apply (read_holds _ _ _ _ (pd_coords _ PN) (pd_vars _ PN) N') in HO; congruence.
    + intros [H|[_ H]]; [congruence|exact H].
  - assert (EN : read new n i <> NaN) by (intros X; apply is_nan_eq in X; congruence).
    split; [tauto|]; intros [H|[H _]]; [exact H|].
    exfalso; apply (H (read new n i) EN), (read_holds _ _ _ _ (pd_coords _ PN) (pd_vars _ PN) EN); reflexivity.
Qed.

Lemma add_dims new old n d : In d (dims_of (add_to_dataset new old) n) <-> In d (dims_of new n) \/ In d (dims_of old n).
Proof.
  unfold dims_of at 1; cbn [add_to_dataset vars].
  rewrite (d_get_map_names (fun n => {| a_dims := join (dims_of new n) (dims_of old n); a_bool := bool_of new n && bool_of old n;
       a_at := fun i => let c := read new n i in if is_nan c then read old n i else c |})).
  destruct (smem n (var_names new old)) eqn:S; [cbn [a_dims]; apply join_in|].
  assert (NN : ~ In n (var_names new old)) by (intros I; apply smem_in in I; congruence).
  unfold var_names in NN; rewrite join_in in NN; unfold dims_of.
  assert (G1 : d_get n (vars new) = None) by (apply d_get_none; intros I; apply NN; auto).
  assert (G2 : d_get n (vars old) = None) by (apply d_get_none; intros I; apply NN; auto).
  rewrite G1, G2; simpl; tauto.
Qed.

Lemma add_history n i c : c <> NaN -> forall news base, proper_dset base -> (forall d, In d news -> proper_dset d) ->
  (forall ds d, In ds (base :: news) -> In d (dims_of ds n) -> member base d (i d)) ->
  (holds (fold_left (fun old new => add_to_dataset new old) news base) n i c <-> latest news base n i c).
Proof.
  intros N; induction news as [|new news IH]; intros base PB PN W; simpl.
  - unfold latest; split; [intros H; right; split; [exact H|intros ? ? []]|].
    intros [[b [d [a [E _]]]]|[H _]]; [destruct b; discriminate|exact H].
  - assert (P1 : proper_dset new) by (apply PN; left; reflexivity).
    pose proof (add_proper new base P1 PB) as PA.
    rewrite IH; [| exact PA |intros d I; apply PN; right; exact I|].
    2: { intros ds d I J; apply member_in; [exact (pd_coords _ PA)|]; apply add_members; right; apply member_in; [exact (pd_coords _ PB)|].
         destruct I as [<-|I]; [apply add_dims in J; destruct J as [J|J]; [apply (W new); simpl; auto|apply (W base); simpl; auto]|apply (W ds); simpl; auto]. }
    assert (AH : holds (add_to_dataset new base) n i c <-> holds new n i c \/ ((forall c', c' <> NaN -> ~ holds new n i c') /\ holds base n i c)).
    { apply add_holds; [exact P1|exact PB| |exact N]; intros d [J|J]; right; [apply (W new)|apply (W base)]; simpl; auto. }
    unfold latest; rewrite AH; split.
    + intros [[b [d [a [E [H1 H2]]]]]|[[H1|[H0 H1]] H2]].
      * left; exists (new :: b), d, a; split; [rewrite E; reflexivity|auto].
      * left; exists [], new, news; auto.
      * right; split; [exact H1|]; intros d' c' [<-|I]; [apply H0|apply (H2 d' c' I)].
    + intros [[b [d [a [E [H1 H2]]]]]|[H1 H2]].
      * destruct b as [|x b]; simpl in E; injection E as <- E; [subst a; right; auto|left; exists b, d, a; auto].
      * right; split; [right; split; [intros c'; apply (H2 new c' (or_introl eq_refl))|exact H1]|intros d' c' I; apply H2; right; exact I].
Qed.

(** ** Subsets *)
Section Subset.
Variables (ds ds' : dset) (l : list string) (dm bt : array).
Hypothesis P : proper_dset ds.
Hypothesis DMI : In ("definition_matrix", dm) (vars ds).
Hypothesis BTI : In ("base_tech", bt) (vars ds).
Hypothesis DMD : incl (a_dims dm) def_dims.
Hypothesis BTD : incl (a_dims bt) ["techs"].
Hypothesis NDL : NoDup l.
Hypothesis ND : In "nodes" (map fst (coords ds)).
Hypothesis H : subset_dims [("nodes", l)] ds = Ok ds'.

Let def : pos -> bool := fun i => is_true (a_at dm i).
Let sel : dset := {| coords := map (fun c => match d_get (fst c) [("nodes", l)] with Some l => (fst c, l) | None => c end) (coords ds); vars := vars ds |}.
Let kept : dset := {| coords := map (fun c => if String.eqb (fst c) "techs"
                       then (fst c, filter (fun t => negb (hanging sel def (a_at bt) t)) (snd c)) else c) (coords sel); vars := vars ds |}.

Lemma subset_eq : ds' = drop_undefined def kept.
Proof using All.
  clear NDL ND; revert H; unfold subset_dims, select.
  destruct (forallb _ _); [|discriminate]; cbn [bind vars].
  rewrite (d_in_get _ _ _ (pd_vars ds P) DMI), (d_in_get _ _ _ (pd_vars ds P) BTI); intros E; injection E as <-; reflexivity.
Qed.
Lemma subset_in m : In m l -> In m (members ds "nodes").
Proof using All.
  clear NDL; intros I; revert H; unfold subset_dims, select.
  destruct (forallb _ _) eqn:F; [|discriminate]; intros _; cbn in F; rewrite andb_true_r in F.
  rewrite forallb_forall in F; apply smem_in, F, I.
Qed.
Lemma sel_names : map fst (coords sel) = map fst (coords ds).
Proof using. unfold sel; cbn [coords]; rewrite map_map; apply map_ext; intros [d x]; cbn [fst]; destruct (d_get d _); reflexivity. Qed.
Lemma kept_names : map fst (coords kept) = map fst (coords ds).
Proof using. rewrite <- sel_names; unfold kept; cbn [coords]; rewrite map_map; apply map_ext; intros [d x]; cbn [fst]; destruct (String.eqb d "techs"); reflexivity. Qed.

Lemma d_get_map_snd (f : string -> list string -> list string) c d :
  d_get d (map (fun x => (fst x, f (fst x) (snd x))) c) = match d_get d c with Some v => Some (f d v) | None => None end.
Proof using.
  induction c as [|[k v] c IH]; simpl; [reflexivity|]; destruct (String.eqb_spec d k) as [E|N]; [subst k|]; [reflexivity|exact IH].
Qed.
Lemma sel_members d : members sel d = if String.eqb d "nodes" then l else members ds d.
Proof using ND.
  unfold members, sel; cbn [coords].
  rewrite (map_ext _ (fun c => (fst c, (fun d v => if String.eqb d "nodes" then l else v) (fst c) (snd c)))).
  2: { intros [k v]; cbn [fst snd d_get]; destruct (String.eqb k "nodes"); reflexivity. }
  pose proof (d_get_map_snd (fun d v => if String.eqb d "nodes" then l else v) (coords ds) d) as X; cbv beta in X; rewrite X; clear X.
  destruct (String.eqb_spec d "nodes") as [->|N].
  - destruct (d_get "nodes" (coords ds)) eqn:G; [reflexivity|]; apply d_get_none in G; contradiction.
  - destruct (d_get d (coords ds)); reflexivity.
Qed.
Lemma kept_members d : members kept d = if String.eqb d "techs" then filter (fun t => negb (hanging sel def (a_at bt) t)) (members sel "techs") else members sel d.
Proof using.
  unfold members at 1, kept; cbn [coords].
  rewrite (map_ext _ (fun c => (fst c, (fun d v => if String.eqb d "techs" then filter (fun t => negb (hanging sel def (a_at bt) t)) v else v) (fst c) (snd c)))).
  2: { intros [k v]; cbn [fst snd]; destruct (String.eqb k "techs"); reflexivity. }
  pose proof (d_get_map_snd (fun d v => if String.eqb d "techs" then filter (fun t => negb (hanging sel def (a_at bt) t)) v else v) (coords sel) d) as X; cbv beta in X; rewrite X; clear X.
  destruct (String.eqb_spec d "techs") as [->|N]; unfold members.
  - destruct (d_get "techs" (coords sel)); reflexivity.
  - destruct (d_get d (coords sel)); reflexivity.
Qed.

Lemma def_depends : depends def.
Proof using P DMI DMD.
  intros i j A; unfold def; f_equal; apply (pd_proper ds P _ _ DMI); intros d I; apply A, DMD, I.
Qed.
Lemma def_at3 j : def j = true <-> a_at dm (at3 (j "nodes") (j "techs") (j "carriers")) = Bo true.
Proof using P DMI DMD.
  rewrite <- is_true_eq; change (is_true (a_at dm (at3 (j "nodes") (j "techs") (j "carriers")))) with (def (at3 (j "nodes") (j "techs") (j "carriers"))).
  rewrite (def_depends j (at3 (j "nodes") (j "techs") (j "carriers"))); [tauto|].
  intros d [<-|[<-|[<-|[]]]]; reflexivity.
Qed.
Lemma def_upd n t c : def (upd (upd (upd origin "nodes" n) "techs" t) "carriers" c) = true <-> a_at dm (at3 n t c) = Bo true.
Proof using P DMI DMD. rewrite def_at3; tauto. Qed.

Lemma member_sel d m : In m (members sel d) <-> (d = "nodes" /\ In m l) \/ (d <> "nodes" /\ member ds d m).
Proof using P ND.
  rewrite sel_members, (member_in ds d m (pd_coords ds P)); destruct (String.eqb_spec d "nodes") as [->|N]; tauto.
Qed.

Lemma subset_techs t : member ds' "techs" t <->
  member ds "techs" t /\ hanging sel def (a_at bt) t = false /\
  exists n c, In n l /\ member ds "carriers" c /\ a_at dm (at3 n t c) = Bo true.
Proof using All.
  rewrite subset_eq, (member_in (drop_undefined def kept)) by (rewrite drop_coords_names, kept_names; exact (pd_coords ds P)).
  rewrite (drop_members def def_depends kept "techs" t), kept_members; change (String.eqb "techs" "techs") with true; cbv iota.
  rewrite filter_In, negb_true_iff, member_sel; split.
  - intros [[[[X _]|[_ M]] HG] L]; [discriminate|]; split; [exact M|split; [exact HG|]].
    destruct (L (or_intror (or_introl eq_refl))) as [j [[LW LD] E]]; subst t.
    exists (j "nodes"), (j "carriers").
    pose proof (LW "nodes" (or_introl eq_refl)) as L1; pose proof (LW "carriers" (or_intror (or_intror (or_introl eq_refl)))) as L2.
    rewrite kept_members in L1, L2; cbn [String.eqb] in L1, L2; change (String.eqb "nodes" "techs") with false in L1; change (String.eqb "carriers" "techs") with false in L2.
    apply member_sel in L1; apply member_sel in L2.
    destruct L1 as [[_ L1]|[L1 _]]; [|congruence]; destruct L2 as [[L2 _]|[_ L2]]; [discriminate|].
    split; [exact L1|split; [exact L2|]]; apply def_at3; exact LD.
  - intros [M [HG [n [c [N [C D]]]]]]; split; [split; [right; split; [discriminate|exact M]|exact HG]|].
    intros _; exists (at3 n t c); split; [split|reflexivity].
    + intros d [<-|[<-|[<-|[]]]]; rewrite kept_members.
      * change (String.eqb "nodes" "techs") with false; apply member_sel; left; auto.
      * change (String.eqb "techs" "techs") with true; cbv iota; apply filter_In; split; [apply member_sel; right; split; [discriminate|exact M]|apply negb_true_iff; exact HG].
      * change (String.eqb "carriers" "techs") with false; apply member_sel; right; split; [discriminate|exact C].
    + unfold def; apply is_true_eq; exact D.
Qed.

Lemma bt_at n t c : a_at bt (upd origin "techs" t) = a_at bt (at3 n t c).
Proof using P BTI BTD. apply (pd_proper ds P _ _ BTI); intros d I; destruct (BTD d I) as [<-|[]]; reflexivity. Qed.

Lemma not_transmission n t c : a_at bt (at3 n t c) <> Str "transmission" -> hanging sel def (a_at bt) t = false.
Proof using P BTI BTD.
  intros N; unfold hanging; rewrite (bt_at n t c); destruct (a_at bt (at3 n t c)) as [| | |s]; try reflexivity.
  destruct (String.eqb_spec s "transmission") as [->|]; [contradiction|reflexivity].
Qed.

Lemma filter_two (f : string -> bool) a b l0 : NoDup l0 -> a <> b -> (forall n, In n l0 -> (f n = true <-> n = a \/ n = b)) ->
  List.length (filter f l0) = ((if smem a l0 then 1 else 0) + (if smem b l0 then 1 else 0))%nat.
Proof using.
  intros N AB; induction N as [|x l0 NI N IH]; intros F; [reflexivity|].
  assert (IH' := IH (fun n I => F n (or_intror I))); clear IH.
  cbn [filter]; pose proof (F x (or_introl eq_refl)) as FX; unfold smem in *; cbn [existsb].
  destruct (f x) eqn:E; cbn [List.length]; rewrite IH'.
  - destruct (proj1 FX eq_refl) as [->| ->]; rewrite String.eqb_refl.
    + destruct (existsb (String.eqb a) l0) eqn:S; [apply smem_in in S; contradiction|].
      rewrite (proj2 (String.eqb_neq b a)) by congruence; reflexivity.
    + destruct (existsb (String.eqb b) l0) eqn:S; [apply smem_in in S; contradiction|].
      rewrite (proj2 (String.eqb_neq a b)) by congruence; cbn [orb]; destruct (existsb (String.eqb a) l0); reflexivity.
  - rewrite (proj2 (String.eqb_neq a x)), (proj2 (String.eqb_neq b x)); [reflexivity| |]; intros ->; destruct FX as [_ FX]; [discriminate FX; auto|discriminate FX; auto].
Qed.

Lemma link_hanging t a b n0 c0 : a_at bt (at3 n0 t c0) = Str "transmission" -> link_between ds dm t a b ->
  (hanging sel def (a_at bt) t = true <-> (In a l /\ ~ In b l) \/ (In b l /\ ~ In a l)).
Proof using All.
  intros T [AB [cs [NE [CM D]]]]; unfold hanging; rewrite (bt_at n0 t c0), T; cbn [andb].
  change (String.eqb "transmission" "transmission") with true; cbn [andb].
  assert (CN : forall c, member ds "carriers" c -> count_nodes sel def t c =
     if smem c cs then ((if smem a l then 1 else 0) + (if smem b l then 1 else 0))%nat else 0%nat).
  { intros c C; unfold count_nodes; rewrite sel_members; change (String.eqb "nodes" "nodes") with true; cbv iota.
    assert (D' : forall n, In n l -> (def (upd (upd (upd origin "nodes" n) "techs" t) "carriers" c) = true <-> (n = a \/ n = b) /\ In c cs)).
    { intros n I; rewrite def_upd; apply D; [|exact C]; apply member_in; [exact (pd_coords ds P)|apply subset_in; exact I]. }
    destruct (smem c cs) eqn:S.
    - apply filter_two; [exact NDL|exact AB|]; intros n I; rewrite (D' n I); apply smem_in in S; tauto.
    - assert (NC : ~ In c cs) by (intros X; apply smem_in in X; congruence).
      clear - D' NC; induction l as [|x k IH]; [reflexivity|]; cbn [filter].
      destruct (def (upd (upd (upd origin "nodes" x) "techs" t) "carriers" c)) eqn:E; [apply D' in E; [tauto|left; reflexivity]|apply IH; intros n I; apply D'; right; exact I]. }
  rewrite existsb_exists; split.
  - intros [c [C E]]; apply member_sel in C; destruct C as [[C _]|[_ C]]; [discriminate|].
    rewrite (CN c C) in E; destruct (smem c cs); [|discriminate].
    destruct (smem a l) eqn:SA, (smem b l) eqn:SB; try discriminate.
    + left; split; [apply smem_in; exact SA|intros X; apply smem_in in X; congruence].
    + right; split; [apply smem_in; exact SB|intros X; apply smem_in in X; congruence].
  - intros E; destruct cs as [|c cs]; [congruence|]; pose proof (CM c (or_introl eq_refl)) as C.
    exists c; split; [apply member_sel; right; split; [discriminate|exact C]|].
    rewrite (CN c C); assert (SC : smem c (c :: cs) = true) by (apply smem_in; left; reflexivity); rewrite SC.
    destruct (smem a l) eqn:SA, (smem b l) eqn:SB; try reflexivity.
    + apply smem_in in SA; apply smem_in in SB; tauto.
    + exfalso; destruct E as [[E _]|[E _]]; apply smem_in in E; congruence.
Qed.

Lemma subset_link t a b n0 c0 : member ds "techs" t -> a_at bt (at3 n0 t c0) = Str "transmission" -> link_between ds dm t a b ->
  (member ds' "techs" t <-> In a l /\ In b l).
Proof using All.
  intros M T LB; pose proof (link_hanging t a b n0 c0 T LB) as LH.
  destruct LB as [AB [cs [NE [CM D]]]].
  assert (ML : forall n, In n l -> member ds "nodes" n) by (intros n I; apply member_in; [exact (pd_coords ds P)|apply subset_in; exact I]).
  rewrite subset_techs; split.
  - intros [_ [HG [n [c [N [C E]]]]]]; apply D in E; [|apply ML; exact N|exact C].
    destruct (in_dec string_dec a l) as [A|A], (in_dec string_dec b l) as [B|B]; [auto| | |]; exfalso.
    + rewrite (proj2 LH) in HG; [discriminate|auto].
    + rewrite (proj2 LH) in HG; [discriminate|auto].
    + destruct E as [[->| ->] _]; contradiction.
  - intros [A B]; split; [exact M|split].
    + destruct (hanging sel def (a_at bt) t); [|reflexivity]; destruct (proj1 LH eq_refl) as [[_ X]|[_ X]]; contradiction.
    + destruct cs as [|c cs]; [congruence|]; exists a, c; pose proof (CM c (or_introl eq_refl)) as C; split; [exact A|split; [exact C|]].
      apply D; [apply ML; exact A|exact C|split; [auto|left; reflexivity]].
Qed.

Lemma subset_other t n0 c0 : a_at bt (at3 n0 t c0) <> Str "transmission" ->
  (member ds' "techs" t <-> member ds "techs" t /\ exists n c, In n l /\ member ds "carriers" c /\ a_at dm (at3 n t c) = Bo true).
Proof using All.
  intros T; rewrite subset_techs, (not_transmission n0 t c0 T); tauto.
Qed.
End Subset.
