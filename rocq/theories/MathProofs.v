(** Proofs about the assembly of math definitions. *)
From Verif Require Import Base BaseProofs AttrDictModel AttrDictSpec AttrDictProofs AttrDictUnion AttrDictMore AttrDictLayers
  DefModel MathModel MathSpec.
Local Open Scope string_scope.
Local Open Scope list_scope.
Local Arguments String.eqb : simpl never.

(** ** Reading the files *)
Lemma read_all_ok read paths r : read_all read paths = Ok r ->
  forall n d, In (n, d) r <-> exists p, In (n, p) paths /\ read p = Ok d.
Proof.
  revert r; induction paths as [|[n0 p0] t IH]; intros r H; simpl in H.
  - injection H as <-; intros n d; split; [intros []|intros [p [[] _]]].
  - destruct (read p0) as [d0|e] eqn:R; simpl in H; [|discriminate].
    destruct (read_all read t) as [r0|e] eqn:R'; simpl in H; [|discriminate].
    injection H as <-; intros n d; simpl; rewrite (IH r0 eq_refl); split.
    + intros [E|[p [H1 H2]]]; [injection E as <- <-; exists p0; auto|exists p; auto].
    + intros [p [[E|H1] H2]]; [injection E as <- <-; left; congruence|right; exists p; auto].
Qed.

Lemma math_paths_get extra rel n : NoDup (map fst extra) -> forall pre,
  d_get n (math_paths pre extra rel) =
  match d_get n extra with Some p => Some (rel p) | None => d_get n pre end.
Proof.
  unfold math_paths; induction extra as [|[m p] t IH]; intros ND pre; [reflexivity|].
  simpl in *; inversion ND as [|? ? N1 N2]; subst; rewrite (IH N2).
  destruct (String.eqb n m) eqn:E.
  - apply String.eqb_eq in E; subst.
    rewrite (proj2 (d_get_none m t)) by exact N1; apply d_get_set_same.
  - apply String.eqb_neq in E; destruct (d_get n t); [reflexivity|]; apply d_get_set_other; exact E.
Qed.

Lemma math_paths_nodup extra rel : forall pre, NoDup (map fst pre) -> NoDup (map fst (math_paths pre extra rel)).
Proof.
  unfold math_paths; induction extra as [|[m p] t IH]; intros pre ND; [exact ND|]; simpl.
  apply IH; apply d_nodup_set; exact ND.
Qed.

Lemma initialise_ok pre extra rel read ds : NoDup (map fst pre) -> NoDup (map fst extra) ->
  initialise_math pre extra rel read = Ok ds ->
  forall n d, In (n, d) ds <->
    (exists p, In (n, p) extra /\ read (rel p) = Ok d) \/
    (~ In n (map fst extra) /\ exists p, In (n, p) pre /\ read p = Ok d).
Proof.
  intros NP NE H n d; unfold initialise_math in H.
  rewrite (read_all_ok _ _ _ H n d).
  pose proof (math_paths_get extra rel n NE pre) as G.
  pose proof (math_paths_nodup extra rel pre NP) as ND.
  split.
  - intros [p [H1 H2]]; apply d_in_get in H1; [|exact ND]; rewrite G in H1.
    destruct (d_get n extra) as [p'|] eqn:E.
    + injection H1 as <-; left; exists p'; split; [exact (d_get_in _ _ _ E)|exact H2].
    + right; split; [apply d_get_none; exact E|exists p; split; [exact (d_get_in _ _ _ H1)|exact H2]].
  - intros [[p [H1 H2]]|[H0 [p [H1 H2]]]].
    + apply d_in_get in H1; [|exact NE]; rewrite H1 in G.
      exists (rel p); split; [exact (d_get_in _ _ _ G)|exact H2].
    + apply d_get_none in H0; rewrite H0 in G; apply d_in_get in H1; [|exact NP].
      exists p; split; [apply d_get_in; congruence|exact H2].
Qed.

(** A file that cannot be read stops the initialisation. *)
Lemma read_all_err read paths n p e : In (n, p) paths -> read p = Err e -> exists e', read_all read paths = Err e'.
Proof.
  intros I R; induction paths as [|[m q] t IH]; [destruct I|]; simpl.
  destruct I as [E|I].
  - injection E as -> ->; rewrite R; simpl; eauto.
  - destruct (read q) as [d|e'']; simpl; [|eauto]; destruct (IH I) as [e' ->]; simpl; eauto.
Qed.

(** ** Layering *)
Lemma union_loop_err sk B ks : 
  (forall k, In k ks -> k <> [] /\ exists w, lk k (VDict B) = Some w /\ simple w) ->
  forall S S' e, union_loop true sk B ks S = (S', Some e) -> e = EKey.
Proof.
  induction ks as [|k t IH]; intros HB S S' e H; [discriminate H|]; simpl in H.
  destruct (HB k (or_introl eq_refl)) as [NN [w [Hw Sw]]].
  destruct (union_one true sk B k S) as [S1 [e1|]] eqn:E.
  - injection H as <- <-; eapply union_one_err; eauto.
  - eapply IH; [|exact H]; intros k' Hk'; apply HB; right; exact Hk'.
Qed.
Lemma union_err A B A' e : wf (VDict B) -> union true A B = (A', Some e) -> e = EKey.
Proof.
  intros WB H; eapply union_loop_err; [|exact H].
  intros k Hk; apply (keys_nested_val_spec (VDict B) WB) in Hk; exact Hk.
Qed.

Lemma layer_math_all (dataset : list (string * dict)) names (layers : list dict) :
  Forall2 (fun n d => d_get n dataset = Some d) names layers -> Forall (fun d => wf (VDict d)) layers ->
  forall A, layer_math dataset names A =
    match union_all layers A with (r, None) => Ok r | _ => Err EModel end.
Proof.
  induction 1 as [|n d names layers G F IH]; intros W A; [reflexivity|]; simpl; rewrite G.
  inversion W as [|? ? Wd W']; subst.
  destruct (union true A d) as [A' [e|]] eqn:U; [|apply IH; exact W'].
  rewrite (union_err _ _ _ _ Wd U); reflexivity.
Qed.

Lemma layer_math_missing (dataset : list (string * dict)) names n : In n names -> ~ In n (map fst dataset) ->
  (forall m d, In (m, d) dataset -> wf (VDict d)) ->
  forall A, layer_math dataset names A = Err EModel.
Proof.
  intros I NI W; induction names as [|m t IH]; intros A; [destruct I|]; simpl.
  destruct (d_get m dataset) as [d|] eqn:G; [|reflexivity].
  destruct I as [->|I].
  - exfalso; apply NI; exact (d_get_some_key _ _ _ G).
  - destruct (union true A d) as [A' [e|]] eqn:U; [|apply IH; exact I].
    rewrite (union_err _ _ _ _ (W _ _ (d_get_in _ _ _ G)) U); reflexivity.
Qed.

Lemma union_all_app l1 l2 A : union_all (l1 ++ l2) A =
  match union_all l1 A with (r, None) => union_all l2 r | x => x end.
Proof.
  revert A; induction l1 as [|B t IH]; intros A; [reflexivity|]; simpl.
  destruct (union true A B) as [A' [e|]]; [reflexivity|apply IH].
Qed.

Lemma build_math_ok (dataset : list (string * dict)) names (layers : list dict) ow :
  NoDup (map fst dataset) -> Forall2 (fun n d => In (n, d) dataset) names layers ->
  Forall (fun d => wf (VDict d)) (layers ++ [ow]) -> compatible (layers ++ [ow]) ->
  exists r, build_math names dataset ow = Ok r /\ wf (VDict r) /\
    forall q v, leaf v -> (at_path (VDict r) q v <->
      exists before L after, layers ++ [ow] = before ++ L :: after /\ at_path (VDict L) q v /\
        forall M x, In M after -> leaf x -> ~ at_path (VDict M) q x).
Proof.
  intros ND F WT SS.
  assert (F' : Forall2 (fun n d => d_get n dataset = Some d) names layers).
  { clear -ND F; induction F; constructor; [apply d_in_get; assumption|assumption]. }
  assert (Nil : wf (VDict [])) by (apply wf_dict; constructor).
  assert (N0 : forall p w, p <> [] -> ~ at_path (VDict []) p w).
  { intros p w N H; inversion H; subst; [congruence|simpl in *; contradiction]. }
  destruct (union_all_compatible (layers ++ [ow]) [] Nil WT) as [r [E [W L]]].
  { intros X Y k w k' w' HX HY Hk Lw' Hk' C.
    destruct HX as [<-|HX]; [exfalso; exact (N0 k w (proj1 Hk) (proj1 (proj2 Hk)))|].
    destruct HY as [<-|HY]; [|exact (SS X Y k w k' w' HX HY Hk Lw' Hk' C)].
    exfalso; apply (N0 k' w'); [intros ->; inversion Hk'; subst; discriminate Lw'|exact Hk']. }
  exists r; split; [|split; [exact W|]].
  - unfold build_math; rewrite (layer_math_all _ _ _ F').
    + rewrite union_all_app in E; destruct (union_all layers []) as [A [e|]]; [discriminate E|].
      simpl in *; destruct ow as [|kv ow]; [injection E as <-; reflexivity|].
      unfold to_result; destruct (union true A (kv :: ow)) as [A' [e|]]; [discriminate E|]; congruence.
    + rewrite Forall_forall in *; intros d Hd; apply (WT d); apply in_or_app; left; exact Hd.
  - intros q v Lv; rewrite (L q v Lv); unfold last_wins; split; [|auto].
    intros [H|[H _]]; [exact H|].
    exfalso; inversion H; subst; [discriminate Lv|simpl in *; contradiction].
Qed.

(** ** Component names *)
Lemma active_in g n : In n (active g) <-> In (n, true) g.
Proof.
  unfold active; rewrite in_map_iff; split.
  - intros [[m b] [E H]]; apply filter_In in H; simpl in *; destruct H as [H ->]; subst; exact H.
  - intros H; exists (n, true); split; [reflexivity|]; apply filter_In; auto.
Qed.

Lemma insert_len_perm g l : Permutation (insert_len g l) (g :: l).
Proof.
  induction l as [|h t IH]; [reflexivity|]; simpl; destruct (_ <? _)%nat; [reflexivity|].
  rewrite IH; apply perm_swap.
Qed.
Lemma sort_len_perm l : Permutation (sort_len l) l.
Proof.
  unfold sort_len; assert (H : forall acc, Permutation (fold_left (fun acc g => insert_len g acc) l acc) (acc ++ l)).
  { induction l as [|g t IH]; intros acc; [rewrite app_nil_r; reflexivity|]; simpl.
    rewrite IH, insert_len_perm; simpl; apply Permutation_middle. }
  apply (H []).
Qed.

(** A name in two of the groups of a list. *)
Definition clashing (gs : list (list string)) : Prop :=
  exists n l1 g l2 g' l3, gs = l1 ++ g :: l2 ++ g' :: l3 /\ In n g /\ In n g'.

Lemma collect_dups_nil gs : forall seen dups, collect_dups gs seen dups = [] <->
  dups = [] /\ (forall n g, In g gs -> In n g -> ~ In n seen) /\ ~ clashing gs.
Proof.
  induction gs as [|g t IH]; intros seen dups; simpl.
  - split; [intros ->; split; [reflexivity|split; [intros n g []|]]|tauto].
    intros [n [l1 [g [l2 [g' [l3 [E _]]]]]]]; destruct l1; discriminate.
  - rewrite IH; split.
    + intros [H1 [H2 H3]]; apply app_eq_nil in H1; destruct H1 as [-> H1]; split; [reflexivity|split].
      * intros n g0 [<-|Hg] Hn Hs.
        -- assert (X : In n (filter (fun n => smem n seen) g)) by (apply filter_In; split; [exact Hn|apply smem_in; exact Hs]).
           rewrite H1 in X; destruct X.
        -- apply (H2 n g0 Hg Hn); apply in_or_app; left; exact Hs.
      * intros [n [l1 [g0 [l2 [g' [l3 [E [N1 N2]]]]]]]]; destruct l1 as [|x l1]; simpl in E; injection E as <- E.
        -- subst t; apply (H2 n g'); [apply in_or_app; right; left; reflexivity|exact N2|].
           apply in_or_app; right; exact N1.
        -- apply H3; exists n, l1, g0, l2, g', l3; auto.
    + intros [-> [H2 H3]]; split; [|split].
      * simpl; destruct (filter (fun n => smem n seen) g) as [|n r] eqn:E; [reflexivity|exfalso].
        assert (X : In n (n :: r)) by (left; reflexivity); rewrite <- E in X; apply filter_In in X.
        destruct X as [X1 X2]; apply smem_in in X2; exact (H2 n g (or_introl eq_refl) X1 X2).
      * intros n g0 Hg Hn Hs; apply in_app_or in Hs; destruct Hs as [Hs|Hs].
        -- exact (H2 n g0 (or_intror Hg) Hn Hs).
        -- apply H3; apply in_split in Hg; destruct Hg as [l1 [l2 ->]].
           exists n, [], g, l1, g0, l2; auto.
      * intros [n [l1 [g0 [l2 [g' [l3 [E [N1 N2]]]]]]]]; apply H3; subst t.
        exists n, (g :: l1), g0, l2, g', l3; auto.
Qed.

Lemma clashing_perm gs gs' : Permutation gs gs' -> clashing gs -> clashing gs'.
Proof.
  induction 1 as [|x l l' P IH|x y l|l l' l'' P1 IH1 P2 IH2]; auto.
  - intros [n [l1 [g [l2 [g' [l3 [E [N1 N2]]]]]]]]; destruct l1 as [|z l1]; simpl in E; injection E as -> E.
    + assert (I : In g' l') by (apply (Permutation_in _ P); subst l; apply in_or_app; right; left; reflexivity).
      apply in_split in I; destruct I as [m1 [m2 ->]]; exists n, [], g, m1, g', m2; auto.
    + destruct IH as [n' [m1 [h [m2 [h' [m3 [-> [M1 M2]]]]]]]]; [exists n, l1, g, l2, g', l3; auto|].
      exists n', (z :: m1), h, m2, h', m3; auto.
  - intros [n [l1 [g [l2 [g' [l3 [E [N1 N2]]]]]]]]; destruct l1 as [|z l1]; simpl in E; injection E as -> E.
    + destruct l2 as [|z l2]; simpl in E; injection E as -> E.
      * exists n, [], g', [], g, l3; subst; auto.
      * subst l; exists n, [z], g, l2, g', l3; auto.
    + destruct l1 as [|z' l1]; simpl in E; injection E as -> E.
      * subst l; exists n, [], g, (z :: l2), g', l3; auto.
      * subst l; exists n, (z' :: z :: l1), g, l2, g', l3; auto.
Qed.

Lemma clashing_shared m : NoDup (map fst m) ->
  (clashing (map (fun fg => active (snd fg)) m) <-> shared_name m).
Proof.
  intros ND; split.
  - intros [n [l1 [g [l2 [g' [l3 [E [N1 N2]]]]]]]].
    apply map_eq_app in E; destruct E as [m1 [r [-> [E1 E]]]].
    apply map_eq_cons in E; destruct E as [[f h] [r' [-> [E2 E]]]].
    apply map_eq_app in E; destruct E as [m2 [r2 [-> [E3 E]]]].
    apply map_eq_cons in E; destruct E as [[f' h'] [m3 [-> [E4 E]]]]; simpl in *; subst g g'.
    exists f, f', n; split; [|split].
    + intros ->; rewrite map_app in ND; simpl in ND; apply NoDup_remove_2 in ND.
      apply ND; apply in_or_app; right; rewrite map_app; apply in_or_app; right; left; reflexivity.
    + exists h; split; [apply in_or_app; right; left; reflexivity|apply active_in; exact N1].
    + exists h'; split; [|apply active_in; exact N2].
      apply in_or_app; right; right; apply in_or_app; right; left; reflexivity.
  - intros [f [f' [n [NE [[g [Hg Ng]] [g' [Hg' Ng']]]]]]].
    apply in_split in Hg; destruct Hg as [l1 [l2 ->]].
    apply in_app_or in Hg'; destruct Hg' as [H|[H|H]].
    + apply in_split in H; destruct H as [k1 [k2 ->]].
      exists n, (map (fun fg => active (snd fg)) k1), (active g'), (map (fun fg => active (snd fg)) k2), (active g),
        (map (fun fg => active (snd fg)) l2).
      repeat (rewrite map_app; simpl); rewrite <- app_assoc; split; [reflexivity|]; rewrite !active_in; auto.
    + injection H as -> ->; congruence.
    + apply in_split in H; destruct H as [k1 [k2 ->]].
      exists n, (map (fun fg => active (snd fg)) l1), (active g), (map (fun fg => active (snd fg)) k1), (active g'),
        (map (fun fg => active (snd fg)) k2).
      repeat (rewrite map_app; simpl); split; [reflexivity|]; rewrite !active_in; auto.
Qed.

Lemma collect_dups_in gs : forall seen dups n, In n (collect_dups gs seen dups) ->
  In n dups \/ (exists g, In g gs /\ In n g /\ In n seen) \/ clashing gs.
Proof.
  induction gs as [|g t IH]; intros seen dups n H; simpl in H; [left; exact H|].
  apply IH in H; destruct H as [H|[[g0 [H1 [H2 H3]]]|H]].
  - apply in_app_or in H; destruct H as [H|H]; [left; exact H|].
    apply filter_In in H; destruct H as [H1 H2]; apply smem_in in H2.
    right; left; exists g; split; [left; reflexivity|auto].
  - apply in_app_or in H3; destruct H3 as [H3|H3].
    + right; left; exists g0; split; [right; exact H1|auto].
    + right; right; apply in_split in H1; destruct H1 as [l1 [l2 ->]]; exists n, [], g, l1, g0, l2; auto.
  - right; right; destruct H as [m [l1 [g0 [l2 [g' [l3 [-> [N1 N2]]]]]]]].
    exists m, (g :: l1), g0, l2, g', l3; auto.
Qed.

Lemma unique_names_iff m : NoDup (map fst m) ->
  (unique_component_names m = Ok m <-> ~ shared_name m) /\
  (unique_component_names m = Err EValue <-> shared_name m).
Proof.
  intros ND; unfold unique_component_names.
  pose proof (collect_dups_nil (sort_len (map (fun fg => active (snd fg)) m)) [] []) as H.
  pose proof (collect_dups_in (sort_len (map (fun fg => active (snd fg)) m)) [] []) as D.
  assert (C : clashing (sort_len (map (fun fg => active (snd fg)) m)) <-> shared_name m).
  { rewrite <- clashing_shared by exact ND; split; apply clashing_perm;
      [apply sort_len_perm|apply Permutation_sym; apply sort_len_perm]. }
  destruct (collect_dups _ [] []) as [|x r]; split; split; intros X; try discriminate X; try reflexivity.
  - rewrite <- C; apply (proj1 H eq_refl).
  - exfalso; apply C in X; apply (proj1 H eq_refl); exact X.
  - exfalso; assert (E : x :: r = []); [apply H|discriminate E].
    split; [reflexivity|split; [intros n g _ _ []|rewrite C; exact X]].
  - apply C; destruct (D x (or_introl eq_refl)) as [[]|[[g [_ [_ []]]]|K]]; exact K.
Qed.

(** ** Looking a name up *)
Lemma field_on m f n : NoDup (map fst m) -> (In n (active (field m f)) <-> on_in m f n).
Proof.
  intros ND; rewrite active_in; unfold field, on_in; destruct (d_get f m) as [g|] eqn:G; split.
  - intros H; exists g; split; [exact (d_get_in _ _ _ G)|exact H].
  - intros [g' [H1 H2]]; apply d_in_get in H1; [|exact ND]; unfold group, math in *; congruence.
  - intros [].
  - intros [g' [H1 H2]]; apply d_get_none in G; exfalso; apply G; exact (in_map fst _ _ H1).
Qed.
Lemma field_listed m f n : NoDup (map fst m) -> (In n (map fst (field m f)) <-> listed_in m f n).
Proof.
  intros ND; unfold field, listed_in; destruct (d_get f m) as [g|] eqn:G; split.
  - intros H; apply in_map_iff in H; destruct H as [[k b] [<- H]]; exists g, b; split; [exact (d_get_in _ _ _ G)|exact H].
  - intros [g' [b [H1 H2]]]; apply d_in_get in H1; [|exact ND].
    assert (g' = g) by (unfold group, math in *; congruence); subst; exact (in_map fst _ _ H2).
  - intros [].
  - intros [g' [b [H1 H2]]]; apply d_get_none in G; exfalso; apply G; exact (in_map fst _ _ H1).
Qed.

Definition searched (subset : list string) : list string :=
  match subset with [] => filter (fun f => negb (String.eqb f "checks")) all_fields | _ => subset end.

Lemma find_spec m n subset : NoDup (map fst m) -> ~ shared_name m ->
  (forall f, find m n subset = Ok f <-> In f (searched subset) /\ on_in m f n) /\
  (find m n subset = Err EKey <-> forall f, In f (searched subset) -> ~ on_in m f n) /\
  find m n subset <> Err EValue.
Proof.
  intros ND NS; unfold find; fold (searched subset).
  set (l := nodup string_dec (filter (fun f => smem n (active (field m f))) (searched subset))).
  assert (I : forall f, In f l <-> In f (searched subset) /\ on_in m f n).
  { intros f; unfold l; rewrite nodup_In, filter_In, smem_in, field_on by exact ND; tauto. }
  assert (NDl : NoDup l) by apply NoDup_nodup.
  assert (U : forall f f', In f l -> In f' l -> f = f').
  { intros f f' H1 H2; destruct (string_dec f f') as [E|NE]; [exact E|exfalso].
    apply I in H1; apply I in H2; apply NS; exists f, f', n; tauto. }
  destruct l as [|f0 [|f1 r]].
  - split; [intros f; split; [discriminate|intros H; apply I in H; destruct H]|].
    split; [|discriminate]; split; [|reflexivity]; intros _ f H1 H2; apply (I f); auto.
  - split; [|split; [|discriminate]].
    + intros f; rewrite <- I; split; [intros H; injection H as ->; left; reflexivity|].
      intros [->|[]]; reflexivity.
    + split; [discriminate|]; intros H; exfalso.
      assert (X : In f0 [f0]) by (left; reflexivity); apply I in X; exact (H f0 (proj1 X) (proj2 X)).
  - exfalso; assert (f0 = f1) by (apply U; simpl; auto); subst.
    inversion NDl as [|? ? N1 N2]; subst; apply N1; left; reflexivity.
Qed.

(** ** Roles of names in strings *)
Definition has_role (m : math) (role n : string) : Prop := exists f, In f (role_fields role) /\ on_in m f n.

Lemma active_names_in m role n : NoDup (map fst m) -> (In n (active_names m role) <-> has_role m role n).
Proof.
  intros ND; unfold active_names, has_role; rewrite in_flat_map; split; intros [f [H1 H2]]; exists f;
    (split; [exact H1|]); apply field_on; auto.
Qed.
Lemma where_names_in m role n : NoDup (map fst m) -> role = "inputs" \/ role = "results" ->
  (In n (where_names m role) <->
   has_role m role n \/
   ((exists f, In f (role_fields role) /\ listed_in m f n) /\ ~ has_role m "inputs" n /\ ~ has_role m "results" n)).
Proof.
  intros ND R; unfold where_names.
  replace (String.eqb role "dimensions") with false by (destruct R as [->| ->]; reflexivity).
  rewrite in_app_iff, filter_In, active_names_in by exact ND.
  rewrite negb_true_iff, in_flat_map.
  assert (S : smem n (active_names m "results" ++ active_names m "inputs") = false <->
     ~ has_role m "inputs" n /\ ~ has_role m "results" n).
  { rewrite <- not_true_iff_false, smem_in, in_app_iff, !active_names_in by exact ND; tauto. }
  rewrite S; split; (intros [H|[[f [H1 H2]] H3]]; [left; exact H|right; split; [exists f; split; [exact H1|]|exact H3]]);
    apply (field_listed m f n ND); exact H2.
Qed.
Lemma roles_apart m n : ~ shared_name m ->
  (has_role m "dimensions" n -> ~ has_role m "inputs" n) /\
  (has_role m "dimensions" n -> ~ has_role m "results" n) /\
  (has_role m "inputs" n -> ~ has_role m "results" n).
Proof.
  intros NS.
  assert (A : forall f f', f <> f' -> on_in m f n -> on_in m f' n -> False).
  { intros f f' NE H1 H2; apply NS; exists f, f', n; auto. }
  unfold has_role; simpl; repeat split; intros [f [F H]] [f' [F' H']];
    repeat match goal with H : _ \/ _ |- _ => destruct H end; subst; try contradiction;
    (eapply A; [|exact H|exact H']; discriminate).
Qed.
