(** Cost limit, cumulative scores, resuming, files. *)
From Verif Require Import Base BaseProofs SporesModel SporesSpec SporesProofs.
Local Open Scope string_scope.
Local Open Scope list_scope.
Local Open Scope nat_scope.
Local Arguments String.eqb : simpl never.

Lemma nth_error_combine {A B} (a : list A) : forall (b : list B) i,
  nth_error (combine a b) i =
  match nth_error a i, nth_error b i with Some x, Some y => Some (x, y) | _, _ => None end.
Proof.
  induction a as [|x a IH]; intros b i; simpl; [destruct i; reflexivity|].
  destruct b as [|y b]; [destruct i; simpl; [reflexivity|destruct (nth_error a i); reflexivity]|].
  destruct i as [|i]; simpl; [reflexivity|apply IH].
Qed.

Lemma nth_error_some_len {A} (l : list A) i : i < List.length l -> exists x, nth_error l i = Some x.
Proof. intros L; apply nth_error_Some in L; destruct (nth_error l i); [eauto|congruence]. Qed.

Lemma Qltb_spec a b : Qltb a b = true <-> (a < b)%Q.
Proof.
  unfold Qltb; rewrite negb_true_iff; split.
  - intros H; apply Qnot_le_lt; intros L; apply Qle_bool_iff in L; congruence.
  - intros H; destruct (Qle_bool b a) eqn:E; [|reflexivity]; apply Qle_bool_iff in E; exfalso; exact (Qlt_not_le _ _ H E).
Qed.

(** Largest of a list of optional values. *)
Lemma omax_fold (l : list (option Q)) :
  match fold_right omax None l with
  | Some m => In (Some m) l /\ forall c, In (Some c) l -> (c <= m)%Q
  | None => forall c, ~ In (Some c) l
  end.
Proof.
  induction l as [|[x|] l IH]; simpl; [intros c []| |].
  - destruct (fold_right omax None l) as [m|]; simpl.
    + destruct IH as [I1 I2]; destruct (Qle_bool x m) eqn:E.
      * apply Qle_bool_iff in E; split; [right; exact I1|intros c [K|K]; [injection K as <-; exact E|exact (I2 _ K)]].
      * assert (m <= x)%Q by (apply Qnot_lt_le; intros L; apply Qlt_le_weak, Qle_bool_iff in L; congruence).
        split; [left; reflexivity|intros c [K|K]; [injection K as <-; apply Qle_refl|eapply Qle_trans; [exact (I2 _ K)|exact H]]].
    + split; [left; reflexivity|intros c [K|K]; [injection K as <-; apply Qle_refl|destruct (IH _ K)]].
  - destruct (fold_right omax None l) as [m|]; simpl.
    + destruct IH as [I1 I2]; split; [right; exact I1|intros c [K|K]; [discriminate|exact (I2 _ K)]].
    + intros c [K|K]; [discriminate|exact (IH _ K)].
Qed.

Lemma occurs_app {A} (P : A -> Prop) a b m n : occurs P a m -> occurs P b n -> occurs P (a ++ b) (m + n).
Proof. induction 1; simpl; intros; [assumption|apply oc_yes; auto|apply oc_no; auto]. Qed.

Section Spores.
Variable ids : list idx.
Variable tracked : list bool.
Variable cap_max : option (list xq).
Variable input_cost : option xq.
Variable solver : nat -> bstate -> dataset * string.
Variable draw : nat -> list bool.
Notation run_solver := (run_solver solver).
Notation new_score := (new_score ids tracked cap_max draw).
Notation spores_loop := (spores_loop ids tracked cap_max solver draw).
Notation start := (start ids input_cost solver).
Notation solve_spores := (solve_spores ids tracked cap_max input_cost solver draw).
Notation chain := (chain ids tracked cap_max solver draw).
Notation sig := (significant ids tracked).

(** ** Integer scores *)
Lemma integer_inc_spec factor (d : dataset) vals i :
  (0 <= factor)%Q -> List.length tracked = List.length ids ->
  d_get "flow_cap" d = Some vals -> List.length vals = List.length ids -> i < List.length ids ->
  exists v, nth_error (integer_inc ids tracked factor (map cap_of vals)) i = Some v /\
    ((sig factor d i /\ v = 1000%Q) \/ (~ sig factor d i /\ v = 0%Q)).
Proof.
  intros F LT G LV LI; unfold integer_inc.
  destruct (nth_error_some_len ids i LI) as [x X].
  destruct (nth_error_some_len tracked i) as [t T]; [lia|].
  destruct (nth_error_some_len vals i) as [v V]; [lia|].
  set (m := masked tracked (map cap_of vals)).
  assert (M : forall j, nth_error m j = match nth_error tracked j, nth_error vals j with
      | Some t, Some v => Some (if t : bool then cap_of v else None) | _, _ => None end).
  { intros j; unfold m, masked; rewrite nth_error_map, nth_error_combine, nth_error_map.
    destruct (nth_error tracked j) as [tj|], (nth_error vals j); reflexivity. }
  rewrite nth_error_map, nth_error_combine, X, M, T, V; simpl.
  assert (NS : (if t then cap_of v else None) = None -> ~ sig factor d i).
  { intros E [caps [c [y [S1 [S2 [S3 [S4 _]]]]]]]; rewrite G in S1; injection S1 as <-.
    rewrite T in S4; injection S4 as ->; rewrite V in S3; injection S3 as ->; discriminate E. }
  destruct (if t then cap_of v else None) as [c|] eqn:TC; [|exists 0%Q; split; [reflexivity|right; auto]].
  destruct t; [|discriminate]; destruct v as [q| | |]; try discriminate; simpl in TC; injection TC as ->.
  pose proof (omax_fold (map snd (filter (fun p => String.eqb (carrier (fst p)) (carrier x)) (combine ids m)))) as OM.
  assert (INM : forall c', In (Some c') (map snd (filter (fun p => String.eqb (carrier (fst p)) (carrier x)) (combine ids m))) <->
            exists j y, nth_error tracked j = Some true /\ nth_error ids j = Some y /\ snd y = snd x /\ nth_error vals j = Some (Fin c')).
  { intros c'; rewrite in_map_iff; split.
    - intros [[y o] [O I]]; simpl in O; subst o; apply filter_In in I; destruct I as [I E]; simpl in E; apply String.eqb_eq in E.
      apply In_nth_error in I; destruct I as [j J]; rewrite nth_error_combine, M in J.
      destruct (nth_error ids j) as [y'|] eqn:Y; [|discriminate].
      destruct (nth_error tracked j) as [tj|] eqn:TJ; [|discriminate]; destruct (nth_error vals j) as [vj|] eqn:VJ; [|discriminate].
      injection J as -> J; destruct tj; [|discriminate]; destruct vj; try discriminate; simpl in J; injection J as ->.
      exists j, y; auto.
    - intros [j [y [T' [Y [E V']]]]]; exists (y, Some c'); split; [reflexivity|]; apply filter_In; split.
      + apply (nth_error_In _ j); rewrite nth_error_combine, M, Y, T', V'; reflexivity.
      + simpl; apply String.eqb_eq; exact E. }
  unfold max_of_carrier; fold m.
  destruct (fold_right omax None _) as [mx|].
  - destruct OM as [OM1 OM2]; destruct (Qltb (factor * mx) c) eqn:L.
    + exists 1000%Q; split; [reflexivity|left; split; [|reflexivity]].
      apply Qltb_spec in L; exists vals, c, x; split; [exact G|split; [exact X|split; [exact V|split; [exact T|]]]].
      intros j c' y T' Y E V'; eapply Qle_lt_trans; [|exact L].
      assert (c' <= mx)%Q by (apply OM2, INM; exists j, y; auto).
      rewrite (Qmult_comm factor c'), (Qmult_comm factor mx); apply Qmult_le_compat_r; assumption.
    + exists 0%Q; split; [reflexivity|right; split; [|reflexivity]].
      intros [caps [c1 [y [S1 [S2 [S3 [S4 S5]]]]]]]; rewrite G in S1; injection S1 as <-.
      rewrite X in S2; injection S2 as <-; rewrite V in S3; injection S3 as <-.
      apply INM in OM1; destruct OM1 as [j [y [T' [Y [E V']]]]].
      apply (S5 j mx y T' Y E), Qltb_spec in V'; congruence.
  - exfalso; apply (OM c), INM; exists i, x; auto.
Qed.

Definition has_caps (d : dataset) : Prop :=
  exists vals, d_get "flow_cap" d = Some vals /\ List.length vals = List.length ids.

(** The score is 1000 times the number of results with a relevant capacity. *)
Definition scored (factor : Q) (past : list dataset) (sc : score) : Prop :=
  List.length sc = List.length ids /\
  forall i, i < List.length ids -> exists q m, nth_error sc i = Some q /\ occurs (fun d => sig factor d i) past m /\
    (q == 1000 * inject_Z (Z.of_nat m))%Q.

Lemma integer_inc_length factor vals : List.length tracked = List.length ids -> List.length vals = List.length ids ->
  List.length (integer_inc ids tracked factor (map cap_of vals)) = List.length ids.
Proof.
  intros LT LV; unfold integer_inc, masked; rewrite map_length, combine_length, map_length, combine_length, map_length; lia.
Qed.

Lemma scored_step c n past d sc sc' :
  p_alg c = Integer -> (0 <= p_factor c)%Q -> List.length tracked = List.length ids ->
  has_caps d -> scored (p_factor c) past sc ->
  new_score c n (past ++ [d]) sc = Ok sc' -> scored (p_factor c) (past ++ [d]) sc'.
Proof.
  intros AL F LT [vals [G LV]] [SL S] NS; unfold SporesModel.new_score in NS.
  rewrite rev_app_distr in NS; cbn [rev app] in NS; unfold caps in NS; rewrite G in NS; cbn [bind] in NS.
  rewrite AL in NS; injection NS as <-.
  assert (LA : List.length (added tracked (integer_inc ids tracked (p_factor c) (map cap_of vals)) sc) = List.length ids).
  { unfold added; rewrite map_length, !combine_length, integer_inc_length by assumption; lia. }
  split; [exact LA|]; intros i LI.
  destruct (S i LI) as [q [m [Q1 [Q2 Q3]]]].
  destruct (integer_inc_spec (p_factor c) d vals i F LT G LV LI) as [v [V VS]].
  destruct (nth_error_some_len tracked i) as [t T]; [lia|].
  assert (NA : nth_error (added tracked (integer_inc ids tracked (p_factor c) (map cap_of vals)) sc) i = Some (if t then (v + q)%Q else q)).
  { unfold added; rewrite nth_error_map, nth_error_combine, T, nth_error_combine, V, Q1; reflexivity. }
  destruct VS as [[S1 ->]|[S1 ->]].
  - assert (t = true) as ->.
    { destruct S1 as [? [? [? [_ [_ [_ [S4 _]]]]]]]; congruence. }
    exists (1000 + q)%Q, (m + 1); split; [exact NA|split; [apply occurs_app; [exact Q2|apply oc_yes; [exact S1|constructor]]|]].
    rewrite Q3, Nat2Z.inj_add, inject_Z_plus; ring.
  - exists (if t then (0 + q)%Q else q), (m + 0); split; [exact NA|split; [apply occurs_app; [exact Q2|apply oc_no; [exact S1|constructor]]|]].
    rewrite Nat.add_0_r; destruct t; rewrite Q3; ring.
Qed.

Hypothesis CAPS : forall n b, fst (solver n b) <> [] -> has_caps (fst (solver n b)).

Lemma run_has_caps c n b d : fst (run_solver c n b) = d -> d <> [] -> has_caps d.
Proof.
  intros E N; assert (M : fst (solver n b) <> []) by (intros M; apply N; rewrite <- E; apply run_solver_empty; exact M).
  destruct (CAPS n b M) as [vals [G L]]; exists vals; split; [|exact L]; revert E G; unfold SporesModel.run_solver.
  destruct (solver n b) as [r0 t]; cbn [fst] in *; destruct r0 as [|x r]; [congruence|].
  destruct (p_postprocess c); cbn [fst]; [|intros <-; auto].
  generalize (x :: r); intros r0 <- G; rewrite d_get_set_other, d_get_set_other by discriminate; exact G.
Qed.

Lemma chain_scored c range prev n b ds e : p_alg c = Integer -> (0 <= p_factor c)%Q ->
  List.length tracked = List.length ids -> p_postprocess c = true -> chain c range prev n b ds e ->
  forall past d0, prev = past ++ [d0] -> has_caps d0 -> scored (p_factor c) past (b_score b) ->
  forall j k d, nth_error ds j = Some (k, d) ->
    exists sc, d_get "spores_score_cumulative" d = Some (map Fin sc) /\
      scored (p_factor c) (firstn (List.length prev + j) (prev ++ map snd ds)) sc.
Proof.
  intros AL F LT P; induction 1 as [|prev n b k rest sc NS RS|prev n b k rest sc d ds e NS RS N C IH];
    intros past d0 -> HC SC j k' d' E; [destruct j; discriminate|destruct j; discriminate|].
  assert (SC' : scored (p_factor c) (past ++ [d0]) sc) by (eapply scored_step; eauto).
  destruct j as [|j].
  - injection E as <- <-; exists sc; split.
    + destruct (run_solver_spec solver c n (with_score b sc) d P RS N) as [_ [_ [_ [K _]]]]; exact K.
    + rewrite Nat.add_0_r, firstn_app, firstn_all, Nat.sub_diag; simpl; rewrite app_nil_r; exact SC'.
  - destruct (IH (past ++ [d0]) d eq_refl (run_has_caps _ _ _ _ RS N) SC' j k' d' E) as [sc2 [S1 S2]].
    exists sc2; split; [exact S1|]; rewrite app_length in S2; cbn [List.length map snd] in *.
    rewrite <- app_assoc in S2; replace (List.length (past ++ [d0]) + S j) with (List.length (past ++ [d0]) + 1 + j) by lia; exact S2.
Qed.

Lemma scored_zero factor : scored factor [] (repeat 0%Q (List.length ids)).
Proof.
  split; [apply repeat_length|]; intros i L; exists 0%Q, 0; split; [apply nth_error_repeat; exact L|split; [constructor|reflexivity]].
Qed.

(** ** Cost limit *)
Variable objective : string.
Variable slack : Q.
Hypothesis OBJ : objective <> "spores_score_cumulative" /\ objective <> "spores_baseline_cost_tracked".
(** Every usable solution has a cost, which obeys the constraint [total_system_cost_max]. *)
Hypothesis COST : forall n b, fst (solver n b) <> [] ->
  exists q, d_get objective (fst (solver n b)) = Some [Fin q] /\
    forall y, b_base b = Fin y -> (q <= y * (1 + slack))%Q.

Lemma cost_bounded c r b n o : p_latest c = false -> p_postprocess c = true -> p_objective c = objective ->
  b_base b = PInf -> solve_spores c r b n = inl o ->
  exists l q0, o_results o = RSpores l /\
    (exists d0, In (0, d0) l /\ d_get objective d0 = Some [Fin q0]) /\
    forall k d, In (k, d) l -> k <> 0 -> exists q, d_get objective d = Some [Fin q] /\ (q <= q0 * (1 + slack))%Q.
Proof.
  intros L P PO B E.
  apply fresh_run in E; [|exact L]; destruct E as [d [x [ds [e [R [N [D [LC C]]]]]]]].
  set (b0 := {| b_obj := p_objective c; b_score := repeat 0%Q (List.length ids); b_base := b_base b |}) in *.
  destruct (run_solver_spec solver c n b0 d P (eq_sym D) N) as [_ [M [GO [_ GT]]]].
  destruct (COST n b0 M) as [q0 [Q0 _]].
  rewrite <- GO in Q0 by apply OBJ.
  assert (X : x = Fin q0).
  { unfold limit_cost in LC; rewrite GT in LC; simpl in LC; rewrite B, PO, Q0 in LC; injection LC as <-; reflexivity. }
  subst x; exists ((0, d) :: ds), q0; split; [exact R|split; [exists d; split; [left; reflexivity|exact Q0]|]].
  intros k d' [I|I] K; [injection I as <- <-; congruence|].
  apply In_nth_error in I; destruct I as [i I].
  destruct (chain_solved _ _ _ _ _ _ _ _ _ _ _ _ P C i k d' I) as [b' [[_ [M' [GO' _]]] BB]].
  destruct (COST _ _ M') as [q [Q1 Q2]].
  exists q; split; [rewrite GO' by apply OBJ; exact Q1|apply Q2; exact BB].
Qed.
End Spores.
