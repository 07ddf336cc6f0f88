From Verif Require Import Base BaseProofs SporesModel SporesSpec.
Local Open Scope string_scope.
Local Open Scope list_scope.
Local Open Scope nat_scope.
Local Arguments String.eqb : simpl never.

Lemma d_set_nonempty {V} k (v : V) d : d_set k v d <> [].
Proof. destruct d as [|[k' v'] t]; simpl; [discriminate|destruct (String.eqb k k'); discriminate]. Qed.

Section Spores.
Variable ids : list idx.
Variable tracked : list bool.
Variable cap_max : option (list xq).
Variable input_cost : option xq.
Variable solver : nat -> bstate -> dataset * string.
Variable draw : nat -> list bool.
Notation run_solver := (run_solver solver).
Notation new_score := (new_score ids tracked cap_max draw).
Notation spores_loop := (spores_loop ids tracked cap_max solver draw).
Notation start := (start ids input_cost solver).
Notation solve_spores := (solve_spores ids tracked cap_max input_cost solver draw).

Lemma run_solver_empty c n b : fst (run_solver c n b) = [] <-> fst (solver n b) = [].
Proof using solver.
  unfold SporesModel.run_solver; destruct (solver n b) as [[|x d] t]; simpl; [apply iff_refl|].
  destruct (p_postprocess c); [|apply iff_refl]; split; [intros E; exfalso; revert E; apply d_set_nonempty|discriminate].
Qed.

Lemma run_solver_term c n b : snd (run_solver c n b) = snd (solver n b).
Proof using solver. unfold SporesModel.run_solver; destruct (solver n b) as [[|x d] t]; reflexivity. Qed.

Lemma run_solver_spec c n b d :
  p_postprocess c = true -> fst (run_solver c n b) = d -> d <> [] -> solved_with solver n (b_obj b) b d.
Proof using solver.
  intros P E N; split; [reflexivity|].
  assert (M : fst (solver n b) <> []) by (intros M; apply N; rewrite <- E; apply run_solver_empty; exact M).
  split; [exact M|]; revert E; unfold SporesModel.run_solver; destruct (solver n b) as [r0 t] eqn:SB; cbn [fst] in *; destruct r0 as [|x r]; [congruence|].
  rewrite P; cbn [fst]; generalize (x :: r); intros r0 <-; split; [|split].
  - intros k N1 N2; rewrite d_get_set_other by exact N2; rewrite d_get_set_other by exact N1; reflexivity.
  - rewrite d_get_set_other by discriminate; apply d_get_set_same.
  - apply d_get_set_same.
Qed.

Definition with_score (b : bstate) (sc : score) : bstate :=
  {| b_obj := b_obj b; b_score := sc; b_base := b_base b |}.

(** The steps of a loop, without the bookkeeping. *)
Inductive chain (c : config) : list nat -> list dataset -> nat -> bstate -> list (nat * dataset) -> bool -> Prop :=
| ch_done prev n b : chain c [] prev n b [] true
| ch_stop prev n b k rest sc :
    new_score c n prev (b_score b) = Ok sc -> fst (run_solver c n (with_score b sc)) = [] ->
    chain c (k :: rest) prev n b [] false
| ch_step prev n b k rest sc d ds e :
    new_score c n prev (b_score b) = Ok sc -> fst (run_solver c n (with_score b sc)) = d -> d <> [] ->
    chain c rest (prev ++ [d]) (S n) (with_score b sc) ds e ->
    chain c (k :: rest) prev n b ((k, d) :: ds) e.

Lemma loop_chain c range : forall s s', spores_loop c range s = (s', None) ->
  exists ds e, chain c range (t_list s) (t_n s) (t_b s) ds e /\ t_list s' = t_list s ++ map snd ds.
Proof.
  induction range as [|k rest IH]; intros s s'; simpl.
  - intros E; injection E as <-; exists [], true; split; [constructor|rewrite app_nil_r; reflexivity].
  - destruct (new_score c (t_n s) (t_list s) (b_score (t_b s))) as [sc|e] eqn:NS; [|discriminate].
    fold (with_score (t_b s) sc).
    destruct (run_solver c (t_n s) (with_score (t_b s) sc)) as [d t] eqn:RS.
    destruct d as [|x d]; intros E.
    + injection E as <-; exists [], false; split; [|simpl; rewrite app_nil_r; reflexivity].
      eapply ch_stop; [exact NS|rewrite RS; reflexivity].
    + apply IH in E; destruct E as [ds [e [C L]]]; simpl in *.
      exists ((k, x :: d) :: ds), e; split.
      * eapply ch_step; [exact NS|rewrite RS; reflexivity|discriminate|exact C].
      * rewrite L, <- app_assoc; reflexivity.
Qed.

Lemma chain_labels c range prev n b ds e : chain c range prev n b ds e ->
  map fst ds = firstn (List.length ds) range /\ List.length ds <= List.length range /\
  (e = true -> List.length ds = List.length range) /\
  (e = false -> List.length ds < List.length range /\
     exists b', fst (solver (n + List.length ds) b') = [] /\ b_obj b' = b_obj b /\ b_base b' = b_base b).
Proof.
  induction 1 as [|prev n b k rest sc NS RS|prev n b k rest sc d ds e NS RS N C [IH1 [IH2 [IH3 IH4]]]]; simpl.
  - repeat split; auto; discriminate.
  - split; [reflexivity|split; [lia|split; [discriminate|intros _; split; [lia|]]]].
    exists (with_score b sc); rewrite Nat.add_0_r; split; [apply (run_solver_empty c); exact RS|split; reflexivity].
  - rewrite IH1; split; [reflexivity|split; [lia|split]].
    + intros E; rewrite IH3; auto.
    + intros E; destruct (IH4 E) as [B0 [b' [B1 [B2 B3]]]]; split; [lia|].
      exists b'; rewrite <- plus_n_Sm; auto.
Qed.

(** Every data set of the chain is an outcome of its own solver call. *)
Lemma chain_solved c range prev n b ds e : p_postprocess c = true -> chain c range prev n b ds e ->
  forall i k d, nth_error ds i = Some (k, d) ->
    exists b', solved_with solver (n + i) (b_obj b) b' d /\ b_base b' = b_base b.
Proof.
  intros P; induction 1 as [|prev n b k rest sc NS RS|prev n b k rest sc d ds e NS RS N C IH]; intros i k' d' E.
  - destruct i; discriminate.
  - destruct i; discriminate.
  - destruct i as [|i]; simpl in E.
    + injection E as <- <-; rewrite Nat.add_0_r; exists (with_score b sc); split; [|reflexivity].
      apply run_solver_spec with (b := with_score b sc) in RS; auto.
    + destruct (IH i k' d' E) as [b' [B1 B2]]; exists b'; rewrite <- plus_n_Sm; split; [exact B1|exact B2].
Qed.

Lemma chain_nonempty c range prev n b ds e : chain c range prev n b ds e ->
  forall k d, In (k, d) ds -> d <> [].
Proof.
  induction 1 as [|prev n b k rest sc NS RS|prev n b k rest sc d ds e NS RS N C IH]; intros k' d' I; [destruct I|destruct I|destruct I as [I|I]].
  - injection I as <- <-; exact N.
  - exact (IH _ _ I).
Qed.

(** The start of a fresh run. *)
Lemma start_fresh c r b n l s : p_latest c = false -> start c r b n = inl (l, s) ->
  exists d x, l = 0 /\ 0 < p_number c /\ d <> [] /\
    d = fst (run_solver c n {| b_obj := p_objective c; b_score := repeat 0%Q (List.length ids); b_base := b_base b |}) /\
    limit_cost input_cost c d = Ok x /\
    t_list s = [d] /\ t_n s = S n /\
    t_b s = {| b_obj := "min_spores"; b_score := repeat 0%Q (List.length ids); b_base := x |}.
Proof.
  intros L; unfold SporesModel.start; rewrite L; simpl.
  destruct (run_solver c n _) as [d t] eqn:RS.
  destruct (p_number c) as [|m] eqn:PN; simpl; [discriminate|].
  destruct d as [|y d]; [discriminate|].
  destruct (limit_cost input_cost c (y :: d)) as [x|e] eqn:LC; [|discriminate].
  intros E; injection E as <- <-; simpl; exists (y :: d), x; repeat split; auto; try lia; discriminate.
Qed.

Lemma combine_labels (a : nat) (range : list nat) (d : dataset) (ds : list (nat * dataset)) :
  map fst ds = firstn (List.length ds) range ->
  combine (a :: firstn (List.length (d :: map snd ds) - 1) range) (d :: map snd ds) = (a, d) :: ds.
Proof.
  intros E; simpl; rewrite map_length, Nat.sub_0_r, <- E; f_equal.
  clear E; induction ds as [|[k x] ds IH]; simpl; [reflexivity|rewrite IH; reflexivity].
Qed.

Lemma firstn_seq k n m : k <= m -> firstn k (seq n m) = seq n k.
Proof.
  revert n m; induction k as [|k IH]; intros n m L; [reflexivity|].
  destruct m as [|m]; [lia|]; simpl; rewrite IH by lia; reflexivity.
Qed.

(** Shape of a fresh run. *)
Lemma fresh_run c r b n o : p_latest c = false -> solve_spores c r b n = inl o ->
  exists d x ds e,
    o_results o = RSpores ((0, d) :: ds) /\ d <> [] /\
    d = fst (run_solver c n {| b_obj := p_objective c; b_score := repeat 0%Q (List.length ids); b_base := b_base b |}) /\
    limit_cost input_cost c d = Ok x /\
    chain c (seq 1 (p_number c)) [d] (S n) {| b_obj := "min_spores"; b_score := repeat 0%Q (List.length ids); b_base := x |} ds e.
Proof.
  intros L; unfold SporesModel.solve_spores.
  destruct (start c r b n) as [[l s]|[e t]] eqn:ST; [|discriminate].
  apply start_fresh in ST; [|exact L]; destruct ST as [d [x [-> [PN [N [E [LC [TL [TN TB]]]]]]]]].
  rewrite Nat.sub_0_r.
  destruct (spores_loop c (seq 1 (p_number c)) s) as [s' [e|]] eqn:LO; [discriminate|].
  destruct (loop_chain _ _ _ _ LO) as [ds [e [C TL']]].
  rewrite TL, TN, TB in C; rewrite TL in TL'; simpl in TL'.
  destruct (chain_labels _ _ _ _ _ _ _ C) as [CL _]; rewrite TL', combine_labels by exact CL.
  simpl (0 <? 0); cbn [andb]; intros O; injection O as <-; cbn [o_results].
  exists d, x, ds, e; auto.
Qed.

(** Resuming. *)
Lemma start_resume c l b n la s : p_latest c = true -> start c (RSpores l) b n = inl (la, s) ->
  exists d sc x, la = max_label l /\ la < p_number c /\ In (la, d) l /\
    d_get "spores_score_cumulative" d = Some sc /\ d <> [] /\ limit_cost input_cost c d = Ok x /\
    t_list s = [d] /\ t_n s = n /\ t_files s = [] /\ t_terms s = [] /\
    t_b s = {| b_obj := "min_spores"; b_score := fins sc; b_base := x |}.
Proof.
  intros L; unfold SporesModel.start; rewrite L; simpl.
  destruct (find _ l) as [[k d]|] eqn:F; [|discriminate].
  apply find_some in F; destruct F as [I K]; simpl in K; apply Nat.eqb_eq in K; subst k.
  destruct (d_get "spores_score_cumulative" d) as [sc|] eqn:G; [|discriminate].
  destruct (Nat.leb (p_number c) (max_label l)) eqn:PN; [discriminate|]; apply Nat.leb_gt in PN.
  destruct d as [|y d]; [discriminate|].
  destruct (limit_cost input_cost c (y :: d)) as [x|e] eqn:LC; [|discriminate].
  intros E; injection E as <- <-; simpl; exists (y :: d), sc, x; repeat split; auto; discriminate.
Qed.

Lemma resumed_run c l b n o : p_latest c = true -> 0 < max_label l -> solve_spores c (RSpores l) b n = inl o ->
  exists d sc x ds e,
    o_results o = RSpores (l ++ ds) /\ max_label l < p_number c /\ In (max_label l, d) l /\
    d_get "spores_score_cumulative" d = Some sc /\ limit_cost input_cost c d = Ok x /\
    chain c (seq (S (max_label l)) (p_number c - max_label l)) [d] n
      {| b_obj := "min_spores"; b_score := fins sc; b_base := x |} ds e.
Proof.
  intros L M; unfold SporesModel.solve_spores.
  destruct (start c (RSpores l) b n) as [[la s]|[e t]] eqn:ST; [|discriminate].
  apply start_resume in ST; [|exact L]; destruct ST as [d [sc [x [-> [PN [I [G [N [LC [TL [TN [_ [_ TB]]]]]]]]]]]]].
  destruct (spores_loop c _ s) as [s' [e|]] eqn:LO; [discriminate|].
  destruct (loop_chain _ _ _ _ LO) as [ds [e [C TL']]].
  rewrite TL, TN, TB in C; rewrite TL in TL'; simpl in TL'.
  destruct (chain_labels _ _ _ _ _ _ _ C) as [CL _].
  rewrite TL', combine_labels by exact CL.
  rewrite (proj2 (Nat.ltb_lt _ _) M), L; cbn [andb]; intros O; injection O as <-; cbn [o_results].
  exists d, sc, x, ds, e; split; [|repeat split; auto]; [].
  simpl; rewrite Nat.eqb_refl; simpl; f_equal; f_equal.
  assert (A : forall k d', In (k, d') ds -> max_label l < k).
  { intros k d' I'; assert (K : In k (map fst ds)) by (apply (in_map fst) in I'; exact I').
    rewrite CL, firstn_seq in K by (destruct (chain_labels _ _ _ _ _ _ _ C) as [_ [LE _]]; rewrite seq_length in LE; exact LE).
    apply in_seq in K; lia. }
  clear - A; induction ds as [|[k d'] ds IH]; simpl; [reflexivity|].
  assert (K : max_label l < k) by (apply (A k d'); left; reflexivity).
  destruct (Nat.eqb_spec k (max_label l)) as [E|E]; [lia|]; simpl; f_equal; apply IH; intros k1 d1 I1; apply (A k1 d1); right; exact I1.
Qed.
End Spores.
