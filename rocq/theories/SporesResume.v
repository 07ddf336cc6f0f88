(** Resuming a run gives what the uninterrupted run gives; files. *)
From Verif Require Import Base BaseProofs SporesModel SporesSpec SporesProofs.
Local Open Scope string_scope.
Local Open Scope list_scope.
Local Open Scope nat_scope.
Local Arguments String.eqb : simpl never.

Lemma fins_map sc : fins (map Fin sc) = sc.
Proof. unfold fins; rewrite map_map; simpl; apply map_id. Qed.

Lemma max_label_seq (l : list (nat * dataset)) m : map fst l = seq 0 (S m) -> max_label l = m.
Proof.
  unfold max_label; intros ->.
  assert (A : forall n k, fold_right Nat.max 0 (seq k (S n)) = k + n).
  { induction n as [|n IH]; intros k; [simpl; lia|].
    change (fold_right Nat.max 0 (seq k (S (S n)))) with (Nat.max k (fold_right Nat.max 0 (seq (S k) (S n)))).
    rewrite IH; lia. }
  apply A.
Qed.

(** The same configuration with another number of spores, fresh or resuming. *)
Definition asking (c : config) (number : nat) (latest : bool) : config :=
  {| p_alg := p_alg c; p_number := number; p_save := p_save c; p_latest := latest; p_factor := p_factor c;
     p_objective := p_objective c; p_postprocess := p_postprocess c |}.

Section Spores.
Variable ids : list idx.
Variable tracked : list bool.
Variable cap_max : option (list xq).
Variable input_cost : option xq.
Variable solver : nat -> bstate -> dataset * string.
Variable draw : nat -> list bool.
Notation run_solver := (run_solver solver).
Notation new_score := (new_score ids tracked cap_max draw).
Notation spores_loop := (spores_loop ids tracked cap_max solver draw).
Notation start := (start ids input_cost solver).
Notation solve_spores := (solve_spores ids tracked cap_max input_cost solver draw).
Notation chain := (chain ids tracked cap_max solver draw).

Lemma chain_loop c range prev n b ds e : chain c range prev n b ds e ->
  forall s, t_list s = prev -> t_n s = n -> t_b s = b ->
  exists s', spores_loop c range s = (s', None) /\ t_list s' = prev ++ map snd ds.
Proof.
  induction 1 as [|prev n b k rest sc NS RS|prev n b k rest sc d ds e NS RS N C IH]; intros s TL TN TB; simpl.
  - exists s; split; [reflexivity|rewrite app_nil_r; exact TL].
  - rewrite TL, TN, TB, NS; fold (with_score b sc).
    destruct (run_solver c n (with_score b sc)) as [d t]; simpl in RS; subst d.
    eexists; split; [reflexivity|simpl; rewrite app_nil_r; reflexivity].
  - rewrite TL, TN, TB, NS; fold (with_score b sc).
    destruct (run_solver c n (with_score b sc)) as [d' t]; simpl in RS; subst d'; destruct d as [|x d]; [congruence|].
    destruct (IH {| t_list := prev ++ [x :: d]; t_terms := t_terms s ++ [t]; t_files := save c k (x :: d) t (t_files s);
                    t_b := with_score b sc; t_n := S n |} eq_refl eq_refl eq_refl) as [s' [E1 E2]].
    exists s'; split; [exact E1|rewrite E2, <- app_assoc; reflexivity].
Qed.

(** The state after a complete chain, and how the chain goes on from it. *)
Lemma chain_last c range prev n b ds e0 : p_postprocess c = true -> chain c range prev n b ds e0 -> e0 = true -> ds <> [] ->
  exists b1 pre k d, ds = pre ++ [(k, d)] /\
    d_get "spores_score_cumulative" d = Some (map Fin (b_score b1)) /\
    d_get "spores_baseline_cost_tracked" d = Some [b_base b1] /\
    b_obj b1 = b_obj b /\ b_base b1 = b_base b /\
    forall r2 ds2 e, chain c r2 (prev ++ map snd ds) (n + List.length ds) b1 ds2 e ->
      chain c (range ++ r2) prev n b (ds ++ ds2) e.
Proof.
  intros P C; induction C as [|prev n b k rest sc NS RS|prev n b k rest sc d ds e NS RS N C IH]; intros T ND; [congruence|congruence|].
  destruct ds as [|x ds].
  - exists (with_score b sc), [], k, d; split; [reflexivity|].
    destruct (run_solver_spec solver c n (with_score b sc) d P RS N) as [_ [_ [_ [K1 K2]]]].
    split; [exact K1|split; [exact K2|split; [reflexivity|split; [reflexivity|]]]].
    intros r2 ds2 e2 C2; subst e; inversion C; subst.
    simpl; eapply ch_step; [exact NS|reflexivity|exact N|]; simpl in C2; rewrite Nat.add_1_r in C2; exact C2.
  - destruct (IH T) as [b1 [pre [k' [d' [E [K1 [K2 [K3 [K4 K5]]]]]]]]]; [discriminate|].
    exists b1, ((k, d) :: pre), k', d'; split; [rewrite E; reflexivity|].
    split; [exact K1|split; [exact K2|split; [exact K3|split; [exact K4|]]]].
    intros r2 ds2 e2 C2; simpl; eapply ch_step; [exact NS|exact RS|exact N|]; apply K5.
    rewrite <- app_assoc; simpl in *; rewrite <- plus_n_Sm in C2; exact C2.
Qed.

Hypothesis SAME : forall n n' b, solver n b = solver n' b.

Lemma new_score_local c c' n n' prev prev' d0 old : p_alg c = Integer \/ p_alg c = Relative ->
  p_alg c' = p_alg c -> p_factor c' = p_factor c ->
  new_score c n (prev ++ [d0]) old = new_score c' n' (prev' ++ [d0]) old.
Proof.
  intros A E1 E2; unfold SporesModel.new_score; rewrite !rev_app_distr; cbn [rev app]; rewrite E1, E2.
  destruct (caps d0); cbn [bind]; [|reflexivity]; destruct A as [-> | ->]; reflexivity.
Qed.

Lemma run_solver_local c c' n n' b : p_postprocess c' = p_postprocess c -> run_solver c n b = run_solver c' n' b.
Proof. intros E; unfold SporesModel.run_solver; rewrite (SAME n n'), E; reflexivity. Qed.

Lemma chain_transfer c c' range prev n b ds e : p_alg c = Integer \/ p_alg c = Relative ->
  p_alg c' = p_alg c -> p_factor c' = p_factor c -> p_postprocess c' = p_postprocess c ->
  chain c range prev n b ds e ->
  forall past past' d0 n', prev = past ++ [d0] -> chain c' range (past' ++ [d0]) n' b ds e.
Proof.
  intros A E1 E2 E3; induction 1 as [|prev n b k rest sc NS RS|prev n b k rest sc d ds e NS RS N C IH]; intros past past' d0 n' ->.
  - constructor.
  - eapply ch_stop; [rewrite <- NS; symmetry; apply new_score_local; assumption|].
    rewrite <- RS; f_equal; symmetry; apply run_solver_local; exact E3.
  - eapply ch_step; [rewrite <- NS; symmetry; apply new_score_local; assumption| |exact N|].
    + rewrite <- RS; f_equal; symmetry; apply run_solver_local; exact E3.
    + exact (IH (past ++ [d0]) (past' ++ [d0]) d (S n') eq_refl).
Qed.

(** A fresh run exists as soon as its chain does. *)
Lemma fresh_exists c r b n d x ds e : p_latest c = false -> 0 < p_number c -> d <> [] ->
  d = fst (run_solver c n {| b_obj := p_objective c; b_score := repeat 0%Q (List.length ids); b_base := b_base b |}) ->
  limit_cost input_cost c d = Ok x ->
  chain c (seq 1 (p_number c)) [d] (S n) {| b_obj := "min_spores"; b_score := repeat 0%Q (List.length ids); b_base := x |} ds e ->
  exists o, solve_spores c r b n = inl o /\ o_results o = RSpores ((0, d) :: ds).
Proof.
  intros L PN N D LC C; unfold SporesModel.solve_spores, SporesModel.start; rewrite L; cbn [negb b_obj b_score b_base].
  destruct (run_solver c n _) as [d' t]; cbn [fst] in D; subst d'.
  destruct (p_number c) as [|m] eqn:PM; [lia|]; cbn [Nat.leb]; destruct d as [|y d]; [congruence|]; rewrite LC.
  rewrite Nat.sub_0_r.
  match goal with |- context [spores_loop c (seq 1 (S m)) ?s] => destruct (chain_loop _ _ _ _ _ _ _ C s eq_refl eq_refl eq_refl) as [s' [E1 E2]] end.
  rewrite E1; eexists; split; [reflexivity|]; cbn [o_results].
  simpl (0 <? 0); cbn [andb]; rewrite E2; f_equal; apply combine_labels.
  apply (chain_labels _ _ _ _ _ _ _ _ _ _ _ _ C).
Qed.

Lemma fresh_positive c r b n o : p_latest c = false -> solve_spores c r b n = inl o -> 0 < p_number c.
Proof.
  intros L; unfold SporesModel.solve_spores.
  destruct (start c r b n) as [[l s]|[e t]] eqn:ST; [|discriminate].
  apply start_fresh in ST; [|exact L]; destruct ST as [d [x [_ [PN _]]]]; intros _; exact PN.
Qed.

Lemma resume_equals c r b n b' n' m k o1 o2 l1 :
  p_alg c = Integer \/ p_alg c = Relative -> p_postprocess c = true ->
  solve_spores (asking c m false) r b n = inl o1 -> o_results o1 = RSpores l1 -> List.length l1 = S m ->
  (forall q d, In (m, d) l1 -> d_get "spores_baseline_cost_tracked" d = Some [Fin q] -> ~ (q == 0)%Q) ->
  (forall d, In (m, d) l1 -> d_get "spores_baseline_cost_tracked" d <> Some [PInf]) ->
  solve_spores (asking c k true) (RSpores l1) b' n' = inl o2 ->
  exists o3, solve_spores (asking c k false) r b n = inl o3 /\ o_results o3 = o_results o2.
Proof.
  intros A P R1 RES1 LEN NZ NI R2.
  pose proof (fresh_positive (asking c m false) _ _ _ _ eq_refl R1) as PM; cbn [asking p_number] in PM.
  apply fresh_run in R1; [|reflexivity]; destruct R1 as [d [x [ds [e [R [N [D [LC C]]]]]]]].
  rewrite RES1 in R; injection R as ->; simpl in LEN; injection LEN as LEN.
  destruct (chain_labels _ _ _ _ _ _ _ _ _ _ _ _ C) as [CL [_ [_ CE]]].
  cbn [asking p_number p_objective] in *.
  assert (e = true) as -> by (destruct e; [reflexivity|]; destruct (CE eq_refl) as [Q _]; rewrite seq_length in Q; lia).
  rewrite firstn_seq in CL by lia; rewrite LEN in CL.
  assert (ML : max_label ((0, d) :: ds) = m) by (apply max_label_seq; simpl; rewrite CL; reflexivity).
  apply resumed_run in R2; [|reflexivity|rewrite ML; exact PM].
  destruct R2 as [d2 [sc2 [x2 [ds2 [e2 [R2 [KN [I2 [G2 [LC2 C2]]]]]]]]]]; rewrite ML in *; cbn [asking p_number] in *.
  destruct (chain_last (asking c m false) _ _ _ _ _ _ P C eq_refl) as [b1 [pre [k1 [d1 [E [K1 [K2 [K3 [K4 K5]]]]]]]]]; [destruct ds; [simpl in LEN; lia|discriminate]|].
  assert (K1M : k1 = m).
  { assert (X : map fst ds = map fst pre ++ [k1]) by (rewrite E, map_app; reflexivity).
    rewrite CL in X; destruct m as [|m']; [lia|]; rewrite seq_S in X; apply app_inj_tail in X; destruct X as [_ X]; simpl in X; lia. }
  subst k1.
  assert (d2 = d1) as ->.
  { assert (ND : NoDup (map fst ((0, d) :: ds))) by (simpl; rewrite CL; apply (seq_NoDup (S m) 0)).
    assert (I1 : In (m, d1) ((0, d) :: ds)) by (right; rewrite E; apply in_app_iff; right; left; reflexivity).
    clear - ND I1 I2; induction ((0, d) :: ds) as [|[k y] l IH]; [destruct I1|]; simpl in ND; inversion ND as [|? ? NI ND']; subst.
    destruct I1 as [I1|I1], I2 as [I2|I2].
    - congruence.
    - injection I1 as -> ->; exfalso; apply NI; apply (in_map fst) in I2; exact I2.
    - injection I2 as -> ->; exfalso; apply NI; apply (in_map fst) in I1; exact I1.
    - exact (IH I2 ND' I1). }
  rewrite K1 in G2; injection G2 as <-; rewrite fins_map in C2.
  assert (X2 : x2 = b_base b1).
  { unfold limit_cost in LC2; rewrite K2 in LC2; cbn [nth_error] in LC2.
    destruct (b_base b1) as [q| | |] eqn:BB; try (injection LC2 as <-; reflexivity).
    - destruct (Qeq_bool q 0) eqn:QZ; [|injection LC2 as <-; reflexivity].
      exfalso; apply (NZ q d1 I2 K2), Qeq_bool_iff; exact QZ.
    - exfalso; apply (NI d1 I2); exact K2. }
  subst x2.
  assert (B1 : {| b_obj := "min_spores"; b_score := b_score b1; b_base := b_base b1 |} = b1) by (destruct b1; simpl in *; subst; reflexivity).
  rewrite B1 in C2.
  assert (C3 : chain (asking c m false) (seq (S m) (k - m)) ([d] ++ map snd ds) (S n + List.length ds) b1 ds2 e2).
  { rewrite E, map_app; cbn [map snd]; rewrite app_assoc.
    eapply (chain_transfer (asking c k true)); [exact A|reflexivity|reflexivity|reflexivity|exact C2|].
    instantiate (1 := []); reflexivity. }
  apply K5 in C3.
  assert (C4 : chain (asking c k false) (seq 1 k) [d] (S n) {| b_obj := "min_spores"; b_score := repeat 0%Q (List.length ids); b_base := x |} (ds ++ ds2) e2).
  { replace (seq 1 k) with (seq 1 m ++ seq (S m) (k - m)) by (rewrite <- seq_app; f_equal; lia).
    exact (chain_transfer (asking c m false) (asking c k false) _ _ _ _ _ _ A eq_refl eq_refl eq_refl C3 [] [] d (S n) eq_refl). }
  destruct (fresh_exists (asking c k false) r b n d x (ds ++ ds2) e2) as [o3 [O1 O2]]; try assumption; try reflexivity.
  - simpl; lia.
  - exists o3; split; [exact O1|rewrite O2, R2; reflexivity].
Qed.

(** ** Files *)
Hypothesis NOFILE : forall n b, fst (solver n b) = [] -> usable (snd (solver n b)) = false.

Lemma loop_files c range : forall s s' e, spores_loop c range s = (s', e) ->
  exists (ds fs : list (nat * dataset)), t_list s' = t_list s ++ map snd ds /\ map fst ds = firstn (List.length ds) range /\
    List.length ds <= List.length range /\
    t_files s' = t_files s ++ fs /\ incl fs ds.
Proof.
  induction range as [|k rest IH]; intros s s' e; simpl.
  - intros E; injection E as <- <-; exists [], []; simpl; rewrite !app_nil_r; repeat split; auto; intros ? [].
  - destruct (new_score c (t_n s) (t_list s) (b_score (t_b s))) as [sc|e'] eqn:NS.
    2:{ intros E; injection E as <- <-; exists [], []; simpl; rewrite !app_nil_r; repeat split; auto; try lia; intros ? []. }
    fold (with_score (t_b s) sc); destruct (run_solver c (t_n s) (with_score (t_b s) sc)) as [d t] eqn:RS.
    destruct d as [|x d]; intros E.
    + injection E as <- <-; exists [], []; simpl; rewrite !app_nil_r; repeat split; auto; try lia; try (intros ? []).
      unfold save; assert (U : usable t = false).
      { replace t with (snd (solver (t_n s) (with_score (t_b s) sc))) by (rewrite <- (run_solver_term solver c), RS; reflexivity).
        apply NOFILE, (run_solver_empty solver c); rewrite RS; reflexivity. }
      rewrite U, andb_false_r; reflexivity.
    + apply IH in E; destruct E as [ds [fs [L [M [LE [F I]]]]]]; simpl in *.
      exists ((k, x :: d) :: ds), ((if p_save c && usable t then [(k, x :: d)] else []) ++ fs); repeat split.
      * rewrite L, <- app_assoc; reflexivity.
      * simpl; rewrite M; reflexivity.
      * simpl; lia.
      * rewrite F; unfold save; destruct (p_save c && usable t); simpl; [rewrite <- app_assoc|]; reflexivity.
      * intros y [Y|Y]%in_app_iff; [left; destruct (p_save c && usable t); [destruct Y as [Y|[]]; exact Y|destruct Y]|right; apply I; exact Y].
Qed.

(** A resumed run writes files for later spores only. *)
Lemma resumed_files c l b n res : p_latest c = true -> solve_spores c (RSpores l) b n = res ->
  let files := match res with inl o => o_files o | inr (_, t) => t_files t end in
  forall k d, In (k, d) files -> max_label l < k.
Proof.
  intros L E files; subst files; subst res; unfold SporesModel.solve_spores.
  destruct (start c (RSpores l) b n) as [[la s]|[e t]] eqn:ST.
  - apply start_resume in ST; [|exact L]; destruct ST as [d [sc [x [-> [PN [_ [_ [_ [_ [_ [_ [TF _]]]]]]]]]]]].
    destruct (spores_loop c _ s) as [s' e] eqn:LO.
    destruct (loop_files _ _ _ _ _ LO) as [ds [fs [_ [M [LE [F I]]]]]]; rewrite TF in F; simpl in F.
    assert (A : forall k d, In (k, d) (t_files s') -> max_label l < k).
    { intros k d' K; rewrite F in K; apply I in K; apply (in_map fst) in K; rewrite M in K; simpl fst in K.
      rewrite seq_length in LE; rewrite firstn_seq in K by exact LE; apply in_seq in K; lia. }
    destruct e; [exact A|destruct (_ && _); exact A].
  - intros k d K; exfalso; revert ST; unfold SporesModel.start; rewrite L; simpl.
    destruct (find _ l) as [[k' d']|]; [|intros ST; injection ST as <- <-; exact K].
    destruct (d_get _ d') as [sc|]; [|intros ST; injection ST as <- <-; exact K].
    destruct (Nat.leb _ _); [intros ST; injection ST as <- <-; exact K|].
    destruct d'; [intros ST; injection ST as <- <-; exact K|].
    destruct (limit_cost _ _ _); [discriminate|intros ST; injection ST as <- <-; exact K].
Qed.
End Spores.
