(** Property theorem C113: the termination condition that a SPORES run reports. *)
From Verif Require Import Base BaseProofs SporesModel SporesSpec SporesProofs SporesProps.
Local Open Scope string_scope.
Local Open Scope list_scope.
Local Open Scope nat_scope.

Lemma join_concat l : join_on "," l = String.concat "," l.
Proof.
  induction l as [|s l IH]; [reflexivity|]; cbn [join_on String.concat]; destruct l as [|s' l]; [reflexivity|]; rewrite IH; reflexivity.
Qed.

Section Term.
Variable ids : list idx.
Variable tracked : list bool.
Variable cap_max : option (list xq).
Variable input_cost : option xq.
Variable solver : nat -> bstate -> dataset * string.
Variable draw : nat -> list bool.

Definition asked (n : nat) (bs : list bstate) : list (nat * bstate) := combine (seq n (List.length bs)) bs.
Lemma asked_next n b bs : asked n (b :: bs) = (n, b) :: asked (S n) bs.
Proof. reflexivity. Qed.
Lemma asked_at n bs : forall j, nth_error (asked n bs) j = option_map (fun b => (n + j, b)) (nth_error bs j).
Proof.
  revert n; induction bs as [|b bs IH]; intros n [|j]; try reflexivity; rewrite asked_next; cbn [nth_error option_map].
  - rewrite Nat.add_0_r; reflexivity.
  - rewrite IH; destruct (nth_error bs j); cbn [option_map]; [f_equal; f_equal; lia|reflexivity].
Qed.
Lemma loop_terms c range : forall s s', spores_loop ids tracked cap_max solver draw c range s = (s', None) ->
  exists bs, t_list s' = t_list s ++ map (fun nb => fst (run_solver solver c (fst nb) (snd nb))) (asked (t_n s) bs) /\
    t_terms s' = t_terms s ++ map (fun nb => snd (solver (fst nb) (snd nb))) (asked (t_n s) bs) /\
    forall nb, In nb (asked (t_n s) bs) -> fst (solver (fst nb) (snd nb)) <> [].
Proof.
  induction range as [|k range IH]; intros s s' E; cbn [spores_loop] in E.
  - injection E as <-; exists []; cbn; rewrite !app_nil_r; intuition.
  - destruct (new_score _ _ _ _ _ _ _ _) as [sc|e]; [|discriminate E].
    set (b1 := {| b_obj := b_obj (t_b s); b_score := sc; b_base := b_base (t_b s) |}) in *.
    pose proof (run_solver_empty solver c (t_n s) b1) as RE; pose proof (run_solver_term solver c (t_n s) b1) as RT.
    destruct (run_solver solver c (t_n s) b1) as [d t] eqn:R; cbn [fst snd] in RE, RT.
    destruct d as [|x d].
    + injection E as <-; exists []; cbn; rewrite !app_nil_r; intuition.
    + apply IH in E; cbn [t_list t_terms t_n] in E; destruct E as (bs & E1 & E2 & E3).
      exists (b1 :: bs); rewrite asked_next; cbn [map fst snd]; rewrite E1, E2, R, RT, <- !app_assoc; cbn [fst app]; split; [reflexivity|split; [reflexivity|]].
      intros nb [<- |I]; [cbn [fst snd]; rewrite <- RE; discriminate|apply E3, I].
Qed.
Lemma run_terms c r b n o : p_latest c = false -> solve_spores ids tracked cap_max input_cost solver draw c r b n = inl o ->
  exists l bs terms, o_results o = RSpores l /\ List.length bs = List.length l /\
    (forall j, j < List.length l -> exists b', nth_error bs j = Some b' /\ fst (solver (n + j) b') <> []) /\
    o_term o = String.concat "," terms /\ NoDup terms /\
    forall t, In t terms <-> exists j b', nth_error bs j = Some b' /\ t = snd (solver (n + j) b').
Proof.
  intros PL E; unfold solve_spores in E; destruct (start _ _ _ _ _ _ _) as [[latest s0]|e] eqn:ST; [|discriminate E].
  unfold start in ST; rewrite PL in ST; cbn [negb] in ST.
  set (b1 := {| b_obj := p_objective c; b_score := _; b_base := _ |}) in ST.
  pose proof (run_solver_empty solver c n b1) as RE; pose proof (run_solver_term solver c n b1) as RT.
  destruct (run_solver solver c n b1) as [d t] eqn:R; cbn [fst snd] in RE, RT.
  destruct (Nat.leb (p_number c) 0); [discriminate ST|]; destruct d as [|x d]; [discriminate ST|].
  destruct (limit_cost _ _ _) as [y|e]; [|discriminate ST]; injection ST as <- <-; cbn [t_terms t_files t_b t_n] in E.
  destruct (spores_loop _ _ _ _ _ _ _ _) as [s [e|]] eqn:L; [discriminate E|]; injection E as <-; cbn [o_results o_term].
  pose proof L as L'; apply loop_terms in L; cbn [t_list t_terms t_n] in L; destruct L as (bs & L1 & L2 & L3).
  apply loop_chain in L'; cbn [t_list t_n t_b] in L'; destruct L' as (ds & e & CH & L4).
  destruct (chain_labels _ _ _ _ _ _ _ _ _ _ _ _ CH) as [CL [LE _]].
  cbn [Nat.ltb Nat.leb andb].
  assert (LB : List.length bs = List.length ds).
  { rewrite L1 in L4; apply (f_equal (@List.length dataset)) in L4; rewrite !app_length, !map_length in L4; unfold asked in L4; rewrite combine_length, seq_length in L4; lia. }
  assert (AT : forall j b', nth_error (b1 :: bs) j = Some b' -> fst (solver (n + j) b') <> []).
  { intros [|j] b' N; cbn [nth_error] in N; [injection N as <-; rewrite Nat.add_0_r, <- RE; discriminate|].
    assert (IN : In (S n + j, b') (asked (S n) bs)) by (apply (nth_error_In _ j); rewrite asked_at, N; reflexivity).
    apply L3 in IN; cbn [fst snd] in IN; replace (n + S j) with (S n + j) by lia; exact IN. }
  assert (SZ : List.length (combine (0 :: firstn (List.length (t_list s) - 1) (seq 1 (p_number c - 0))) (t_list s)) = List.length (b1 :: bs)).
  { rewrite combine_length; cbn [List.length]; rewrite L4, firstn_length, app_length, map_length; cbn [List.length]; lia. }
  exists (combine (0 :: firstn (List.length (t_list s) - 1) (seq 1 (p_number c - 0))) (t_list s)), (b1 :: bs); eexists; split; [reflexivity|]; split; [|split; [|split; [apply join_concat|split; [apply NoDup_nodup|]]]].
  - rewrite SZ; reflexivity.
  - intros j LT; rewrite SZ in LT; destruct (nth_error (b1 :: bs) j) as [b'|] eqn:N; [exists b'; split; [reflexivity|apply AT, N]|exfalso].
    apply nth_error_None in N; lia.
  - intros u; rewrite nodup_In, L2; cbn [app].
    assert (TE : t :: map (fun nb => snd (solver (fst nb) (snd nb))) (asked (S n) bs) = map (fun nb => snd (solver (fst nb) (snd nb))) (asked n (b1 :: bs))).
    { rewrite asked_next; cbn [map fst snd]; rewrite RT; reflexivity. }
    rewrite TE; clear TE; rewrite in_map_iff; split.
    + intros ((m & b') & <- & IN); apply In_nth_error in IN; destruct IN as (j & IN); rewrite asked_at in IN.
      destruct (nth_error (b1 :: bs) j) as [b''|] eqn:N; cbn [option_map] in IN; [|discriminate IN]; injection IN as <- <-; exists j, b''; auto.
    + intros (j & b' & N & ->); exists (n + j, b'); split; [reflexivity|]; apply (nth_error_In _ j); rewrite asked_at, N; reflexivity.
Qed.
End Term.

(** * C113 *)
(** A fresh run reports the conditions of the solver calls that its results come from, each once,
    with commas between them. *)
Theorem C113_reported ids tracked cap_max input_cost solver draw c r b n o :
  p_latest c = false -> solve_spores ids tracked cap_max input_cost solver draw c r b n = inl o ->
  exists l bs terms, o_results o = RSpores l /\ List.length bs = List.length l /\
    (forall j, j < List.length l -> exists b', nth_error bs j = Some b' /\ fst (solver (n + j) b') <> []) /\
    o_term o = String.concat "," terms /\ NoDup terms /\
    forall t, In t terms <-> exists j b', nth_error bs j = Some b' /\ t = snd (solver (n + j) b').
Proof. intros PL E; exact (run_terms ids tracked cap_max input_cost solver draw c r b n o PL E). Qed.
Print Assumptions C113_reported.
(** The third call finds a solution that is only feasible. *)
Definition term_solver (n : nat) (b : bstate) : dataset * string :=
  (fst (ex_solver 100 n b), if Nat.eqb n 2 then "feasible" else "optimal").
Example C113_example : exists o, solve_spores ex_ids [true; true] None None term_solver ex_draw ex_config RNone ex_b 0 = inl o /\
  (o_term o = "optimal,feasible" \/ o_term o = "feasible,optimal") /\
  exists l, o_results o = RSpores l /\ map fst l = [0; 1; 2; 3].
Proof. eexists; split; [vm_compute; reflexivity|]; split; [vm_compute; auto|]; eexists; split; vm_compute; reflexivity. Qed.

(** A run that stops because a spore is infeasible reports the condition of the results that it has:
    three spores were asked for, the second is infeasible, and "optimal" is reported. *)
Definition stop_solver (n : nat) (b : bstate) : dataset * string :=
  if Nat.eqb n 2 then ([], "infeasible") else ex_solver 100 n b.
Theorem C113_stopped_refuted : exists o l,
  solve_spores ex_ids [true; true] None None stop_solver ex_draw ex_config RNone ex_b 0 = inl o /\
  o_results o = RSpores l /\ map fst l = [0; 1] /\ p_number ex_config = 3 /\
  (forall b', stop_solver 2 b' = ([], "infeasible")) /\ o_n o = 3 /\ o_term o = "optimal".
Proof.
  eexists; eexists; split; [vm_compute; reflexivity|]; split; [vm_compute; reflexivity|]; split; [reflexivity|]; repeat split; vm_compute; reflexivity.
Qed.
Print Assumptions C113_stopped_refuted.
