(** Property theorems C19, C61 and C97: SPORES runs. *)
From Verif Require Import Base BaseProofs SporesModel SporesSpec SporesProofs SporesMore SporesScore SporesResume.
Local Open Scope string_scope.
Local Open Scope list_scope.
Local Open Scope nat_scope.

(** * C19 *)
(** A fresh run: the baseline is spore 0, the spores follow without gaps, each is the outcome
    of its own solver call with the SPORES objective, and there are fewer than asked for
    only if the next call found no solution. *)
Theorem C19_fresh_run ids tracked cap_max input_cost solver draw c r b n o :
  p_latest c = false -> p_postprocess c = true ->
  solve_spores ids tracked cap_max input_cost solver draw c r b n = inl o ->
  exists l, o_results o = RSpores l /\ map fst l = seq 0 (List.length l) /\ 1 <= List.length l <= S (p_number c) /\
    (forall k d, In (k, d) l -> exists b',
       solved_with solver (n + k) (if Nat.eqb k 0 then p_objective c else "min_spores") b' d) /\
    (List.length l < S (p_number c) -> exists b',
       b_obj b' = "min_spores" /\ fst (solver (n + List.length l) b') = []).
Proof.
  intros L P E; apply fresh_run in E; [|exact L]; destruct E as [d [x [ds [e [R [N [D [LC C]]]]]]]].
  destruct (chain_labels _ _ _ _ _ _ _ _ _ _ _ _ C) as [CL [LE [CT CF]]]; rewrite seq_length in *.
  rewrite firstn_seq in CL by exact LE.
  exists ((0, d) :: ds); split; [exact R|split; [simpl; rewrite CL; reflexivity|split; [simpl; lia|split]]].
  - intros k d' [I|I].
    + injection I as <- <-; rewrite Nat.add_0_r; simpl.
      eexists; exact (run_solver_spec solver c n _ d P (eq_sym D) N).
    + apply In_nth_error in I; destruct I as [i I].
      assert (K : k = S i).
      { assert (Q : nth_error (map fst ds) i = Some k) by (rewrite nth_error_map, I; reflexivity).
        assert (Li : i < List.length ds) by (apply nth_error_Some; congruence).
        rewrite CL in Q; apply (nth_error_nth _ _ 0) in Q; rewrite seq_nth in Q by exact Li; lia. }
      subst k; destruct (chain_solved _ _ _ _ _ _ _ _ _ _ _ _ P C i (S i) d' I) as [b' [SW _]].
      exists b'; simpl (Nat.eqb (S i) 0); cbv iota; replace (n + S i) with (S n + i) by lia; exact SW.
  - intros LT; destruct e; [simpl in LT; rewrite (CT eq_refl) in LT; lia|].
    destruct (CF eq_refl) as [_ [b' [B1 [B2 _]]]]; exists b'; split; [exact B2|].
    simpl List.length; replace (n + S (List.length ds)) with (S n + List.length ds) by lia; exact B1.
Qed.
Print Assumptions C19_fresh_run.

(** A resumed run keeps all earlier spores as they are and goes on with the next number. *)
Theorem C19_resumed_run ids tracked cap_max input_cost solver draw c l b n o latest :
  p_latest c = true -> p_postprocess c = true -> map fst l = seq 0 (S latest) -> 0 < latest ->
  solve_spores ids tracked cap_max input_cost solver draw c (RSpores l) b n = inl o ->
  latest < p_number c /\
  exists new, o_results o = RSpores (l ++ new) /\ map fst (l ++ new) = seq 0 (S latest + List.length new) /\
    List.length (l ++ new) <= S (p_number c) /\
    (forall i k d, nth_error new i = Some (k, d) -> exists b', solved_with solver (n + i) "min_spores" b' d) /\
    (List.length (l ++ new) < S (p_number c) -> exists b',
       b_obj b' = "min_spores" /\ fst (solver (n + List.length new) b') = []).
Proof.
  intros L P LAB PL E.
  assert (ML : max_label l = latest) by (apply max_label_seq; exact LAB).
  assert (LL : List.length l = S latest) by (rewrite <- (map_length fst), LAB, seq_length; reflexivity).
  apply resumed_run in E; [|exact L|rewrite ML; exact PL]; rewrite ML in E.
  destruct E as [d [sc [x [ds [e [R [KN [I [G [LC C]]]]]]]]]].
  destruct (chain_labels _ _ _ _ _ _ _ _ _ _ _ _ C) as [CL [LE [CT CF]]]; rewrite seq_length in *.
  rewrite firstn_seq in CL by exact LE.
  split; [exact KN|]; exists ds; split; [exact R|split; [|split; [|split]]].
  - rewrite map_app, LAB, CL, <- seq_app; reflexivity.
  - rewrite app_length; lia.
  - intros i k d' I'; destruct (chain_solved _ _ _ _ _ _ _ _ _ _ _ _ P C i k d' I') as [b' [SW _]]; exists b'; exact SW.
  - intros LT; rewrite app_length, LL in LT; destruct e; [rewrite (CT eq_refl) in LT; lia|].
    destruct (CF eq_refl) as [_ [b' [B1 [B2 _]]]]; exists b'; split; [exact B2|exact B1].
Qed.
Print Assumptions C19_resumed_run.

(** A resumed run never writes the file of an earlier spore, whether it ends well or not. *)
Theorem C19_resumed_files ids tracked cap_max input_cost solver draw c l b n latest :
  (forall n b, fst (solver n b) = [] -> ~ In (snd (solver n b)) ["optimal"; "feasible"]) ->
  p_latest c = true -> map fst l = seq 0 (S latest) ->
  let files := match solve_spores ids tracked cap_max input_cost solver draw c (RSpores l) b n with
               | inl o => o_files o | inr (_, t) => t_files t end in
  forall k d, In (k, d) files -> latest < k.
Proof.
  intros NF L LAB files k d I; rewrite <- (max_label_seq l latest LAB).
  eapply (resumed_files ids tracked cap_max input_cost solver draw) with (c := c) (b := b) (n := n); [|exact L|reflexivity|exact I].
  intros n' b' E; destruct (usable (snd (solver n' b'))) eqn:U; [|exact U]; exfalso; apply (NF n' b' E), smem_in; exact U.
Qed.
Print Assumptions C19_resumed_files.

(** With a deterministic solver and the integer or relative deployment scores, an interrupted
    run that is resumed gives what the uninterrupted run gives (if the cost limit is not
    zero). *)
Theorem C19_resume_equals_uninterrupted_partial ids tracked cap_max input_cost solver draw c r b n b' n' m k o1 o2 l1 :
  (forall n n' b, solver n b = solver n' b) ->
  p_alg c = Integer \/ p_alg c = Relative -> p_postprocess c = true ->
  solve_spores ids tracked cap_max input_cost solver draw (asking c m false) r b n = inl o1 ->
  o_results o1 = RSpores l1 -> List.length l1 = S m ->
  (forall q d, In (m, d) l1 -> d_get "spores_baseline_cost_tracked" d = Some [Fin q] -> ~ (q == 0)%Q) ->
  (forall d, In (m, d) l1 -> d_get "spores_baseline_cost_tracked" d <> Some [PInf]) ->
  solve_spores ids tracked cap_max input_cost solver draw (asking c k true) (RSpores l1) b' n' = inl o2 ->
  exists o3, solve_spores ids tracked cap_max input_cost solver draw (asking c k false) r b n = inl o3 /\
    o_results o3 = o_results o2.
Proof. intros S; apply resume_equals; exact S. Qed.
Print Assumptions C19_resume_equals_uninterrupted_partial.

(** The cost of every spore is at most that of the baseline plus the slack, if every solution
    obeys the cost constraint of the math and no limit is set before the run. *)
Theorem C19_cost_bounded_partial ids tracked cap_max input_cost solver draw slack c r b n o :
  p_objective c <> "spores_score_cumulative" /\ p_objective c <> "spores_baseline_cost_tracked" ->
  (forall n b, fst (solver n b) <> [] -> exists q, d_get (p_objective c) (fst (solver n b)) = Some [Fin q] /\
     forall y, b_base b = Fin y -> (q <= y * (1 + slack))%Q) ->
  p_latest c = false -> p_postprocess c = true -> b_base b = PInf ->
  solve_spores ids tracked cap_max input_cost solver draw c r b n = inl o ->
  exists l q0, o_results o = RSpores l /\
    (exists d0, In (0, d0) l /\ d_get (p_objective c) d0 = Some [Fin q0]) /\
    forall k d, In (k, d) l -> k <> 0 ->
      exists q, d_get (p_objective c) d = Some [Fin q] /\ (q <= q0 * (1 + slack))%Q.
Proof.
  intros OB CO L P B E.
  exact (cost_bounded ids tracked cap_max input_cost solver draw (p_objective c) slack OB CO c r b n o L P eq_refl B E).
Qed.
Print Assumptions C19_cost_bounded_partial.

(** An example: two technologies; without penalties wind is built, at a cost of [100]; else
    the one with the smaller score, at a cost of [105]. *)
Definition ex_ids : list idx := [("n1", "wind", "el"); ("n1", "pv", "el")].
Definition ex_solver (base : Q) (n : nat) (b : bstate) : dataset * string :=
  let wind := match b_score b with w :: p :: _ => Qle_bool w p | _ => true end in
  let cost := if String.eqb (b_obj b) "min_spores" then (base * (21 # 20))%Q else base in
  let ok := match b_base b with Fin y => Qle_bool cost (y * (11 # 10)) | _ => true end in
  if ok then ([("flow_cap", if wind then [Fin 10; Fin 0] else [Fin 0; Fin 10]); ("min_cost", [Fin cost])], "optimal")
  else ([], "infeasible").
Definition ex_config : config :=
  {| p_alg := Integer; p_number := 3; p_save := true; p_latest := false; p_factor := 1 # 10;
     p_objective := "min_cost"; p_postprocess := true |}.
Definition ex_b : bstate := {| b_obj := "min_cost"; b_score := []; b_base := PInf |}.
Definition ex_draw (n : nat) : list bool := [].
Definition ex_run (c : config) (base : Q) := solve_spores ex_ids [true; true] None None (ex_solver base) ex_draw c.
Definition outline (x : outcome + exn * trace) : option (list (nat * list xq * list xq)) :=
  match x with
  | inl o => match o_results o with
             | RSpores l => Some (map (fun kd => (fst kd, match d_get "flow_cap" (snd kd) with Some v => v | _ => [] end,
                                       match d_get "spores_score_cumulative" (snd kd) with Some v => v | _ => [] end)) l)
             | _ => None end
  | inr _ => None
  end.
Example C19_example :
  outline (ex_run ex_config 100 RNone ex_b 0) =
  Some [(0, [Fin 10; Fin 0], [Fin 0; Fin 0]); (1, [Fin 0; Fin 10], [Fin 1000; Fin 0]);
        (2, [Fin 10; Fin 0], [Fin 1000; Fin 1000]); (3, [Fin 0; Fin 10], [Fin 2000; Fin 1000])].
Proof. vm_compute; reflexivity. Qed.
Example C19_example_resume :
  exists o1 l1, ex_run (asking ex_config 1 false) 100 RNone ex_b 0 = inl o1 /\ o_results o1 = RSpores l1 /\
    map fst l1 = [0; 1] /\
    outline (ex_run (asking ex_config 3 true) 100 (RSpores l1) ex_b 7) = outline (ex_run ex_config 100 RNone ex_b 0).
Proof.
  eexists; eexists; split; [vm_compute; reflexivity|split; [vm_compute; reflexivity|split; vm_compute; reflexivity]].
Qed.
Example C19_example_hypotheses :
  (forall n n' b, ex_solver 100 n b = ex_solver 100 n' b) /\
  (forall n b, fst (ex_solver 100 n b) <> [] -> exists q, d_get "min_cost" (fst (ex_solver 100 n b)) = Some [Fin q] /\
     forall y, b_base b = Fin y -> (q <= y * (1 + (1 # 10)))%Q).
Proof.
  split; [reflexivity|]; intros n b; unfold ex_solver.
  set (cost := if String.eqb (b_obj b) "min_spores" then _ else _).
  destruct (b_base b) as [y| | |]; [destruct (Qle_bool cost (y * (11 # 10))) eqn:Q|..]; cbn [fst]; intros N; try congruence;
    exists cost; (split; [reflexivity|]); intros y' E; try discriminate.
  injection E as <-; apply Qle_bool_iff in Q; eapply Qle_trans; [exact Q|]; apply Qle_lteq; right; ring.
Qed.

(** With the evolving average scores a resumed run differs from an uninterrupted one. *)
Definition ev_config : config :=
  {| p_alg := Evolving; p_number := 3; p_save := false; p_latest := false; p_factor := 1 # 10;
     p_objective := "min_cost"; p_postprocess := true |}.
Theorem C19_resume_evolving_refuted :
  exists o1 l1 s s', ex_run (asking ev_config 1 false) 100 RNone ex_b 0 = inl o1 /\ o_results o1 = RSpores l1 /\
    map fst l1 = [0; 1] /\
    outline (ex_run (asking ev_config 3 true) 100 (RSpores l1) ex_b 2) = Some s /\
    outline (ex_run ev_config 100 RNone ex_b 0) = Some s' /\ s <> s'.
Proof.
  eexists; eexists; eexists; eexists; split; [vm_compute; reflexivity|split; [vm_compute; reflexivity|]].
  split; [vm_compute; reflexivity|split; [vm_compute; reflexivity|split; [vm_compute; reflexivity|discriminate]]].
Qed.
Print Assumptions C19_resume_evolving_refuted.

(** A forced second run keeps the cost limit of the first: with doubled costs there is no
    baseline any more, with halved costs the spores exceed the limit of the new baseline,
    although a newly built model solves both cases. *)
Definition costs_of (x : outcome + exn * trace) : option (list Q) :=
  match x with
  | inl o => match o_results o with
             | RSpores l => Some (map (fun kd => match d_get "min_cost" (snd kd) with Some [Fin q] => Qred q | _ => 0%Q end) l)
             | _ => None end
  | inr _ => None
  end.
Theorem C19_second_run_refuted :
  exists o1, ex_run ex_config 100 RNone ex_b 0 = inl o1 /\ b_base (o_b o1) = Fin 100 /\
    (exists t, ex_run ex_config 200 (o_results o1) (o_b o1) 4 = inr (EModel, t)) /\
    costs_of (ex_run ex_config 200 RNone ex_b 4) = Some [200; 210; 210; 210]%Q /\
    (exists o2, ex_run ex_config 50 (o_results o1) (o_b o1) 4 = inl o2 /\ b_base (o_b o2) = Fin 100) /\
    (exists o2, ex_run ex_config 50 RNone ex_b 4 = inl o2 /\ b_base (o_b o2) = Fin 50).
Proof.
  eexists; split; [vm_compute; reflexivity|]; split; [vm_compute; reflexivity|]; split; [eexists; vm_compute; reflexivity|].
  split; [vm_compute; reflexivity|]; split; eexists; (split; [vm_compute; reflexivity|vm_compute; reflexivity]).
Qed.
Print Assumptions C19_second_run_refuted.

(** * C61: integer scores *)
(** With integer scoring the score of a technology in a spore is 1000 times the number of
    earlier results in which it had a capacity of relevant size. *)
Theorem C61_integer_scores ids tracked cap_max input_cost solver draw c r b n o :
  (forall n b, fst (solver n b) <> [] ->
     exists v, d_get "flow_cap" (fst (solver n b)) = Some v /\ List.length v = List.length ids) ->
  List.length tracked = List.length ids -> p_alg c = Integer -> (0 <= p_factor c)%Q ->
  p_latest c = false -> p_postprocess c = true ->
  solve_spores ids tracked cap_max input_cost solver draw c r b n = inl o ->
  exists l, o_results o = RSpores l /\
    forall k d i, nth_error l k = Some (k, d) -> 0 < k -> i < List.length ids ->
      exists sc q m, d_get "spores_score_cumulative" d = Some sc /\ nth_error sc i = Some (Fin q) /\
        occurs (fun d' => significant ids tracked (p_factor c) d' i) (firstn k (map snd l)) m /\
        (q == 1000 * inject_Z (Z.of_nat m))%Q.
Proof.
  intros CAPS LT A F L P E; apply fresh_run in E; [|exact L]; destruct E as [d0 [x [ds [e [R [N [D [LC C]]]]]]]].
  exists ((0, d0) :: ds); split; [exact R|]; intros k d i K KP LI.
  destruct k as [|k]; [lia|]; simpl in K.
  assert (HC : has_caps ids d0) by (eapply (run_has_caps ids solver CAPS c n); [symmetry; exact D|exact N]).
  destruct (chain_scored ids tracked cap_max solver draw CAPS c _ _ _ _ _ _ A F LT P C [] d0 eq_refl HC (scored_zero ids tracked (p_factor c)) k (S k) d K)
    as [sc [S1 [S2 S3]]].
  destruct (S3 i LI) as [q [m [Q1 [Q2 Q3]]]]; exists (map Fin sc), q, m; split; [exact S1|split; [rewrite nth_error_map, Q1; reflexivity|split; [exact Q2|exact Q3]]].
Qed.
Print Assumptions C61_integer_scores.

(** * C97: scores of every algorithm *)
(** In a fresh run the baseline has score zero everywhere, and the score of each further spore
    comes from the score of the spore before it by one step of the chosen algorithm, which
    looks at the capacities of the results so far and no others. *)
Theorem C97_scores ids tracked cap_max input_cost solver draw c r b n o :
  List.length tracked = List.length ids -> (forall cm, cap_max = Some cm -> List.length cm = List.length ids) ->
  (forall n, List.length (draw n) = List.length ids) ->
  (forall n b, fst (solver n b) <> [] -> exists v, d_get "flow_cap" (fst (solver n b)) = Some v /\
     List.length v = List.length ids /\ forall c, In (Fin c) v -> (0 <= c)%Q) ->
  (0 <= p_factor c)%Q -> p_latest c = false -> p_postprocess c = true ->
  solve_spores ids tracked cap_max input_cost solver draw c r b n = inl o ->
  exists l, o_results o = RSpores l /\
    (forall d i, nth_error l 0 = Some (0, d) -> i < List.length ids -> score_of d i 0) /\
    forall k d d' i, nth_error l k = Some (k, d) -> nth_error l (S k) = Some (S k, d') -> i < List.length ids ->
      exists q q', score_of d i q /\ score_of d' i q' /\
        score_step ids tracked cap_max (draw (n + S k)) (p_alg c) (p_factor c) (firstn (S k) (map snd l)) d i q q'.
Proof. intros LT LM LD CAPS F L P E; exact (run_scores ids tracked cap_max input_cost solver draw LT LM LD CAPS c r b n o F L P E). Qed.
Print Assumptions C97_scores.

(** Relative deployment is refused if there are no largest capacities, or if that of a tracked
    technology is unlimited. *)
Theorem C97_unlimited ids tracked cap_max input_cost solver draw c r b n o :
  p_alg c = Relative -> p_latest c = false ->
  (cap_max = None \/ exists cm i, cap_max = Some cm /\ nth_error tracked i = Some true /\ nth_error cm i = Some PInf) ->
  solve_spores ids tracked cap_max input_cost solver draw c r b n <> inl o.
Proof. apply relative_refused. Qed.
Print Assumptions C97_unlimited.

Definition by_alg (a : algorithm) : config :=
  {| p_alg := a; p_number := 3; p_save := false; p_latest := false; p_factor := 1 # 10; p_objective := "min_cost"; p_postprocess := true |}.
Definition coin (n : nat) : list bool := [Nat.even n; true].
Definition score_run (a : algorithm) (maxima : option (list xq)) := solve_spores ex_ids [true; true] maxima None (ex_solver 100) coin (by_alg a) RNone ex_b 0.
Definition plain_outline (x : option (list (nat * list xq * list xq))) : option (list (nat * list xq * list xq)) :=
  option_map (map (fun p => (fst p, map (fun q => match q with Fin q => Fin (Qred q) | o => o end) (snd p)))) x.
Example C97_relative_example :
  plain_outline (outline (score_run Relative (Some [Fin 40; Fin 20]))) =
  Some [(0, [Fin 10; Fin 0], [Fin 0; Fin 0]); (1, [Fin 0; Fin 10], [Fin (1 # 4); Fin 0]);
        (2, [Fin 10; Fin 0], [Fin (1 # 4); Fin (1 # 2)]); (3, [Fin 10; Fin 0], [Fin (1 # 2); Fin (1 # 2)])].
Proof. vm_compute; reflexivity. Qed.
Example C97_random_example :
  plain_outline (outline (score_run Random None)) =
  Some [(0, [Fin 10; Fin 0], [Fin 0; Fin 0]); (1, [Fin 10; Fin 0], [Fin 0; Fin 1000]);
        (2, [Fin 10; Fin 0], [Fin 1000; Fin 2000]); (3, [Fin 10; Fin 0], [Fin 1000; Fin 3000])].
Proof. vm_compute; reflexivity. Qed.
Example C97_evolving_example :
  plain_outline (outline (score_run Evolving None)) =
  Some [(0, [Fin 10; Fin 0], [Fin 0; Fin 0]); (1, [Fin 0; Fin 10], [Fin 1000; Fin 0]);
        (2, [Fin 10; Fin 0], [Fin 1; Fin 1]); (3, [Fin 0; Fin 10], [Fin 2; Fin 1])].
Proof. vm_compute; reflexivity. Qed.
Example C97_hypotheses :
  (forall n, List.length (coin n) = List.length ex_ids) /\
  forall n b, fst (ex_solver 100 n b) <> [] -> exists v, d_get "flow_cap" (fst (ex_solver 100 n b)) = Some v /\
     List.length v = List.length ex_ids /\ forall c, In (Fin c) v -> (0 <= c)%Q.
Proof.
  split; [reflexivity|]; intros n b; unfold ex_solver.
  destruct (match b_base b with Fin y => _ | _ => true end); cbn [fst]; intros N; [|congruence].
  eexists; split; [reflexivity|]; split; [destruct (match b_score b with [] => true | _ => _ end); reflexivity|].
  intros c I; destruct (match b_score b with [] => true | _ => _ end); cbn [In] in I; destruct I as [Q|[Q|[]]]; injection Q as <-; discriminate.
Qed.
Example C97_unlimited_example : forall o, score_run Relative (Some [Fin 40; PInf]) <> inl o.
Proof. intros o; apply C97_unlimited; [reflexivity|reflexivity|right; exists [Fin 40; PInf], 1; repeat split]. Qed.

(** The message of that error says it is raised "when `flow_cap_max` is undefined for some or
    all tracked technologies".  A tracked technology whose largest capacity is not given is
    accepted, and keeps score zero however much of it is built. *)
Theorem C97_undefined_refuted :
  exists ids tracked cm solver draw c o l,
    solve_spores ids tracked (Some cm) None solver draw c RNone ex_b 0 = inl o /\ p_alg c = Relative /\
    nth_error tracked 0 = Some true /\ nth_error cm 0 = Some NaN /\
    o_results o = RSpores l /\ List.length l = 4 /\
    (forall k d, In (k, d) l -> cap_at d 0 10 /\ exists q, score_of d 0 q /\ (q == 0)%Q).
Proof.
  exists ex_ids, [true; true], [NaN; Fin 20], (ex_solver 100), coin, (by_alg Relative); eexists; eexists.
  split; [vm_compute; reflexivity|]; do 3 (split; [reflexivity|]); split; [cbn [o_results]; reflexivity|]; split; [reflexivity|].
  intros k d I; cbn [In] in I; destruct I as [I|[I|[I|[I|[]]]]]; injection I as <- <-;
    (split; [eexists; split; vm_compute; reflexivity|eexists; split; [eexists; split; vm_compute; reflexivity|reflexivity]]).
Qed.
Print Assumptions C97_undefined_refuted.
