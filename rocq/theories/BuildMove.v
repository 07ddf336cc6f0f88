(** Equal masks give equal values; moving a condition between component and equation. *)
From Coq Require Import QArith Qcanon Lia Permutation.
From Verif Require Import Base BaseProofs LangModel EvalModel MathText BuildModel BuildSpec BuildProofs BuildEqs.
From Verif Require CliModel CliProofs.
Local Open Scope nat_scope.
Local Open Scope string_scope.
Local Open Scope list_scope.
Local Arguments String.eqb : simpl never.

(** * Values depend on the entries of masks *)
Lemma chain_ext E w w' : (forall p, w p = w' p) -> forall ops v v',
  (forall p, v p = v' p) -> (forall x, In x (map snd ops) -> forall p, aeval E w x p = aeval E w' x p) ->
  forall p, fold_left (fun v x => fun p => operate E (fst x) (v p) (mask w (aeval E w (snd x)) p)) ops v p =
            fold_left (fun v x => fun p => operate E (fst x) (v p) (mask w' (aeval E w' (snd x)) p)) ops v' p.
Proof.
  intros HW; induction ops as [|(o & x) ops IH]; intros v v' HV HO p; cbn [fold_left]; [apply HV|].
  apply IH; [|intros y IY; apply HO; right; exact IY].
  intros p'; cbn [fst snd]; unfold mask; rewrite HV, HW, (HO x (or_introl eq_refl)); reflexivity.
Qed.
Lemma aeval_ext E : congruent E -> forall e w w', (forall p, w p = w' p) -> forall p, aeval E w e p = aeval E w' e p.
Proof.
  intros (CH & CR) e; induction e as [e IH] using expr_parts; intros w w' HW p.
  destruct e as [| | | | |r|r|l|n ix|f args kws|n e|e ops]; cbn [aeval part] in *; try reflexivity.
  - apply CR, HW.
  - assert (HW' : forall p, (if e_ignore E f then everywhere else w) p = (if e_ignore E f then everywhere else w') p) by (destruct (e_ignore E f); [reflexivity|exact HW]).
    apply CH.
    + clear - IH HW'; induction args as [|a args IA]; cbn [map]; constructor.
      * split; [reflexivity|]; intros p; apply IH; [left; left; reflexivity|exact HW'].
      * apply IA; intros x [IX|IX]; apply IH; [left; right; exact IX|right; exact IX].
    + clear - IH HW'; induction kws as [|(k & a) kws IA]; cbn [map]; constructor.
      * split; [reflexivity|split; [reflexivity|]]; intros p; cbn [fst snd]; apply IH; [right; left; reflexivity|exact HW'].
      * apply IA; intros x [IX|IX]; apply IH; [left; exact IX|right; right; exact IX].
  - destruct n; [rewrite (IH e eq_refl w w' HW p); reflexivity|apply IH; [reflexivity|exact HW]].
  - apply (chain_ext E w w' HW).
    + intros p'; unfold mask; rewrite HW, (IH e (or_introl eq_refl) w w' HW); reflexivity.
    + intros x IX; apply IH; [right; exact IX|exact HW].
Qed.
Lemma with_slices_congruent E sl : congruent E -> congruent (with_slices E sl).
Proof. intros (CH & CR); split; assumption. Qed.
Lemma with_subs_congruent E sb : congruent E -> congruent (with_subs E sb).
Proof.
  intros C; pose proof C as (CH & CR); split; [exact CH|]; intros s w w' HW p; cbn [with_subs e_ref].
  destruct (d_get s sb) as [[e|]|]; try reflexivity; apply aeval_ext; assumption.
Qed.
Lemma evaluate_ext D sets q q' w w' : congruent (d_env D) -> q_expr q = q_expr q' -> q_subs q = q_subs q' -> q_slices q = q_slices q' ->
  (forall g, w g = w' g) -> forall f, evaluate D sets q w f = evaluate D sets q' w' f.
Proof.
  intros C EE ES EL HW f; unfold evaluate, eq_env; rewrite EE, ES, EL.
  assert (C' : congruent (with_subs (with_slices (d_env D) (q_slices q')) (q_subs q'))) by (apply with_subs_congruent, with_slices_congruent, C).
  destruct (q_expr q') as [e|l c r].
  - f_equal; apply (aeval_ext _ C'); intros p; apply HW.
  - rewrite HW; destruct (w' f); [|reflexivity]; f_equal; apply (aeval_ext _ C'); intros p; apply HW.
Qed.

Lemma broken_unusable D sets top q : congruent (d_env D) -> (broken D sets top q <-> unusable D sets top q).
Proof.
  intros C; unfold broken, unusable; split; intros (X & [K|H]); (split; [exact X|]); auto; right.
  - destruct H as (f & IN & SE & N); exists (sel D sets top q), f; split; [intros g; apply sel_spec|auto].
  - destruct H as (wd & f & HW & IN & SE & N); exists f; split; [exact IN|split; [exact SE|]]; rewrite <- N; f_equal.
    apply evaluate_ext; auto; intros g; destruct (wd g) eqn:E.
    + apply sel_spec, HW, E.
    + destruct (sel D sets top q g) eqn:E'; [|reflexivity]; apply sel_spec, HW in E'; congruence.
Qed.

(** * Equations that differ in one conjunct *)
Definition conj_eq (W : wenv) (u : wexpr) (q q' : peq) : Prop :=
  q_name q = q_name q' /\ q_expr q = q_expr q' /\ q_subs q = q_subs q' /\ q_slices q = q_slices q' /\
  forall p, applies W p q' = applies W p q && weval W u p.

Lemma add_combination_conj W u sl q q' comb : conj_eq W u q q' -> conj_eq W u (add_combination sl q comb) (add_combination sl q' comb).
Proof.
  intros (N & X & SB & SL & A); unfold conj_eq; cbn [add_combination q_name q_expr q_subs q_slices].
  rewrite N, X, SB, SL; do 4 (split; [reflexivity|]); intros p; rewrite !applies_add, A.
  destruct (applies W p q), (weval W u p), (forallb _ comb); reflexivity.
Qed.
Lemma find_conj W u (sl : bool) q q' : conj_eq W u q q' -> (if sl then find_slices q else find_subs q) = (if sl then find_slices q' else find_subs q').
Proof. intros (_ & X & SB & _); unfold find_slices, find_subs; rewrite X, SB; reflexivity. Qed.
Definition lift (W : wenv) (u : wexpr) (a b : outcome (list peq)) : Prop :=
  match a, b with Done x, Done y => Forall2 (conj_eq W u) x y | Fail e, Fail e' => e = e' | _, _ => False end.
Lemma extend_conj order W u sl alts q q' : conj_eq W u q q' -> lift W u (extend order sl alts q) (extend order sl alts q').
Proof.
  intros C; unfold extend; rewrite (find_conj W u sl q q' C); destruct (order _) as [|k ks]; [constructor; [exact C|constructor]|].
  destruct (forallb _ _); [|reflexivity]; cbn [lift]; generalize (CliModel.product (map (fun k0 => match d_get k0 alts with Some l => l | None => [] end) (k :: ks))).
  intros l; induction l as [|c l IH]; cbn [map]; constructor; [apply add_combination_conj, C|exact IH].
Qed.
Lemma extend_all_conj order W u sl alts qs qs' : Forall2 (conj_eq W u) qs qs' -> lift W u (extend_all order sl alts qs) (extend_all order sl alts qs').
Proof.
  induction 1 as [|q q' qs qs' C F IH]; [constructor|]; cbn [extend_all].
  pose proof (extend_conj order W u sl alts q q' C) as EX; destruct (extend order sl alts q), (extend order sl alts q'); cbn [lift] in EX; try contradiction; cbn [next]; [|exact EX].
  destruct (extend_all order sl alts qs), (extend_all order sl alts qs'); cbn [lift] in *; try contradiction; cbn [next lift]; [apply Forall2_app; assumption|assumption].
Qed.
Lemma expression_list_conj N pe W u k l l' : conjunct_added N W u l l' -> 
  match expression_list N pe k l, expression_list N pe k l' with Some a, Some b => Forall2 (conj_eq W u) a b | None, None => True | _, _ => False end.
Proof.
  unfold expression_list; generalize 0; intros n H; revert n; induction H as [|(a & e) (b & e') l l' (EX & w & w' & PA & PB & WC) F IH]; intros n; [constructor|].
  cbn [fst snd] in *; subst e'; cbn [CliModel.enumerate map]; specialize (IH (S n)).
  assert (ALT : forall t v, parse_where_text N t = Some v -> alternative N pe k (n, (t, e)) = option_map (fun x =>
    {| q_name := if String.eqb k "" then CliModel.str n else String.append k (String ":" (CliModel.str n));
       q_where := [v]; q_expr := x; q_subs := []; q_slices := [] |}) (pe e)) by (intros t v PT; unfold alternative; cbn [fst snd]; rewrite PT; destruct (pe e); reflexivity).
  rewrite (ALT a w PA), (ALT b w' PB); destruct (pe e); cbn [option_map sequence]; [|exact I].
  destruct (sequence (map _ (CliModel.enumerate (S n) l))), (sequence (map _ (CliModel.enumerate (S n) l'))); cbn [option_map]; try contradiction; [|exact I].
  constructor; [|exact IH]; unfold conj_eq; cbn [q_name q_expr q_subs q_slices]; do 4 (split; [reflexivity|]).
  intros x; unfold applies; cbn [q_where forallb]; rewrite !andb_true_r; apply WC.
Qed.

(** * Moving a conjunct *)
Section Move.
Variable D : data.
Variable sets : list string.
Variable top top' : index -> bool.
Variable u : wexpr.
Variable w : wexpr.
Hypothesis C : congruent (d_env D).
Hypothesis OV : over (d_where D) sets u.
(** [top] without, [top'] with the conjunct. *)
Hypothesis TOP : forall f, top f = true <-> top_selects D sets [w] f.
Hypothesis TOP' : forall f, top' f = true <-> exists w', with_conjunct (d_where D) u w w' /\ top_selects D sets [w'] f.

Lemma move_selected q q' f : conj_eq (d_where D) u q q' -> (selected D sets top q' f <-> selected D sets top' q f).
Proof.
  intros (_ & _ & _ & _ & A); unfold selected.
  assert (AP : forall q p, (forall w, In w (q_where q) -> weval (d_where D) w p = true) <-> applies (d_where D) p q = true) by (intros; unfold applies; rewrite forallb_forall; reflexivity).
  split.
  - intros (T & i & IN & E & H); apply AP in H; rewrite A, andb_true_iff in H; destruct H as (H & U).
    apply TOP in T as (SB & j & JN & EJ & M & HJ); split.
    + apply TOP'; exists (WChain w [(true, u)]); split; [intros p; reflexivity|]; split; [exact SB|]; exists j; do 3 (split; [assumption|]).
      intros x [<- |[]]; cbn [weval fold_left fst snd]; rewrite (HJ w (or_introl eq_refl)); cbn [andb]; rewrite <- U; apply OV; congruence.
    + exists i; split; [exact IN|split; [exact E|]]; apply AP, H.
  - intros (T & i & IN & E & H); apply AP in H; apply TOP' in T as (w' & WC & SB & j & JN & EJ & M & HJ).
    pose proof (HJ w' (or_introl eq_refl)) as HW; rewrite WC, andb_true_iff in HW; destruct HW as (HW & HU); split.
    + apply TOP; split; [exact SB|]; exists j; do 3 (split; [assumption|]); intros x [<- |[]]; exact HW.
    + exists i; split; [exact IN|split; [exact E|]]; apply AP; rewrite A, H; cbn [andb]; rewrite <- HU; apply OV; congruence.
Qed.
Lemma sel_move q q' : conj_eq (d_where D) u q q' -> forall g, sel D sets top q' g = sel D sets top' q g.
Proof.
  intros CE g; destruct (sel D sets top q' g) eqn:E1, (sel D sets top' q g) eqn:E2; try reflexivity; exfalso.
  - apply sel_spec, (move_selected q q' g CE), sel_spec in E1; congruence.
  - apply sel_spec, (move_selected q q' g CE), sel_spec in E2; congruence.
Qed.
Lemma value_move q q' : conj_eq (d_where D) u q q' -> forall f, value D sets top q' f = value D sets top' q f.
Proof. intros CE f; pose proof CE as (_ & X & SB & SL & _); apply evaluate_ext; auto; apply sel_move, CE. Qed.
Lemma keys_move q q' : conj_eq (d_where D) u q q' -> keys_given q' = keys_given q.
Proof. intros (_ & X & SB & SL & _); unfold keys_given; rewrite X, SB, SL; reflexivity. Qed.
Lemma broken_move q q' : conj_eq (d_where D) u q q' -> (broken D sets top q' <-> broken D sets top' q).
Proof.
  intros CE; unfold broken; rewrite (keys_move q q' CE); split; intros ((g & G) & [K|(f & IN & SE & N)]).
  - split; [exists g; apply (move_selected q q' g CE), G|auto].
  - split; [exists g; apply (move_selected q q' g CE), G|]; right; exists f; rewrite <- (value_move q q' CE); split; [exact IN|split; [apply (move_selected q q' f CE), SE|exact N]].
  - split; [exists g; apply (move_selected q q' g CE), G|auto].
  - split; [exists g; apply (move_selected q q' g CE), G|]; right; exists f; rewrite (value_move q q' CE); split; [exact IN|split; [apply (move_selected q q' f CE), SE|exact N]].
Qed.
Lemma forall2_nth {A B} (R : A -> B -> Prop) l l' : Forall2 R l l' -> forall i, match nth_error l i, nth_error l' i with Some a, Some b => R a b | None, None => True | _, _ => False end.
Proof. induction 1 as [|a b l l' H F IH]; intros [|i]; cbn [nth_error]; first [exact I | exact H | apply IH]. Qed.
Lemma all_apart_move qs qs' : Forall2 (conj_eq (d_where D) u) qs qs' -> (all_apart D sets top qs' <-> all_apart D sets top' qs).
Proof.
  intros F; rewrite !all_apart_nth; pose proof (forall2_nth _ _ _ F) as NTH; split; intros H i j q1 q2 E1 E2 NE f IN S1 S2.
  - pose proof (NTH i) as Ni; pose proof (NTH j) as Nj; rewrite E1 in Ni; rewrite E2 in Nj.
    destruct (nth_error qs' i) as [r1|] eqn:R1; [|contradiction]; destruct (nth_error qs' j) as [r2|] eqn:R2; [|contradiction].
    apply (H i j r1 r2 R1 R2 NE f IN); [apply (move_selected q1 r1 f Ni), S1|apply (move_selected q2 r2 f Nj), S2].
  - pose proof (NTH i) as Ni; pose proof (NTH j) as Nj; rewrite E1 in Ni; rewrite E2 in Nj.
    destruct (nth_error qs i) as [r1|] eqn:R1; [|contradiction]; destruct (nth_error qs j) as [r2|] eqn:R2; [|contradiction].
    apply (H i j r1 r2 R1 R2 NE f IN); [apply (move_selected r1 q1 f Ni), S1|apply (move_selected r2 q2 f Nj), S2].
Qed.
Lemma eval_move qs qs' : Forall2 (conj_eq (d_where D) u) qs qs' ->
  same_outcome D sets (eval_equations D sets top' (fun _ => VCell Miss) qs) (eval_equations D sets top (fun _ => VCell Miss) qs').
Proof.
  intros F.
  assert (EQ : (exists da', eval_equations D sets top' (fun _ => VCell Miss) qs = Done da') <-> (exists da', eval_equations D sets top (fun _ => VCell Miss) qs' = Done da')).
  { rewrite !eval_equations_done, (all_apart_move qs qs' F).
    assert (X : Forall (fun q => ~ broken D sets top' q) qs <-> Forall (fun q => ~ broken D sets top q) qs').
    { clear - F C OV TOP TOP'; induction F as [|q q' qs qs' CE F IH]; [split; constructor|].
      rewrite !Forall_cons_iff, IH, (broken_move q q' CE); reflexivity. }
    rewrite X; split; intros (_ & B & A); (split; [apply Forall_forall; intros q IQ f IF SE; reflexivity|auto]). }
  unfold same_outcome.
  destruct (eval_equations D sets top' _ qs) as [x|e1] eqn:E1, (eval_equations D sets top _ qs') as [y|e2] eqn:E2; auto.
  - intros f IN; destruct (eval_equations_entries _ _ _ _ _ _ E1 f IN) as (V1 & N1), (eval_equations_entries _ _ _ _ _ _ E2 f IN) as (V2 & N2).
    assert (DEC : (exists i q q', nth_error qs i = Some q /\ nth_error qs' i = Some q' /\ conj_eq (d_where D) u q q' /\ selected D sets top' q f) \/ (forall q, In q qs -> ~ selected D sets top' q f)).
    { clear - F; induction F as [|q q' qs qs' CE F IH]; [right; intros q []|].
      destruct (sel_dec D sets top' q f) as [SE|NS]; [left; exists 0, q, q'; auto|].
      destruct IH as [(i & a & b & H)|H]; [left; exists (S i), a, b; exact H|right; intros a [<- |IA]; [exact NS|apply H, IA]]. }
    destruct DEC as [(i & q & q' & Q1 & Q2 & CE & SE)|NS].
    + rewrite (V1 q (nth_error_In _ _ Q1) SE), (V2 q' (nth_error_In _ _ Q2)), (value_move q q' CE); [reflexivity|apply (move_selected q q' f CE), SE].
    + rewrite (N1 NS), N2; [reflexivity|]; intros q' IQ SE; apply In_nth_error in IQ as (i & Q2).
      pose proof (forall2_nth _ _ _ F i) as X; rewrite Q2 in X; destruct (nth_error qs i) as [q|] eqn:Q1; [|contradiction].
      apply (NS q (nth_error_In _ _ Q1)), (move_selected q q' f X), SE.
  - destruct (proj1 EQ (ex_intro _ x eq_refl)) as (da & X); discriminate.
  - destruct (proj2 EQ (ex_intro _ y eq_refl)) as (da & X); discriminate.
Qed.
End Move.
