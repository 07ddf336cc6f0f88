(** Scores of all algorithms, step by step. *)
From Verif Require Import Base BaseProofs SporesModel SporesSpec SporesProofs SporesMore.
Require Import Lqa.
Local Open Scope string_scope.
Local Open Scope list_scope.
Local Open Scope nat_scope.
Local Arguments String.eqb : simpl never.

Section Spores.
Variable ids : list idx.
Variable tracked : list bool.
Variable cap_max : option (list xq).
Variable input_cost : option xq.
Variable solver : nat -> bstate -> dataset * string.
Variable draw : nat -> list bool.
Notation run_solver := (run_solver solver).
Notation new_score := (new_score ids tracked cap_max draw).
Notation solve_spores := (solve_spores ids tracked cap_max input_cost solver draw).
Notation chain := (chain ids tracked cap_max solver draw).

(** * Steps of a chain *)
Definition stored (d : dataset) (sc : score) : Prop := d_get "spores_score_cumulative" d = Some (map Fin sc).
Lemma chain_steps c range prev n b ds e : p_postprocess c = true -> chain c range prev n b ds e -> forall j k d, nth_error ds j = Some (k, d) ->
  exists before sc, new_score c (n + j) (firstn (List.length prev + j) (prev ++ map snd ds)) before = Ok sc /\ stored d sc /\
    (j = 0 -> before = b_score b) /\ (forall j' k' d', j = S j' -> nth_error ds j' = Some (k', d') -> stored d' before).
Proof.
  intros P; induction 1 as [|prev n b k rest sc NS RS|prev n b k rest sc d ds e NS RS N C IH]; intros j k' d' E; [destruct j; discriminate|destruct j; discriminate|].
  assert (ST : stored d sc) by (destruct (run_solver_spec solver c n (with_score b sc) d P RS N) as (_ & _ & _ & K & _); exact K).
  destruct j as [|j].
  - injection E as <- <-; exists (b_score b), sc; rewrite !Nat.add_0_r, firstn_app, firstn_all, Nat.sub_diag; cbn [firstn]; rewrite app_nil_r.
    split; [exact NS|split; [exact ST|split; [reflexivity|intros j' k' d' Q; discriminate Q]]].
  - destruct (IH j k' d' E) as (before & sc2 & A & B & C1 & C2); exists before, sc2; split; [|split; [exact B|split; [discriminate|]]].
    + rewrite app_length in A; cbn [List.length map snd] in *; rewrite <- app_assoc in A; replace (n + S j) with (S n + j) by lia; replace (List.length prev + S j) with (List.length prev + 1 + j) by lia; exact A.
    + intros j' k2 d2 Q F; injection Q as <-; destruct j as [|j]; [injection F as <- <-; rewrite (C1 eq_refl); exact ST|exact (C2 j k2 d2 eq_refl F)].
Qed.

(** Relative deployment without largest capacities, or with an unlimited one. *)
Lemma relative_refused c r b n o : p_alg c = Relative -> p_latest c = false ->
  (cap_max = None \/ exists cm i, cap_max = Some cm /\ nth_error tracked i = Some true /\ nth_error cm i = Some PInf) ->
  solve_spores c r b n <> inl o.
Proof.
  intros A L B E; assert (PN : 0 < p_number c).
  { unfold SporesModel.solve_spores in E; destruct (start _ _ _ _ _ _) as [[l s]|[e t]] eqn:ST; [|discriminate]; destruct (start_fresh _ _ _ _ _ _ _ _ _ L ST) as (d & x & _ & PN & _); exact PN. }
  apply fresh_run in E; [|exact L]; destruct E as (d0 & x & ds & e & R & N & D & LC & C).
  assert (NO : forall f l, relative_inc tracked cap_max f l = Err EBackend).
  { intros f l; unfold relative_inc; destruct B as [->|(cm & i & -> & T & M)]; [reflexivity|].
    rewrite (proj2 (existsb_exists _ _)); [reflexivity|]; exists (true, PInf); split; [|reflexivity].
    apply (nth_error_In _ i); rewrite nth_error_combine, T, M; reflexivity. }
  destruct (p_number c) as [|m]; [lia|]; cbn [seq] in C.
  assert (X : forall sc, new_score c (S n) [d0] (repeat 0%Q (List.length ids)) <> Ok sc).
  { intros sc; unfold SporesModel.new_score; cbn [rev app]; destruct (caps d0) as [l|]; [|discriminate]; cbn [bind]; rewrite A, NO; discriminate. }
  inversion C as [|? ? ? ? ? sc NS|? ? ? ? ? sc ? ? ? NS]; subst; exact (X _ NS).
Qed.

(** * Lengths *)
Hypothesis LT : List.length tracked = List.length ids.
Hypothesis LM : forall cm, cap_max = Some cm -> List.length cm = List.length ids.
Hypothesis LD : forall n, List.length (draw n) = List.length ids.
Hypothesis CAPS : forall n b, fst (solver n b) <> [] ->
  exists v, d_get "flow_cap" (fst (solver n b)) = Some v /\ List.length v = List.length ids /\ forall c, In (Fin c) v -> (0 <= c)%Q.
Definition sound (d : dataset) : Prop := exists v, d_get "flow_cap" d = Some v /\ List.length v = List.length ids /\ forall c, In (Fin c) v -> (0 <= c)%Q.
Lemma run_sound c n b d : fst (run_solver c n b) = d -> d <> [] -> sound d.
Proof.
  intros E N; assert (M : fst (solver n b) <> []) by (intros M; apply N; rewrite <- E; apply run_solver_empty; exact M).
  destruct (CAPS n b M) as (v & G & L); exists v; split; [|exact L]; revert E G; unfold SporesModel.run_solver.
  destruct (solver n b) as [r0 t]; cbn [fst] in *; destruct r0 as [|x r]; [congruence|].
  destruct (p_postprocess c); cbn [fst]; [|intros <-; auto].
  generalize (x :: r); intros r0 <- G; rewrite d_get_set_other, d_get_set_other by discriminate; exact G.
Qed.
Lemma chain_sound c range prev n b ds e : chain c range prev n b ds e -> forall k d, In (k, d) ds -> sound d.
Proof.
  induction 1 as [|prev n b k rest sc NS RS|prev n b k rest sc d ds e NS RS N C IH]; intros k' d' I; [destruct I|destruct I|].
  destruct I as [Q|I]; [injection Q as <- <-; exact (run_sound c n _ d RS N)|exact (IH k' d' I)].
Qed.

(** * Averages *)
Definition plus (a x : list (option Q)) : list (option Q) := map (fun p => oadd (fst p) (snd p)) (combine a x).
Lemma plus_at a x i : nth_error (plus a x) i = match nth_error a i, nth_error x i with Some u, Some v => Some (oadd u v) | _, _ => None end.
Proof. unfold plus; rewrite nth_error_map, nth_error_combine; destruct (nth_error a i), (nth_error x i); reflexivity. Qed.
Definition at_all (ls : list (list (option Q))) (i : nat) (cs : list Q) : Prop := Forall2 (fun l c => nth_error l i = Some (Some c)) ls cs.
Lemma fold_plus_at r i : forall l o, nth_error l i = Some o -> (forall x, In x r -> i < List.length x) ->
  exists o', nth_error (fold_left plus r l) i = Some o' /\
    (forall u cs, o = Some u -> at_all r i cs -> exists s, o' = Some s /\ (s == u + fold_right Qplus 0 cs)%Q) /\
    (forall s, o' = Some s -> exists u cs, o = Some u /\ at_all r i cs).
Proof.
  induction r as [|x r IH]; intros l o E L; cbn [fold_left].
  - exists o; split; [exact E|split].
    + intros u cs -> A; inversion A; subst; exists u; split; [reflexivity|]; cbn [fold_right]; ring.
    + intros s ->; exists s, []; split; [reflexivity|constructor].
  - destruct (nth_error_some_len x i) as (v & EV); [apply L; left; reflexivity|].
    destruct (IH (plus l x) (oadd o v)) as (o' & E' & A & B); [rewrite plus_at, E, EV; reflexivity|intros y IY; apply L; right; exact IY|].
    exists o'; split; [exact E'|split].
    + intros u cs -> F; inversion F as [|? c ? cs' H F']; subst; rewrite EV in H; injection H as ->.
      destruct (A (u + c)%Q cs' eq_refl F') as (s & -> & Q); exists s; split; [reflexivity|]; rewrite Q; cbn [fold_right]; ring.
    + intros s S; destruct (B s S) as (w & cs & W & F); destruct o as [u|]; [|discriminate]; destruct v as [c|]; [|discriminate].
      exists u, (c :: cs); split; [reflexivity|constructor; [exact EV|exact F]].
Qed.
Lemma sum_caps_at ls i : ls <> [] -> (forall x, In x ls -> i < List.length x) ->
  exists o, nth_error (sum_caps ls) i = Some o /\
    (forall cs, at_all ls i cs -> exists s, o = Some s /\ (s == fold_right Qplus 0 cs)%Q) /\ (forall s, o = Some s -> exists cs, at_all ls i cs).
Proof.
  intros N L; destruct ls as [|l r]; [congruence|]; cbn [sum_caps]; destruct (nth_error_some_len l i) as (v & EV); [apply L; left; reflexivity|].
  destruct (fold_plus_at r i l v EV) as (o & E & A & B); [intros x IX; apply L; right; exact IX|].
  exists o; split; [exact E|split].
  - intros cs F; inversion F as [|? c ? cs' H F']; subst; rewrite EV in H; injection H as ->; exact (A c cs' eq_refl F').
  - intros s S; destruct (B s S) as (u & cs & -> & F); exists (u :: cs); constructor; assumption.
Qed.
Lemma fold_plus_length r : forall l n, List.length l = n -> (forall x, In x r -> List.length x = n) -> List.length (fold_left plus r l) = n.
Proof.
  induction r as [|x r IH]; intros l n L H; [exact L|]; cbn [fold_left]; apply IH; [|intros y IY; apply H; right; exact IY].
  unfold plus; rewrite map_length, combine_length, L, (H x) by (left; reflexivity); apply Nat.min_id.
Qed.
Lemma all_caps_all past : (forall d, In d past -> sound d) -> exists ls, all_caps past = Ok ls /\ List.length ls = List.length past /\
  (forall x, In x ls -> List.length x = List.length ids) /\
  forall i cs, at_all ls i cs <-> Forall2 (fun d c => cap_at d i c) past cs.
Proof.
  induction past as [|d past IH]; intros S.
  - exists []; split; [reflexivity|split; [reflexivity|split; [intros x []|]]]; intros i cs; split; intros F; inversion F; constructor.
  - destruct (S d (or_introl eq_refl)) as (v & G & L & NN); destruct IH as (ls & E & LL & LX & A); [intros y IY; apply S; right; exact IY|].
    exists (map cap_of v :: ls); cbn [all_caps]; unfold caps; rewrite G; cbn [bind]; rewrite E; cbn [bind]; split; [reflexivity|split; [cbn [List.length]; congruence|split]].
    + intros x [<-|IX]; [rewrite map_length; exact L|exact (LX x IX)].
    + assert (AT : forall i c, nth_error (map cap_of v) i = Some (Some c) <-> cap_at d i c).
      { intros i c; rewrite nth_error_map; unfold cap_at; split.
        - intros H; exists v; split; [exact G|]; destruct (nth_error v i) as [[q| | |]|]; cbn in H; try discriminate; injection H as ->; reflexivity.
        - intros (v' & G' & H); rewrite G in G'; injection G' as <-; rewrite H; reflexivity. }
      intros i cs; split; intros F; inversion F as [|? c ? cs' H F']; subst; (constructor; [apply AT; exact H|apply A; exact F']).
Qed.

(** * One step *)
Lemma added_at inc old i : i < List.length ids -> List.length inc = List.length ids -> List.length old = List.length ids ->
  exists t v q, nth_error tracked i = Some t /\ nth_error inc i = Some v /\ nth_error old i = Some q /\ nth_error (added tracked inc old) i = Some (if t : bool then (v + q)%Q else q).
Proof.
  intros LI L1 L2; destruct (nth_error_some_len tracked i) as (t & T); [lia|]; destruct (nth_error_some_len inc i) as (v & V); [lia|]; destruct (nth_error_some_len old i) as (q & Q); [lia|].
  exists t, v, q; repeat split; try assumption; unfold added; rewrite nth_error_map, nth_error_combine, T, nth_error_combine, V, Q; reflexivity.
Qed.
Lemma added_length inc old : List.length inc = List.length ids -> List.length old = List.length ids -> List.length (added tracked inc old) = List.length ids.
Proof. intros L1 L2; unfold added; rewrite map_length, !combine_length; lia. Qed.
Lemma counted_at factor d v old i : (0 <= factor)%Q -> d_get "flow_cap" d = Some v -> List.length v = List.length ids -> List.length old = List.length ids -> i < List.length ids ->
  exists q q', nth_error old i = Some q /\ nth_error (added tracked (integer_inc ids tracked factor (map cap_of v)) old) i = Some q' /\ counted ids tracked factor d i q q'.
Proof.
  intros F G L LO LI; destruct (added_at (integer_inc ids tracked factor (map cap_of v)) old i LI (integer_inc_length ids tracked factor v LT L) LO) as (t & x & q & T & X & Q & A).
  destruct (integer_inc_spec ids tracked factor d v i F LT G L LI) as (x' & X' & S); rewrite X in X'; injection X' as <-.
  exists q; eexists; split; [exact Q|split; [exact A|]]; destruct S as [(S & ->)|(S & ->)]; [left|right]; (split; [exact S|]).
  - assert (t = true) as -> by (destruct S as (? & ? & ? & _ & _ & _ & S4 & _); congruence); ring.
  - destruct t; ring.
Qed.
Definition held (factor : Q) (i : nat) (c m : Q) : Prop := nth_error tracked i = Some true /\ (factor < c / m)%Q.
Lemma total_zero (l : list (option Q)) : (forall q, In (Some q) l -> (0 <= q)%Q) ->
  ((fold_right (fun o s => match o with Some q => (q + s)%Q | None => s end) 0%Q l == 0)%Q <-> forall q, In (Some q) l -> (q == 0)%Q) /\
  (0 <= fold_right (fun o s => match o with Some q => (q + s)%Q | None => s end) 0%Q l)%Q.
Proof.
  induction l as [|[q|] l IH]; intros H; cbn [fold_right].
  - split; [split; [intros _ q []|reflexivity]|apply Qle_refl].
  - destruct IH as (A & B); [intros x IX; apply H; right; exact IX|]; pose proof (H q (or_introl eq_refl)) as Hq; split.
    + split.
      * intros E x [Q|IX]; [injection Q as <-; lra|apply A; [lra|exact IX]].
      * intros E; rewrite (E q) by (left; reflexivity); rewrite (proj2 A); [reflexivity|intros x IX; apply E; right; exact IX].
    + lra.
  - destruct IH as (A & B); [intros x IX; apply H; right; exact IX|]; split; [|exact B]; rewrite A; split; intros E x; [intros [Q|IX]; [discriminate|exact (E x IX)]|intros IX; apply E; right; exact IX].
Qed.
Lemma last_at {A} (R : dataset -> A -> Prop) past d cs : Forall2 R (past ++ [d]) cs -> exists c, nth_error cs (List.length cs - 1) = Some c /\ R d c.
Proof.
  intros F; apply Forall2_app_inv_l in F as (c1 & c2 & F1 & F2 & ->); inversion F2 as [|? c ? ? H N]; subst; inversion N; subst; exists c; split; [|exact H].
  rewrite app_length; cbn [List.length]; replace (List.length c1 + 1 - 1) with (List.length c1) by lia; rewrite nth_error_app2, Nat.sub_diag by lia; reflexivity.
Qed.
Lemma nonneg_sum cs : (forall c, In c cs -> (0 <= c)%Q) -> (0 <= fold_right Qplus 0 cs)%Q.
Proof.
  induction cs as [|c cs IH]; intros H; cbn [fold_right]; [apply Qle_refl|]; rewrite <- (Qplus_0_r 0) at 1; apply Qplus_le_compat; [apply H; left; reflexivity|apply IH; intros x IX; apply H; right; exact IX].
Qed.
Lemma forall2_nonneg past i cs : (forall d, In d past -> sound d) -> Forall2 (fun d c => cap_at d i c) past cs -> forall c, In c cs -> (0 <= c)%Q.
Proof.
  intros S F; induction F as [|d c past cs (v & G & E) F IH]; intros x IX; [destruct IX|]; destruct IX as [<-|IX]; [|apply IH; [intros y IY; apply S; right; exact IY|exact IX]].
  destruct (S d (or_introl eq_refl)) as (v' & G' & _ & NN); rewrite G in G'; injection G' as <-; apply NN, (nth_error_In _ i E).
Qed.

(** Changes as the code computes them. *)
Definition changes (past : list dataset) (d : dataset) (ls : list (list (option Q))) (v : list xq) : list (option Q) :=
  map (fun p => relative_change (fst p) (snd p))
    (combine (map (option_map (fun q => (q / inject_Z (Z.of_nat (List.length past)))%Q)) (sum_caps ls)) (map cap_of v)).
Lemma changes_at past0 d ls v i : let past := past0 ++ [d] in
  (forall d, In d past -> sound d) -> all_caps past = Ok ls -> d_get "flow_cap" d = Some v -> List.length v = List.length ids -> i < List.length ids ->
  exists o, nth_error (changes past d ls v) i = Some o /\ (forall x, o = Some x -> change past i x) /\ (forall x, change past i x -> exists y, o = Some y /\ (y == x)%Q).
Proof.
  intros past S E G L LI; destruct (all_caps_all past S) as (ls' & E' & LL & LX & A); rewrite E in E'; injection E' as <-.
  destruct (sum_caps_at ls i) as (o & EO & B1 & B2); [intros ->; unfold past in LL; rewrite app_length in LL; cbn in LL; lia|intros x IX; rewrite (LX x IX); exact LI|].
  destruct (nth_error_some_len v i) as (w & W); [lia|].
  unfold changes; rewrite nth_error_map, nth_error_combine, nth_error_map, EO, nth_error_map, W; cbn [option_map fst snd]; eexists; split; [reflexivity|].
  assert (LN : forall cs, Forall2 (fun d c => cap_at d i c) past cs -> List.length past = List.length cs) by (intros cs F; clear -F; induction F; cbn [List.length]; congruence).
  assert (LAST : forall cs, Forall2 (fun d c => cap_at d i c) past cs -> exists p, nth_error cs (List.length cs - 1) = Some p /\ w = Fin p).
  { intros cs F; destruct (last_at _ _ _ _ F) as (p & EP & (v' & G' & EW)); exists p; split; [exact EP|]; rewrite G in G'; injection G' as <-; congruence. }
  split.
  - intros x; destruct o as [s|]; cbn [option_map]; [|discriminate]; destruct (B2 s eq_refl) as (cs & F); destruct (B1 cs F) as (s' & Q & SUM); injection Q as <-; apply A in F.
    destruct (LAST cs F) as (p & EP & ->); cbn [cap_of relative_change]; destruct (Qeq_bool _ 0) eqn:Z; [discriminate|]; intros Q; injection Q as <-.
    exists cs, p, (s / inject_Z (Z.of_nat (List.length past)))%Q; split; [exact F|split; [exact EP|split; [|split]]].
    + rewrite (LN cs F), SUM; reflexivity.
    + intros H; apply Qeq_bool_neq in Z; exact (Z H).
    + reflexivity.
  - intros x (cs & p & a & F & EP & EA & NZ & EX); destruct (LAST cs F) as (p' & EP' & ->); rewrite EP in EP'; injection EP' as <-.
    destruct (B1 cs (proj2 (A i cs) F)) as (s & -> & SUM); cbn [option_map cap_of relative_change].
    assert (SA : (s / inject_Z (Z.of_nat (List.length past)) == a)%Q) by (rewrite EA, (LN cs F), SUM; reflexivity).
    destruct (Qeq_bool _ 0) eqn:Z; [exfalso; apply NZ; apply Qeq_bool_iff in Z; rewrite <- SA; exact Z|].
    eexists; split; [reflexivity|]; rewrite EX; rewrite SA; reflexivity.
Qed.
Lemma change_nonneg past i x : (forall d, In d past -> sound d) -> change past i x -> (0 <= x)%Q.
Proof.
  intros S (cs & p & a & F & EP & EA & NZ & EX); rewrite EX; apply Qmult_le_0_compat; [apply Qabs_nonneg|]; apply Qinv_le_0_compat; rewrite EA.
  apply Qmult_le_0_compat; [apply nonneg_sum; exact (forall2_nonneg past i cs S F)|]; apply Qinv_le_0_compat; change 0%Q with (inject_Z 0); rewrite <- Zle_Qle; lia.
Qed.
Lemma changes_length past0 d ls v : let past := past0 ++ [d] in (forall d, In d past -> sound d) -> all_caps past = Ok ls -> List.length v = List.length ids ->
  List.length (changes past d ls v) = List.length ids.
Proof.
  intros past S E L; destruct (all_caps_all past S) as (ls' & E' & LL & LX & A); rewrite E in E'; injection E' as <-.
  unfold changes; rewrite map_length, combine_length, !map_length; rewrite L; apply Nat.min_r; destruct ls as [|l r]; [unfold past in LL; rewrite app_length in LL; cbn in LL; lia|].
  cbn [sum_caps]; fold plus; rewrite (fold_plus_length r l (List.length ids)); [lia|apply LX; left; reflexivity|intros x IX; apply LX; right; exact IX].
Qed.
Lemma steady_total past0 d ls v : let past := past0 ++ [d] in (forall d, In d past -> sound d) -> all_caps past = Ok ls -> d_get "flow_cap" d = Some v -> List.length v = List.length ids ->
  (Qeq_bool (fold_right (fun o s => match o with Some q => (q + s)%Q | None => s end) 0%Q (changes past d ls v)) 0 = true <-> steady past).
Proof.
  intros past S E G L; rewrite Qeq_bool_iff.
  assert (PT : forall x, In (Some x) (changes past d ls v) -> exists i, change past i x).
  { intros x I; apply In_nth_error in I as (i & I); assert (LI : i < List.length ids) by (rewrite <- (changes_length past0 d ls v S E L); apply nth_error_Some; unfold past in *; congruence).
    destruct (changes_at past0 d ls v i S E G L LI) as (o & EO & O1 & _); fold past in EO, O1; rewrite EO in I; injection I as ->; exists i; exact (O1 x eq_refl). }
  destruct (total_zero (changes past d ls v)) as (A & _); [intros q I; destruct (PT q I) as (i & C); exact (change_nonneg past i q S C)|]; rewrite A; split.
  - intros H i x C; assert (LI : i < List.length ids).
    { destruct C as (cs & p & a & F & _); unfold past in F; destruct (last_at _ _ _ _ F) as (c & _ & (v' & G' & EV)); rewrite G in G'; injection G' as <-; rewrite <- L; apply nth_error_Some; congruence. }
    destruct (changes_at past0 d ls v i S E G L LI) as (o & EO & _ & O2); destruct (O2 x C) as (y & -> & Q); rewrite <- Q; apply H, (nth_error_In _ i EO).
  - intros H q I; destruct (PT q I) as (i & C); exact (H i q C).
Qed.

Lemma score_next c n past0 d sc sc' i : let past := past0 ++ [d] in (0 <= p_factor c)%Q -> (forall d, In d past -> sound d) ->
  List.length sc = List.length ids -> new_score c n past sc = Ok sc' ->
  List.length sc' = List.length ids /\
  (i < List.length ids -> exists q q', nth_error sc i = Some q /\ nth_error sc' i = Some q' /\ score_step ids tracked cap_max (draw n) (p_alg c) (p_factor c) past d i q q').
Proof.
  intros past F S LS E; destruct (S d) as (v & G & L & NN); [apply in_or_app; right; left; reflexivity|].
  unfold SporesModel.new_score in E; unfold past in E; rewrite rev_app_distr in E; cbn [rev app] in E; unfold caps in E; rewrite G in E; cbn [bind] in E; fold past in E.
  assert (CAP : forall i c, cap_at d i c <-> nth_error v i = Some (Fin c)) by (intros j x; unfold cap_at; rewrite G; split; [intros (v' & Q & H); injection Q as <-; exact H|eauto]).
  destruct (p_alg c); cbn [score_step].
  - injection E as <-; split; [apply added_length; [apply integer_inc_length; assumption|exact LS]|]; intros LI; exact (counted_at (p_factor c) d v sc i F G L LS LI).
  - unfold relative_inc in E; destruct cap_max as [cm|] eqn:CM; [|discriminate]; destruct (existsb _ _); [discriminate|]; cbn [bind] in E; injection E as <-.
    pose proof (LM cm eq_refl) as LCM; set (inc := map _ (combine (map cap_of v) cm)).
    assert (LI' : List.length inc = List.length ids) by (unfold inc; rewrite map_length, combine_length, map_length; lia).
    split; [apply added_length; assumption|]; intros LI; destruct (added_at inc sc i LI LI' LS) as (t & x & q & T & X & Q & A).
    exists q; eexists; split; [exact Q|split; [exact A|]]; exists cm; split; [reflexivity|].
    unfold inc in X; rewrite nth_error_map, nth_error_combine, nth_error_map in X.
    destruct (nth_error_some_len v i) as (w & W); [lia|]; destruct (nth_error_some_len cm i) as (m & M); [lia|]; rewrite W, M in X; cbn [option_map] in X; injection X as X.
    destruct w as [w| | |], m as [m| | |]; cbn [cap_of] in X; try (right; subst x; split; [intros r (c' & m' & _ & C' & M' & _); rewrite CAP in C'; congruence|destruct t; ring]).
    destruct (Qltb (p_factor c) (w / m)) eqn:B.
    + apply Qltb_spec in B; destruct t; [left; exists x; split; [exists w, m; split; [exact T|split; [apply CAP; exact W|split; [exact M|split; [subst x; reflexivity|exact B]]]]|ring]|].
      right; split; [intros r (c' & m' & T' & _); congruence|reflexivity].
    + right; subst x; split; [|destruct t; ring]; intros r (c' & m' & T' & C' & M' & _ & LTQ); rewrite CAP in C'; rewrite W in C'; injection C' as <-; rewrite M in M'; injection M' as <-.
      apply Qltb_spec in LTQ; congruence.
  - injection E as <-; set (inc := random_inc tracked draw n (map cap_of v)).
    assert (LI' : List.length inc = List.length ids) by (unfold inc, random_inc, masked; rewrite map_length, combine_length, map_length, combine_length, map_length, LD; lia).
    split; [apply added_length; assumption|]; intros LI; destruct (added_at inc sc i LI LI' LS) as (t & x & q & T & X & Q & A).
    exists q; eexists; split; [exact Q|split; [exact A|]].
    unfold inc, random_inc, masked in X; rewrite nth_error_map, nth_error_combine, nth_error_map, nth_error_combine, nth_error_map, T in X.
    destruct (nth_error_some_len v i) as (w & W); [lia|]; destruct (nth_error_some_len (draw n) i) as (b & B); [rewrite LD; lia|]; rewrite W, B in X; cbn [option_map fst snd] in X; injection X as X.
    destruct t; [|right; split; [intros (H & _); congruence|reflexivity]].
    destruct w as [w| | |]; cbn [cap_of] in X; try (right; subst x; split; [intros (_ & (c' & C') & _); rewrite CAP in C'; congruence|ring]).
    destruct b; [left|right]; subst x; (split; [|ring]); [split; [exact T|split; [exists w; apply CAP; exact W|exact B]]|intros (_ & _ & B'); congruence].
  - destruct (all_caps_all past S) as (ls & E' & LL & LX & AC); rewrite E' in E; cbn [bind] in E; injection E as <-; unfold evolving; fold (changes past d ls v).
    pose proof (steady_total past0 d ls v S E' G L) as ST; cbv zeta in ST; fold past in ST.
    destruct (Qeq_bool _ 0) eqn:Z.
    + split; [apply added_length; [apply integer_inc_length; assumption|exact LS]|]; intros LI; destruct (counted_at (p_factor c) d v sc i F G L LS LI) as (q & q' & H1 & H2 & H3).
      exists q, q'; split; [exact H1|split; [exact H2|left; split; [apply ST; reflexivity|exact H3]]].
    + set (new := map _ (changes past d ls v)).
      assert (LC : List.length (changes past d ls v) = List.length ids) by exact (changes_length past0 d ls v S E' L).
      assert (LN : List.length new = List.length ids) by (unfold new; rewrite map_length; exact LC).
      split; [unfold replaced; rewrite map_length, !combine_length; lia|]; intros LI.
      destruct (nth_error_some_len tracked i) as (t & T); [lia|]; destruct (nth_error_some_len new i) as (x & X); [lia|]; destruct (nth_error_some_len sc i) as (q & Q); [lia|].
      exists q, (if t then x else 0%Q); split; [exact Q|split; [unfold replaced; rewrite nth_error_map, nth_error_combine, T, nth_error_combine, X, Q; reflexivity|]].
      right; split; [intros H; apply ST in H; discriminate|].
      destruct (changes_at past0 d ls v i S E' G L LI) as (o & EO & O1 & O2); fold past in EO, O1, O2; unfold new in X; rewrite nth_error_map, EO in X; cbn [option_map] in X; injection X as X.
      destruct t; [|right; split; [intros (H & _); congruence|reflexivity]].
      destruct o as [y|]; [left; split; [exact T|exists y; split; [exact (O1 y eq_refl)|]]|].
      * destruct (Qltb y (1 # 1000)) eqn:B; [left|right].
        -- apply Qltb_spec in B; split; [exact B|subst x; reflexivity].
        -- split; [apply Qnot_lt_le; intros H; apply Qltb_spec in H; congruence|subst x; unfold Qdiv; rewrite Qmult_1_l; reflexivity].
      * right; split; [intros (_ & y & C); destruct (O2 y C) as (z & H & _); discriminate|subst x; reflexivity].
Qed.

(** * A whole run *)
Lemma fin_inj a b : map Fin a = map Fin b -> a = b.
Proof. revert b; induction a as [|x a IH]; intros [|y b] E; try discriminate; [reflexivity|]; injection E as -> E; rewrite (IH b E); reflexivity. Qed.
Lemma firstn_snoc {A} (l : list A) : forall k x, nth_error l k = Some x -> firstn (S k) l = firstn k l ++ [x].
Proof. induction l as [|y l IH]; intros [|k] x E; try discriminate; [injection E as ->; reflexivity|]; cbn [nth_error] in E; cbn [firstn app]; rewrite <- (IH k x E); reflexivity. Qed.
Lemma in_firstn {A} (l : list A) k y : In y (firstn k l) -> In y l.
Proof. intros H; rewrite <- (firstn_skipn k l); apply in_or_app; left; exact H. Qed.
Lemma run_scores c r b n o : (0 <= p_factor c)%Q -> p_latest c = false -> p_postprocess c = true -> solve_spores c r b n = inl o ->
  exists l, o_results o = RSpores l /\
    (forall d i, nth_error l 0 = Some (0, d) -> i < List.length ids -> score_of d i 0) /\
    forall k d d' i, nth_error l k = Some (k, d) -> nth_error l (S k) = Some (S k, d') -> i < List.length ids ->
      exists q q', score_of d i q /\ score_of d' i q' /\
        score_step ids tracked cap_max (draw (n + S k)) (p_alg c) (p_factor c) (firstn (S k) (map snd l)) d i q q'.
Proof.
  intros F L P E; apply fresh_run in E; [|exact L]; destruct E as (d0 & x & ds & e & R & N & D & LC & C); exists ((0, d0) :: ds); split; [exact R|].
  set (b0 := {| b_obj := p_objective c; b_score := repeat 0%Q (List.length ids); b_base := b_base b |}) in D.
  assert (S0 : stored d0 (repeat 0%Q (List.length ids))) by (destruct (run_solver_spec solver c n b0 d0 P (eq_sym D) N) as (_ & _ & _ & K & _); exact K).
  assert (SD0 : sound d0) by exact (run_sound c n b0 d0 (eq_sym D) N).
  assert (SDS : forall d, In d (map snd ((0, d0) :: ds)) -> sound d).
  { intros d I; cbn [map snd] in I; destruct I as [<-|I]; [exact SD0|]; apply in_map_iff in I as ((k & d1) & <- & I); exact (chain_sound _ _ _ _ _ _ _ C k d1 I). }
  split.
  - intros d i Q LI; injection Q as <-; exists (map Fin (repeat 0%Q (List.length ids))); split; [exact S0|]; rewrite nth_error_map, nth_error_repeat by exact LI; reflexivity.
  - assert (STEP : forall k d d', nth_error ((0, d0) :: ds) k = Some (k, d) -> nth_error ds k = Some (S k, d') ->
      exists sc sc', stored d sc /\ stored d' sc' /\ List.length sc = List.length ids /\ new_score c (n + S k) (firstn (S k) (map snd ((0, d0) :: ds))) sc = Ok sc').
    { induction k as [|k IH]; intros d d' H1 H2; destruct (chain_steps c _ _ _ _ _ _ P C _ _ _ H2) as (before & sc & NS & ST & B0 & BP).
      - cbn [nth_error] in H1; injection H1 as <-; pose proof (B0 eq_refl) as ->; cbn [b_score] in NS; exists (repeat 0%Q (List.length ids)), sc; split; [exact S0|split; [exact ST|split; [apply repeat_length|]]].
        replace (n + 1) with (S n + 0) by lia; exact NS.
      - cbn [nth_error] in H1; pose proof (BP k _ _ eq_refl H1) as SB; exists before, sc; split; [exact SB|split; [exact ST|split]].
        + assert (PV : exists kp dp, nth_error ((0, d0) :: ds) k = Some (kp, dp)).
          { destruct (nth_error_some_len ((0, d0) :: ds) k) as ((kp & dp) & EP); [cbn [List.length]; assert (k < List.length ds) by (apply nth_error_Some; congruence); lia|eauto]. }
          destruct PV as (kp & dp & EP); assert (kp = k) as ->.
          { destruct (chain_labels _ _ _ _ _ _ _ _ _ _ _ _ C) as (CL & LE & _); rewrite seq_length in LE; rewrite firstn_seq in CL by exact LE.
            destruct k as [|k]; [injection EP as <- <-; reflexivity|]; cbn [nth_error] in EP; assert (Q : nth_error (map fst ds) k = Some kp) by (rewrite nth_error_map, EP; reflexivity).
            assert (Lk : k < List.length ds) by (apply nth_error_Some; congruence); rewrite CL in Q; apply (nth_error_nth _ _ 0) in Q; rewrite seq_nth in Q by exact Lk; lia. }
          destruct (IH dp d EP H1) as (s1 & s2 & _ & A2 & A3 & A4); unfold stored in A2, SB; rewrite SB in A2; injection A2 as A2; apply fin_inj in A2; subst s2.
          assert (EM : nth_error (map snd ((0, d0) :: ds)) k = Some dp) by (rewrite nth_error_map, EP; reflexivity).
          rewrite (firstn_snoc _ k dp EM) in A4; refine (proj1 (score_next c _ _ dp s1 before 0 F _ A3 A4)).
          intros y IY; apply SDS, (in_firstn _ (S k)); rewrite (firstn_snoc _ k dp EM); exact IY.
        + replace (n + S (S k)) with (S n + S k) by lia; exact NS. }
    intros k d d' i H1 H2 LI; cbn [nth_error] in H2; destruct (STEP k d d' H1 H2) as (sc & sc' & A1 & A2 & A3 & A4).
    assert (EM : nth_error (map snd ((0, d0) :: ds)) k = Some d) by (rewrite nth_error_map, H1; reflexivity).
    rewrite (firstn_snoc _ k d EM) in A4; assert (SP : forall y, In y (firstn k (map snd ((0, d0) :: ds)) ++ [d]) -> sound y).
    { intros y IY; apply SDS, (in_firstn _ (S k)); rewrite (firstn_snoc _ k d EM); exact IY. }
    destruct (score_next c _ _ d sc sc' i F SP A3 A4) as (_ & H); destruct (H LI) as (q & q' & Q & Q' & ST); exists q, q'; split; [exists (map Fin sc); split; [exact A1|rewrite nth_error_map, Q; reflexivity]|split; [exists (map Fin sc'); split; [exact A2|rewrite nth_error_map, Q'; reflexivity]|]].
    rewrite (firstn_snoc _ k d EM); exact ST.
Qed.
End Spores.
