(** Proofs about evaluation, the usual reading and formulas. *)
From Coq Require Import QArith Qcanon.
From Verif Require Import Base LangModel LangSpec LangProofs LangWhere LangShow EvalModel EvalSpec.
Local Open Scope nat_scope.
Local Open Scope string_scope.
Local Open Scope list_scope.

(** * Values *)
Lemma Qc_of_nat n : natural (Q2Qc (inject_Z (Z.of_nat n))) = Some n.
Proof.
  unfold natural; cbn [this Q2Qc]; unfold Qred, inject_Z.
  pose proof (Z.ggcd_gcd (Z.of_nat n) 1) as G; pose proof (Z.ggcd_correct_divisors (Z.of_nat n) 1) as D.
  destruct (Z.ggcd (Z.of_nat n) 1) as (g & a & b); cbn [fst] in G; destruct D as (D1 & D2).
  rewrite Z.gcd_1_r in G; subst g; rewrite Z.mul_1_l in D1, D2; subst a b; cbn [Qden Qnum snd Z.to_pos].
  rewrite (proj2 (Z.leb_le 0 (Z.of_nat n)) (Nat2Z.is_nonneg n)), Nat2Z.id; reflexivity.
Qed.

Section Values.
Variables (E : env) (w : pos -> bool) (p : pos).
Hypothesis HW : w p = true.
Let leaf := fun x => aeval E w x p.

Lemma chain_denotes ops : forall v b,
  (forall q, denotes leaf b q -> v p = Val q) ->
  Forall (fun x => forall q, denotes leaf (bin (snd x)) q -> aeval E w (snd x) p = Val q) ops ->
  forall q, denotes leaf (fold_left (fun b x => BBin (fst x) b (bin (snd x))) ops b) q ->
  fold_left (fun v x => fun p => operate E (fst x) (v p) (mask w (aeval E w (snd x)) p)) ops v p = Val q.
Proof.
  induction ops as [|(o, e) ops IH]; intros v b HV HF q H; [exact (HV _ H)|].
  cbn [fold_left fst snd] in *; inversion HF as [|? ? H1 H2]; subst; cbn [snd] in H1.
  refine (IH _ _ _ H2 _ H); clear q H IH H2; intros q H; unfold mask; rewrite HW.
  inversion H; subst;
    repeat match goal with X : denotes _ b ?x |- _ => apply HV in X; rewrite X; clear X
                         | X : denotes _ (bin e) ?x |- _ => apply H1 in X; rewrite X; clear X end; cbn [operate].
  - reflexivity.
  - reflexivity.
  - reflexivity.
  - destruct (Qc_eq_dec y 0); [contradiction|reflexivity].
  - rewrite Qc_of_nat; reflexivity.
Qed.

Lemma aeval_denotes : forall e q, denotes leaf (bin e) q -> aeval E w e p = Val q.
Proof.
  fix IH 1; intros e; destruct e; cbn [bin]; intros q H;
    try (inversion H; subst; assumption).
  - destruct neg; inversion H; subst; cbn [aeval].
    + rewrite (IH _ _ H1); cbn [operate]; f_equal; ring.
    + exact (IH _ _ H1).
  - cbn [aeval]; refine (chain_denotes ops _ _ _ _ _ H).
    + intros q' H'; unfold mask; rewrite HW; exact (IH _ _ H').
    + clear H; induction ops as [|x ops IHO]; constructor; [exact (IH (snd x))|exact IHO].
Qed.
End Values.

Lemma chain_outside E w p e ops : w p = false -> aeval E w (EChain e ops) p = Miss.
Proof.
  intros HW; cbn [aeval].
  assert (X : forall v : arr, v p = Miss ->
    fold_left (fun v x => fun p => operate E (fst x) (v p) (mask w (aeval E w (snd x)) p)) ops v p = Miss).
  { induction ops as [|(o, x) ops IH]; intros v HV; [exact HV|]; cbn [fold_left fst snd]; apply IH.
    unfold mask; rewrite HW, HV; reflexivity. }
  apply X; unfold mask; rewrite HW; reflexivity.
Qed.

(** * The usual reading *)
Section Usual.
Variable L : lang.
Hypothesis CO : coherent L.

Lemma leaf_atom ts e : leaf_text L ts e -> atom L ts e.
Proof. intros []; [apply at_call|apply at_ref|apply at_num|apply at_index|apply at_name|apply at_conf]; assumption. Qed.
Lemma atom_prefix ts e rest ts' e' rest' : atom L ts e -> atom L ts' e' -> stop 0 rest -> stop 0 rest' ->
  ts ++ rest = ts' ++ rest' -> ts = ts' /\ e = e' /\ rest = rest'.
Proof.
  intros H H' ST ST' E.
  pose proof (proj1 (proj2 (proj2 (complete L CO))) _ _ H (8 * List.length ts + 8 * List.length ts') rest ltac:(lia) ST) as A.
  pose proof (proj1 (proj2 (proj2 (complete L CO))) _ _ H' (8 * List.length ts + 8 * List.length ts') rest' ltac:(lia) ST') as B.
  rewrite E, B in A; injection A as -> ->; apply app_inv_tail in E; auto.
Qed.

(** Left-recursive levels as a head and a list of operators with operands. *)
Definition flat (l : list (tok * op * list tok * bexpr)) : list tok :=
  flat_map (fun x => fst (fst (fst x)) :: snd (fst x)) l.
Definition built (l : list (tok * op * list tok * bexpr)) (b : bexpr) : bexpr :=
  fold_left (fun b x => BBin (snd (fst (fst x))) b (snd x)) l b.
Definition part (k : nat) (x : tok * op * list tok * bexpr) : Prop :=
  op_tok (S k) (fst (fst (fst x))) (snd (fst (fst x))) /\ usual L k (snd (fst x)) (snd x).
Lemma flat_app a b : flat (a ++ b) = flat a ++ flat b.
Proof. apply flat_map_app. Qed.
Lemma usual_parts k ts b : usual L (S k) ts b -> 1 <= k ->
  exists hs h l, usual L k hs h /\ Forall (part k) l /\ ts = hs ++ flat l /\ b = built l h.
Proof.
  intros H; remember (S k) as m eqn:EM; revert k EM; induction H; intros k EM G; try (injection EM as <-); try lia.
  - exists ts, b, []; repeat split; [assumption|constructor|rewrite app_nil_r; reflexivity].
  - destruct (IHusual1 _ eq_refl G) as (hs & h & l & HU & F & -> & ->).
    exists hs, h, (l ++ [(t, o, us, b)]); repeat split; [exact HU| | |].
    + apply Forall_app; split; [exact F|]; constructor; [split; assumption|constructor].
    + rewrite flat_app, app_assoc; cbn; rewrite app_nil_r; reflexivity.
    + unfold built; rewrite fold_left_app; reflexivity.
  - exists ts, b, []; repeat split; [assumption|constructor|rewrite app_nil_r; reflexivity].
  - destruct (IHusual1 _ eq_refl G) as (hs & h & l & HU & F & -> & ->).
    exists hs, h, (l ++ [(t, o, us, b)]); repeat split; [exact HU| | |].
    + apply Forall_app; split; [exact F|]; constructor; [split; assumption|constructor].
    + rewrite flat_app, app_assoc; cbn; rewrite app_nil_r; reflexivity.
    + unfold built; rewrite fold_left_app; reflexivity.
Qed.

Definition unique_below (n : nat) (k : nat) : Prop :=
  forall ts b ts' b' rest rest', List.length ts < n -> usual L k ts b -> usual L k ts' b' ->
  stop k rest -> stop k rest' -> ts ++ rest = ts' ++ rest' -> ts = ts' /\ b = b' /\ rest = rest'.

Lemma parts_stop k l rest : Forall (part k) l -> stop (S k) rest -> stop k (flat l ++ rest).
Proof.
  intros F ST; destruct F as [|(((t, o), us), b) l (T & _) F]; [apply (stop_le (S k)); [lia|exact ST]|].
  cbn [flat flat_map fst snd app]; exact (op_stop _ _ _ _ T).
Qed.
Lemma usual_nonempty k ts b : usual L k ts b -> ts <> [].
Proof.
  induction 1; try discriminate; try assumption.
  - pose proof (proj1 (proj2 (proj2 (starts L))) _ _ (leaf_atom _ _ H)) as A; intros ->; destruct A.
  - destruct ts; discriminate.
  - destruct ts; discriminate.
  - destruct ts; discriminate.
Qed.
Lemma parts_unique n k : unique_below n k -> forall l l' rest rest',
  List.length (flat l) <= n -> Forall (part k) l -> Forall (part k) l' -> stop (S k) rest -> stop (S k) rest' ->
  flat l ++ rest = flat l' ++ rest' -> flat l = flat l' /\ (forall b, built l b = built l' b) /\ rest = rest'.
Proof.
  intros U; induction l as [|(((t, o), us), b) l IH]; intros [|(((t', o'), us'), b') l'] rest rest' LE F F' ST ST' EQ.
  - auto.
  - exfalso; inversion F' as [|? ? (T & _) _]; subst; cbn in EQ; subst rest; destruct ST as (_ & _ & ST); apply (ST _ _ (le_n _) T).
  - exfalso; inversion F as [|? ? (T & _) _]; subst; cbn in EQ; subst rest'; destruct ST' as (_ & _ & ST'); apply (ST' _ _ (le_n _) T).
  - inversion F as [|? ? (T & H) F1]; inversion F' as [|? ? (T' & H') F1']; subst; cbn [fst snd] in *.
    cbn [flat flat_map fst snd app] in EQ |- *; fold (flat l) in *; fold (flat l') in *.
    injection EQ as <- EQ; rewrite <- !app_assoc in EQ.
    cbn [flat flat_map fst snd app List.length] in LE; fold (flat l) in LE; rewrite app_length in LE.
    destruct (U us b us' b' (flat l ++ rest) (flat l' ++ rest')) as (-> & -> & EQ2);
      [lia|assumption|assumption|apply parts_stop; assumption|apply parts_stop; assumption|exact EQ|].
    assert (o = o') by (inversion T; subst; inversion T'; reflexivity); subst o'.
    destruct (IH l' rest rest') as (A & B & C); [lia|assumption..|].
    rewrite A; repeat split; [|exact C]; intros c; exact (B _).
Qed.

Lemma sign_not_op k t s o : sign_tok t s -> op_tok k t o -> k = 3.
Proof. intros [|] T; inversion T; reflexivity. Qed.

Lemma usual0_start ts b : usual L 0 ts b -> forall r t s, ts = t :: r -> ~ sign_tok t s.
Proof.
  intros H; inversion H; subst; intros r t s E SG.
  - pose proof (proj1 (proj2 (proj2 (starts L))) _ _ (leaf_atom _ _ H0)) as A; rewrite E in A; destruct SG; exact A.
  - injection E as <- E; inversion SG.
Qed.

Lemma leaf_no_paren ts e r : leaf_text L ts e -> ts <> TSym LPar :: r.
Proof.
  intros H; inversion H as [us x C|s R|s|us x I X|s g N|us x C]; subst; try discriminate.
  - destruct (proj1 (proj2 (proj2 (proj2 (starts L)))) _ _ C) as (f & q & ->); discriminate.
  - inversion X; subst; discriminate.
  - inversion C; subst; discriminate.
Qed.
Lemma stop_rpar k r : stop k (TSym RPar :: r).
Proof. repeat split; try discriminate; intros j o _ T; inversion T. Qed.
Lemma stop_pow r : stop 0 (TSym Pow :: r).
Proof. repeat split; try discriminate; intros j o LE T; inversion T; lia. Qed.
Lemma not_stop_pow r : ~ stop 1 (TSym Pow :: r).
Proof. intros (_ & _ & H); exact (H 1 OPow (le_n 1) ot_pow). Qed.
Lemma leaf_not_par ts e rest us rest' : leaf_text L ts e -> ts ++ rest <> (TSym LPar :: us) ++ rest'.
Proof.
  intros H E; destruct ts as [|t ts]; [exact (proj1 (proj2 (proj2 (starts L))) _ _ (leaf_atom _ _ H))|].
  cbn [app] in E; injection E as -> _; exact (leaf_no_paren _ _ _ H eq_refl).
Qed.

Lemma unique0 n : unique_below n 3 -> unique_below (S n) 0.
Proof.
  intros U ts b ts' b' rest rest' LE H H' ST ST' E.
  inversion H as [us e X|us c X| | | | | | |]; subst; inversion H' as [us' e' X'|us' c' X'| | | | | | |]; subst.
  - destruct (atom_prefix ts e rest ts' e' rest') as (-> & -> & ->); auto using leaf_atom.
  - exfalso; exact (leaf_not_par _ _ _ _ _ X E).
  - exfalso; symmetry in E; exact (leaf_not_par _ _ _ _ _ X' E).
  - cbn [app] in E; injection E as E; rewrite <- !app_assoc in E; cbn [app] in E.
    cbn [List.length] in LE; rewrite app_length in LE; cbn [List.length] in LE.
    destruct (U us c us' c' (TSym RPar :: rest) (TSym RPar :: rest')) as (-> & -> & R);
      [lia|assumption|assumption|apply stop_rpar|apply stop_rpar|exact E|].
    injection R as ->; auto.
Qed.
Lemma unique1 n : unique_below n 1 -> unique_below (S n) 0 -> unique_below (S n) 1.
Proof.
  intros U U0 ts b ts' b' rest rest' LE H H' ST ST' E.
  assert (ST0 : stop 0 rest) by (apply (stop_le 1); [lia|exact ST]).
  assert (ST0' : stop 0 rest') by (apply (stop_le 1); [lia|exact ST']).
  assert (SG : forall x xs y ys (r r' : list tok), usual L 0 (x :: xs) y -> sign_tok x ys -> False).
  { intros x xs y ys r r' A B; exact (usual0_start _ _ A _ _ _ eq_refl B). }
  inversion H as [| |us c X|t s us c T X|us a vs c X Y| | | |]; subst;
  inversion H' as [| |us' c' X'|t' s' us' c' T' X'|us' a' vs' c' X' Y'| | | |]; subst.
  - destruct (U0 ts b ts' b' rest rest') as (-> & -> & ->); auto.
  - exfalso; destruct ts as [|x ts]; [exact (usual_nonempty _ _ _ X eq_refl)|].
    cbn [app] in E; injection E as -> _; exact (usual0_start _ _ X _ _ _ eq_refl T').
  - exfalso; rewrite <- app_assoc in E; cbn [app] in E.
    destruct (U0 ts b us' a' rest (TSym Pow :: vs' ++ rest')) as (-> & -> & ->); auto using stop_pow.
    exact (not_stop_pow _ ST).
  - exfalso; destruct ts' as [|x ts']; [exact (usual_nonempty _ _ _ X' eq_refl)|].
    cbn [app] in E; injection E as -> _; exact (usual0_start _ _ X' _ _ _ eq_refl T).
  - cbn [app] in E; injection E as -> E; cbn [List.length] in LE.
    destruct (U us c us' c' rest rest') as (-> & -> & ->); auto; [lia|].
    assert (s = s') by (inversion T; subst; inversion T'; reflexivity); subst; auto.
  - exfalso; destruct us' as [|x us']; [exact (usual_nonempty _ _ _ X' eq_refl)|].
    cbn [app] in E; injection E as -> _; exact (usual0_start _ _ X' _ _ _ eq_refl T).
  - exfalso; rewrite <- app_assoc in E; cbn [app] in E; rewrite app_length in LE.
    destruct (U0 us a ts' b' (TSym Pow :: vs ++ rest) rest') as (-> & -> & <-); auto using stop_pow; [lia|].
    exact (not_stop_pow _ ST').
  - exfalso; destruct us as [|x us]; [exact (usual_nonempty _ _ _ X eq_refl)|].
    cbn [app] in E; injection E as -> _; exact (usual0_start _ _ X _ _ _ eq_refl T').
  - rewrite <- !app_assoc in E; cbn [app] in E; rewrite app_length in LE; cbn [List.length] in LE.
    destruct (U0 us a us' a' (TSym Pow :: vs ++ rest) (TSym Pow :: vs' ++ rest')) as (-> & -> & R); auto using stop_pow; [lia|].
    injection R as R; destruct (U vs c vs' c' rest rest') as (-> & -> & ->); auto; lia.
Qed.
Lemma unique_up n k : 1 <= k -> unique_below n k -> unique_below (S n) k -> unique_below (S n) (S k).
Proof.
  intros G U US ts b ts' b' rest rest' LE H H' ST ST' E.
  apply usual_parts in H as (hs & h & l & HU & F & -> & ->); [|exact G].
  apply usual_parts in H' as (hs' & h' & l' & HU' & F' & -> & ->); [|exact G].
  rewrite <- !app_assoc in E; rewrite app_length in LE.
  destruct (US hs h hs' h' (flat l ++ rest) (flat l' ++ rest')) as (-> & -> & R); [lia|assumption|assumption|apply parts_stop; assumption|apply parts_stop; assumption|exact E|].
  pose proof (usual_nonempty _ _ _ HU) as NE; destruct hs' as [|x hs']; [congruence|]; cbn [List.length] in LE.
  destruct (parts_unique n k U l l' rest rest') as (-> & B & ->); [lia|assumption..|].
  rewrite B; auto.
Qed.
Lemma usual_unique_below n : unique_below n 0 /\ unique_below n 1 /\ unique_below n 2 /\ unique_below n 3.
Proof.
  induction n as [|n (U0 & U1 & U2 & U3)]; [split; [|split; [|split]]; intros ts b ts' b' r r' LE; lia|].
  assert (A : unique_below (S n) 0) by (apply unique0; exact U3).
  assert (B : unique_below (S n) 1) by (apply unique1; assumption).
  assert (C : unique_below (S n) 2) by (apply unique_up; [lia|assumption..]).
  assert (D : unique_below (S n) 3) by (apply unique_up; [lia|assumption..]).
  auto.
Qed.
Lemma usual_unique ts b b' : usual L 3 ts b -> usual L 3 ts b' -> b = b'.
Proof.
  intros H H'; destruct (usual_unique_below (S (List.length ts))) as (_ & _ & _ & U).
  destruct (U ts b ts b' [] []) as (_ & E & _); [lia|assumption|assumption|exact Logic.I|exact Logic.I|reflexivity|exact E].
Qed.

(** ** The two readings compared *)
Lemma chain_snoc k us ops t o ts e : chain L (S k) us ops -> op_tok (S k) t o -> level L k ts e ->
  chain L (S k) (us ++ t :: ts) (ops ++ [(o, e)]).
Proof.
  intros H T X; remember (S k) as m eqn:EM.
  revert k EM T X; induction H as [l t0 o0 ts0 e0 T0 X0|l t0 o0 ts0 e0 us ops T0 X0 H IH]; intros k EM T X; injection EM as <-.
  - apply (ch_cons L l t0 o0 ts0 e0 (t :: ts) [(o, e)]); [assumption..|]; apply ch_one; assumption.
  - cbn [app]; rewrite <- app_assoc; apply ch_cons; [assumption..|]; apply (IH l); auto.
Qed.

(** A head followed by operators, or nothing. *)
Definition tail (k : nat) (us : list tok) (ops : list (op * expr)) : Prop :=
  us = [] /\ ops = [] \/ chain L (S k) us ops.
Lemma tail_level k ts e us ops : k < 3 -> level L k ts e -> tail k us ops ->
  exists e', level L (S k) (ts ++ us) e' /\ bin e' = fold_left (fun b x => BBin (fst x) b (bin (snd x))) ops (bin e).
Proof.
  intros LT H [(-> & ->)|C].
  - exists e; rewrite app_nil_r; split; [apply lv_up; assumption|reflexivity].
  - exists (EChain e ops); split; [apply lv_chain; assumption|reflexivity].
Qed.
Lemma tail_snoc k us ops t o ts e : tail k us ops -> op_tok (S k) t o -> level L k ts e ->
  tail k (us ++ t :: ts) (ops ++ [(o, e)]).
Proof.
  intros [(-> & ->)|C] T X; right; [apply ch_one; assumption|apply chain_snoc; assumption].
Qed.
Definition shape (k : nat) (ts : list tok) (b : bexpr) : Prop :=
  match k with
  | 0 => exists e, atom L ts e /\ bin e = regroup b /\ spine b = (regroup b, [])
  | 1 => exists hs h us ops, ts = hs ++ us /\ level L 0 hs h /\ tail 0 us ops /\
           Forall (fun x => fst x = OPow) ops /\ spine b = (bin h, map (fun x => bin (snd x)) ops)
  | S (S j) => exists hs h us ops, ts = hs ++ us /\ level L (S j) hs h /\ tail (S j) us ops /\
           fold_left (fun b x => BBin (fst x) b (bin (snd x))) ops (bin h) = regroup b
  end.
Lemma fold_powers ops b : Forall (fun x => fst x = OPow) ops ->
  fold_left (fun b x => BBin (fst x) b (bin (snd x))) ops b = fold_left (BBin OPow) (map (fun x : op * expr => bin (snd x)) ops) b.
Proof. intros F; revert b; induction F as [|(o, e) ops E F IH]; intros b; [reflexivity|]; cbn in *; subst; apply IH. Qed.
Lemma shape1_level ts b : shape 1 ts b -> exists e, level L 1 ts e /\ bin e = regroup b.
Proof.
  intros (hs & h & us & ops & -> & H & T & F & S1).
  destruct (tail_level 0 hs h us ops) as (e & X & Y); [lia|assumption..|]; exists e; split; [exact X|].
  rewrite Y, fold_powers by exact F; unfold regroup, powers; rewrite S1; reflexivity.
Qed.
Lemma shape_up_level k ts b : k < 2 -> shape (S (S k)) ts b -> exists e, level L (S (S k)) ts e /\ bin e = regroup b.
Proof.
  intros LT (hs & h & us & ops & -> & H & T & E).
  destruct (tail_level (S k) hs h us ops) as (e & X & Y); [lia|assumption..|]; exists e; split; [exact X|congruence].
Qed.
Lemma regroup_bin o a b : o <> OPow -> regroup (BBin o a b) = BBin o (regroup a) (regroup b).
Proof. destruct o; intros H; try reflexivity; congruence. Qed.
Lemma op2_not_pow k t o : op_tok (S (S k)) t o -> o <> OPow.
Proof. intros T ->; inversion T. Qed.
Lemma usual_shape k ts b : usual L k ts b -> shape k ts b.
Proof.
  induction 1 as [ts e H|ts b H IH|ts b H IH|t s ts b T H IH|ts a us b H IH H2 IH2|ts b H IH|ts a t o us b H IH T H2 IH2
                 |ts b H IH|ts a t o us b H IH T H2 IH2].
  - exists e; split; [apply leaf_atom, H|].
    assert (B : bin e = BLeaf e).
    { destruct H as [us x C| | |us x _ X| |us x C]; try reflexivity; [destruct C|destruct X|destruct C]; reflexivity. }
    rewrite B; split; reflexivity.
  - apply (shape_up_level 1) in IH as (e & X & Y); [|lia]; exists e; split; [apply at_par, X|].
    split; [exact Y|reflexivity].
  - destruct IH as (e & A & B & C); exists ts, e, [], []; rewrite app_nil_r; repeat split; [apply lv_atom, A|left; auto|constructor|].
    cbn [map]; rewrite B; exact C.
  - destruct IH as (hs & h & us & ops & -> & HL & TL & F & S1).
    exists (t :: hs), (ESign s h), us, ops; repeat split; [apply lv_sign; assumption|exact TL|exact F|].
    cbn [spine bin]; rewrite S1; reflexivity.
  - destruct IH as (e & A & B & C); destruct IH2 as (hs & h & vs & ops & -> & HL & TL & F & S1).
    exists ts, e, (TSym Pow :: hs ++ vs), ((OPow, h) :: ops); repeat split; [apply lv_atom, A| |constructor; auto|].
    + right; destruct TL as [(-> & ->)|TL]; [rewrite app_nil_r; apply ch_one|apply ch_cons]; auto using ot_pow.
    + cbn [spine map snd]; rewrite S1; cbn [fst snd]; fold (regroup a); rewrite B; reflexivity.
  - apply shape1_level in IH as (e & X & Y); exists ts, e, [], []; rewrite app_nil_r; repeat split; [exact X|left; auto|exact Y].
  - apply shape1_level in IH2 as (e & X & Y); destruct IH as (hs & h & vs & ops & -> & HL & TL & FE).
    exists hs, h, (vs ++ t :: us), (ops ++ [(o, e)]); rewrite <- app_assoc; repeat split; [exact HL|apply tail_snoc; assumption|].
    rewrite fold_left_app, FE; cbn [fold_left fst snd]; rewrite Y, regroup_bin; [reflexivity|apply (op2_not_pow _ _ _ T)].
  - apply (shape_up_level 0) in IH as (e & X & Y); [|lia]; exists ts, e, [], []; rewrite app_nil_r; repeat split; [exact X|left; auto|exact Y].
  - apply (shape_up_level 0) in IH2 as (e & X & Y); [|lia]; destruct IH as (hs & h & vs & ops & -> & HL & TL & FE).
    exists hs, h, (vs ++ t :: us), (ops ++ [(o, e)]); rewrite <- app_assoc; repeat split; [exact HL|apply tail_snoc; assumption|].
    rewrite fold_left_app, FE; cbn [fold_left fst snd]; rewrite Y, regroup_bin; [reflexivity|apply (op2_not_pow _ _ _ T)].
Qed.
Lemma usual_parse ts b : usual L 3 ts b -> exists e, parse_arith L ts = Some e /\ bin e = regroup b.
Proof.
  intros H; apply usual_shape, (shape_up_level 1) in H as (e & X & Y); [|lia]; exists e; split; [apply arith_iff; assumption|exact Y].
Qed.

(** Every accepted text has a usual reading. *)
Definition operand (ts : list tok) : Prop :=
  (exists b, usual L 1 ts b) /\ (forall us c, usual L 1 us c -> exists b, usual L 1 (ts ++ TSym Pow :: us) b).
Lemma level_usual :
  (forall l ts e, level L l ts e ->
     match l with 0 => operand ts | _ => exists b, usual L l ts b end) /\
  (forall l ts o, chain L l ts o ->
     match l with
     | 0 => True
     | 1 => exists us, ts = TSym Pow :: us /\ exists c, usual L 1 us c
     | _ => forall hs h, usual L l hs h -> exists b, usual L l (hs ++ ts) b
     end) /\
  (forall ts e, atom L ts e -> exists b, usual L 0 ts b) /\
  (forall ts e, call L ts e -> True) /\ (forall ts l, args L ts l -> True) /\
  (forall ts k, kws L ts k -> True) /\ (forall ts e, arg L ts e -> True).
Proof.
  apply grammar_ind; try (intros; exact Logic.I).
  - intros t b ts e T H ((c & IH1) & IH2); split; [exists (BSign b c); apply us_sign; assumption|].
    intros us d D; destruct (IH2 us d D) as (b' & X); exists (BSign b b'); cbn [app]; apply us_sign; assumption.
  - intros ts e H (b & IH); split; [exists b; apply us_atom, IH|]; intros us c D; exists (BBin OPow b c); apply us_pow; assumption.
  - intros l ts e LT H IH; destruct l as [|[|[|]]]; [|destruct IH as (b & X)..|lia].
    + exact (proj1 IH).
    + exists b; apply us_prod, X.
    + exists b; apply us_sum, X.
  - intros l ts e us ops LT H IH C IHC; destruct l as [|[|[|]]]; [|destruct IH as (b & X)..|lia].
    + destruct IHC as (vs & -> & c & D); exact (proj2 IH vs c D).
    + apply (IHC ts b), us_prod, X.
    + apply (IHC ts b), us_sum, X.
  - intros l t o ts e T H IH; destruct l as [|[|[|]]]; [inversion T; subst; exists ts; split; [reflexivity|exact (proj1 IH)]|..].
    + intros hs h U; destruct IH as (b & X); exists (BBin o h b); apply us_mul; assumption.
    + intros hs h U; destruct IH as (b & X); exists (BBin o h b); apply us_add; assumption.
    + inversion T.
  - intros l t o ts e us ops T H IH C IHC; destruct l as [|[|[|]]]; [inversion T; subst| | |inversion T].
    + destruct IHC as (vs & -> & c & D); exists (ts ++ TSym Pow :: vs); split; [reflexivity|exact (proj2 IH vs c D)].
    + intros hs h U; destruct IH as (b & X); replace (hs ++ t :: ts ++ us) with ((hs ++ t :: ts) ++ us) by (rewrite <- app_assoc; reflexivity).
      apply (IHC _ (BBin o h b)), us_mul; assumption.
    + intros hs h U; destruct IH as (b & X); replace (hs ++ t :: ts ++ us) with ((hs ++ t :: ts) ++ us) by (rewrite <- app_assoc; reflexivity).
      apply (IHC _ (BBin o h b)), us_add; assumption.
  - intros ts e H _; exists (BLeaf e); apply us_leaf, lt_call, H.
  - intros s H; exists (BLeaf (ERef s)); apply us_leaf, lt_ref, H.
  - intros s; exists (BLeaf (ENum false s)); apply us_leaf, lt_num.
  - intros ts e HI H; exists (BLeaf e); apply us_leaf, lt_index; assumption.
  - intros s g H; exists (BLeaf (EName s)); apply us_leaf, lt_name, H.
  - intros ts e H; exists (BLeaf e); apply us_leaf, lt_conf, H.
  - intros ts e H (b & IH); exists (BPar b); apply us_par, IH.
Qed.
End Usual.

(** Explicitly bracketed texts. *)
Lemma not_pow_spine b : is_pow (under_signs b) = false -> snd (spine b) = [].
Proof. induction b as [e|s b IH|o a IHa b IHb|b IH]; intros H; cbn in *; auto; destruct o; auto; discriminate. Qed.
Lemma explicit_regroup b : explicit b = true -> regroup b = erase b.
Proof.
  induction b as [e|s b IH|o a IHa b IHb|b IH]; intros H; cbn [explicit] in H.
  - reflexivity.
  - apply andb_true_iff in H as (H1 & H2); apply negb_true_iff in H1; specialize (IH H2); pose proof (not_pow_spine _ H1) as N.
    unfold regroup, powers in *; cbn [spine erase fst snd]; rewrite N in *; cbn [fold_left] in *; rewrite IH; reflexivity.
  - destruct o; try (apply andb_true_iff in H as (H1 & H2); rewrite regroup_bin by discriminate; rewrite IHa, IHb by assumption; reflexivity).
    apply andb_true_iff in H as (H & H2); apply andb_true_iff in H as (H1 & H3); apply negb_true_iff in H1.
    specialize (IHa H3); specialize (IHb H2); pose proof (not_pow_spine _ H1) as N.
    unfold regroup; cbn [spine erase]; fold (regroup a); rewrite IHa, N; unfold powers; cbn [fst snd fold_left].
    unfold regroup, powers in IHb; rewrite N in IHb; cbn [fold_left] in IHb; rewrite IHb; reflexivity.
  - exact (IH H).
Qed.
Lemma denotes_erase leaf b q : denotes leaf b q <-> denotes leaf (erase b) q.
Proof.
  split.
  - induction 1; cbn [erase]; try assumption; econstructor; eassumption.
  - revert q; induction b as [e|s b IH|o a IHa b IHb|b IH]; intros q H; cbn [erase] in H; try (apply dn_par, IH, H); try assumption;
      inversion H; subst; econstructor; eauto.
Qed.
