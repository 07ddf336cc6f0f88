(** Proofs for piecewise constraints. *)
From Verif Require Import Base CurveModel CurveSpec.
From Coq Require Import QArith Sorted Lqa Lia.
Local Open Scope list_scope.

Lemma dropna_given xs ys : aligned xs ys -> List.length (dropna xs) = List.length (dropna ys) /\ given xs ys (combine (dropna xs) (dropna ys)).
Proof.
  intros A; induction A as [|a b xs ys E A (IL & IG)]; [split; constructor|].
  destruct a as [x|], b as [y|]; [| | |].
  - cbn [dropna combine List.length]; split; [rewrite IL; reflexivity|apply gi_both; exact IG].
  - destruct E as [_ E]; specialize (E eq_refl); discriminate.
  - destruct E as [E _]; specialize (E eq_refl); discriminate.
  - cbn [dropna]; split; [exact IL|apply gi_no_x; exact IG].
Qed.
Lemma given_fun xs ys c c' : given xs ys c -> given xs ys c' -> c = c'.
Proof.
  intros G; revert c'; induction G; intros c' H; inversion H; subst; try reflexivity; try (f_equal; apply IHG; assumption); try (apply IHG; assumption).
Qed.

(** * Curves *)
Lemma joined_cons a b r x y : joined (a :: b :: r) x y <->
  (exists t, 0 <= t <= 1 /\ x == fst a + t * (fst b - fst a) /\ y == snd a + t * (snd b - snd a)) \/ joined (b :: r) x y.
Proof.
  split.
  - intros J; inversion J as [|pre a' b' post t x' y' T X Y E]; subst; destruct pre as [|z pre]; cbn [app] in E; [injection E as -> -> <-; left; exists t; split; [exact T|split; assumption]|injection E as -> E].
    right; rewrite <- E; apply (jo_piece pre a' b' post t); assumption.
  - intros [(t & T & X & Y)|J]; [exact (jo_piece [] a b r t x y T X Y)|].
    remember (b :: r) as c eqn:C; destruct J as [z x y X Y|pre a' b' post t x y T X Y].
    + subst; apply (jo_piece [] a z [] 1 x y); [lra|rewrite X; ring|rewrite Y; ring].
    + rewrite app_comm_cons; apply (jo_piece (a :: pre) a' b' post t); assumption.
Qed.
Lemma joined_one a x y : joined [a] x y <-> x == fst a /\ y == snd a.
Proof.
  split; [|intros (X & Y); apply jo_point; assumption].
  intros J; inversion J as [|pre a' b' post t x' y' T X Y E]; subst; [split; assumption|]; destruct pre as [|z [|? ?]]; discriminate.
Qed.
Lemma joined_nil x y : ~ joined [] x y.
Proof. intros J; inversion J as [|pre ? ? ? ? ? ? ? ? ? E]; destruct pre; discriminate. Qed.

(** * Weights *)
Lemma qdot_cons w ws x xs : qdot (w :: ws) (x :: xs) == w * x + qdot ws xs.
Proof. reflexivity. Qed.
Lemma zeros ws : (forall i, nth i ws 0 == 0) -> fold_right Qplus 0 ws == 0 /\ forall xs, qdot ws xs == 0.
Proof.
  induction ws as [|w ws IH]; intros Z; [split; [reflexivity|intros xs; reflexivity]|].
  destruct IH as (S & D); [intros i; exact (Z (Datatypes.S i))|]; pose proof (Z O) as W; cbn [nth] in W; split; [cbn [fold_right]; rewrite S, W; ring|].
  intros [|x xs]; [reflexivity|]; rewrite qdot_cons, D, W; ring.
Qed.
Lemma nth_repeat0 n i : nth i (repeat 0 n) 0 == 0.
Proof. revert i; induction n as [|n IH]; intros [|i]; try reflexivity; apply IH. Qed.

Lemma weighted_joined c : forall x y, weighted c x y -> joined c x y.
Proof.
  induction c as [|a c IH]; intros x y (ws & LN & P & S & AD & X & Y).
  { destruct ws; [|discriminate]; cbn in S; exfalso; revert S; discriminate. }
  destruct c as [|b r].
  - destruct ws as [|w [|? ?]]; try discriminate; cbn [fold_right] in S; cbn [map] in X, Y; rewrite qdot_cons in X, Y; cbn in X, Y.
    assert (W : w == 1) by lra; apply jo_point; [rewrite <- X, W|rewrite <- Y, W]; ring.
  - destruct ws as [|w0 [|w1 wr]]; try discriminate; apply joined_cons; destruct (Qeq_dec w0 0) as [Z|Z].
    + right; apply IH; exists (w1 :: wr); split; [injection LN as LN; cbn [List.length]; rewrite LN; reflexivity|]; split; [intros w I; apply P; right; exact I|].
      split; [cbn [fold_right] in *; lra|split; [|split]].
      * intros i j I J; destruct (AD (Datatypes.S i) (Datatypes.S j) I J); split; lia.
      * cbn [map] in *; rewrite qdot_cons in X; rewrite <- X, Z; ring.
      * cbn [map] in *; rewrite qdot_cons in Y; rewrite <- Y, Z; ring.
    + left; assert (N : forall i, nth i wr 0 == 0).
      { intros i; destruct (Qeq_dec (nth i wr 0) 0) as [E|E]; [exact E|]; destruct (AD O (Datatypes.S (Datatypes.S i)) Z E); lia. }
      destruct (zeros wr N) as (SZ & DZ); cbn [fold_right] in S; rewrite SZ in S; cbn [map] in X, Y; rewrite !qdot_cons, DZ in X, Y.
      pose proof (P w0 (or_introl eq_refl)); pose proof (P w1 (or_intror (or_introl eq_refl))); exists w1; split; [lra|].
      assert (W : w0 == 1 - w1) by lra; split; [rewrite <- X, W|rewrite <- Y, W]; ring.
Qed.
Lemma joined_weighted c : forall x y, joined c x y -> weighted c x y.
Proof.
  induction c as [|a c IH]; intros x y J; [destruct (joined_nil _ _ J)|]; destruct c as [|b r].
  - apply joined_one in J as (X & Y); exists [1]; split; [reflexivity|split; [intros w [<-|[]]; lra|split; [reflexivity|split]]].
    + intros [|[|i]] [|[|j]] I K; cbn in I, K; try (split; lia); exfalso; solve [apply I; reflexivity | apply K; reflexivity].
    + cbn [map]; rewrite !qdot_cons; cbn; split; lra.
  - apply joined_cons in J as [(t & T & X & Y)|J].
    + exists ((1 - t) :: t :: repeat 0 (List.length r)); split; [cbn [List.length]; rewrite repeat_length; reflexivity|].
      destruct (zeros (repeat 0 (List.length r)) (nth_repeat0 _)) as (SZ & DZ).
      split; [intros w [<-|[<-|I]]; [lra|lra|apply repeat_spec in I as ->; lra]|split; [cbn [fold_right]; rewrite SZ; ring|split]].
      * intros [|[|i]] [|[|j]] I K; try (split; lia); exfalso; solve [apply I; apply nth_repeat0 | apply K; apply nth_repeat0].
      * cbn [map]; rewrite !qdot_cons, !DZ, X, Y; split; ring.
    + destruct (IH _ _ J) as (ws & LN & P & S & AD & X & Y); exists (0 :: ws); split; [cbn [List.length] in *; rewrite LN; reflexivity|].
      split; [intros w [<-|I]; [lra|exact (P w I)]|split; [cbn [fold_right]; rewrite S; ring|split]].
      * intros [|i] [|j] I K; try (exfalso; solve [apply I; reflexivity | apply K; reflexivity]); destruct (AD i j I K); split; lia.
      * set (cc := b :: r) in *; cbn [map]; rewrite !qdot_cons, X, Y; split; ring.
Qed.

(** * The function of an ascending curve *)
Lemma ascending_inv a b r : ascending (a :: b :: r) -> fst a < fst b /\ ascending (b :: r).
Proof. intros A; apply Sorted_inv in A as (A & H); apply HdRel_inv in H; split; assumption. Qed.
Lemma joined_low b r : ascending (b :: r) -> forall x y, joined (b :: r) x y -> fst b <= x /\ (x == fst b -> y == snd b).
Proof.
  revert b; induction r as [|c r IH]; intros b A x y J; [apply joined_one in J as (X & Y); split; [lra|intros _; exact Y]|].
  apply ascending_inv in A as (L & A); apply joined_cons in J as [(t & T & X & Y)|J].
  - split; [nra|]; intros E; assert (Z : t * (fst c - fst b) == 0) by lra.
    assert (TZ : t == 0) by (destruct (Qmult_integral _ _ Z) as [Z0|Z0]; [exact Z0|exfalso; lra]); rewrite Y, TZ; ring.
  - destruct (IH c A x y J) as (X & _); split; [lra|intros E; exfalso; lra].
Qed.
Lemma line_at a b t x y : fst a < fst b -> x == fst a + t * (fst b - fst a) -> y == snd a + t * (snd b - snd a) -> line a b x == y.
Proof. intros L X Y; unfold line; rewrite X, Y; field; lra. Qed.
Lemma line_end a b x : fst a < fst b -> x == fst b -> line a b x == snd b.
Proof. intros L X; unfold line; rewrite X; field; lra. Qed.
Lemma joined_through c : ascending c -> (2 <= List.length c)%nat -> forall x y, joined c x y -> exists q, through c x = Some q /\ q == y.
Proof.
  induction c as [|a c IH]; intros A LN x y J; [cbn in LN; lia|]; destruct c as [|b r]; [cbn in LN; lia|].
  apply ascending_inv in A as (L & A); apply joined_cons in J; destruct r as [|d r].
  - exists (line a b x); split; [reflexivity|]; destruct J as [(t & T & X & Y)|J]; [exact (line_at a b t x y L X Y)|].
    apply joined_one in J as (X & Y); rewrite Y; apply line_end; assumption.
  - assert (U : through (a :: b :: d :: r) x = if Qle_bool x (fst b) then Some (line a b x) else through (b :: d :: r) x) by reflexivity; rewrite U.
    destruct (Qle_bool x (fst b)) eqn:B.
    + apply Qle_bool_iff in B; exists (line a b x); split; [reflexivity|]; destruct J as [(t & T & X & Y)|J]; [exact (line_at a b t x y L X Y)|].
      destruct (joined_low b _ A x y J) as (X & Y); assert (E : x == fst b) by lra; rewrite (Y E); apply line_end; assumption.
    + assert (NB : fst b < x) by (apply Qnot_le_lt; intros H; apply Qle_bool_iff in H; congruence).
      destruct J as [(t & T & X & Y)|J]; [exfalso; nra|]; apply IH; [exact A|cbn; lia|exact J].
Qed.
Lemma through_joined c : ascending c -> (2 <= List.length c)%nat -> forall x q, fst (hd (0, 0) c) <= x <= fst (last c (0, 0)) -> through c x = Some q -> joined c x q.
Proof.
  induction c as [|a c IH]; intros A LN x q R E; [cbn in LN; lia|]; destruct c as [|b r]; [cbn in LN; lia|].
  apply ascending_inv in A as (L & A); cbn [hd] in R; apply joined_cons.
  assert (SEG : x <= fst b -> line a b x == q -> exists t, 0 <= t <= 1 /\ x == fst a + t * (fst b - fst a) /\ q == snd a + t * (snd b - snd a)).
  { intros B Q; exists ((x - fst a) / (fst b - fst a)); split; [split|split].
    - apply Qle_shift_div_l; lra.
    - apply Qle_shift_div_r; lra.
    - field; lra.
    - rewrite <- Q; unfold line; field; lra. }
  destruct r as [|d r].
  - left; cbn [last] in R; apply SEG; [lra|]; cbn in E; injection E as <-; reflexivity.
  - assert (U : through (a :: b :: d :: r) x = if Qle_bool x (fst b) then Some (line a b x) else through (b :: d :: r) x) by reflexivity; rewrite U in E.
    destruct (Qle_bool x (fst b)) eqn:B.
    + left; apply Qle_bool_iff in B; apply SEG; [exact B|]; injection E as <-; reflexivity.
    + right; assert (NB : fst b < x) by (apply Qnot_le_lt; intros H; apply Qle_bool_iff in H; congruence).
      apply IH; [exact A|cbn; lia|split; [cbn [hd]; lra|apply R]|exact E].
Qed.
Lemma joined_high c : ascending c -> forall x y, joined c x y -> x <= fst (last c (0, 0)).
Proof.
  induction c as [|a c IH]; intros A x y J; [destruct (joined_nil _ _ J)|]; destruct c as [|b r]; [apply joined_one in J as (X & _); cbn [last]; lra|].
  apply ascending_inv in A as (L & A); assert (LE : last (a :: b :: r) (0, 0) = last (b :: r) (0, 0)) by reflexivity; rewrite LE.
  apply joined_cons in J as [(t & T & X & Y)|J]; [|exact (IH A x y J)].
  assert (B : joined (b :: r) (fst b) (snd b)) by (destruct r as [|d r]; [apply joined_one; split; reflexivity|apply joined_cons; left; exists 0; split; [lra|split; ring]]).
  pose proof (IH A _ _ B); nra.
Qed.
Lemma joined_at c : forall a, In a c -> joined c (fst a) (snd a).
Proof.
  induction c as [|z c IH]; intros a []; [subst z|]; destruct c as [|b r].
  - apply joined_one; split; reflexivity.
  - apply joined_cons; left; exists 0; split; [lra|split; ring].
  - destruct H.
  - apply joined_cons; right; apply IH; assumption.
Qed.

(** * Backends *)
Section Backend.
Context {L : Type}.
Variable accept : L -> curve -> bool.
Lemma make_curve p l c : make accept p l = Ok c -> List.length (dropna (p_x p l)) = List.length (dropna (p_y p l)) /\ nondecreasing (dropna (p_x p l)) = true /\ c = combine (dropna (p_x p l)) (dropna (p_y p l)).
Proof.
  unfold make; cbv zeta; destruct (Nat.eqb_spec (List.length (dropna (p_x p l))) (List.length (dropna (p_y p l)))) as [E|E]; cbn [andb]; [|discriminate].
  destruct (nondecreasing (dropna (p_x p l))); cbn [andb]; [|discriminate]; destruct (accept l _); [|discriminate]; intros H; injection H as <-; split; [exact E|split; reflexivity].
Qed.
Lemma make_all_ok p ls cs : make_all accept p ls = (cs, None) -> Forall2 (fun l x => fst x = l /\ make accept p l = Ok (snd x)) ls cs.
Proof.
  revert cs; induction ls as [|l ls IH]; intros cs E; cbn [make_all] in E; [injection E as <-; constructor|].
  destruct (make accept p l) as [c|] eqn:M; [|discriminate]; destruct (make_all accept p ls) as [cs' e]; injection E as <- ->; constructor; [split; [reflexivity|exact M]|exact (IH cs' eq_refl)].
Qed.
Lemma make_all_err p ls cs e : make_all accept p ls = (cs, Some e) -> e = EBackend /\ exists l, In l ls /\ make accept p l = Err EBackend.
Proof.
  revert cs; induction ls as [|l ls IH]; intros cs E; cbn [make_all] in E; [discriminate|].
  destruct (make accept p l) as [c|e'] eqn:M.
  - destruct (make_all accept p ls) as [cs' e']; injection E as <- ->; destruct (IH cs' eq_refl) as (-> & l' & I & M'); split; [reflexivity|exists l'; split; [right; exact I|exact M']].
  - injection E as <- ->; assert (e = EBackend) as -> by (revert M; unfold make; cbv zeta; destruct (_ && _); intros H; [discriminate|injection H as <-; reflexivity]); split; [reflexivity|exists l; split; [left; reflexivity|exact M]].
Qed.
Lemma make_all_bad p ls l : In l ls -> make accept p l = Err EBackend -> exists cs, make_all accept p ls = (cs, Some EBackend).
Proof.
  induction ls as [|k ls IH]; intros []; cbn [make_all]; [subst k; intros ->; eauto|].
  intros M; destruct (make accept p k) as [c|e] eqn:K.
  - destruct (IH H M) as (cs & ->); eauto.
  - assert (e = EBackend) as -> by (revert K; unfold make; cbv zeta; destruct (_ && _); intros E; [discriminate|injection E as <-; reflexivity]); eauto.
Qed.
End Backend.
