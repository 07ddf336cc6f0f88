(** Numbers as they are written. *)
From Coq Require Import QArith Qcanon Lia.
From Verif Require Import Base LangModel LangSpec EvalModel EvalSpec.
Local Open Scope nat_scope.
Local Open Scope string_scope.
Local Open Scope list_scope.

Lemma digit_written d : d <= 9 -> digit (digit_char d) = Z.of_nat d /\ Ascii.eqb (digit_char d) "." = false /\
  Ascii.eqb (digit_char d) "e" = false /\ Ascii.eqb (digit_char d) "E" = false.
Proof. intros H; do 10 (destruct d as [|d]; [repeat split; reflexivity|]); lia. Qed.
Lemma digits_app acc ds : all_digits ds -> digits acc (written ds) = (acc * 10 ^ Z.of_nat (List.length ds) + whole ds)%Z.
Proof.
  intros H; revert acc; induction H as [|d ds D _ IH]; intros acc; cbn [written fold_right digits whole List.length]; [lia|].
  change (fold_right _ _ ds) with (written ds); rewrite IH, (proj1 (digit_written _ D)), Nat2Z.inj_succ, Z.pow_succ_r by lia; ring.
Qed.
Lemma decimal_whole mant scale ds rest : all_digits ds ->
  decimal mant scale false (String.append (written ds) rest) = decimal (mant * 10 ^ Z.of_nat (List.length ds) + whole ds) scale false rest.
Proof.
  intros H; revert mant; induction H as [|d ds D _ IH]; intros mant; cbn [written fold_right String.append whole List.length].
  - f_equal; lia.
  - change (fold_right _ _ ds) with (written ds); destruct (digit_written _ D) as (V & A & B & C); cbn [decimal]; rewrite A, B, C, V; cbn [orb].
    rewrite IH; f_equal; rewrite Nat2Z.inj_succ, Z.pow_succ_r by lia; ring.
Qed.
Lemma ten_0 : ten 0 = 1%Qc.
Proof. apply Qc_is_canon; reflexivity. Qed.
Lemma ten_succ k : (0 <= k)%Z -> ten (k + 1) = (ten k * Q2Qc 10)%Qc.
Proof.
  intros K; unfold ten; rewrite (proj2 (Z.leb_le 0 (k + 1))), (proj2 (Z.leb_le 0 k)) by lia.
  replace (10 ^ (k + 1))%Z with (10 ^ k * 10)%Z by (rewrite Z.pow_add_r by lia; reflexivity).
  apply Qc_is_canon; cbn [this Q2Qc Qcmult]; rewrite !Qred_correct, inject_Z_mult; reflexivity.
Qed.
Lemma ten_neg k : (0 <= k)%Z -> ten (- k) = (1 / ten k)%Qc.
Proof.
  intros K; destruct (Z.eq_dec k 0) as [-> |N]; [apply Qc_is_canon; reflexivity|]; unfold ten.
  rewrite (proj2 (Z.leb_le 0 k)) by lia; rewrite (proj2 (Z.leb_gt 0 (- k))) by lia; rewrite Z.opp_involutive.
  apply Qc_is_canon; unfold Qcdiv, Qcinv, Qcmult; cbn [this Q2Qc]; rewrite !Qred_correct.
  pose proof (Z.pow_pos_nonneg 10 k ltac:(lia) K) as P; destruct (10 ^ k)%Z as [|z|z]; try lia; reflexivity.
Qed.
Lemma ten_nonzero k : (0 <= k)%Z -> ten k <> 0%Qc.
Proof.
  intros K H; unfold ten in H; rewrite (proj2 (Z.leb_le 0 k)) in H by lia; apply (f_equal this) in H; cbn [this Q2Qc] in H.
  assert (X : (inject_Z (10 ^ k) == 0)%Q) by (rewrite <- Qred_correct, H; reflexivity).
  unfold Qeq in X; cbn in X; pose proof (Z.pow_pos_nonneg 10 k ltac:(lia) K); lia.
Qed.
Lemma ten_pred k : (ten k / Q2Qc 10)%Qc = ten (k - 1).
Proof.
  assert (T : Q2Qc 10 <> 0%Qc) by discriminate.
  destruct (Z.le_gt_cases 1 k) as [K|K].
  - replace k with (k - 1 + 1)%Z at 1 by lia; rewrite ten_succ by lia; field; exact T.
  - replace k with (- (- k))%Z at 1 by lia; replace (k - 1)%Z with (- (- k + 1))%Z by lia.
    rewrite (ten_neg (- k)), (ten_neg (- k + 1)), ten_succ by lia; field; split; [exact T|apply ten_nonzero; lia].
Qed.
Lemma inject_step a b : Q2Qc (inject_Z (10 * a + Z.of_nat b)) = (Q2Qc 10 * Q2Qc (inject_Z a) + Q2Qc (inject_Z (Z.of_nat b)))%Qc.
Proof. apply Qc_is_canon; unfold Qcplus, Qcmult; cbn [this Q2Qc]; rewrite !Qred_correct, inject_Z_plus, inject_Z_mult; reflexivity. Qed.
Lemma decimal_frac rest x :
  (forall mant scale dot, decimal mant scale dot rest = (Q2Qc (inject_Z mant) * ten (scale + x))%Qc) ->
  forall ds, all_digits ds -> forall mant scale,
  decimal mant scale true (String.append (written ds) rest) = ((Q2Qc (inject_Z mant) + fraction ds) * ten (scale + x))%Qc.
Proof.
  intros R ds; induction 1 as [|d ds D _ IH]; intros mant scale; cbn [written fold_right String.append decimal fraction]; [rewrite R; ring|].
  change (fold_right _ _ ds) with (written ds); destruct (digit_written _ D) as (V & A & B & C); rewrite A, B, C, V; cbn [orb].
  rewrite IH, inject_step; replace (scale - 1 + x)%Z with (scale + x - 1)%Z by ring; rewrite <- ten_pred; field; discriminate.
Qed.
Lemma ten_power n : ten (Z.of_nat n) = Qcpower (Q2Qc 10) n.
Proof.
  induction n as [|n IH]; [apply ten_0|]; rewrite Nat2Z.inj_succ, <- Z.add_1_r, ten_succ, IH by lia; cbn [Qcpower]; ring.
Qed.

Definition expo (x : option (option bool * list nat)) : Z :=
  match x with None => 0 | Some (Some true, ds) => - whole ds | Some (_, ds) => whole ds end.
Lemma whole_nonneg ds : (0 <= whole ds)%Z.
Proof. induction ds as [|d ds IH]; cbn [whole]; [lia|]; pose proof (Z.pow_nonneg 10 (Z.of_nat (List.length ds)) ltac:(lia)); nia. Qed.
Lemma exp_decimal x : all_digits (digits_of x) -> forall mant scale dot,
  decimal mant scale dot (exp_text x) = (Q2Qc (inject_Z mant) * ten (scale + expo x))%Qc.
Proof.
  intros D mant scale dot; destruct x as [[[[]|] ds]|]; cbn [digits_of] in D; cbn [exp_text expo].
  - change (decimal mant scale dot _) with (Q2Qc (inject_Z mant) * ten (scale + - digits 0 (written ds)))%Qc; rewrite digits_app by assumption; reflexivity.
  - change (decimal mant scale dot _) with (Q2Qc (inject_Z mant) * ten (scale + digits 0 (written ds)))%Qc; rewrite digits_app by assumption; reflexivity.
  - transitivity (Q2Qc (inject_Z mant) * ten (scale + digits 0 (written ds)))%Qc; [|rewrite digits_app by assumption; reflexivity].
    destruct D as [|d ds D _]; [reflexivity|].
    do 10 (destruct d as [|d]; [reflexivity|]); lia.
  - cbn [decimal]; rewrite Z.add_0_r; reflexivity.
Qed.
Lemma ten_expo x : ten (expo x) = exp_value x.
Proof.
  destruct x as [[[[]|] ds]|]; cbn [expo exp_value]; try apply ten_0; pose proof (whole_nonneg ds) as W;
    rewrite <- ten_power, Z2Nat.id by exact W; [apply ten_neg, W|reflexivity|reflexivity].
Qed.
Lemma number_value ds f x : all_digits ds -> all_digits (match f with Some fs => fs | None => [] end) -> all_digits (digits_of x) ->
  decimal 0 0 false (number_text ds f x) = ((Q2Qc (inject_Z (whole ds)) + point_value f) * exp_value x)%Qc.
Proof.
  intros D F X; unfold number_text; rewrite decimal_whole by exact D; rewrite Z.mul_0_l, Z.add_0_l.
  destruct f as [fs|]; cbn [point_text point_value String.append].
  - cbn [decimal]; rewrite (decimal_frac _ (expo x) (exp_decimal x X) fs F), Z.add_0_l, ten_expo; reflexivity.
  - rewrite (exp_decimal x X), Z.add_0_l, ten_expo; ring.
Qed.
Lemma number_not_inf ds f x : all_digits ds -> String.eqb (number_text ds f x) "inf" = false.
Proof.
  intros D; unfold number_text; destruct D as [|d ds D _].
  - destruct f; [reflexivity|]; destruct x as [[[[]|] xs]|]; reflexivity.
  - cbn [written fold_right String.append String.eqb].
    do 10 (destruct d as [|d]; [reflexivity|]); lia.
Qed.
