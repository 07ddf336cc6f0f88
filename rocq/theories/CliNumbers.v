(** Numbers as text. *)
From Verif Require Import Base BaseProofs ConfigModel ConfigSpec CliModel CliSpec.
Local Open Scope string_scope.
Local Open Scope list_scope.

Lemma digit_code n : n < 10 -> nat_of_ascii (digit n) = 48 + n.
Proof. intros H; unfold digit; apply nat_ascii_embedding; lia. Qed.
Lemma digit_is n : n < 10 -> is_digit (digit n).
Proof. intros H; unfold is_digit; rewrite digit_code by exact H; lia. Qed.

Lemma value_from_app acc s t : value_from acc (s ++ t) = value_from (value_from acc s) t.
Proof. revert acc; induction s as [|c s IH]; intros acc; simpl; [reflexivity|apply IH]. Qed.
Lemma digits_app s t : all_digits (s ++ t) <-> all_digits s /\ all_digits t.
Proof. induction s as [|c s IH]; simpl; tauto. Qed.
Lemma text_app a b : text_of (a ++ b) = (text_of a ++ text_of b)%string.
Proof. induction a as [|x a IH]; simpl; [reflexivity|rewrite IH; reflexivity]. Qed.
Lemma value_from_le acc s : acc <= value_from acc s.
Proof. revert acc; induction s as [|c s IH]; intros acc; cbn [value_from]; [lia|]; specialize (IH (10 * acc + (nat_of_ascii c - 48))); lia. Qed.

Lemma digits_spec fuel : forall n, n < fuel -> Forall (fun d => d < 10) (digits fuel n) /\ value (text_of (rev (digits fuel n))) = n /\ digits fuel n <> [].
Proof.
  induction fuel as [|f IH]; intros n L; [lia|]; cbn [digits].
  destruct (Nat.ltb_spec n 10) as [B|B].
  - split; [constructor; [exact B|constructor]|split; [|discriminate]].
    cbn [rev app text_of]; unfold value; cbn [value_from]; rewrite digit_code by exact B; lia.
  - destruct (IH (n / 10)) as [F [V _]]; [assert (n / 10 < n) by (apply Nat.div_lt; lia); lia|].
    assert (M : n mod 10 < 10) by (apply Nat.mod_upper_bound; lia).
    split; [constructor; [exact M|exact F]|split; [|discriminate]].
    cbn [rev]; rewrite text_app; unfold value in *; rewrite value_from_app, V; cbn [text_of value_from].
    rewrite digit_code by exact M; rewrite (Nat.div_mod n 10) at 3 by lia; lia.
Qed.
Lemma text_digits l : Forall (fun d => d < 10) l -> all_digits (text_of l).
Proof. induction 1; simpl; [exact I|split; [apply digit_is; assumption|assumption]]. Qed.

Lemma str_number n : number (str n) n.
Proof.
  destruct (digits_spec (S n) n (Nat.lt_succ_diag_r n)) as [F [V N]]; split; [|split; [|exact V]].
  - unfold str; intros E; destruct (rev (digits (S n) n)) eqn:R; [|discriminate].
    apply N; rewrite <- (rev_involutive (digits (S n) n)), R; reflexivity.
  - apply text_digits; apply Forall_rev; exact F.
Qed.

Lemma digits_last fuel : forall n, n < fuel -> 0 < n -> forall d, last (digits fuel n) d <> 0.
Proof.
  induction fuel as [|f IH]; intros n L P d; [lia|]; cbn [digits].
  destruct (Nat.ltb_spec n 10) as [B|B]; [simpl; lia|].
  assert (D : n / 10 < n) by (apply Nat.div_lt; lia).
  assert (Q : 0 < n / 10) by (apply Nat.div_str_pos; lia).
  specialize (IH (n / 10) ltac:(lia) Q d); destruct (digits f (n / 10)) eqn:E; [|exact IH].
  exfalso; destruct f as [|f]; [lia|]; cbn [digits] in E; destruct (Nat.ltb (n / 10) 10); discriminate.
Qed.
Lemma last_rev {A} (l : list A) d : last l d = hd d (rev l).
Proof.
  induction l as [|x l IH] using rev_ind; [reflexivity|]; rewrite rev_unit, last_last; reflexivity.
Qed.
Lemma str_decimal n : decimal (str n) n.
Proof.
  split; [apply str_number|split].
  - intros P t E; pose proof (digits_last (S n) n ltac:(lia) ltac:(lia) 1) as L; rewrite last_rev in L.
    destruct (digits_spec (S n) n (Nat.lt_succ_diag_r n)) as [F _]; apply Forall_rev in F; unfold str in E.
    destruct (rev (digits (S n) n)) as [|x r]; [discriminate|]; cbn [text_of hd] in *.
    injection E as E _; apply (f_equal nat_of_ascii) in E; inversion F; subst; rewrite digit_code in E by assumption; change (nat_of_ascii "0"%char) with 48 in E; lia.
  - intros ->; reflexivity.
Qed.

(** Values and lengths. *)
Lemma value_from_pow s : forall acc, all_digits s -> acc * 10 ^ String.length s <= value_from acc s < (acc + 1) * 10 ^ String.length s.
Proof.
  induction s as [|c s IH]; intros acc D; cbn [String.length value_from Nat.pow]; [simpl; lia|].
  destruct D as [[D1 D2] D]; specialize (IH (10 * acc + (nat_of_ascii c - 48)) D).
  set (p := 10 ^ String.length s) in *; set (v := value_from _ s) in *; set (k := nat_of_ascii c - 48) in *; assert (k < 10) by lia.
  replace (acc * (10 * p)) with (10 * acc * p) by ring; replace ((acc + 1) * (10 * p)) with ((10 * acc + 10) * p) by ring.
  split; [apply Nat.le_trans with ((10 * acc + k) * p); [apply Nat.mul_le_mono_r; lia|lia]|].
  apply Nat.lt_le_trans with ((10 * acc + k + 1) * p); [lia|apply Nat.mul_le_mono_r; lia].
Qed.
Lemma decimal_low s n : decimal s n -> 0 < n -> 10 ^ (String.length s - 1) <= n.
Proof.
  intros [[NE [D V]] [LZ _]] P; destruct s as [|c s]; [congruence|]; cbn [String.length]; replace (S (String.length s) - 1) with (String.length s) by lia.
  destruct D as [[D1 D2] D]; unfold value in V; cbn [value_from] in V.
  pose proof (value_from_pow s (nat_of_ascii c - 48) D) as B; rewrite Nat.mul_0_r, Nat.add_0_l in V; rewrite V in B.
  assert (C : nat_of_ascii c <> 48).
  { intros E; apply (LZ ltac:(lia) s); f_equal; rewrite <- (ascii_nat_embedding c), E; reflexivity. }
  apply Nat.le_trans with ((nat_of_ascii c - 48) * 10 ^ String.length s); [|lia].
  rewrite <- (Nat.mul_1_l (10 ^ String.length s)) at 1; apply Nat.mul_le_mono_r; lia.
Qed.
Lemma number_high s n : number s n -> n < 10 ^ String.length s.
Proof. intros [_ [D V]]; unfold value in V; pose proof (value_from_pow s 0 D); lia. Qed.

Lemma decimal_length a b m n : decimal a m -> number b n -> 0 < m -> m <= n -> String.length a <= String.length b.
Proof.
  intros A B P L; destruct (le_lt_dec (String.length a) (String.length b)) as [H|H]; [exact H|exfalso].
  pose proof (decimal_low a m A P); pose proof (number_high b n B).
  assert (10 ^ String.length b <= 10 ^ (String.length a - 1)) by (apply Nat.pow_le_mono_r; lia); lia.
Qed.

(** Order of digit strings of the same length. *)
Lemma value_order s : forall t a b, String.length s = String.length t -> all_digits s -> all_digits t ->
  (a < b -> value_from a s < value_from b t) /\
  (a = b -> ((value_from a s < value_from b t <-> text_lt s t) /\ (value_from a s = value_from b t <-> s = t))).
Proof.
  induction s as [|c s IH]; intros [|d t] a b L DS DT; try discriminate L; cbn [value_from].
  - split; [auto|intros ->; split; [split; [lia|intros H; inversion H]|tauto]].
  - injection L as L; destruct DS as [[C1 C2] DS], DT as [[D1 D2] DT].
    destruct (IH t (10 * a + (nat_of_ascii c - 48)) (10 * b + (nat_of_ascii d - 48)) L DS DT) as [I1 I2].
    destruct (IH s (10 * b + (nat_of_ascii d - 48)) (10 * a + (nat_of_ascii c - 48)) eq_refl DS DS) as [_ _].
    split; [intros H; apply I1; lia|]; intros ->.
    destruct (lt_eq_lt_dec (nat_of_ascii c) (nat_of_ascii d)) as [[H|H]|H].
    + specialize (I1 ltac:(lia)); split; [split; [intros _; constructor; exact H|intros _; exact I1]|].
      split; [lia|intros E; injection E as -> ->; lia].
    + destruct (I2 ltac:(lia)) as [I3 I4]; assert (E : c = d) by (rewrite <- (ascii_nat_embedding c), <- (ascii_nat_embedding d), H; reflexivity); subst d.
      split; [split; [intros X; constructor; apply I3; exact X|intros X; inversion X; subst; [lia|apply I3; assumption]]|].
      split; [intros X; f_equal; apply I4; exact X|intros E; injection E as ->; reflexivity].
    + assert (G : forall s t, String.length s = String.length t -> all_digits s -> all_digits t -> forall a b, a < b -> value_from a s < value_from b t).
      { clear; induction s as [|c s IH]; intros [|d t] L DS DT a b H; try discriminate L; cbn [value_from]; [exact H|].
        injection L as L; destruct DS as [[C1 C2] DS], DT as [[D1 D2] DT]; apply IH; [exact L|exact DS|exact DT|lia]. }
      pose proof (G t s (eq_sym L) DT DS (10 * b + (nat_of_ascii d - 48)) (10 * b + (nat_of_ascii c - 48)) ltac:(lia)) as X.
      split; [split; [lia|intros Y; inversion Y; subst; lia]|split; [lia|intros E; injection E as -> ->; lia]].
Qed.
Lemma same_length_order s t m n : String.length s = String.length t -> number s m -> number t n -> (m < n <-> text_lt s t) /\ (m = n <-> s = t).
Proof.
  intros L [_ [DS VS]] [_ [DT VT]]; unfold value in *; destruct (value_order s t 0 0 L DS DT) as [_ H]; rewrite VS, VT in H; exact (H eq_refl).
Qed.

Lemma decimal_unique s t n : decimal s n -> decimal t n -> s = t.
Proof.
  intros A B; destruct (Nat.eq_dec n 0) as [Z|Z].
  - destruct A as [_ [_ A]], B as [_ [_ B]]; rewrite A, B by exact Z; reflexivity.
  - assert (L : String.length s = String.length t).
    { apply Nat.le_antisymm; [apply (decimal_length s t n n A (proj1 B)); lia|apply (decimal_length t s n n B (proj1 A)); lia]. }
    apply (proj2 (same_length_order s t n n L (proj1 A) (proj1 B))); reflexivity.
Qed.

(** Padding. *)
Lemma zeros_length n : String.length (zeros n) = n.
Proof. induction n as [|n IH]; simpl; [reflexivity|rewrite IH; reflexivity]. Qed.
Lemma append_length a b : String.length (a ++ b)%string = String.length a + String.length b.
Proof. induction a as [|c a IH]; simpl; [reflexivity|rewrite IH; reflexivity]. Qed.
Lemma zeros_digits n : all_digits (zeros n).
Proof. induction n as [|n IH]; simpl; [exact I|split; [unfold is_digit; change (nat_of_ascii "0"%char) with 48; lia|exact IH]]. Qed.
Lemma zeros_value n : value (zeros n) = 0.
Proof. unfold value; induction n as [|n IH]; simpl; [reflexivity|exact IH]. Qed.
Lemma pad_number w s n : number s n -> number (pad w s) n.
Proof.
  intros [NE [D V]]; unfold pad; split; [|split].
  - intros E; apply NE; destruct s; [reflexivity|]; destruct (zeros (w - String.length (String a s))); discriminate E.
  - apply digits_app; split; [apply zeros_digits|exact D].
  - unfold value in *; rewrite value_from_app; rewrite zeros_value; exact V.
Qed.
Lemma pad_length w s : String.length s <= w -> String.length (pad w s) = w.
Proof. intros H; unfold pad; rewrite append_length, zeros_length; lia. Qed.

Lemma numbered_number total i : number (numbered total i) i.
Proof. apply pad_number, str_number. Qed.
Lemma numbered_length total i : 0 < i <= total -> String.length (numbered total i) = String.length (str total).
Proof. intros H; apply pad_length; apply (decimal_length _ _ i total (str_decimal i) (str_number total)); lia. Qed.
Lemma numbered_order total i j : 0 < i <= total -> 0 < j <= total -> (i < j <-> text_lt (numbered total i) (numbered total j)).
Proof.
  intros A B; apply same_length_order; [rewrite !numbered_length by assumption; reflexivity|apply numbered_number|apply numbered_number].
Qed.
Lemma numbered_inj total i j : 0 < i <= total -> 0 < j <= total -> numbered total i = numbered total j -> i = j.
Proof.
  intros A B; apply same_length_order; [rewrite !numbered_length by assumption; reflexivity|apply numbered_number|apply numbered_number].
Qed.
