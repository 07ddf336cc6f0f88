(** Lemmas on scenario generation, run scripts and messages. *)
From Coq Require Import Sorting.Sorted.
From Verif Require Import Base BaseProofs ConfigModel ConfigSpec CliModel CliSpec CliNumbers.
Local Open Scope string_scope.
Local Open Scope list_scope.
Local Arguments String.eqb : simpl never.

(** ** Products *)
Lemma product_in {A} (ls : list (list A)) : forall c, In c (product ls) <-> Forall2 (fun x l => In x l) c ls.
Proof.
  induction ls as [|l ls IH]; intros c; simpl.
  - split; [intros [<-|[]]; constructor|intros H; inversion H; auto].
  - rewrite in_flat_map; split.
    + intros [x [X M]]; apply in_map_iff in M; destruct M as [r [<- R]]; constructor; [exact X|apply IH; exact R].
    + intros H; inversion H as [|x l0 r ls0 X R]; subst; exists x; split; [exact X|apply in_map, IH; exact R].
Qed.
Lemma product_length {A} (ls : list (list A)) : List.length (product ls) = times (map (@List.length A) ls).
Proof.
  induction ls as [|l ls IH]; [reflexivity|]; cbn [product map times]; rewrite <- IH.
  induction l as [|x l IHl]; simpl; [reflexivity|]; rewrite app_length, map_length, IHl; reflexivity.
Qed.
Lemma nodup_app {A} (l1 l2 : list A) : NoDup l1 -> NoDup l2 -> (forall z, In z l1 -> ~ In z l2) -> NoDup (l1 ++ l2).
Proof.
  induction l1 as [|z l1 IH]; intros N1 N2 D; simpl; [exact N2|]; inversion N1; subst; constructor.
  - rewrite in_app_iff; intros [H|H]; [contradiction|exact (D z (or_introl eq_refl) H)].
  - apply IH; [assumption|assumption|]; intros w W; apply D; right; exact W.
Qed.
Lemma product_nodup {A} (ls : list (list A)) : Forall (@NoDup A) ls -> NoDup (product ls).
Proof.
  induction 1 as [|l ls N F IH]; simpl; [constructor; [intros []|constructor]|].
  induction N as [|x l NI N IHl]; simpl; [constructor|]; apply nodup_app; [|exact IHl|].
  - apply FinFun.Injective_map_NoDup; [intros a b E; injection E as ->; reflexivity|exact IH].
  - intros z Z W; apply in_map_iff in Z; destruct Z as [r [<- _]]; apply in_flat_map in W; destruct W as [y [Y W]].
    apply in_map_iff in W; destruct W as [q [E _]]; injection E as -> _; contradiction.
Qed.

(** ** Enumerations *)
Lemma enumerate_nth {A} (l : list A) : forall i k, nth_error (enumerate i l) k = match nth_error l k with Some x => Some (i + k, x) | None => None end.
Proof.
  induction l as [|x l IH]; intros i [|k]; simpl; try reflexivity.
  - rewrite Nat.add_0_r; reflexivity.
  - rewrite IH; destruct (nth_error l k); [rewrite Nat.add_succ_comm; reflexivity|reflexivity].
Qed.
Lemma enumerate_snd {A} (l : list A) i : map snd (enumerate i l) = l.
Proof. revert i; induction l as [|x l IH]; intros i; simpl; [reflexivity|rewrite IH; reflexivity]. Qed.
Lemma enumerate_fst {A} (l : list A) i : map fst (enumerate i l) = seq i (List.length l).
Proof. revert i; induction l as [|x l IH]; intros i; simpl; [reflexivity|rewrite IH; reflexivity]. Qed.

Lemma append_inj p s t : (p ++ s)%string = (p ++ t)%string -> s = t.
Proof. induction p as [|c p IH]; simpl; [auto|intros E; injection E as E; apply IH, E]. Qed.
Lemma text_lt_prefix p s t : text_lt s t -> text_lt (p ++ s) (p ++ t).
Proof. intros H; induction p as [|c p IH]; simpl; [exact H|constructor; exact IH]. Qed.

(** Assigning distinct names one after the other gives them in order. *)
Lemma fold_set_distinct {A B} (f : A -> string) (g : A -> B) l : forall d, NoDup (map f l) -> (forall x, In x l -> ~ In (f x) (map fst d)) ->
  fold_left (fun d x => d_set (f x) (g x) d) l d = d ++ map (fun x => (f x, g x)) l.
Proof.
  induction l as [|x l IH]; intros d N F; simpl; [rewrite app_nil_r; reflexivity|]; inversion N; subst.
  rewrite d_keys_set_notin by (apply F; left; reflexivity).
  rewrite IH; [rewrite <- app_assoc; reflexivity|assumption|].
  intros y Y; rewrite map_app, in_app_iff; intros [Q|[Q|[]]]; [exact (F y (or_intror Y) Q)|].
  cbn [fst] in Q; match goal with H : ~ In (f x) _ |- _ => apply H; rewrite Q; apply in_map; exact Y end.
Qed.

Lemma nodup_map_on {A B} (f : A -> B) l : NoDup l -> (forall x y, In x l -> In y l -> f x = f y -> x = y) -> NoDup (map f l).
Proof.
  induction 1 as [|x l NI N IH]; intros I; simpl; [constructor|]; constructor.
  - intros M; apply in_map_iff in M; destruct M as [y [E Y]]; apply NI; rewrite (I x y); [exact Y|left; reflexivity|right; exact Y|symmetry; exact E].
  - apply IH; intros y z Y Z; apply I; right; assumption.
Qed.

Definition prefix_of (p : option string) : string :=
  match p with Some s => if String.eqb s "" then "scenario_" else s | None => "scenario_" end.
Lemma scenarios_eq overrides p : generate_scenarios overrides p =
  map (fun ic => ((prefix_of p ++ numbered (List.length (product (map (split_on ";"%char) overrides))) (fst ic + 1))%string, snd ic))
      (enumerate 0 (product (map (split_on ";"%char) overrides))).
Proof.
  unfold generate_scenarios; fold (prefix_of p); set (cs := product _).
  rewrite (fold_set_distinct (fun ic : nat * list string => (prefix_of p ++ numbered (List.length cs) (fst ic + 1))%string) snd); [reflexivity| |intros ? ? []].
  rewrite <- (map_map fst (fun i => (prefix_of p ++ numbered (List.length cs) (i + 1))%string)), enumerate_fst.
  apply nodup_map_on; [apply seq_NoDup|]; intros x y X Y E; apply in_seq in X; apply in_seq in Y.
  apply append_inj in E; apply numbered_inj in E; lia.
Qed.
Lemma seq_sorted total (f : nat -> string) : (forall i j, i < total -> j < total -> i < j -> text_lt (f i) (f j)) ->
  forall n k, k + n <= total -> StronglySorted text_lt (map f (seq k n)).
Proof.
  intros H; induction n as [|n IH]; intros k L; cbn [seq map]; constructor; [apply IH; lia|].
  apply Forall_forall; intros x X; apply in_map_iff in X; destruct X as [j [<- J]]; apply in_seq in J; apply H; lia.
Qed.
Lemma scenarios_sorted overrides p : StronglySorted text_lt (map fst (generate_scenarios overrides p)).
Proof.
  rewrite scenarios_eq, map_map; cbn [fst]; set (cs := product _).
  rewrite <- (map_map fst (fun i => (prefix_of p ++ numbered (List.length cs) (i + 1))%string)), enumerate_fst.
  apply (seq_sorted (List.length cs)); [|lia]; intros i j Li Lj L; apply text_lt_prefix, numbered_order; lia.
Qed.
Lemma scenarios_snd overrides p : map snd (generate_scenarios overrides p) = product (map (split_on ";"%char) overrides).
Proof. rewrite scenarios_eq, map_map; cbn [snd]; apply enumerate_snd. Qed.

Lemma pieces_split c s l : pieces c s l <-> l = split_on c s.
Proof.
  split.
  - intros [N [J F]]; rewrite <- J; symmetry; apply split_join; assumption.
  - intros ->; split; [apply split_on_nonnil|split; [apply join_split|apply split_on_parts]].
Qed.

(** ** Scripts *)
Lemma commands_nth m a o runs i : nth_error (commands m a o runs) i =
  match nth_error runs i with Some r => Some (command m a o (List.length runs) i r) | None => None end.
Proof.
  unfold commands; rewrite nth_error_map, enumerate_nth; destruct (nth_error runs i); reflexivity.
Qed.
Lemma commands_length m a o runs : List.length (commands m a o runs) = List.length runs.
Proof.
  unfold commands; rewrite map_length, <- (map_length fst), enumerate_fst, seq_length; reflexivity.
Qed.

Lemma append_eq_split a b c d : String.length a = String.length b -> (a ++ c)%string = (b ++ d)%string -> a = b /\ c = d.
Proof.
  revert b; induction a as [|x a IH]; intros [|y b] L E; try discriminate L; [auto|].
  injection L as L; injection E as -> E; destruct (IH b L E) as [-> ->]; auto.
Qed.
Lemma out_name_inj total i j r q : i < total -> j < total -> out_name total i r = out_name total j q -> i = j.
Proof.
  intros Li Lj E; unfold out_name in E; apply append_inj in E.
  apply append_eq_split in E; [|rewrite !numbered_length by lia; reflexivity].
  destruct E as [E _]; apply numbered_inj in E; lia.
Qed.

(** Lines of the script. *)
Lemma append_assoc a b c : ((a ++ b) ++ c)%string = (a ++ (b ++ c))%string.
Proof. induction a as [|x a IH]; simpl; [reflexivity|rewrite IH; reflexivity]. Qed.
Lemma append_nil a : (a ++ "")%string = a.
Proof. induction a as [|x a IH]; simpl; [reflexivity|rewrite IH; reflexivity]. Qed.
Lemma has_char_app c a b : has_char c (a ++ b) = has_char c a || has_char c b.
Proof. induction a as [|x a IH]; simpl; [reflexivity|rewrite IH, orb_assoc; reflexivity]. Qed.
Lemma has_char_digits c s : all_digits s -> ~ is_digit c -> has_char c s = false.
Proof.
  intros D N; induction s as [|x s IH]; simpl in *; [reflexivity|]; destruct D as [X D]; rewrite (IH D), orb_false_r.
  destruct (Ascii.eqb_spec x c) as [->|]; [contradiction|reflexivity].
Qed.
Lemma str_digits n : all_digits (str n).
Proof. apply str_number. Qed.
Lemma not_digit c : nat_of_ascii c < 48 \/ 57 < nat_of_ascii c -> ~ is_digit c.
Proof. unfold is_digit; lia. Qed.

Definition arm_line (i : nat) (cmd : string) : string := ("    " ++ str i ++ ") " ++ cmd ++ " ;;")%string.
Lemma arm_eq i cmd : arm i cmd = (arm_line i cmd ++ String newline "")%string.
Proof. unfold arm, arm_line; rewrite !append_assoc; reflexivity. Qed.
Lemma arm_line_one i cmd : one_line cmd -> has_char newline (arm_line i cmd) = false.
Proof.
  intros O; unfold arm_line; rewrite !has_char_app; unfold one_line in O; change (ascii_of_nat 10) with newline in O; rewrite O.
  rewrite (has_char_digits newline (str i)); [reflexivity|apply str_digits|apply not_digit; left; change (nat_of_ascii newline) with 10; lia].
Qed.

Lemma split_join_app c l : Forall (fun s => has_char c s = false) l -> forall s, 
  split_on c (join_on c (l ++ [s])) = l ++ split_on c s.
Proof.
  induction 1 as [|x l X F IH]; intros s; [reflexivity|].
  cbn [app]; assert (E : join_on c (x :: l ++ [s]) = (x ++ String c (join_on c (l ++ [s])))%string) by (destruct l; reflexivity).
  rewrite E, split_app_char by exact X; rewrite IH; reflexivity.
Qed.

(** Splitting a joined list of texts that may themselves contain the separator. *)
Lemma split_app_any c s t : split_on c (s ++ String c t) = split_on c s ++ split_on c t.
Proof.
  induction s as [|x s IH]; cbn [String.append split_on]; [rewrite Ascii.eqb_refl; reflexivity|].
  rewrite IH; destruct (Ascii.eqb x c); [reflexivity|].
  destruct (split_on c s) as [|h r] eqn:E; [exfalso; exact (split_on_nonnil c s E)|reflexivity].
Qed.
Lemma split_join_flat c l : l <> [] -> split_on c (join_on c l) = flat_map (split_on c) l.
Proof.
  induction l as [|x l IH]; [congruence|intros _]; destruct l as [|y l]; [simpl; rewrite app_nil_r; reflexivity|].
  change (join_on c (x :: y :: l)) with (x ++ String c (join_on c (y :: l)))%string.
  rewrite split_app_any, IH by discriminate; reflexivity.
Qed.

Lemma cut_app c a b : has_char c a = false -> cut c (a ++ String c b) = Some (a, b).
Proof.
  induction a as [|x a IH]; cbn [String.append cut has_char]; [rewrite Ascii.eqb_refl; reflexivity|].
  intros H; apply orb_false_iff in H; destruct H as [H1 H2]; rewrite H1, (IH H2); reflexivity.
Qed.
Lemma strip_app p s : strip_prefix p (p ++ s) = Some s.
Proof. induction p as [|c p IH]; simpl; [reflexivity|rewrite Ascii.eqb_refl; exact IH]. Qed.

Lemma until_end_ok s : (forall a b, s <> (a ++ ";;" ++ b)%string) -> until_end (s ++ " ;;") = Some (s ++ " ")%string.
Proof.
  induction s as [|c s IH]; intros N; [reflexivity|].
  cbn [String.append until_end].
  assert (P : prefix ";;" (String c (s ++ " ;;")) = false).
  { cbn [prefix]; destruct (ascii_dec ";" c) as [<-|]; [|reflexivity].
    destruct s as [|d s]; [reflexivity|]; cbn [String.append prefix]; destruct (ascii_dec ";" d) as [<-|]; [|reflexivity].
    exfalso; exact (N "" s eq_refl). }
  rewrite P, IH; [reflexivity|]; intros a b E; apply (N (String c a) b); rewrite E; reflexivity.
Qed.
Lemma trim_ok s : trim_last (s ++ " ") = s.
Proof.
  induction s as [|c s IH]; [reflexivity|]; cbn [String.append trim_last].
  destruct (s ++ " ")%string eqn:E; [destruct s; discriminate E|rewrite IH; reflexivity].
Qed.
Lemma case_arm_ok i cmd : armable cmd -> case_arm (arm_line i cmd) = Some (str i, cmd).
Proof.
  intros [_ N]; unfold case_arm, arm_line; rewrite strip_app.
  change (") " ++ cmd ++ " ;;")%string with (String ")"%char (" " ++ (cmd ++ " ;;")))%string.
  rewrite cut_app by (apply has_char_digits; [apply str_digits|apply not_digit; left; change (nat_of_ascii ")"%char) with 41; lia]).
  rewrite strip_app, until_end_ok by exact N; rewrite trim_ok; reflexivity.
Qed.

Lemma arm_not_esac i cmd : String.eqb (arm_line i cmd) "    esac" = false.
Proof.
  apply String.eqb_neq; intros E; unfold arm_line in E; change "    esac" with ("    " ++ "esac")%string in E; apply append_inj in E.
  destruct (str_number i) as [NE [D _]]; destruct (str i) as [|c s]; [congruence|]; injection E as -> _; destruct D as [D _].
  revert D; apply not_digit; right; change (nat_of_ascii "e"%char) with 101; lia.
Qed.

Definition tail_lines (n : nat) : list string :=
  ["    esac"; "}"; ""; "if [[ $# -eq 0 ]] ; then";
   "    echo No parameter given, running all runs sequentially...";
   ("    for i in $(seq 1 " ++ str n ++ "); do process_case $i; done")%string;
   "else"; "    echo Running run $1"; "    process_case $1"; "fi"; ""].

Lemma script_lines cmds : Forall one_line cmds ->
  split_on newline (bash_script cmds) =
  ["#!/bin/sh"; ""; "function process_case () {"; "    case ""$1"" in"; ""]
  ++ flat_map (fun ic => [arm_line (fst ic + 1) (snd ic); ""]) (enumerate 0 cmds) ++ tail_lines (List.length cmds).
Proof.
  intros F; unfold bash_script; rewrite split_join_flat by discriminate; rewrite !flat_map_app; f_equal; f_equal.
  - assert (G : forall i, flat_map (split_on newline) (map (fun ic => arm (fst ic + 1) (snd ic)) (enumerate i cmds)) =
                 flat_map (fun ic => [arm_line (fst ic + 1) (snd ic); ""]) (enumerate i cmds)); [|apply G].
    induction F as [|x l X F IH]; intros i; [reflexivity|]; cbn [enumerate map flat_map fst snd].
    rewrite arm_eq, split_app_char by (apply arm_line_one; exact X); cbn [split_on]; rewrite IH; reflexivity.
  - unfold tail_lines; cbn [flat_map].
    assert (E : forall s, has_char newline s = false -> split_on newline s = [s]) by (intros s; apply split_on_nochar).
    rewrite (E (_ ++ _ ++ _)%string); [reflexivity|].
    rewrite !has_char_app, (has_char_digits newline (str (List.length cmds))); [reflexivity|apply str_digits|apply not_digit; left; change (nat_of_ascii newline) with 10; lia].
Qed.

Lemma arms_script cmds : Forall armable cmds ->
  arms false (split_on newline (bash_script cmds)) = map (fun ic => (str (fst ic + 1), snd ic)) (enumerate 0 cmds).
Proof.
  intros F; rewrite script_lines by (eapply Forall_impl; [|exact F]; intros a [H _]; exact H).
  assert (G : forall n i, arms true (flat_map (fun ic => [arm_line (fst ic + 1) (snd ic); ""]) (enumerate i cmds) ++ tail_lines n) =
            map (fun ic => (str (fst ic + 1), snd ic)) (enumerate i cmds)); [|rewrite <- (G (List.length cmds) 0); reflexivity].
  intros n; induction F as [|x l X F IH]; intros i; [reflexivity|].
  cbn [enumerate flat_map fst snd map app].
  cbn [arms]; rewrite arm_not_esac, case_arm_ok by exact X; f_equal; rewrite <- IH; reflexivity.
Qed.

Lemma loop_arm i cmd : strip_prefix "    for i in $(seq 1 " (arm_line i cmd) = None.
Proof.
  unfold arm_line; cbn [String.append strip_prefix]; rewrite !Ascii.eqb_refl.
  destruct (str_number i) as [NE [D _]]; destruct (str i) as [|c s]; [congruence|]; cbn [String.append]; destruct D as [D _].
  destruct (Ascii.eqb_spec "f"%char c) as [<-|]; [|reflexivity].
  exfalso; revert D; apply not_digit; right; change (nat_of_ascii "f"%char) with 102; lia.
Qed.
Lemma loop_script cmds : Forall one_line cmds ->
  loop_end (split_on newline (bash_script cmds)) = Some (str (List.length cmds)).
Proof.
  intros F; rewrite script_lines by exact F.
  assert (T : forall n, loop_end (tail_lines n) = Some (str n)).
  { intros n; unfold tail_lines; do 5 (cbn [loop_end]; match goal with |- context [strip_prefix ?p ?l] => change (strip_prefix p l) with (@None string) end; cbv iota).
    cbn [loop_end]; rewrite strip_app.
    change ("); do process_case $i; done") with (String ")"%char "; do process_case $i; done").
    rewrite cut_app by (apply has_char_digits; [apply str_digits|apply not_digit; left; change (nat_of_ascii ")"%char) with 41; lia]); reflexivity. }
  assert (G : forall n i, loop_end (flat_map (fun ic => [arm_line (fst ic + 1) (snd ic); ""]) (enumerate i cmds) ++ tail_lines n) = Some (str n)).
  { intros n; induction F as [|x l X F IH]; intros i; [apply T|]; cbn [enumerate flat_map fst snd app loop_end]; rewrite loop_arm; apply IH. }
  rewrite <- (G (List.length cmds) 0); reflexivity.
Qed.

Lemma process_nth cmds i : forall arg k, number arg k -> (forall j, str j = arg -> j = k) -> str k = arg -> 
  process_case (map (fun ic => (str (fst ic + 1), snd ic)) (enumerate i cmds)) arg =
  match k with 0 => [] | S k => if Nat.leb i k then match nth_error cmds (k - i) with Some c => [c] | None => [] end else [] end.
Proof.
  revert i; induction cmds as [|x l IH]; intros i arg k N U E; cbn [enumerate map process_case fst snd].
  - destruct k as [|k]; [reflexivity|]; destruct (Nat.leb i k); [|reflexivity]; destruct (k - i); reflexivity.
  - destruct (String.eqb_spec (str (i + 1)) arg) as [H|H].
    + apply U in H; subst k; rewrite Nat.add_1_r, Nat.leb_refl, Nat.sub_diag; reflexivity.
    + rewrite (IH (S i) arg k N U E); destruct k as [|k]; [reflexivity|].
      assert (NE : i <> k) by (intros ->; apply H; rewrite Nat.add_1_r; exact E).
      destruct (Nat.leb_spec (S i) k), (Nat.leb_spec i k); try lia; [|reflexivity].
      replace (k - i) with (S (k - S i)) by lia; reflexivity.
Qed.
Lemma process_other cmds i arg : (forall n, ~ decimal arg n) -> process_case (map (fun ic => (str (fst ic + 1), snd ic)) (enumerate i cmds)) arg = [].
Proof.
  intros N; revert i; induction cmds as [|x l IH]; intros i; cbn [enumerate map process_case fst snd]; [reflexivity|].
  destruct (String.eqb_spec (str (i + 1)) arg) as [H|H]; [exfalso; apply (N (i + 1)); rewrite <- H; apply str_decimal|apply IH].
Qed.
Lemma str_inj a b : str a = str b -> a = b.
Proof. intros E; destruct (str_number a) as [_ [_ A]], (str_number b) as [_ [_ B]]; congruence. Qed.
Lemma process_decimal cmds arg k : decimal arg k ->
  process_case (map (fun ic => (str (fst ic + 1), snd ic)) (enumerate 0 cmds)) arg =
  match k with 0 => [] | S k => match nth_error cmds k with Some c => [c] | None => [] end end.
Proof.
  intros D; assert (E : str k = arg) by (apply (decimal_unique _ _ k); [apply str_decimal|exact D]).
  rewrite (process_nth cmds 0 arg k (proj1 D)); [destruct k; [reflexivity|]; rewrite Nat.sub_0_r; reflexivity| |exact E].
  intros j J; apply str_inj; congruence.
Qed.
Lemma flat_nth cmds : forall pre, flat_map (fun i => match i with 0 => [] | S k => match nth_error (pre ++ cmds) k with Some c => [c] | None => [] end end)
  (seq (S (List.length pre)) (List.length cmds)) = (cmds : list string).
Proof.
  induction cmds as [|c l IH]; intros pre; [reflexivity|]; cbn [List.length seq flat_map].
  rewrite nth_error_app2, Nat.sub_diag by lia; cbn [nth_error app]; f_equal.
  specialize (IH (pre ++ [c])); rewrite app_length in IH; cbn [List.length] in IH; rewrite Nat.add_1_r in IH.
  rewrite <- IH at 2; apply flat_map_ext; intros [|k]; [reflexivity|]; rewrite <- app_assoc; reflexivity.
Qed.

(** ** Sorting *)
Lemma sleb_lt a : forall b, sleb a b = true <-> a = b \/ text_lt a b.
Proof.
  induction a as [|x a IH]; intros [|y b]; cbn [sleb].
  - split; auto.
  - split; [intros _; right; constructor|auto].
  - split; [discriminate|intros [H|H]; [discriminate|inversion H]].
  - destruct (Nat.ltb_spec (nat_of_ascii x) (nat_of_ascii y)) as [L|L].
    + split; [intros _; right; constructor; exact L|auto].
    + destruct (Ascii.eqb_spec x y) as [->|N].
      * rewrite IH; split; intros [H|H]; [left; congruence|right; constructor; exact H|left; congruence|right; inversion H; subst; [lia|assumption]].
      * split; [discriminate|]; intros [H|H]; [congruence|inversion H; subst; [lia|congruence]].
Qed.
Lemma text_total a : forall b, text_lt a b \/ a = b \/ text_lt b a.
Proof.
  induction a as [|x a IH]; intros [|y b]; [auto|left; constructor|right; right; constructor|].
  destruct (lt_eq_lt_dec (nat_of_ascii x) (nat_of_ascii y)) as [[H|H]|H].
  - left; constructor; exact H.
  - assert (E : x = y) by (rewrite <- (ascii_nat_embedding x), <- (ascii_nat_embedding y), H; reflexivity); subst y.
    destruct (IH b) as [L|[->|L]]; [left; constructor; exact L|auto|right; right; constructor; exact L].
  - right; right; constructor; exact H.
Qed.
Lemma insert_in x l y : In y (insert x l) <-> y = x \/ In y l.
Proof.
  induction l as [|z l IH]; simpl; [intuition congruence|].
  destruct (String.eqb_spec x z) as [->|N]; [simpl; intuition congruence|].
  destruct (sleb x z); simpl; [intuition congruence|]; rewrite IH; intuition congruence.
Qed.
Lemma insert_increasing x l : increasing l -> increasing (insert x l).
Proof.
  induction 1 as [|y|y z l L I IH]; cbn [insert].
  - constructor.
  - destruct (String.eqb_spec x y) as [->|N]; [constructor|]; destruct (sleb x y) eqn:S.
    + apply sleb_lt in S; constructor; [destruct S; congruence|constructor].
    + constructor; [|constructor]; destruct (text_total x y) as [T|[T|T]]; [|contradiction|exact T].
      exfalso; assert (sleb x y = true) by (apply sleb_lt; auto); congruence.
  - destruct (String.eqb_spec x y) as [->|N]; [constructor; assumption|]; destruct (sleb x y) eqn:S.
    + apply sleb_lt in S; constructor; [destruct S; congruence|constructor; assumption].
    + assert (T : text_lt y x).
      { destruct (text_total x y) as [T|[T|T]]; [|contradiction|exact T].
        exfalso; assert (sleb x y = true) by (apply sleb_lt; auto); congruence. }
      cbn [insert] in IH; destruct (String.eqb x z); [constructor; assumption|]; destruct (sleb x z); constructor; assumption.
Qed.
Lemma sort_spec l : increasing (sort_strings l) /\ same_set (sort_strings l) l.
Proof.
  induction l as [|x l [I S]]; simpl; [split; [constructor|intros x; tauto]|].
  split; [apply insert_increasing; exact I|]; intros y; rewrite insert_in, (S y); simpl; intuition congruence.
Qed.

(** ** Indentation *)
Lemma prefix_true p s : prefix p s = true <-> exists t, s = (p ++ t)%string.
Proof.
  revert s; induction p as [|c p IH]; intros s; [split; [exists s; reflexivity|destruct s; reflexivity]|].
  destruct s as [|d s]; [split; [discriminate|intros [t E]; discriminate]|]; cbn [prefix].
  destruct (ascii_dec c d) as [->|N].
  - rewrite IH; split; intros [t E]; exists t; [rewrite E; reflexivity|injection E as E; exact E].
  - split; [discriminate|intros [t E]; injection E as E _; congruence].
Qed.
Lemma spaces_neq n : forall k c t, k < n -> c <> " "%char ->
  prefix (spaces n) ((fix sp n := match n with O => "" | S m => String " "%char (sp m) end) k ++ String c t)%string = false.
Proof.
  induction n as [|n IH]; intros k c t L N; [lia|]; destruct k as [|k]; cbn [spaces String.append prefix].
  - destruct (ascii_dec " " c) as [<-|]; [contradiction|reflexivity].
  - apply IH; [lia|exact N].
Qed.
Lemma simple_line bullet s : simple_message bullet s -> s <> "" /\ prefix bullet s || prefix (spaces (String.length bullet)) s = false.
Proof.
  intros [NE [O [NB [k [c [t [L [E N]]]]]]]]; split; [exact NE|]; apply orb_false_iff; split.
  - destruct (prefix bullet s) eqn:P; [|reflexivity]; apply prefix_true in P; destruct P as [u P]; exfalso; exact (NB u P).
  - rewrite E; apply spaces_neq; assumption.
Qed.
Lemma indent_simple bullet l : Forall (simple_message bullet) l -> indent_lines bullet l = map (fun s => (bullet ++ s)%string) l.
Proof.
  induction 1 as [|x l X F IH]; [reflexivity|]; cbn [indent_lines map]; rewrite IH.
  destruct (simple_line bullet x X) as [NE P]; destruct x as [|c x]; [congruence|]; rewrite P; reflexivity.
Qed.
Lemma indent_plain bullet l : l <> [] -> Forall (simple_message bullet) l -> indent bullet (join_on newline l) = join_on newline (map (fun s => (bullet ++ s)%string) l).
Proof.
  intros NE F; unfold indent; rewrite split_join; [rewrite indent_simple by exact F; reflexivity|exact NE|].
  eapply Forall_impl; [|exact F]; intros a [_ [O _]]; exact O.
Qed.
Lemma sort_nonempty l : l <> [] -> sort_strings l <> [].
Proof.
  intros NE E; destruct l as [|x l]; [congruence|]; destruct (sort_spec (x :: l)) as [_ S].
  assert (I : In x (sort_strings (x :: l))) by (apply S; left; reflexivity); rewrite E in I; destruct I.
Qed.
Lemma sort_forall P l : Forall P l -> Forall P (sort_strings l).
Proof.
  intros F; apply Forall_forall; intros x X; destruct (sort_spec l) as [_ S]; apply S in X; rewrite Forall_forall in F; apply F, X.
Qed.

Lemma eqb_prefix p a b : String.eqb (p ++ a) (p ++ b) = String.eqb a b.
Proof.
  destruct (String.eqb_spec a b) as [->|N]; [apply String.eqb_refl|]; apply String.eqb_neq; intros E; apply N, (append_inj p), E.
Qed.
Lemma sleb_prefix p a b : sleb (p ++ a) (p ++ b) = sleb a b.
Proof.
  induction p as [|c p IH]; [reflexivity|]; cbn [String.append sleb]; rewrite Nat.ltb_irrefl, Ascii.eqb_refl; exact IH.
Qed.
Lemma sort_map_prefix p l : sort_strings (map (fun s => (p ++ s)%string) l) = map (fun s => (p ++ s)%string) (sort_strings l).
Proof.
  induction l as [|x l IH]; [reflexivity|]; cbn [map sort_strings]; rewrite IH; generalize (sort_strings l) as k; clear.
  induction k as [|y k IH]; [reflexivity|]; cbn [map insert]; rewrite eqb_prefix, sleb_prefix, IH.
  destruct (String.eqb x y); [reflexivity|destruct (sleb x y); reflexivity].
Qed.
Lemma spaces_prefix n s : prefix (spaces n) (spaces n ++ s) = true.
Proof. apply prefix_true; exists s; reflexivity. Qed.
Lemma spaces_one n : has_char newline (spaces n) = false.
Proof. induction n as [|n IH]; [reflexivity|exact IH]. Qed.

(** The lines of grouped messages. *)
Lemma indent_cons bullet x l : x <> "" -> indent_lines bullet (x :: l) =
  (if prefix bullet x || prefix (spaces (String.length bullet)) x then x else (bullet ++ x)%string) :: indent_lines bullet l.
Proof. destruct x; [congruence|reflexivity]. Qed.
Lemma indent_items bullet items rest : bullet <> "" ->
  indent_lines bullet (map (fun i => (spaces (String.length bullet) ++ bullet ++ i)%string) items ++ rest) =
  map (fun i => (spaces (String.length bullet) ++ bullet ++ i)%string) items ++ indent_lines bullet rest.
Proof.
  intros NB; induction items as [|i items IH]; [reflexivity|]; cbn [map app].
  rewrite indent_cons; [rewrite spaces_prefix, orb_true_r, IH; reflexivity|].
  destruct bullet; [congruence|discriminate].
Qed.
