(** Lemmas on calls of helper functions. *)
From Coq Require Import QArith Qcanon Permutation Lia.
From Verif Require Import Base BaseProofs LangModel EvalModel BuildProofs HelperModel HelperSpec HelperProofs HelperLocal.
Local Open Scope nat_scope.
Local Open Scope string_scope.
Local Open Scope list_scope.
Local Arguments String.eqb : simpl never.
Local Arguments Qcplus : simpl never.

Lemma Qred_int k : Qred (inject_Z k) = inject_Z k.
Proof. apply Qred_identity. cbn. apply Z.gcd_1_r. Qed.
Lemma int_literal neg s k : integer neg s k -> int_of (Some (scalar (number_cell neg s))) = Some k.
Proof.
  unfold integer. intros H. unfold int_of, scalar. cbn [a_dims a_at]. unfold const. rewrite H. f_equal.
  change (this (Q2Qc (inject_Z k))) with (Qred (inject_Z k)). rewrite Qred_int. apply Z.quot_1_r.
Qed.

Lemma place_nth ls : NoDup ls -> forall i, i < List.length ls -> place (nth i ls "") ls = Some i.
Proof.
  induction 1 as [|x l N ND IH]; intros i H; [cbn in H; lia|]. destruct i as [|i]; cbn.
  - now rewrite String.eqb_refl.
  - cbn in H. assert (i < List.length l) by lia. destruct (String.eqb (nth i l "") x) eqn:E.
    + apply String.eqb_eq in E. subst. exfalso. apply N, nth_In. assumption.
    + now rewrite IH.
Qed.
Lemma place_in ls l : In l ls -> exists i, place l ls = Some i /\ i < List.length ls /\ nth i ls "" = l.
Proof.
  induction ls as [|x ls IH]; [intros []|]. intros H. cbn. destruct (String.eqb l x) eqn:E.
  - apply String.eqb_eq in E. subst. exists 0. repeat split. lia.
  - destruct H as [->|H]; [now rewrite String.eqb_refl in E|]. destruct (IH H) as (i & -> & LT & NT).
    exists (S i). repeat split; [lia|exact NT].
Qed.
Lemma all_names ds : all_some (map name_of (map EName ds)) = Some ds.
Proof. induction ds as [|d ds IH]; [reflexivity|]. cbn. now rewrite IH. Qed.

Section WithEnv.
Variable D : denv.
Hypothesis SD : sound D.

Lemma labels_nodup d : NoDup (n_labels D d).
Proof. apply SD. Qed.
Lemma local_put a p d l l' : local a -> a_at a (put (put p d l) d l') = a_at a (put p d l').
Proof. intros LA. apply LA. intros x _. unfold put. now destruct (String.eqb x d). Qed.
Lemma local_put_self a p d : local a -> a_at a (put p d (p d)) = a_at a p.
Proof. intros LA. apply LA. intros x _. unfold put. destruct (String.eqb x d) eqn:E; [|reflexivity]. apply String.eqb_eq in E. now subst. Qed.
Lemma local_put_out a p d l : local a -> ~ In d (a_dims a) -> a_at a (put p d l) = a_at a p.
Proof. intros LA N. apply LA. intros x Hx. apply put_other. intros ->. contradiction. Qed.

(** * What the calls compute *)
Lemma sum_call w e ds : deval D w (c_sum e ds) = option_map (h_sum D ds) (deval D w e).
Proof.
  change (deval D w (c_sum e ds)) with (opt2 (fun a o => Some (h_sum D o a)) (deval D w e) (all_some (map name_of (map EName ds)))).
  rewrite all_names. destruct (deval D w e); reflexivity.
Qed.
Lemma roll_call w e d neg s k : d <> "array" -> integer neg s k ->
  deval D w (c_roll e d neg s) = match deval D no_mask e with Some a => h_roll D a [(d, k)] | None => None end.
Proof.
  intros ND HK. unfold c_roll. cbn [deval map]. change (ignores "roll") with true. cbv iota. unfold call.
  change (String.eqb "roll" "sum") with false. change (String.eqb "roll" "any") with false.
  change (String.eqb "roll" "where") with false. change (String.eqb "roll" "reduce_carrier_dim") with false.
  rewrite String.eqb_refl. unfold bind. cbn [bind_pos option_map filter fst snd smem existsb app].
  assert (E : String.eqb d "array" = false) by now apply String.eqb_neq.
  rewrite E. cbn [orb negb filter app map all_in forallb smem existsb fst]. rewrite String.eqb_refl. cbn [orb andb].
  unfold get_arr. cbn [d_get map fst snd]. rewrite String.eqb_refl. change (deval D no_mask (ENum neg s)) with (Some (scalar (number_cell neg s))). rewrite (int_literal _ _ _ HK). cbn [option_map all_some].
  unfold opt2. destruct (deval D no_mask e); reflexivity.
Qed.
Lemma next_call w e d s n : integer false s (Z.of_nat n) ->
  deval D w (c_next e d s) = match deval D w e with Some a => h_next D a d n | None => None end.
Proof.
  intros HK. unfold c_next. cbn [deval map]. change (ignores "sum_next_n") with false. cbv iota.
  change (call D "sum_next_n" [(e, deval D w e); (EName d, Some (named D d)); (ENum false s, Some (scalar (number_cell false s)))] [])
    with (match deval D w e, int_of (Some (scalar (number_cell false s))) with
          | Some a, Some n => if Z.leb 0 n then h_next D a d (Z.to_nat n) else None
          | _, _ => None end).
  rewrite (int_literal _ _ _ HK). destruct (deval D w e); [|reflexivity].
  rewrite (proj2 (Z.leb_le _ _) (Zle_0_nat n)), Nat2Z.id. reflexivity.
Qed.
Lemma group_call w e b d :
  deval D w (c_group e b d) =
  match deval D no_mask e, deval D no_mask b with Some a, Some b => h_group D a b d | _, _ => None end.
Proof. reflexivity. Qed.
Lemma datetime_call w e o g :
  deval D w (c_datetime e o g) = match deval D no_mask e with Some a => h_datetime D a o g | None => None end.
Proof. reflexivity. Qed.
Lemma reduce_call w e dir :
  deval D w (c_reduce e dir) = match deval D w e with Some a => Some (h_reduce D a dir) | None => None end.
Proof. reflexivity. Qed.
Lemma where_call_eq w e c :
  deval D w (c_where e c) = match deval D w e, deval D w c with Some a, Some c => Some (h_where a c) | _, _ => None end.
Proof. reflexivity. Qed.

(** * Rolling *)
Definition cyc (d : string) (z : Z) : nat := Z.to_nat (z mod Z.of_nat (size D d))%Z.
Lemma cyc_lt d z : 0 < size D d -> cyc d z < size D d.
Proof. intros H. unfold cyc. assert (0 <= z mod Z.of_nat (size D d) < Z.of_nat (size D d))%Z by (apply Z.mod_pos_bound; lia). lia. Qed.
Lemma cyc_of d z : 0 < size D d -> Z.of_nat (cyc d z) = (z mod Z.of_nat (size D d))%Z.
Proof. intros H. unfold cyc. rewrite Z2Nat.id; [reflexivity|]. apply Z.mod_pos_bound. lia. Qed.
Lemma rolled_nth d k a p i : i < size D d ->
  rolled D d k a (put p d (nth i (n_labels D d) "")) =
  a (put (put p d (nth i (n_labels D d) "")) d (nth (cyc d (Z.of_nat i - k)) (n_labels D d) "")).
Proof. intros H. unfold rolled. rewrite put_same, place_nth; [reflexivity|apply labels_nodup|exact H]. Qed.
Lemma roll_one_at a d k p : local a -> In (p d) (n_labels D d) ->
  exists i, i < size D d /\ nth i (n_labels D d) "" = p d /\
    rolled D d k (a_at a) p = a_at a (put p d (nth (cyc d (Z.of_nat i - k)) (n_labels D d) "")).
Proof.
  intros LA H. destruct (place_in _ _ H) as (i & HP & HI & HN). exists i. split; [exact HI|]. split; [exact HN|].
  unfold rolled. now rewrite HP.
Qed.
Lemma h_roll_one a d k : In d (a_dims a) -> h_roll D a [(d, k)] = Some {| a_dims := a_dims a; a_at := rolled D d k (a_at a) |}.
Proof. intros H. unfold h_roll. cbn [map fst all_in forallb]. apply smem_in in H. rewrite H. reflexivity. Qed.
Lemma h_roll_none a d k : ~ In d (a_dims a) -> h_roll D a [(d, k)] = None.
Proof.
  intros H. unfold h_roll. cbn [map fst all_in forallb]. destruct (smem d (a_dims a)) eqn:E; [|reflexivity].
  apply smem_in in E. contradiction.
Qed.
Lemma cyc_back d i k : 0 < size D d -> i < size D d -> cyc d (Z.of_nat (cyc d (Z.of_nat i + k)) - k) = i.
Proof.
  intros HS HI. unfold cyc at 1. rewrite cyc_of by assumption. rewrite Zminus_mod_idemp_l.
  replace (Z.of_nat i + k - k)%Z with (Z.of_nat i) by lia. rewrite Z.mod_small by lia. apply Nat2Z.id.
Qed.
Lemma cyc_twice d z k : 0 < size D d -> cyc d (Z.of_nat (cyc d z) - k) = cyc d (z - k).
Proof. intros HS. unfold cyc at 1. rewrite cyc_of by assumption. now rewrite Zminus_mod_idemp_l. Qed.

Lemma roll_shift a d k p i : local a -> i < size D d ->
  rolled D d k (a_at a) (put p d (nth (cyc d (Z.of_nat i + k)) (n_labels D d) "")) = a_at a (put p d (nth i (n_labels D d) "")).
Proof.
  intros LA HI. rewrite rolled_nth by (apply cyc_lt; lia). rewrite local_put by assumption.
  now rewrite cyc_back by lia.
Qed.
Lemma roll_roll a d j k p : local a -> In d (a_dims a) -> In (p d) (n_labels D d) ->
  rolled D d k (rolled D d j (a_at a)) p = rolled D d (j + k) (a_at a) p.
Proof.
  intros LA HD HP.
  pose proof (rolled_local D d j (a_at a) (a_dims a) HD) as LR.
  assert (LR' : local {| a_dims := a_dims a; a_at := rolled D d j (a_at a) |}) by (apply LR; destruct a; exact LA).
  destruct (roll_one_at _ d k p LR' HP) as (i & HI & HN & HE). cbn [a_at] in HE. rewrite HE. clear HE.
  assert (0 < size D d) by lia.
  rewrite rolled_nth by now apply cyc_lt. rewrite local_put by assumption. rewrite cyc_twice by assumption.
  destruct (roll_one_at a d (j + k) p LA HP) as (i' & HI' & HN' & ->).
  assert (i = i') as <-.
  { apply (NoDup_nth (n_labels D d) ""); [apply labels_nodup|exact HI|exact HI'|congruence]. }
  do 4 f_equal. lia.
Qed.
Lemma roll_full a d k p : local a -> In (p d) (n_labels D d) -> (Z.of_nat (size D d) | k)%Z ->
  rolled D d k (a_at a) p = a_at a p.
Proof.
  intros LA HP [m ->]. destruct (roll_one_at a d (m * Z.of_nat (size D d)) p LA HP) as (i & HI & HN & ->).
  assert (cyc d (Z.of_nat i - m * Z.of_nat (size D d)) = i) as ->.
  { unfold cyc. replace (Z.of_nat i - m * Z.of_nat (size D d))%Z with (Z.of_nat i + (- m) * Z.of_nat (size D d))%Z by lia.
    rewrite Z.mod_add by lia. rewrite Z.mod_small by lia. apply Nat2Z.id. }
  rewrite HN. now apply local_put_self.
Qed.

Lemma nth_map_seq {A} (l : list A) x : map (fun i => nth i l x) (seq 0 (List.length l)) = l.
Proof.
  induction l as [|a l IH]; [reflexivity|]. cbn. f_equal. rewrite <- seq_shift, map_map. exact IH.
Qed.
Lemma cyc_perm d k : 0 < size D d -> Permutation (map (fun i => cyc d (Z.of_nat i - k)) (seq 0 (size D d))) (seq 0 (size D d)).
Proof.
  intros HS. apply NoDup_Permutation_bis.
  - apply CliProofs.nodup_map_on; [apply seq_NoDup|]. intros x y HX HY E. apply in_seq in HX, HY.
    assert (cyc d (Z.of_nat (cyc d (Z.of_nat x - k)) - - k) = x).
    { replace (Z.of_nat x - k)%Z with (Z.of_nat x + - k)%Z by lia. apply cyc_back; lia. }
    assert (cyc d (Z.of_nat (cyc d (Z.of_nat y - k)) - - k) = y).
    { replace (Z.of_nat y - k)%Z with (Z.of_nat y + - k)%Z by lia. apply cyc_back; lia. }
    congruence.
  - now rewrite map_length.
  - intros x HX. apply in_map_iff in HX as (i & <- & HI). apply in_seq. pose proof (cyc_lt d (Z.of_nat i - k) HS). lia.
Qed.
Lemma roll_entries a d k p : local a -> In d (a_dims a) ->
  Permutation (map (fun l => rolled D d k (a_at a) (put p d l)) (n_labels D d)) (map (fun l => a_at a (put p d l)) (n_labels D d)).
Proof.
  intros LA HD.
  assert (E : n_labels D d = map (fun i => nth i (n_labels D d) "") (seq 0 (size D d))) by (symmetry; apply nth_map_seq).
  rewrite E. rewrite !map_map.
  destruct (Nat.eq_dec (size D d) 0) as [Z|NZ]; [rewrite Z; reflexivity|].
  assert (HS : 0 < size D d) by lia.
  rewrite (map_ext_in _ (fun i => a_at a (put p d (nth (cyc d (Z.of_nat i - k)) (n_labels D d) "")))).
  2:{ intros i HI. apply in_seq in HI. rewrite rolled_nth by lia. now apply local_put. }
  rewrite <- (map_map (fun i => cyc d (Z.of_nat i - k)) (fun j => a_at a (put p d (nth j (n_labels D d) "")))).
  apply Permutation_map. now apply cyc_perm.
Qed.

(** * Sums *)
Lemma spread_one d p : spread D [d] p = map (put p d) (n_labels D d).
Proof. rewrite spread_cons. induction (n_labels D d) as [|l ls IH]; [reflexivity|]. cbn [flat_map map]. now rewrite IH. Qed.
Lemma shared_one d dims : In d dims -> shared [d] dims = [d].
Proof. intros H. unfold shared. cbn. apply smem_in in H. now rewrite H. Qed.
Lemma shared_none ds dims : (forall d, In d ds -> ~ In d dims) -> shared ds dims = [].
Proof.
  intros H. destruct (shared ds dims) as [|x l] eqn:E; [reflexivity|]. exfalso.
  assert (I1 : In x (shared ds dims)) by (rewrite E; now left). apply shared_in in I1 as [I1 I2]. now apply (H x).
Qed.
Lemma without_nil a : without [] a = a.
Proof. unfold without. induction a; cbn in *; [reflexivity|]. now rewrite IHa. Qed.

Lemma sum_same_set a A B : local a -> numbers D a -> (forall d, In d (a_dims a) -> (In d A <-> In d B)) ->
  same_array D (h_sum D A a) (h_sum D B a).
Proof.
  intros LA N H.
  assert (P : Permutation (shared A (a_dims a)) (shared B (a_dims a))).
  { apply NoDup_Permutation; try apply shared_nodup. intros x. rewrite !shared_in. firstorder. }
  assert (W : forall d, In d (without (shared A (a_dims a)) (a_dims a)) <-> In d (without (shared B (a_dims a)) (a_dims a))).
  { intros d. rewrite !without_in, !shared_in. firstorder. }
  split; [exact W|]. intros p HP. rewrite !h_sum_at; auto.
  2:{ intros d Hd. apply HP. cbn. now apply W. }
  apply summed_perm, spread_perm; auto. apply shared_nodup.
Qed.
Lemma concat_map_map {A B C} (f : B -> C) (g : A -> list B) l : List.concat (map (fun x => map f (g x)) l) = map f (flat_map g l).
Proof. rewrite map_flat_map. symmetry. apply flat_map_concat_map. Qed.
Lemma sum_sum a A B : local a -> numbers D a -> same_array D (h_sum D B (h_sum D A a)) (h_sum D (A ++ B) a).
Proof.
  intros LA N. set (sA := shared A (a_dims a)). set (sB := shared B (without sA (a_dims a))).
  assert (P : Permutation (sA ++ sB) (shared (A ++ B) (a_dims a))).
  { apply NoDup_Permutation.
    - apply CliProofs.nodup_app; try apply shared_nodup. intros x H1 H2. apply shared_in in H2 as [_ H2]. now apply without_in in H2.
    - apply shared_nodup.
    - intros x. unfold sB, sA. rewrite in_app_iff, !shared_in, without_in, in_app_iff, shared_in.
      destruct (in_dec string_dec x A); tauto. }
  assert (W : forall d, In d (without sB (without sA (a_dims a))) <-> In d (without (shared (A ++ B) (a_dims a)) (a_dims a))).
  { intros d. rewrite !without_in. split.
    - intros ((H1 & H2) & H3). split; [exact H1|]. intros H4. apply (Permutation_in _ (Permutation_sym P)) in H4.
      apply in_app_iff in H4. tauto.
    - intros (H1 & H2). repeat split; auto; intros H4; apply H2, (Permutation_in _ P), in_app_iff; auto. }
  split; [exact W|]. intros p HP. rewrite h_sum_at; [|now apply h_sum_numbers|exact HP].
  rewrite h_sum_at; [|exact N|intros d Hd; apply HP; now apply W].
  change (a_dims (h_sum D A a)) with (without sA (a_dims a)). fold sB.
  rewrite (map_ext_in _ (fun q => summed (map (a_at a) (spread D sA q)))).
  2:{ intros q HQ. apply h_sum_at; [exact N|]. apply (spread_inside D sB _ p); [exact HP|exact HQ]. }
  rewrite <- (map_map (fun q => map (a_at a) (spread D sA q)) summed), summed_concat, concat_map_map.
  rewrite <- spread_app. apply summed_perm.
  rewrite spread_perm with (ds' := sA ++ sB); [|exact LA| |apply Permutation_app_comm].
  - apply spread_perm; auto. apply (Permutation_NoDup (Permutation_sym P)), shared_nodup.
  - apply (Permutation_NoDup (Permutation_app_comm sA sB)). apply (Permutation_NoDup (Permutation_sym P)), shared_nodup.
Qed.

(** * Groups *)
Lemma group_perm (f : pos -> string) (ok : pos -> bool) gs l : NoDup gs ->
  Permutation (flat_map (fun g => filter (fun q => ok q && String.eqb (f q) g) l) gs) (filter (fun q => ok q && smem (f q) gs) l).
Proof.
  intros ND. induction l as [|q l IH].
  - cbn. clear ND. induction gs; cbn; auto.
  - cbn [filter]. destruct (ok q) eqn:OK; cbn [andb].
    2:{ exact IH. }
    destruct (smem (f q) gs) eqn:E.
    + apply smem_in in E. apply in_split in E as (g1 & g2 & ->).
      rewrite flat_map_app. cbn [flat_map]. rewrite String.eqb_refl.
      assert (NI : forall g, In g (g1 ++ g2) -> String.eqb (f q) g = false).
      { intros g HG. apply String.eqb_neq. intros EQ. rewrite EQ in ND. apply NoDup_remove_2 in ND. contradiction. }
      rewrite flat_map_app in IH. cbn [flat_map] in IH.
      rewrite (flat_map_concat_map _ g1), (map_ext_in _ (fun g => filter (fun q0 => ok q0 && String.eqb (f q0) g) l)), <- flat_map_concat_map.
      2:{ intros g HG. rewrite NI; [reflexivity|]. apply in_app_iff. now left. }
      rewrite (flat_map_concat_map _ g2), (map_ext_in _ (fun g => filter (fun q0 => ok q0 && String.eqb (f q0) g) l)), <- flat_map_concat_map.
      2:{ intros g HG. rewrite NI; [reflexivity|]. apply in_app_iff. now right. }
      cbn [app]. rewrite <- IH. symmetry. apply Permutation_middle.
    + rewrite (flat_map_concat_map _ gs), (map_ext_in _ (fun g => filter (fun q0 => ok q0 && String.eqb (f q0) g) l)), <- flat_map_concat_map; [exact IH|].
      intros g HG. assert (String.eqb (f q) g = false) as ->; [|reflexivity].
      apply String.eqb_neq. intros EQ. apply smem_in in HG. congruence.
Qed.
End WithEnv.
