(** Further lemmas on calls of helper functions. *)
From Coq Require Import QArith Qcanon Permutation Lia.
From Verif Require Import Base BaseProofs LangModel EvalModel BuildProofs HelperModel HelperSpec HelperProofs HelperLocal HelperLaws.
Local Open Scope nat_scope.
Local Open Scope string_scope.
Local Open Scope list_scope.
Local Arguments String.eqb : simpl never.
Local Arguments Qcplus : simpl never.

Section WithEnv.
Variable D : denv.
Hypothesis SD : sound D.

(** * Groups *)
Lemma filter_map_swap {A B} (f : A -> B) (g : B -> bool) l : filter g (map f l) = map f (filter (fun x => g (f x)) l).
Proof. induction l as [|x l IH]; cbn; [reflexivity|]. rewrite IH. now destruct (g (f x)). Qed.
Lemma summed_kept (ok : pos -> bool) (f : pos -> cell) l :
  summed (map f (filter ok l)) = summed (map (fun q => if ok q then f q else Miss) l).
Proof.
  unfold summed.
  assert (E : forallb missing (map f (filter ok l)) = forallb missing (map (fun q => if ok q then f q else Miss) l) /\
    value_sum (map f (filter ok l)) = value_sum (map (fun q => if ok q then f q else Miss) l)).
  { unfold value_sum. induction l as [|q l [I1 I2]]; [now split|]. cbn. destruct (ok q); cbn; rewrite I1, I2; split; auto. ring. }
  destruct E as [-> ->]. reflexivity.
Qed.
Definition txt (c : cell) : bool := match c with Txt _ => true | _ => false end.
Lemma h_group_total a b gd g : local a -> local b -> numbers D a -> NoDup (a_dims b) -> ~ In gd (a_dims a) ->
  h_group D a b gd = Some g -> same_array D (h_sum D [gd] g) (h_sum D (a_dims b) (kept D gd b a)).
Proof.
  intros LA LB NA ND NG. unfold h_group. destruct (all_in (a_dims b) (a_dims a)) eqn:E; [|discriminate].
  cbn [andb]. destruct (existsb _ _); [|discriminate]. rewrite all_in_spec in E.
  match goal with |- Some ?x = _ -> _ => set (G := x) end. intros [= <-].
  assert (SB : shared (a_dims b) (a_dims a) = a_dims b).
  { unfold shared. rewrite nodup_fixed_point by assumption.
    assert (X : forall l, (forall x, In x l -> In x (a_dims a)) -> filter (fun d => smem d (a_dims a)) l = l).
    { induction l as [|x l IH]; intros H; [reflexivity|]. cbn. rewrite (proj2 (smem_in x _) (H x (or_introl eq_refl))), IH; auto.
      intros y HY. apply H. now right. }
    apply X. exact E. }
  assert (SG : shared [gd] (a_dims G) = [gd]) by (apply shared_one; cbn; apply merge_in; right; now left).
  assert (NK : numbers D (kept D gd b a)).
  { intros p HP. cbn in *. destruct (a_at b p); try exact I. destruct (smem s (n_labels D gd)); [now apply NA|exact I]. }
  assert (FN : forall (ok : pos -> bool) p, inside D (without (a_dims b) (a_dims a)) p ->
    Forall numeric (map (a_at a) (filter ok (spread D (a_dims b) p)))).
  { intros ok p HP. apply Forall_forall. intros c HC. apply in_map_iff in HC as (q & <- & HQ). apply filter_In in HQ as [HQ _].
    apply NA. now apply (spread_inside D (a_dims b) _ p). }
  assert (NGR : numbers D G).
  { intros p HP. cbn. rewrite total_summed; [apply numeric_summed|]. apply FN. intros d Hd. apply HP. cbn. apply merge_in. now left. }
  assert (W : forall d, In d (without [gd] (a_dims G)) <-> In d (without (a_dims b) (a_dims a))).
  { intros d. cbn [a_dims G]. rewrite without_in, merge_in, !without_in. cbn. split.
    - intros ([H|[->|[]]] & N); [exact H|]. exfalso. apply N. now left.
    - intros [H1 H2]. split; [left; now split|]. intros [->|[]]. contradiction. }
  split.
  { intros d. cbn [h_sum a_dims kept]. rewrite SG, SB. apply W. }
  intros p HP. cbn [h_sum a_dims] in HP. rewrite SG in HP.
  assert (HP' : inside D (without (a_dims b) (a_dims a)) p) by (intros d Hd; apply HP; now apply W).
  rewrite h_sum_at; [|exact NGR|rewrite SG; exact HP]. rewrite SG.
  rewrite h_sum_at; [|exact NK|cbn [kept a_dims]; rewrite SB; exact HP']. cbn [kept a_dims]. rewrite SB.
  set (ok := fun q => txt (a_at b q)). set (f := fun q => label (a_at b q)).
  rewrite spread_one, map_map.
  rewrite (map_ext_in _ (fun x => summed (map (a_at a) (filter (fun q => ok q && String.eqb (f q) x) (spread D (a_dims b) p))))).
  2:{ intros g HG. cbn [G a_at]. rewrite put_same. rewrite total_summed.
      2:{ apply FN. intros d Hd. rewrite put_other; [now apply HP'|]. intros ->. apply without_in in Hd as [Hd _]. contradiction. }
      rewrite !summed_kept.
      f_equal. apply spread_map_ext. intros q q' H1 H2.
      assert (QQ : forall d, In d (a_dims a) -> q d = q' d).
      { intros d Hd. destruct (in_dec string_dec d (a_dims b)) as [I1|N1]; [now apply H1|].
        destruct (H2 d N1) as [-> ->]. apply put_other. intros ->. contradiction. }
      rewrite (LA q q' QQ), (LB q q') by (intros d Hd; now apply H1).
      unfold ok, f, in_group, txt. destruct (a_at b q'); reflexivity. }
  rewrite <- (map_map (fun x => map (a_at a) (filter (fun q => ok q && String.eqb (f q) x) (spread D (a_dims b) p))) summed).
  rewrite summed_concat, concat_map_map.
  rewrite (summed_perm _ (map (a_at a) (filter (fun q => ok q && smem (f q) (n_labels D gd)) (spread D (a_dims b) p)))).
  2:{ apply Permutation_map, group_perm, SD. }
  rewrite summed_kept. f_equal. apply map_ext. intros q. unfold ok, f, txt. cbn [kept a_at]. destruct (a_at b q); reflexivity.
Qed.

(** * Windows *)
Lemma window_nth (l : list string) i n : window i n l = map (fun j => nth j l "") (seq i (Nat.min n (List.length l - i))).
Proof.
  unfold window. revert i n. induction l as [|x l IH]; intros i n.
  - cbn. rewrite skipn_nil, firstn_nil, Nat.min_0_r. reflexivity.
  - destruct i as [|i].
    + cbn [skipn]. destruct n as [|n]; [reflexivity|]. specialize (IH 0 n). cbn [skipn] in IH. cbn [firstn]. rewrite IH.
      cbn [List.length]. rewrite !Nat.sub_0_r. cbn [Nat.min seq map nth]. f_equal. now rewrite <- seq_shift, map_map.
    + cbn [skipn]. rewrite IH. cbn [List.length]. rewrite Nat.sub_succ. rewrite <- seq_shift, map_map. reflexivity.
Qed.
Lemma inside_put dims p d l : inside D (without [d] dims) p -> In l (n_labels D d) -> inside D dims (put p d l).
Proof.
  intros H HL x Hx. unfold put. destruct (String.eqb x d) eqn:E.
  - apply String.eqb_eq in E. now subst.
  - apply H, without_in. split; [exact Hx|]. intros [->|[]]. now rewrite String.eqb_refl in E.
Qed.
Lemma inside_without dims ds p : inside D dims p -> inside D (without ds dims) p.
Proof. intros H d Hd. apply H. now apply without_in in Hd. Qed.
Lemma h_next_at a d n r p i : local a -> numbers D a -> h_next D a d n = Some r -> inside D (without [d] (a_dims a)) p -> i < size D d ->
  a_at r (put p d (nth i (n_labels D d) "")) = summed (along D d a p (seq i (Nat.min n (size D d - i)))).
Proof.
  intros LA NA. unfold h_next. destruct (smem d (a_dims a)); [|discriminate]. intros [= <-] HP HI. cbn [a_at].
  rewrite put_same, place_nth; [|apply SD|exact HI].
  rewrite window_nth, map_map. unfold along. rewrite total_summed.
  - f_equal. apply map_ext. intros j. now apply local_put.
  - apply Forall_forall. intros c HC. apply in_map_iff in HC as (j & <- & HJ). apply in_seq in HJ.
    rewrite local_put by assumption. apply NA, inside_put; [exact HP|]. apply nth_In. unfold size in *. lia.
Qed.

(** * Adding zero *)
Lemma shared_ext ds a b : (forall d, In d ds -> (In d a <-> In d b)) -> shared ds a = shared ds b.
Proof.
  intros H. unfold shared. apply filter_ext_in. intros d Hd. apply nodup_In in Hd. specialize (H d Hd).
  destruct (smem d a) eqn:E1, (smem d b) eqn:E2; auto; exfalso.
  - apply smem_in in E1. apply H in E1. apply smem_in in E1. congruence.
  - apply smem_in in E2. apply H in E2. apply smem_in in E2. congruence.
Qed.
Lemma plus_zero_at w a p : m_at w p = true -> match a_at a p with Miss | Val _ => True | _ => False end ->
  a_at (combine D OAdd (under w a) (under w (scalar (number_cell false "0")))) p = a_at a p.
Proof.
  intros HW HN. cbn [combine a_at under]. unfold mask. rewrite HW. unfold scalar, const. cbn [a_at].
  change (number_cell false "0") with (Val (decimal 0 0 false "0")).
  assert (Z0 : decimal 0 0 false "0" = 0%Qc) by (apply Qc_is_canon; reflexivity). rewrite Z0.
  destruct (a_at a p); try contradiction; cbn; [reflexivity|]. f_equal. ring.
Qed.
Lemma sum_plus_zero w a ds p : local_mask w -> plain D a -> (forall d, In d ds -> ~ In d (m_dims w)) ->
  m_at w p = true -> inside D (without ds (a_dims a)) p ->
  a_at (h_sum D ds (combine D OAdd (under w a) (under w (scalar (number_cell false "0"))))) p = a_at (h_sum D ds a) p.
Proof.
  intros LW PA ND HW HP. cbn [h_sum a_at].
  assert (E : shared ds (a_dims (combine D OAdd (under w a) (under w (scalar (number_cell false "0"))))) = shared ds (a_dims a)).
  { apply shared_ext. intros d Hd. specialize (ND d Hd). cbn [combine a_dims under scalar]. rewrite !merge_in. cbn [In]. tauto. }
  rewrite E. f_equal. apply map_ext_in. intros q HQ. apply plus_zero_at.
  - rewrite (LW q p); [exact HW|]. intros d Hd. apply (spread_length_ok D (shared ds (a_dims a)) p q HQ).
    intros H. apply shared_in in H as [H _]. now apply (ND d).
  - apply PA. apply (spread_inside D (shared ds (a_dims a)) (a_dims a) p q); [|exact HQ].
    intros d Hd. apply HP. apply without_in in Hd as [H1 H2]. apply without_in. split; [exact H1|]. intros H3.
    apply H2, shared_in. now split.
Qed.

(** * Without calls *)
Lemma fold_none {A B} (f : A -> B -> option A) l : fold_left (fun v x => match v with Some v => f v x | None => None end) l None = None.
Proof. induction l; cbn; auto. Qed.
Lemma chain_none w ops : fold_left (fun v x => match v, deval D w (snd x) with
                            | Some v, Some b => Some (combine D (fst x) v (under w b))
                            | _, _ => None
                            end) ops None = None.
Proof. induction ops; cbn; auto. Qed.
Lemma slice_dim_at d sl a r : slice_dim D d sl a = Some r -> a_at r = slice_at (plain_env D) d sl (a_at a).
Proof.
  unfold slice_dim. destruct (negb _); [discriminate|]. destruct sl; try discriminate; try (intros [= <-]; reflexivity).
  destruct (n_slice D s); [|discriminate]. intros [= <-]. reflexivity.
Qed.
Lemma slice_at_ext E d sl a b p : (forall q, a q = b q) -> slice_at E d sl a p = slice_at E d sl b p.
Proof. intros H. destruct sl as [[]| | | | | | | | | | |]; cbn; rewrite ?H; reflexivity. Qed.
Lemma deval_call_free e : forall w a, call_free e = true -> deval D w e = Some a -> forall p, a_at a p = aeval (plain_env D) (m_at w) e p.
Proof.
  induction e as [e IH] using expr_parts; intros w a CF H p.
  destruct e as [neg s|s|s|s|b|s|s|l|s sl|f args kws|neg e|e ops]; cbn in CF; try discriminate; cbn [deval] in H.
  - injection H as <-. reflexivity.
  - injection H as <-. reflexivity.
  - injection H as <-. reflexivity.
  - injection H as <-. reflexivity.
  - injection H as <-. reflexivity.
  - cbn. rewrite H. reflexivity.
  - clear IH. cbn [aeval]. revert a H p. induction sl as [|[d x] sl IS]; intros a H p; cbn [fold_right] in *.
    + injection H as <-. reflexivity.
    + destruct (fold_right _ _ sl) as [b|] eqn:EB; [|discriminate]. cbn [fst snd] in *. rewrite (slice_dim_at _ _ _ _ H).
      apply slice_at_ext. intros q. now apply IS.
  - destruct (deval D w e) as [b|] eqn:E; [|discriminate]. injection H as <-. cbn [aeval].
    destruct neg; cbn [combine a_at scalar]; rewrite <- (IH e) with (a := b); auto; try reflexivity; now cbn.
  - apply andb_true_iff in CF as [C1 C2]. rewrite forallb_forall in C2. cbn [aeval].
    destruct (deval D w e) as [b|] eqn:E; [|cbn [option_map] in H; now rewrite chain_none in H]. cbn [option_map] in H.
    assert (EV : forall q, a_at (under w b) q = mask (m_at w) (aeval (plain_env D) (m_at w) e) q).
    { intros q. cbn. unfold mask. rewrite <- (IH e) with (a := b); auto. now left. }
    clear E. revert EV H. generalize (under w b) as v. generalize (mask (m_at w) (aeval (plain_env D) (m_at w) e)) as u.
    assert (HO : forall x, In x ops -> forall a, deval D w (snd x) = Some a -> forall p, a_at a p = aeval (plain_env D) (m_at w) (snd x) p).
    { intros x HX a' HA q. apply IH; auto. right. apply in_map_iff. eauto. }
    clear IH C2 b. induction ops as [|x ops IO]; intros u v EV H; cbn [fold_left] in *.
    + injection H as <-. apply EV.
    + destruct (deval D w (snd x)) as [b|] eqn:EX; [|now rewrite chain_none in H].
      apply (IO (fun x0 HX => HO x0 (or_intror HX))) with (v := combine D (fst x) v (under w b)); [|exact H].
      intros q. cbn [combine a_at under]. rewrite EV. unfold mask. rewrite <- (HO x (or_introl eq_refl) b EX q). reflexivity.
Qed.

(** * Sub-expressions in place *)
Definition arg_le (x y : arg) : Prop :=
  (forall s, name_of (fst x) = Some s -> name_of (fst y) = Some s) /\
  (forall l, names_of (fst x) = Some l -> names_of (fst y) = Some l) /\
  (forall a, snd x = Some a -> snd y = Some a).
Definition named_le (x y : string * arg) : Prop := fst x = fst y /\ arg_le (snd x) (snd y).
Lemma keys_le l l' : Forall2 named_le l l' -> map fst l = map fst l'.
Proof. induction 1 as [|x y l l' [H _] _ IH]; cbn; [reflexivity|]. now rewrite H, IH. Qed.
Lemma bind_pos_le ps args args' l : Forall2 arg_le args args' -> bind_pos ps args = Some l ->
  exists l', bind_pos ps args' = Some l' /\ Forall2 named_le l l'.
Proof.
  intros F. revert ps l. induction F as [|x y args args' H F IH]; intros ps l.
  - cbn. destruct ps; intros [= <-]; exists []; split; constructor.
  - destruct ps as [|q ps]; cbn; [discriminate|]. destruct (bind_pos ps args) as [m|] eqn:E; [|discriminate].
    intros [= <-]. destruct (IH ps m E) as (m' & -> & FM). exists ((q, y) :: m'). split; [reflexivity|]. constructor; [split; auto|exact FM].
Qed.
Lemma filter_le (f : string -> bool) l l' : Forall2 named_le l l' ->
  Forall2 named_le (filter (fun k => f (fst k)) l) (filter (fun k => f (fst k)) l').
Proof. induction 1 as [|x y l l' H F IH]; cbn; [constructor|]. destruct H as [H1 H2]. rewrite H1. destruct (f (fst y)); [constructor; [split|]; auto|exact IH]. Qed.
Lemma bind_le ps ks more args args' kws kws' l o : Forall2 arg_le args args' -> Forall2 named_le kws kws' ->
  bind ps ks more args kws = Some (l, o) ->
  exists l' o', bind ps ks more args' kws' = Some (l', o') /\ Forall2 named_le l l' /\ Forall2 named_le o o'.
Proof.
  intros FA FK. unfold bind. destruct (bind_pos ps args) as [g|] eqn:E; [|discriminate].
  destruct (bind_pos_le _ _ _ _ FA E) as (g' & -> & FG).
  pose proof (filter_le (fun k => smem k (ps ++ ks)) _ _ FK) as F1.
  pose proof (filter_le (fun k => negb (smem k (ps ++ ks))) _ _ FK) as F2. cbn beta in F1, F2.
  set (n := filter (fun k : string * arg => smem (fst k) (ps ++ ks)) kws) in *.
  set (n' := filter (fun k : string * arg => smem (fst k) (ps ++ ks)) kws') in *.
  set (r := filter (fun k : string * arg => negb (smem (fst k) (ps ++ ks))) kws) in *.
  set (r' := filter (fun k : string * arg => negb (smem (fst k) (ps ++ ks))) kws') in *.
  assert (FALL : Forall2 named_le (g ++ n) (g' ++ n')) by now apply Forall2_app.
  rewrite <- (keys_le _ _ FALL), <- (keys_le _ _ FG).
  assert (X : forallb (fun k => negb (smem (fst k) (map fst g))) n = forallb (fun k => negb (smem (fst k) (map fst g))) n').
  { clear -F1. induction F1 as [|x y l l' [H _] _ IH]; cbn; [reflexivity|]. now rewrite H, IH. }
  assert (Y : match r with [] => true | _ => false end = match r' with [] => true | _ => false end) by (inversion F2; reflexivity).
  rewrite <- X, <- Y. destruct (_ && _); [|discriminate]. intros [= <- <-]. eauto.
Qed.
Lemma get_le s l l' : Forall2 named_le l l' -> match d_get s l, d_get s l' with Some x, Some y => arg_le x y | None, None => True | _, _ => False end.
Proof.
  induction 1 as [|[k x] [k' y] l l' [H1 H2] F IH]; cbn; [exact I|]. cbn in H1. subst. destruct (String.eqb s k'); assumption.
Qed.
Lemma get_arr_le s l l' a : Forall2 named_le l l' -> get_arr s l = Some a -> get_arr s l' = Some a.
Proof. intros F. pose proof (get_le s l l' F) as H. unfold get_arr. destruct (d_get s l) as [[e x]|], (d_get s l') as [[e' x']|]; try contradiction; try discriminate. apply H. Qed.
Lemma get_name_le s l l' a : Forall2 named_le l l' -> get_name s l = Some a -> get_name s l' = Some a.
Proof. intros F. pose proof (get_le s l l' F) as H. unfold get_name. destruct (d_get s l) as [[e x]|], (d_get s l') as [[e' x']|]; try contradiction; try discriminate. apply H. Qed.
Lemma get_names_le s l l' a : Forall2 named_le l l' -> get_names s l = Some a -> get_names s l' = Some a.
Proof. intros F. pose proof (get_le s l l' F) as H. unfold get_names. destruct (d_get s l) as [[e x]|], (d_get s l') as [[e' x']|]; try contradiction; try discriminate. apply H. Qed.
Lemma int_le x y z : (forall a, x = Some a -> y = Some a) -> int_of x = Some z -> int_of y = Some z.
Proof. intros H. destruct x as [a|]; [|discriminate]. now rewrite (H a eq_refl). Qed.
Lemma get_int_le s l l' a : Forall2 named_le l l' -> get_int s l = Some a -> get_int s l' = Some a.
Proof. intros F. pose proof (get_le s l l' F) as H. unfold get_int. destruct (d_get s l) as [[e x]|], (d_get s l') as [[e' x']|]; try contradiction; try discriminate. apply int_le, H. Qed.
Lemma all_some_le {A} (f g : string * arg -> option A) l l' r : Forall2 named_le l l' ->
  (forall x y v, named_le x y -> f x = Some v -> g y = Some v) ->
  all_some (map f l) = Some r -> all_some (map g l') = Some r.
Proof.
  intros F H. revert r. induction F as [|x y l l' HX F IH]; intros r; cbn; [auto|].
  destruct (f x) as [v|] eqn:E; [|discriminate]. rewrite (H x y v HX E).
  destruct (all_some (map f l)) as [m|]; [|discriminate]. intros [= <-]. now rewrite (IH m eq_refl).
Qed.
Lemma call_le f args args' kws kws' r : Forall2 arg_le args args' -> Forall2 named_le kws kws' ->
  call D f args kws = Some r -> call D f args' kws' = Some r.
Proof.
  intros FA FK. unfold call.
  destruct (String.eqb f "sum").
  { destruct (bind ["array"] ["over"] false args kws) as [[l o]|] eqn:B; [|discriminate].
    destruct (bind_le _ _ _ _ _ _ _ _ _ FA FK B) as (l' & o' & -> & FL & FO). unfold opt2. intros H.
    destruct (get_arr "array" l) as [a|] eqn:EA; [|discriminate]. destruct (get_names "over" l) as [n|] eqn:EN; [|discriminate].
    now rewrite (get_arr_le _ _ _ _ FL EA), (get_names_le _ _ _ _ FL EN). }
  destruct (String.eqb f "any").
  { destruct (bind ["input_component"] ["over"] false args kws) as [[l o]|] eqn:B; [|discriminate].
    destruct (bind_le _ _ _ _ _ _ _ _ _ FA FK B) as (l' & o' & -> & FL & FO). unfold opt2. intros H.
    destruct (get_arr "input_component" l) as [a|] eqn:EA; [|discriminate]. destruct (get_names "over" l) as [n|] eqn:EN; [|discriminate].
    now rewrite (get_arr_le _ _ _ _ FL EA), (get_names_le _ _ _ _ FL EN). }
  destruct (String.eqb f "where").
  { destruct (bind ["array"; "condition"] [] false args kws) as [[l o]|] eqn:B; [|discriminate].
    destruct (bind_le _ _ _ _ _ _ _ _ _ FA FK B) as (l' & o' & -> & FL & FO). unfold opt2. intros H.
    destruct (get_arr "array" l) as [a|] eqn:EA; [|discriminate]. destruct (get_arr "condition" l) as [n|] eqn:EN; [|discriminate].
    now rewrite (get_arr_le _ _ _ _ FL EA), (get_arr_le _ _ _ _ FL EN). }
  destruct (String.eqb f "reduce_carrier_dim").
  { destruct (bind ["array"; "flow_direction"] [] false args kws) as [[l o]|] eqn:B; [|discriminate].
    destruct (bind_le _ _ _ _ _ _ _ _ _ FA FK B) as (l' & o' & -> & FL & FO). unfold opt2. intros H.
    destruct (get_arr "array" l) as [a|] eqn:EA; [|discriminate]. destruct (get_name "flow_direction" l) as [n|] eqn:EN; [|discriminate].
    now rewrite (get_arr_le _ _ _ _ FL EA), (get_name_le _ _ _ _ FL EN). }
  destruct (String.eqb f "roll").
  { destruct (bind ["array"] [] true args kws) as [[l o]|] eqn:B; [|discriminate].
    destruct (bind_le _ _ _ _ _ _ _ _ _ FA FK B) as (l' & o' & -> & FL & FO). unfold opt2. intros H.
    destruct (get_arr "array" l) as [a|] eqn:EA; [|discriminate]. rewrite (get_arr_le _ _ _ _ FL EA).
    match type of H with match ?t with _ => _ end = _ => destruct t as [ks|] eqn:EK; [|discriminate] end.
    pose proof (fun g' G => all_some_le _ g' _ _ _ FO G EK) as X. rewrite X; [exact H|]. clear X.
    intros x y v [HX HY] HV. cbv beta in *.
    match type of HV with option_map _ ?t = _ => destruct t as [z|] eqn:EZ; [|discriminate HV] end.
    match goal with |- option_map _ ?t = _ => replace t with (Some z) by (symmetry; exact (int_le _ _ _ (proj2 (proj2 HY)) EZ)) end. cbn [option_map] in *. rewrite <- HV. do 2 f_equal. symmetry. exact HX. }
  destruct (String.eqb f "sum_next_n").
  { destruct (bind ["array"; "over"; "N"] [] false args kws) as [[l o]|] eqn:B; [|discriminate].
    destruct (bind_le _ _ _ _ _ _ _ _ _ FA FK B) as (l' & o' & -> & FL & FO). intros H.
    destruct (get_arr "array" l) as [a|] eqn:EA; [|discriminate]. destruct (get_name "over" l) as [n|] eqn:EN; [|discriminate].
    destruct (get_int "N" l) as [z|] eqn:EZ; [|discriminate].
    now rewrite (get_arr_le _ _ _ _ FL EA), (get_name_le _ _ _ _ FL EN), (get_int_le _ _ _ _ FL EZ). }
  destruct (String.eqb f "group_sum").
  { destruct (bind ["array"; "groupby"; "group_dim"] [] false args kws) as [[l o]|] eqn:B; [|discriminate].
    destruct (bind_le _ _ _ _ _ _ _ _ _ FA FK B) as (l' & o' & -> & FL & FO). intros H.
    destruct (get_arr "array" l) as [a|] eqn:EA; [|discriminate]. destruct (get_arr "groupby" l) as [n|] eqn:EN; [|discriminate].
    destruct (get_name "group_dim" l) as [z|] eqn:EZ; [|discriminate].
    now rewrite (get_arr_le _ _ _ _ FL EA), (get_arr_le _ _ _ _ FL EN), (get_name_le _ _ _ _ FL EZ). }
  destruct (String.eqb f "group_datetime").
  { destruct (bind ["array"; "over"; "group"] [] false args kws) as [[l o]|] eqn:B; [|discriminate].
    destruct (bind_le _ _ _ _ _ _ _ _ _ FA FK B) as (l' & o' & -> & FL & FO). intros H.
    destruct (get_arr "array" l) as [a|] eqn:EA; [|discriminate]. destruct (get_name "over" l) as [n|] eqn:EN; [|discriminate].
    destruct (get_name "group" l) as [z|] eqn:EZ; [|discriminate].
    now rewrite (get_arr_le _ _ _ _ FL EA), (get_name_le _ _ _ _ FL EN), (get_name_le _ _ _ _ FL EZ). }
  destruct (String.eqb f "select_from_lookup_arrays").
  { destruct (bind ["array"] [] true args kws) as [[l o]|] eqn:B; [|discriminate].
    destruct (bind_le _ _ _ _ _ _ _ _ _ FA FK B) as (l' & o' & -> & FL & FO). unfold opt2. intros H.
    destruct (get_arr "array" l) as [a|] eqn:EA; [|discriminate]. rewrite (get_arr_le _ _ _ _ FL EA).
    match type of H with match ?t with _ => _ end = _ => destruct t as [ks|] eqn:EK; [|discriminate] end.
    pose proof (fun g' G => all_some_le _ g' _ _ _ FO G EK) as X. rewrite X; [exact H|]. clear X.
    intros x y v [HX HY] HV. cbv beta in *.
    match type of HV with option_map _ ?t = _ => destruct t as [z|] eqn:EZ; [|discriminate HV] end.
    match goal with |- option_map _ ?t = _ => replace t with (Some z) by (symmetry; exact (proj1 HY _ EZ)) end. cbn [option_map] in *. rewrite <- HV. do 2 f_equal. symmetry. exact HX. }
  destruct (String.eqb f "get_val_at_index").
  { destruct (bind [] [] true args kws) as [[l o]|] eqn:B; [|discriminate].
    destruct (bind_le _ _ _ _ _ _ _ _ _ FA FK B) as (l' & o' & -> & FL & FO). intros H.
    destruct o as [|k [|? ?]]; try discriminate. inversion FO as [|? k' ? ? [HX HY] FO']; subst. inversion FO'; subst.
    destruct (int_of (snd (snd k))) as [z|] eqn:EZ; [|discriminate]. rewrite (int_le _ _ _ (proj2 (proj2 HY)) EZ), <- HX. exact H. }
  destruct (String.eqb f "defined"); [|discriminate].
  destruct (bind [] ["within"; "how"] true args kws) as [[l o]|] eqn:B; [|discriminate].
  destruct (bind_le _ _ _ _ _ _ _ _ _ FA FK B) as (l' & o' & -> & FL & FO). intros H.
  destruct (get_name "within" l) as [wi|] eqn:EW; [|discriminate]. destruct (get_name "how" l) as [h|] eqn:EH; [|discriminate].
  rewrite (get_name_le _ _ _ _ FL EW), (get_name_le _ _ _ _ FL EH).
  match type of H with match ?t with _ => _ end = _ => destruct t as [ks|] eqn:EK; [|discriminate] end.
  pose proof (fun g' G => all_some_le _ g' _ _ _ FO G EK) as X. rewrite X; [exact H|]. clear X.
  intros x y v [HX HY] HV. cbv beta in *.
    match type of HV with option_map _ ?t = _ => destruct t as [z|] eqn:EZ; [|discriminate HV] end.
    match goal with |- option_map _ ?t = _ => replace t with (Some z) by (symmetry; exact (proj1 (proj2 HY) _ EZ)) end. cbn [option_map] in *. rewrite <- HV. do 2 f_equal. symmetry. exact HX.
Qed.
Lemma name_inline sb e s : name_of e = Some s -> inline sb e = e.
Proof. destruct e; try discriminate; reflexivity. Qed.
Lemma names_inline sb e l : names_of e = Some l -> names_of (inline sb e) = Some l.
Proof.
  destruct e as [| | | | | | |es| | | |]; try discriminate; auto. cbn. revert l. induction es as [|x es IH]; intros l; cbn; auto.
  destruct (name_of x) as [s|] eqn:E; [|discriminate]. rewrite (name_inline sb x s E), E.
  destruct (all_some (map name_of es)) as [m|]; [|discriminate]. intros [= <-]. now rewrite (IH m eq_refl).
Qed.
Lemma inline_ok sb e : forall w a, deval (subs_in D sb) w e = Some a -> deval D w (inline sb e) = Some a.
Proof.
  induction e as [e IH] using expr_parts; intros w a H.
  destruct e as [neg s|s|s|s|b|s|s|l|s sl|f args kws|neg e|e ops]; try exact H.
  - cbn in H. cbn [inline]. destruct (d_get s sb); [exact H|discriminate].
  - cbn [deval] in H. cbn [inline deval].
    change (call (subs_in D sb)) with (call D) in H. eapply call_le; [| |exact H].
    + rewrite map_map. assert (HA : forall x, In x args -> forall w a, deval (subs_in D sb) w x = Some a -> deval D w (inline sb x) = Some a).
      { intros x HX. apply IH. now left. }
      clear IH H. induction args as [|x args IA]; cbn [map]; constructor.
      * split; [|split]; cbn [fst snd].
        -- intros n HN. now rewrite (name_inline sb x n HN).
        -- apply names_inline.
        -- apply HA. now left.
      * apply IA. intros y HY. apply HA. now right.
    + rewrite map_map. assert (HA : forall x, In x kws -> forall w a, deval (subs_in D sb) w (snd x) = Some a -> deval D w (inline sb (snd x)) = Some a).
      { intros x HX. apply IH. right. apply in_map_iff. eauto. }
      clear IH H. induction kws as [|x kws IA]; cbn [map]; constructor.
      * split; [reflexivity|]. split; [|split]; cbn [fst snd].
        -- intros n HN. now rewrite (name_inline sb (snd x) n HN).
        -- apply names_inline.
        -- apply HA. now left.
      * apply IA. intros y HY. apply HA. now right.
  - cbn [deval] in H. cbn [inline deval]. destruct (deval (subs_in D sb) w e) as [b|] eqn:E; [|discriminate].
    apply (IH e) in E; [|reflexivity]. rewrite E. exact H.
  - cbn [deval] in H. cbn [inline deval]. 
    destruct (deval (subs_in D sb) w e) as [b|] eqn:E.
    2:{ exfalso. cbn [option_map] in H. clear -H. induction ops as [|x ops IO]; cbn in H; [discriminate|auto]. }
    apply (IH e) in E; [|now left]. rewrite E. cbn [option_map] in *. revert H. generalize (under w b) as v.
    assert (HO : forall x, In x ops -> forall a, deval (subs_in D sb) w (snd x) = Some a -> deval D w (inline sb (snd x)) = Some a).
    { intros x HX. apply IH. right. apply in_map_iff. eauto. }
    clear IH E b. induction ops as [|x ops IO]; intros v H; cbn [map fold_left] in *; [exact H|].
    destruct (deval (subs_in D sb) w (snd x)) as [b|] eqn:EX.
    2:{ exfalso. clear -H. induction ops as [|y ops IO]; cbn in H; [discriminate|auto]. }
    cbn [fst snd]. rewrite (HO x (or_introl eq_refl) b EX). apply IO; [|exact H]. intros y HY. apply HO. now right.
Qed.

(** * Lookups and definitions *)
Lemma existsb_spread (f : pos -> bool) ds p : existsb f (spread D ds p) = true <-> exists q, In q (spread D ds p) /\ f q = true.
Proof. rewrite existsb_exists. reflexivity. Qed.
Lemma put_in_spread a ds p q : local a -> NoDup ds -> (forall d, In d ds -> In (q d) (n_labels D d)) ->
  (forall d, In d (a_dims a) -> ~ In d ds -> q d = p d) -> exists q', In q' (spread D ds p) /\ a_at a q' = a_at a q.
Proof.
  intros LA ND HL HO. exists (puts p ds (map q ds)). split.
  - unfold spread. apply in_map. apply CliProofs.product_in. clear -HL. induction ds as [|d ds IH]; cbn; constructor.
    + apply HL. now left.
    + apply IH. intros x HX. apply HL. now right.
  - apply LA. intros d Hd. destruct (in_dec string_dec d ds) as [I1|N1].
    + apply (puts_in ds (map q ds) p d (fun x l => l = q x)); [|exact I1]. clear. induction ds; cbn; constructor; auto.
    + rewrite puts_other by assumption. symmetry. now apply HO.
Qed.
End WithEnv.
