(** The value of an expression depends on the labels of its dimensions only. *)
From Coq Require Import QArith Qcanon Permutation Lia.
From Verif Require Import Base BaseProofs LangModel EvalModel BuildProofs HelperModel HelperSpec HelperProofs.
Local Open Scope nat_scope.
Local Open Scope string_scope.
Local Open Scope list_scope.
Local Arguments String.eqb : simpl never.

Section WithEnv.
Variable D : denv.
Hypothesis SD : sound D.

Lemma h_sum_local over a : local a -> local (h_sum D over a).
Proof.
  intros LA p q H. cbn. f_equal. apply local_spread; [assumption|]. intros d H1 H2. apply H. cbn. now apply without_in.
Qed.
Lemma h_where_local a c : local a -> local c -> local (h_where a c).
Proof.
  intros LA LC p q H. cbn in *. rewrite (LA p q), (LC p q); [reflexivity| |]; intros d Hd; apply H, merge_in; auto.
Qed.
Lemma rolled_local d k a dims : In d dims -> local {| a_dims := dims; a_at := a |} -> local {| a_dims := dims; a_at := rolled D d k a |}.
Proof.
  intros HI LA p q H. cbn in *. unfold rolled. rewrite (H d HI). destruct (place (q d) (n_labels D d)); [|reflexivity].
  apply (LA _ _). intros x Hx. cbn in Hx. unfold put. destruct (String.eqb x d); [reflexivity|]. now apply H.
Qed.
Lemma h_roll_local a ks r : local a -> h_roll D a ks = Some r -> local r.
Proof.
  unfold h_roll. destruct (all_in (map fst ks) (a_dims a)) eqn:E; [|discriminate]. intros LA [= <-].
  rewrite all_in_spec in E. induction ks as [|[d k] ks IH]; cbn.
  - destruct a; exact LA.
  - apply rolled_local; [apply E; now left|]. apply IH. intros x Hx. apply E. now right.
Qed.
Lemma h_next_local a d n r : local a -> h_next D a d n = Some r -> local r.
Proof.
  unfold h_next. destruct (smem d (a_dims a)) eqn:E; [|discriminate]. apply smem_in in E. intros LA [= <-] p q H. cbn in *.
  rewrite (H d E). destruct (place (q d) (n_labels D d)); [|reflexivity]. f_equal. apply map_ext. intros l.
  apply LA. intros x Hx. unfold put. destruct (String.eqb x d); [reflexivity|]. now apply H.
Qed.
Lemma h_group_local a b d r : local a -> local b -> h_group D a b d = Some r -> local r.
Proof.
  unfold h_group. destruct (all_in (a_dims b) (a_dims a)) eqn:E; [|discriminate]. cbn [andb].
  destruct (existsb _ _); [|discriminate]. intros LA LB [= <-] p q H. cbn in *. f_equal.
  rewrite all_in_spec in E. unfold spread. rewrite (H d) by (apply merge_in; right; now left).
  assert (G : forall l, (forall ls, In ls l -> List.length ls = List.length (a_dims b)) ->
    map (a_at a) (filter (fun q0 => in_group (q d) (a_at b q0)) (map (puts p (a_dims b)) l)) =
    map (a_at a) (filter (fun q0 => in_group (q d) (a_at b q0)) (map (puts q (a_dims b)) l))).
  { induction l as [|ls l IH]; intros HL; [reflexivity|]. cbn.
    assert (X : List.length ls = List.length (a_dims b)) by (apply HL; now left).
    rewrite (LB (puts p (a_dims b) ls) (puts q (a_dims b) ls)).
    2:{ intros x Hx. apply puts_ext; [assumption|]. intros N. contradiction. }
    assert (Y : a_at a (puts p (a_dims b) ls) = a_at a (puts q (a_dims b) ls)).
    { apply LA. intros x Hx. apply puts_ext; [assumption|]. intros N. apply H, merge_in. left. now apply without_in. }
    destruct (in_group _ _); cbn; rewrite ?Y, IH; auto; intros z HZ; apply HL; now right. }
  apply G. intros ls HI. apply CliProofs.product_in in HI. rewrite <- (map_length (n_labels D) (a_dims b)).
  clear -HI. induction HI; cbn; auto.
Qed.
Lemma h_datetime_local a o g r : local a -> h_datetime D a o g = Some r -> local r.
Proof.
  unfold h_datetime. destruct (smem o (a_dims a)); [|discriminate]. intros LA H. eapply h_group_local; [exact LA| |exact H].
  intros p q HD. cbn in *. now rewrite (HD o) by now left.
Qed.
Lemma h_select_local a ks r : local a -> (forall k, In k ks -> local (snd k)) -> h_select D a ks = Some r -> local r.
Proof.
  unfold h_select. intros LA LK. destruct (all_in (map fst ks) (a_dims a)) eqn:E1; [|discriminate].
  destruct (forallb _ ks) eqn:E2; [|discriminate]. destruct (forallb (fun k => existsb _ _) ks); [|discriminate].
  cbn [andb]. intros [= <-] p q H. cbn in *. rewrite forallb_forall in E2.
  assert (X : forall k, In k ks -> a_at (snd k) p = a_at (snd k) q).
  { intros k HK. apply (LK k HK). intros d Hd. apply H, merge_in. right. specialize (E2 k HK). apply andb_true_iff in E2 as [_ E2].
    rewrite all_in_spec in E2. now apply E2. }
  assert (F : forallb (fun k => found D (fst k) (a_at (snd k) p)) ks = forallb (fun k => found D (fst k) (a_at (snd k) q)) ks).
  { clear -X. induction ks as [|k ks IH]; [reflexivity|]. cbn. rewrite (X k), IH; [reflexivity| |now left]. intros z HZ. apply X. now right. }
  rewrite F. clear F. destruct (forallb _ ks); [|reflexivity].
  assert (M : map (fun k => label (a_at (snd k) p)) ks = map (fun k => label (a_at (snd k) q)) ks).
  { apply map_ext_in. intros k HK. now rewrite (X k HK). }
  rewrite M. apply LA. intros d Hd. apply puts_ext; [now rewrite !map_length|]. intros N. apply H, merge_in. left. now apply without_in.
Qed.
Lemma h_val_local d k r : h_val D d k = Some r -> local r.
Proof. unfold h_val. destruct (_ && _); [|discriminate]. intros [= <-] p q _. reflexivity. Qed.
Lemma existsb_map {A B} (f : B -> bool) (g : A -> B) l : existsb (fun x => f (g x)) l = existsb f (map g l).
Proof. induction l; cbn; [reflexivity|]. now rewrite IHl. Qed.
Lemma forallb_map {A B} (f : B -> bool) (g : A -> B) l : forallb (fun x => f (g x)) l = forallb f (map g l).
Proof. induction l; cbn; [reflexivity|]. now rewrite IHl. Qed.
Lemma h_any_local over a : local a -> local (h_any D over a).
Proof.
  intros LA p q H. cbn in *. f_equal. rewrite !(existsb_map is_true (a_at a)). f_equal.
  apply local_spread; [assumption|]. intros d H1 H2. apply H. now apply without_in.
Qed.
Lemma h_defined_local w b ms r : h_defined D w b ms = Some r -> local r.
Proof.
  unfold h_defined. destruct (_ && _); [|discriminate]. intros [= <-] p q H. cbn [a_at a_dims] in *.
  change (forall d, In d (without (map fst ms) [w]) -> p d = q d) in H. destruct SD as (_ & _ & _ & _ & _ & LM).
  set (rest := without (map fst ms ++ [w]) (a_dims (n_matrix D))) in *.
  set (known := fun q0 => existsb (fun r => is_true (a_at (n_matrix D) r)) (spread D rest q0)).
  assert (K : map known (chosen ms p) = map known (chosen ms q)).
  { unfold chosen. rewrite !map_map. apply map_ext_in. intros ls HI. unfold known.
    rewrite !(existsb_map is_true (a_at (n_matrix D))). f_equal. apply local_spread; [exact LM|].
    intros d H1 H2. apply puts_ext.
    - apply CliProofs.product_in in HI. rewrite !map_length. rewrite <- (map_length snd ms). clear -HI. induction HI; cbn; auto.
    - intros N. apply H, without_in. split; [|exact N]. destruct (in_dec string_dec d (map fst ms ++ [w])) as [I1|N1].
      + apply in_app_iff in I1 as [I1|I1]; [contradiction|exact I1].
      + exfalso. apply H2, without_in. now split. }
  f_equal. destruct b.
  - pose proof (forallb_map (fun b => b) known) as X. rewrite !X, K. reflexivity.
  - pose proof (existsb_map (fun b => b) known) as X. rewrite !X, K. reflexivity.
Qed.

Definition arg_local (x : arg) : Prop := forall a, snd x = Some a -> local a.
Lemma bind_pos_in ps args l x : bind_pos ps args = Some l -> In x l -> In (snd x) args.
Proof.
  revert args l. induction ps as [|q ps IH]; intros [|a args] l; cbn.
  - intros [= <-] [].
  - discriminate.
  - intros [= <-] [].
  - destruct (bind_pos ps args) as [l'|] eqn:E; [|discriminate]. intros [= <-] [<-|H]; [now left|right; eauto].
Qed.
Lemma bind_in ps ks more args kws l o x : bind ps ks more args kws = Some (l, o) -> In x (l ++ o) ->
  In (snd x) args \/ In x kws.
Proof.
  unfold bind. destruct (bind_pos ps args) as [given|] eqn:E; [|discriminate].
  destruct (_ && _); [|discriminate]. intros [= <- <-] H. rewrite !in_app_iff, !filter_In in H.
  destruct H as [[H|[H _]]|[H _]]; auto. left. eapply bind_pos_in; eauto.
Qed.
Lemma get_arr_local s l a : (forall x, In x l -> arg_local (snd x)) -> get_arr s l = Some a -> local a.
Proof.
  unfold get_arr. intros H. destruct (d_get s l) as [[e x]|] eqn:E; [|discriminate]. intros ->.
  apply d_get_in in E. now apply (H _ E).
Qed.
Lemma all_some_in {A} (l : list (option A)) r x : all_some l = Some r -> In x r -> In (Some x) l.
Proof.
  revert r. induction l as [|[y|] l IH]; intros r; cbn; [intros [= <-] []| |discriminate].
  destruct (all_some l) as [r'|]; [|discriminate]. intros [= <-] [<-|H]; [now left|right; eauto].
Qed.
Lemma call_local f args kws r :
  (forall x, In x args -> arg_local x) -> (forall x, In x kws -> arg_local (snd x)) ->
  call D f args kws = Some r -> local r.
Proof.
  intros HA HK.
  assert (HB : forall ps ks more l o, bind ps ks more args kws = Some (l, o) -> forall x, In x l -> arg_local (snd x)).
  { intros ps ks more l o B x HX. apply (bind_in _ _ _ _ _ _ _ x) in B; [|apply in_app_iff; now left].
    destruct B; auto. }
  unfold call.
  destruct (String.eqb f "sum").
  { destruct (bind _ _ _ _ _) as [[l o]|] eqn:B; [|discriminate]. unfold opt2. intros H.
    destruct (get_arr "array" l) as [a|] eqn:EA; [|discriminate]. destruct (get_names "over" l); [|discriminate].
    injection H as <-. apply h_sum_local. eapply get_arr_local; [|exact EA]. eauto. }
  destruct (String.eqb f "any").
  { destruct (bind _ _ _ _ _) as [[l o]|] eqn:B; [|discriminate]. unfold opt2. intros H.
    destruct (get_arr "input_component" l) as [a|] eqn:EA; [|discriminate]. destruct (get_names "over" l); [|discriminate].
    injection H as <-. apply h_any_local. eapply get_arr_local; [|exact EA]. eauto. }
  destruct (String.eqb f "where").
  { destruct (bind _ _ _ _ _) as [[l o]|] eqn:B; [|discriminate]. unfold opt2. intros H.
    destruct (get_arr "array" l) as [a|] eqn:EA; [|discriminate]. destruct (get_arr "condition" l) as [c|] eqn:EC; [|discriminate].
    injection H as <-. apply h_where_local; (eapply get_arr_local; [|eassumption]; eauto). }
  destruct (String.eqb f "reduce_carrier_dim").
  { destruct (bind _ _ _ _ _) as [[l o]|] eqn:B; [|discriminate]. unfold opt2. intros H.
    destruct (get_arr "array" l) as [a|] eqn:EA; [|discriminate]. destruct (get_name "flow_direction" l) as [c|] eqn:EC; [|discriminate].
    injection H as <-. apply h_sum_local, h_where_local; [eapply get_arr_local; [|eassumption]; eauto|apply SD]. }
  destruct (String.eqb f "roll").
  { destruct (bind _ _ _ _ _) as [[l o]|] eqn:B; [|discriminate]. unfold opt2. intros H.
    destruct (get_arr "array" l) as [a|] eqn:EA; [|discriminate]. destruct (all_some _); [|discriminate].
    apply (h_roll_local _ _ _ (get_arr_local _ _ _ (HB _ _ _ _ _ B) EA) H). }
  destruct (String.eqb f "sum_next_n").
  { destruct (bind _ _ _ _ _) as [[l o]|] eqn:B; [|discriminate]. intros H.
    destruct (get_arr "array" l) as [a|] eqn:EA; [|discriminate]. destruct (get_name "over" l); [|discriminate].
    destruct (get_int "N" l); [|discriminate]. destruct (Z.leb 0 z); [|discriminate].
    apply (h_next_local _ _ _ _ (get_arr_local _ _ _ (HB _ _ _ _ _ B) EA) H). }
  destruct (String.eqb f "group_sum").
  { destruct (bind _ _ _ _ _) as [[l o]|] eqn:B; [|discriminate]. intros H.
    destruct (get_arr "array" l) as [a|] eqn:EA; [|discriminate]. destruct (get_arr "groupby" l) as [b|] eqn:EB; [|discriminate].
    destruct (get_name "group_dim" l); [|discriminate].
    apply (h_group_local _ _ _ _ (get_arr_local _ _ _ (HB _ _ _ _ _ B) EA) (get_arr_local _ _ _ (HB _ _ _ _ _ B) EB) H). }
  destruct (String.eqb f "group_datetime").
  { destruct (bind _ _ _ _ _) as [[l o]|] eqn:B; [|discriminate]. intros H.
    destruct (get_arr "array" l) as [a|] eqn:EA; [|discriminate]. destruct (get_name "over" l); [|discriminate].
    destruct (get_name "group" l); [|discriminate].
    apply (h_datetime_local _ _ _ _ (get_arr_local _ _ _ (HB _ _ _ _ _ B) EA) H). }
  destruct (String.eqb f "select_from_lookup_arrays").
  { destruct (bind _ _ _ _ _) as [[l o]|] eqn:B; [|discriminate]. unfold opt2. intros H.
    destruct (get_arr "array" l) as [a|] eqn:EA; [|discriminate].
    match type of H with match ?t with _ => _ end = _ => destruct t as [ks|] eqn:EK; [|discriminate] end.
    apply (h_select_local _ _ _ (get_arr_local _ _ _ (HB _ _ _ _ _ B) EA)) in H; [exact H|].
    intros k HI. apply (all_some_in _ _ _ EK) in HI. apply in_map_iff in HI as ([d [e x]] & HI & _). cbn in HI.
    destruct (name_of e); [|discriminate]. injection HI as <-. apply SD. }
  destruct (String.eqb f "get_val_at_index").
  { destruct (bind _ _ _ _ _) as [[l o]|] eqn:B; [|discriminate]. intros H. destruct o as [|k [|? ?]]; try discriminate.
    destruct (int_of (snd (snd k))); [|discriminate]. exact (h_val_local _ _ _ H). }
  destruct (String.eqb f "defined"); [|discriminate].
  destruct (bind _ _ _ _ _) as [[l o]|] eqn:B; [|discriminate]. intros H. destruct (get_name "within" l); [|discriminate].
  destruct (get_name "how" l) as [h|]; [|discriminate]. destruct (all_some _); [|discriminate].
  destruct (String.eqb h "all"); [exact (h_defined_local _ _ _ _ H)|].
  destruct (String.eqb h "any"); [exact (h_defined_local _ _ _ _ H)|discriminate].
Qed.

Lemma scalar_local c : local (scalar c).
Proof. intros p q _. reflexivity. Qed.
Lemma named_local s : local (named D s).
Proof. intros p q H. cbn in *. destruct SD as (_ & LN & _). now rewrite (LN s p q H). Qed.
Lemma combine_local o a b : local a -> local b -> local (combine D o a b).
Proof. intros LA LB p q H. cbn in *. rewrite (LA p q), (LB p q); [reflexivity| |]; intros d Hd; apply H, merge_in; auto. Qed.
Lemma under_local w a : local_mask w -> local a -> local (under w a).
Proof. intros LW LA p q H. cbn in *. unfold mask. rewrite (LA p q), (LW p q); [reflexivity| |]; intros d Hd; apply H, merge_in; auto. Qed.
Lemma slice_dim_local d sl a r : local a -> slice_dim D d sl a = Some r -> local r.
Proof.
  unfold slice_dim. destruct (smem d (a_dims a)) eqn:E; [|discriminate]. cbn [negb]. apply smem_in in E. intros LA H.
  assert (FIX : forall l, local {| a_dims := without [d] (a_dims a); a_at := fun p => a_at a (put p d l) |}).
  { intros l p q HD. cbn in *. apply LA. intros x Hx. unfold put. destruct (String.eqb x d) eqn:EX; [reflexivity|].
    apply HD, without_in. split; [exact Hx|]. intros [->|[]]. now rewrite String.eqb_refl in EX. }
  destruct sl as [neg s| |  | s | | | s |l| | | |]; try discriminate.
  - injection H as <-. destruct neg; apply FIX.
  - injection H as <-. apply FIX.
  - destruct (n_slice D s) as [b|] eqn:ES; [|discriminate]. injection H as <-. cbn. rewrite ES.
    intros p q HD. cbn in *. destruct SD as (_ & _ & _ & LS & _). rewrite (LS s b ES p q).
    2:{ intros x Hx. apply HD, merge_in. now right. }
    apply LA. intros x Hx. unfold put. destruct (String.eqb x d) eqn:EX; [reflexivity|].
    apply HD, merge_in. left. apply without_in. split; [exact Hx|]. intros [->|[]]. now rewrite String.eqb_refl in EX.
  - injection H as <-. intros p q HD. cbn in *. rewrite (HD d E). now rewrite (LA p q HD).
Qed.

Lemma no_mask_local : local_mask no_mask.
Proof. intros p q _. reflexivity. Qed.
Lemma deval_local e : forall w a, local_mask w -> deval D w e = Some a -> local a.
Proof.
  induction e as [e IH] using expr_parts; intros w a LW H.
  destruct e as [neg s|s|s|s|b|s|s|l|s sl|f args kws|neg e|e ops]; cbn in H.
  - injection H as <-. apply scalar_local.
  - injection H as <-. apply named_local.
  - injection H as <-. apply scalar_local.
  - injection H as <-. apply scalar_local.
  - injection H as <-. apply scalar_local.
  - destruct SD as (_ & _ & LR & _). eauto.
  - destruct SD as (_ & _ & _ & LS & _). eauto.
  - discriminate.
  - clear IH. revert a H. induction sl as [|[d x] sl IS]; intros a H; cbn in H.
    + injection H as <-. apply named_local.
    + destruct (fold_right _ _ sl) as [b|]; [|discriminate]. apply (slice_dim_local d x b); auto.
  - assert (LW' : local_mask (if ignores f then no_mask else w)) by (destruct (ignores f); [apply no_mask_local|assumption]).
    apply call_local in H; [exact H| |].
    + intros x HI. apply in_map_iff in HI as (y & <- & HI). intros b HB. cbn in HB. apply (IH y) in HB; auto. left; exact HI.
    + intros x HI. apply in_map_iff in HI as (y & <- & HI). intros b HB. cbn in HB. apply (IH (snd y)) in HB; auto.
      right. apply in_map_iff. eauto.
  - destruct (deval D w e) as [b|] eqn:E; [|discriminate]. injection H as <-. apply (IH e) in E; [|reflexivity|assumption].
    destruct neg; [|exact E]. apply combine_local; [apply scalar_local|exact E].
  - destruct (deval D w e) as [b|] eqn:E.
    2:{ exfalso. cbn in H. clear IH E. induction ops as [|x ops IO]; cbn in H; [discriminate|auto]. }
    cbn in H. assert (LB : local (under w b)) by (apply under_local; [exact LW|apply (IH e) in E; auto; now left]).
    clear E. revert LB H. generalize (under w b) as v. clear b.
    assert (HO : forall x, In x (map snd ops) -> forall w a, local_mask w -> deval D w x = Some a -> local a).
    { intros x HI. apply IH. now right. }
    clear IH. induction ops as [|x ops IO]; intros v LV H; cbn in H; [injection H as <-; exact LV|].
    destruct (deval D w (snd x)) as [b|] eqn:EX.
    2:{ exfalso. clear -H. induction ops as [|y ops IO]; cbn in H; [discriminate|auto]. }
    apply IO in H; auto.
    + intros y HI. apply HO. now right.
    + apply combine_local; [exact LV|]. apply under_local; [exact LW|]. eapply HO; [now left|exact LW|exact EX].
Qed.
End WithEnv.
