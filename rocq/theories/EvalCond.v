(** Proofs about conditions: their truth and their formulas. *)
From Coq Require Import QArith Qcanon.
From Verif Require Import Base LangModel LangSpec EvalModel EvalSpec EvalProofs.
Local Open Scope nat_scope.
Local Open Scope string_scope.
Local Open Scope list_scope.

(** * Truth *)
Lemma given_iff W s p : w_inputs W s = true -> (defined_at W s p = true <-> given W s p).
Proof.
  intros H; unfold defined_at, given; rewrite H; destruct (w_input W s) as [a|].
  - destruct (w_bool W s).
    + split; [intros B; exists a; split; [reflexivity|]; destruct (a p) as [| | |[]|]; cbn in B; congruence|].
      intros (a' & E & B); injection E as <-; rewrite B; reflexivity.
    + split.
      * intros B; exists a; split; [reflexivity|]; apply andb_true_iff in B as (B1 & B2); destruct (a p) as [| |[]| |]; cbn in B1, B2; repeat split; discriminate.
      * intros (a' & E & B1 & B2 & B3); injection E as <-; destruct (a p) as [| |[]| |]; cbn; congruence.
  - split; [discriminate|intros (a & E & _); discriminate].
Qed.
Lemma weval_holds W p : forall w, weval W w p = true <-> holds (fun a => weval W a p = true) W p w.
Proof.
  fix IH 1; intros w0; destruct w0 as [b|l c r|e|items d|s|w|w ops]; cbn [holds]; try reflexivity.
  - cbn [weval]; destruct (w_inputs W s) eqn:E; [apply given_iff, E|].
    unfold defined_at; rewrite E; destruct (w_result W s p); cbn [missing negb]; split; congruence.
  - cbn [weval]; rewrite negb_true_iff, <- (IH w); destruct (weval W w p); split; congruence.
  - cbn [weval].
    assert (X : forall l v P, Forall (fun x => weval W (snd x) p = true <-> holds (fun a => weval W a p = true) W p (snd x)) l ->
      (v p = true <-> P) ->
      (fold_left (fun v x => fun p => if fst x : bool then v p && weval W (snd x) p else v p || weval W (snd x) p) l v p = true <->
       fold_left (fun P x => if fst x : bool then P /\ holds (fun a => weval W a p = true) W p (snd x)
                             else P \/ holds (fun a => weval W a p = true) W p (snd x)) l P)).
    { induction l as [|(o, x) l IHL]; intros v P F HV; [exact HV|]; inversion F as [|? ? F1 F2]; subst; cbn [fold_left fst snd] in *.
      apply (IHL _ _ F2); destruct o; [rewrite andb_true_iff|rewrite orb_true_iff]; rewrite HV, F1; reflexivity. }
    apply X; [|apply IH].
    induction ops as [|x ops IHO]; constructor; [apply IH|exact IHO].
Qed.

Lemma less_vals W x y : less W (Val x) (Val y) = true <-> (x < y)%Qc.
Proof. cbn [less]; rewrite Qclt_alt; destruct (x ?= y)%Qc; split; congruence. Qed.
Lemma same_vals x y : same (Val x) (Val y) = true <-> x = y.
Proof. cbn [same]; destruct (Qc_eq_dec x y); split; congruence. Qed.
Lemma compare_vals W c x y : compare W c (Val x) (Val y) = true <-> in_order c x y.
Proof.
  assert (LE : forall a b, (less W (Val a) (Val b) = true \/ a = b) <-> (a <= b)%Qc).
  { intros a b; rewrite less_vals; split.
    - intros [H| ->]; [apply Qclt_le_weak, H|apply Qcle_refl].
    - intros H; apply Qcle_lt_or_eq in H; exact H. }
  destruct c; cbn [compare in_order]; rewrite ?orb_true_iff, ?less_vals, ?same_vals; try reflexivity.
  - rewrite <- LE, less_vals; intuition.
  - rewrite <- LE, less_vals; intuition.
Qed.

(** * Reading rendered conditions *)
Definition ystop (k : nat) (rest : list ytok) : Prop :=
  match rest with YAnd :: _ => k = 0 | YOr :: _ => k <= 1 | _ => True end.
Definition ysym (k : nat) : ytok := match k with 0 => YAnd | _ => YOr end.
Definition yflat (k : nat) (l : list (list ytok * ctree)) : list ytok := flat_map (fun x => ysym k :: fst x) l.
Definition ybuilt (k : nat) (l : list (list ytok * ctree)) (t : ctree) : ctree :=
  fold_left (fun t x => CBin (match k with 0 => true | _ => false end) t (snd x)) l t.
Definition ypart (k : nat) (x : list ytok * ctree) : Prop := usual_cond k (fst x) (snd x).

Lemma cond_parts k ys t : usual_cond (S k) ys t -> k <= 1 ->
  exists hs h l, usual_cond k hs h /\ Forall (ypart k) l /\ ys = hs ++ yflat k l /\ t = ybuilt k l h.
Proof.
  intros H; remember (S k) as m eqn:EM; revert k EM; induction H; intros k EM G; try discriminate; injection EM as <-.
  - exists ys, t, []; repeat split; [assumption|constructor|rewrite app_nil_r; reflexivity].
  - destruct (IHusual_cond1 _ eq_refl G) as (hs & h & l & HU & F & -> & ->); exists hs, h, (l ++ [(zs, u)]); repeat split.
    + exact HU.
    + apply Forall_app; split; [exact F|constructor; [assumption|constructor]].
    + unfold yflat; rewrite flat_map_app, app_assoc; cbn; rewrite app_nil_r; reflexivity.
    + unfold ybuilt; rewrite fold_left_app; reflexivity.
  - exists ys, t, []; repeat split; [assumption|constructor|rewrite app_nil_r; reflexivity].
  - destruct (IHusual_cond1 _ eq_refl G) as (hs & h & l & HU & F & -> & ->); exists hs, h, (l ++ [(zs, u)]); repeat split.
    + exact HU.
    + apply Forall_app; split; [exact F|constructor; [assumption|constructor]].
    + unfold yflat; rewrite flat_map_app, app_assoc; cbn; rewrite app_nil_r; reflexivity.
    + unfold ybuilt; rewrite fold_left_app; reflexivity.
Qed.
Definition cunique (n k : nat) : Prop :=
  forall ys t ys' t' rest rest', List.length ys < n -> usual_cond k ys t -> usual_cond k ys' t' ->
  ystop k rest -> ystop k rest' -> ys ++ rest = ys' ++ rest' -> ys = ys' /\ t = t' /\ rest = rest'.
Lemma yparts_stop k l rest : k <= 1 -> ystop (S k) rest -> ystop k (yflat k l ++ rest).
Proof.
  intros G ST; destruct l as [|x l].
  - destruct rest as [|[] rest]; cbn in *; auto; lia.
  - destruct k as [|[|]]; cbn; lia.
Qed.
Lemma cond_nonempty k ys t : usual_cond k ys t -> ys <> [].
Proof. induction 1; try discriminate; try assumption; destruct ys; discriminate. Qed.
Lemma yparts_unique n k : k <= 1 -> cunique n k -> forall l l' rest rest',
  List.length (yflat k l) <= n -> Forall (ypart k) l -> Forall (ypart k) l' -> ystop (S k) rest -> ystop (S k) rest' ->
  yflat k l ++ rest = yflat k l' ++ rest' -> yflat k l = yflat k l' /\ (forall b, ybuilt k l b = ybuilt k l' b) /\ rest = rest'.
Proof.
  intros G U; assert (NS : forall r, ~ ystop (S k) (ysym k :: r)) by (intros r; destruct k as [|[|]]; cbn; lia).
  induction l as [|(us, b) l IH]; intros [|(us', b') l'] rest rest' LE F F' ST ST' EQ.
  - auto.
  - exfalso; cbn in EQ; subst rest; exact (NS _ ST).
  - exfalso; cbn in EQ; subst rest'; exact (NS _ ST').
  - inversion F as [|? ? H F1]; inversion F' as [|? ? H' F1']; subst; unfold ypart in H, H'; cbn [fst snd] in *.
    cbn [yflat flat_map fst app] in EQ |- *; fold (yflat k l) in *; fold (yflat k l') in *.
    injection EQ as EQ; rewrite <- !app_assoc in EQ.
    cbn [yflat flat_map fst app List.length] in LE; fold (yflat k l) in LE; rewrite app_length in LE.
    destruct (U us b us' b' (yflat k l ++ rest) (yflat k l' ++ rest')) as (-> & -> & EQ2);
      [lia|assumption|assumption|apply yparts_stop; assumption|apply yparts_stop; assumption|exact EQ|].
    destruct (IH l' rest rest') as (A & B & C); [lia|assumption..|].
    rewrite A; repeat split; [|exact C]; intros c; exact (B _).
Qed.
Lemma cunique0 n : cunique n 2 -> cunique n 0 -> cunique (S n) 0.
Proof.
  intros U2 U0 ys t ys' t' rest rest' LE H H' ST ST' E.
  inversion H as [w| | |zs u X|zs u X| | | |]; subst; inversion H' as [w'| | |zs' u' X'|zs' u' X'| | | |]; subst;
    cbn [app] in E; try discriminate.
  - injection E; intros -> ->; auto.
  - injection E; intros ->; auto.
  - injection E; intros ->; auto.
  - injection E as E; rewrite <- !app_assoc in E; cbn [app List.length] in E, LE; rewrite app_length in LE.
    destruct (U2 zs t zs' t' (YClose :: rest) (YClose :: rest')) as (-> & -> & R); [lia|assumption|assumption|exact Logic.I|exact Logic.I|exact E|].
    injection R as ->; auto.
  - injection E as E; cbn [List.length] in LE.
    destruct (U0 zs u zs' u' rest rest') as (-> & -> & ->); [lia|assumption..|]; auto.
Qed.
Lemma cunique_up n k : k <= 1 -> cunique n k -> cunique (S n) k -> cunique (S n) (S k).
Proof.
  intros G U US ys t ys' t' rest rest' LE H H' ST ST' E.
  apply cond_parts in H as (hs & h & l & HU & F & -> & ->); [|exact G].
  apply cond_parts in H' as (hs' & h' & l' & HU' & F' & -> & ->); [|exact G].
  rewrite <- !app_assoc in E; rewrite app_length in LE.
  destruct (US hs h hs' h' (yflat k l ++ rest) (yflat k l' ++ rest')) as (-> & -> & R);
    [lia|assumption|assumption|apply yparts_stop; assumption|apply yparts_stop; assumption|exact E|].
  pose proof (cond_nonempty _ _ _ HU) as NE; destruct hs' as [|x hs']; [congruence|]; cbn [List.length] in LE.
  destruct (yparts_unique n k G U l l' rest rest') as (-> & B & ->); [lia|assumption..|].
  rewrite B; auto.
Qed.
Lemma usual_cond_unique ys t t' : usual_cond 2 ys t -> usual_cond 2 ys t' -> t = t'.
Proof.
  assert (A : forall n, cunique n 0 /\ cunique n 1 /\ cunique n 2).
  { induction n as [|n (U0 & U1 & U2)]; [split; [|split]; intros a b c d r r' LE; lia|].
    assert (A : cunique (S n) 0) by (apply cunique0; assumption).
    assert (B : cunique (S n) 1) by (apply cunique_up; [lia|assumption..]).
    assert (C : cunique (S n) 2) by (apply cunique_up; [lia|assumption..]).
    auto. }
  intros H H'; destruct (A (S (List.length ys))) as (_ & _ & U).
  destruct (U ys t ys t' [] []) as (_ & E & _); [lia|assumption|assumption|exact Logic.I|exact Logic.I|reflexivity|exact E].
Qed.

(** * Rendered conditions *)
Section Render.
Variables (W : wenv) (p : pos).
Let v := fun w => weval W w p.
Definition csays (k : nat) (ys : list ytok) (b : bool) : Prop :=
  k <= 2 /\ exists t, usual_cond k ys t /\ cval v t = b.
Lemma cond_lift k j ys t : usual_cond k ys t -> k <= j -> j <= 2 -> usual_cond j ys t.
Proof.
  intros H KJ J2; induction KJ as [|j KJ IH]; [exact H|]; assert (X := IH ltac:(lia)).
  destruct j as [|[|]]; [apply uc_one|apply uc_conj|lia]; exact X.
Qed.
Lemma csays_parens k ys b : csays k ys b -> csays 0 (YOpen :: ys ++ [YClose]) b.
Proof. intros (K & t & U & E); split; [lia|]; exists t; split; [apply uc_par, (cond_lift k); auto|exact E]. Qed.
Lemma csays_true k ys b : csays k ys b -> y_true ys = true -> b = true.
Proof.
  intros (K & t & U & E) Y; destruct ys as [|[] [|]]; try discriminate.
  rewrite <- E, (usual_cond_unique _ _ _ (cond_lift _ 2 _ _ U K (le_n 2)) (cond_lift 0 2 _ _ uc_true ltac:(lia) (le_n 2))); reflexivity.
Qed.
Lemma wstep_says first ys ky by_ (o chain : bool) zs kz bz k :
  csays ky ys by_ -> csays kz zs bz -> (chain = false -> kz = 0) ->
  wfit_step first (y_true ys) (Some ky) o (y_true zs) (Some (if chain then 0 else kz)) = Some k ->
  csays k (wrender_step first ys o chain zs) (if o then by_ && bz else by_ || bz).
Proof.
  intros HY HZ HC; unfold wfit_step, wrender_step.
  destruct (y_true zs) eqn:TZ.
  { destruct o; [|discriminate]; intros E; injection E as <-; rewrite (csays_true _ _ _ HZ TZ), andb_true_r; exact HY. }
  assert (HY' : csays (if first then 0 else ky) (if first then YOpen :: ys ++ [YClose] else ys) by_)
    by (destruct first; [apply (csays_parens _ _ _ HY)|exact HY]).
  assert (HZ' : csays 0 (if chain then YOpen :: zs ++ [YClose] else zs) bz)
    by (destruct chain; [apply (csays_parens _ _ _ HZ)|rewrite <- (HC eq_refl); exact HZ]).
  replace (y_true (if first then YOpen :: ys ++ [YClose] else ys)) with (y_true ys && negb first)
    by (destruct first; [rewrite andb_false_r; destruct ys; reflexivity|rewrite andb_true_r; reflexivity]).
  cbv zeta; destruct (y_true ys && negb first) eqn:TY.
  { apply andb_true_iff in TY as (TY & _); destruct o; [|discriminate]; intros E; injection E as <-.
    rewrite (csays_true _ _ _ HY TY); cbn [andb]; destruct chain; [exact HZ'|rewrite (HC eq_refl); exact HZ']. }
  destruct HY' as (K & t & U & E1); destruct HZ' as (_ & u & U2 & E2); destruct o; intros E.
  - match type of E with (if Nat.leb ?a 1 then _ else _) = _ => destruct (Nat.leb a 1) eqn:LE; [|discriminate] end; injection E as <-.
    apply Nat.leb_le in LE; split; [lia|]; exists (CBin true t u); split; [|cbn [cval]; congruence].
    apply uc_and; [apply (cond_lift _ _ _ _ U LE); lia|exact U2].
  - injection E as <-; split; [lia|]; exists (CBin false t u); split; [|cbn [cval]; congruence].
    apply uc_or; [apply (cond_lift _ _ _ _ U K); lia|apply (cond_lift _ _ _ _ U2); lia].
Qed.
Lemma wrender_says : forall w k, wfit w = Some k -> csays k (wrender w) (weval W w p) /\ (is_wchain w = false -> k = 0).
Proof.
  fix IH 1; intros w0 k F; destruct w0 as [b|l c r|e|items d|s|w|w ops]; cbn [wfit wrender is_wchain] in *;
    try (injection F as <-; split; [|reflexivity]; split; [lia|]; eexists; split; [apply uc_leaf|reflexivity]).
  - injection F as <-; split; [|reflexivity]; split; [lia|]; exists (CBool b); split; [destruct b; constructor|reflexivity].
  - destruct (wfit w) as [l|] eqn:FW; [|discriminate]; injection F as <-; split; [|reflexivity]; split; [lia|].
    destruct (IH w l FW) as (X & _); destruct (csays_parens _ _ _ X) as (_ & t & U & E).
    exists (CNot t); split; [apply (uc_not (YOpen :: wrender w ++ [YClose])); exact U|cbn [cval weval]; congruence].
  - split; [|discriminate]; cbn [weval].
    assert (X : forall l ys ky (f : pos -> bool),
      Forall (fun x => forall k, wfit (snd x) = Some k -> csays k (wrender (snd x)) (weval W (snd x) p) /\ (is_wchain (snd x) = false -> k = 0)) l ->
      (forall j, ky = Some j -> csays j ys (f p)) -> forall k,
      snd (fold_left (fun v x =>
             (wrender_step (is_wchain w) (fst v) (fst x) (is_wchain (snd x)) (wrender (snd x)),
              wfit_step (is_wchain w) (y_true (fst v)) (snd v) (fst x) (y_true (wrender (snd x)))
                (match wfit (snd x) with Some l => Some (if is_wchain (snd x) then 0 else l) | None => None end))) l (ys, ky)) = Some k ->
      csays k (fold_left (fun v x => wrender_step (is_wchain w) v (fst x) (is_wchain (snd x)) (wrender (snd x))) l ys)
        (fold_left (fun v x => fun p => if fst x : bool then v p && weval W (snd x) p else v p || weval W (snd x) p) l f p)).
    { clear k F; induction l as [|(o, x) l IHL]; intros ys ky f F HY k E; [exact (HY _ E)|].
      inversion F as [|? ? F1 F2]; subst; cbn [fold_left fst snd] in *.
      refine (IHL _ _ (fun p => if o then f p && weval W x p else f p || weval W x p) F2 _ _ E); intros j FJ.
      destruct ky as [ky|]; [|destruct (wfit x); discriminate FJ].
      destruct (wfit x) as [kz|] eqn:FX; [|discriminate FJ]; destruct (F1 _ eq_refl) as (A & B).
      pose proof (wstep_says (is_wchain w) ys ky (f p) o (is_wchain x) _ _ _ _ (HY _ eq_refl) A B FJ) as R; destruct o; exact R. }
    refine (X ops _ _ _ _ _ _ F).
    + clear F X; induction ops as [|x ops IHO]; constructor; [exact (IH (snd x))|exact IHO].
    + intros j FJ; exact (proj1 (IH w j FJ)).
Qed.
End Render.
