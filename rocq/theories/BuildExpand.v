(** Expansion of equations against its description. *)
From Coq Require Import QArith Qcanon Lia.
From Verif Require Import Base BaseProofs LangModel EvalModel MathText BuildModel BuildSpec BuildProofs.
From Verif Require CliModel CliProofs.
Local Open Scope nat_scope.
Local Open Scope string_scope.
Local Open Scope list_scope.
Local Arguments String.eqb : simpl never.

(** * Names of alternatives *)
Definition stem (q : peq) : string := hd "" (split_on ":" (q_name q)).
Definition named (alts : list (string * list peq)) : Prop :=
  forall k l a, d_get k alts = Some l -> In a l -> stem a = k.

Lemma sequence_some {A} (l : list (option A)) : forall r, sequence l = Some r -> l = map Some r.
Proof.
  induction l as [|[a|] l IH]; intros r H; cbn [sequence] in H; try discriminate.
  - injection H as <-; reflexivity.
  - destruct (sequence l) as [r'|]; [|discriminate]; injection H as <-; cbn [map]; rewrite (IH r' eq_refl); reflexivity.
Qed.
Lemma expression_list_stem N pe k l qs : expression_list N pe k l = Some qs -> plain_key k -> forall q, In q qs -> stem q = k.
Proof.
  unfold expression_list; intros H (NE & NC) q IN; apply sequence_some in H.
  apply (in_map Some) in IN; rewrite <- H in IN; apply in_map_iff in IN as (ia & E & _).
  unfold alternative in E; destruct (parse_where_text _ _); [|discriminate]; destruct (pe _); [|discriminate]; injection E as <-; unfold stem; cbn [q_name].
  rewrite (proj2 (String.eqb_neq k "") NE), (split_app_char ":" k _ NC); reflexivity.
Qed.
Lemma expression_list_dicts N pe k l qs : expression_list N pe k l = Some qs -> forall q, In q qs -> q_subs q = [] /\ q_slices q = [].
Proof.
  unfold expression_list; intros H q IN; apply sequence_some in H.
  apply (in_map Some) in IN; rewrite <- H in IN; apply in_map_iff in IN as (ia & E & _).
  unfold alternative in E; destruct (parse_where_text _ _); [|discriminate]; destruct (pe _); [|discriminate]; injection E as <-; split; reflexivity.
Qed.
Lemma expression_dict_named N pe d alts : expression_dict N pe d = Some alts -> (forall k, In k (d_keys d) -> plain_key k) -> named alts.
Proof.
  unfold expression_dict; intros H PK k l a G IA; apply sequence_some in H; apply d_get_in in G.
  apply (in_map Some) in G; rewrite <- H in G; apply in_map_iff in G as ((k' & l') & E & IN); cbn [fst snd] in E.
  destruct (expression_list N pe k' l') as [qs|] eqn:EL; [|discriminate]; cbn [option_map] in E; injection E as -> ->.
  eapply expression_list_stem; [exact EL|apply PK, (in_map fst _ _ IN)|exact IA].
Qed.

Lemma expression_list_alternatives N pe k l qs : expression_list N pe k l = Some qs -> alternatives_of N pe l qs.
Proof.
  unfold expression_list, alternatives_of; generalize 0; revert qs; induction l as [|(w & e) l IH]; intros qs n H; cbn [CliModel.enumerate map sequence] in H.
  - injection H as <-; constructor.
  - unfold alternative at 1 in H; cbn [fst snd] in H; destruct (parse_where_text N w) as [pw|] eqn:PW; [|discriminate]; destruct (pe e) as [x|] eqn:PE; [|discriminate].
    destruct (sequence _) as [r|] eqn:SQ; [|discriminate]; injection H as <-; constructor; [|eapply IH, SQ].
    exists pw; cbn [fst snd q_where q_expr q_subs q_slices]; auto.
Qed.
Lemma expression_dict_of N pe d alts : expression_dict N pe d = Some alts -> dict_of N pe d alts.
Proof.
  unfold expression_dict, dict_of; revert alts; induction d as [|(k & l) d IH]; intros alts H; cbn [map sequence fst snd] in H.
  - injection H as <-; constructor.
  - destruct (expression_list N pe k l) as [qs|] eqn:EL; [|discriminate]; cbn [option_map] in H.
    destruct (sequence _) as [r|] eqn:SQ; [|discriminate]; injection H as <-; constructor; [|apply IH, eq_refl].
    split; [reflexivity|apply (expression_list_alternatives _ _ _ _ _ EL)].
Qed.
Lemma alternatives_holding N pe W p l qs : alternatives_of N pe l qs -> List.length (filter (applies W p) qs) = holding N W p l.
Proof.
  unfold holding; induction 1 as [|(w & e) q l qs (pw & PW & WH & _) F IH]; [reflexivity|]; cbn [filter fst] in *.
  rewrite PW; unfold applies at 1; rewrite WH; cbn [forallb]; rewrite andb_true_r; destruct (weval W pw p); cbn [List.length]; congruence.
Qed.
Lemma dict_of_get N pe d alts k qs : dict_of N pe d alts -> d_get k alts = Some qs -> exists l, In (k, l) d /\ alternatives_of N pe l qs.
Proof.
  induction 1 as [|(k' & l) (k2 & a) d alts (E & A) F IH]; cbn [d_get]; [discriminate|]; cbn [fst snd] in *; subst k2.
  destruct (String.eqb k k') eqn:EK; [|intros G; destruct (IH G) as (x & IX & H); exists x; split; [right; exact IX|exact H]].
  apply String.eqb_eq in EK; subst; intros G; injection G as <-; exists l; split; [left; reflexivity|exact A].
Qed.

(** * The dictionary of chosen alternatives *)
Lemma picked_fold alts : named alts -> forall ks ch acc, NoDup ks -> choice alts ks ch ->
  forall k, d_get k (fold_left (fun d a => d_set (stem a) (q_expr a) d) (picked alts ks ch) acc) =
    match d_get k (combine ks ch) with
    | Some n => match d_get k alts with Some l => option_map q_expr (nth_error l n) | None => None end
    | None => d_get k acc
    end.
Proof.
  intros NM; induction ks as [|k0 ks IH]; intros ch acc ND CH k; inversion CH as [|? n ? ch' (l & G & LT) CH']; subst; [reflexivity|].
  inversion ND as [|? ? NI ND']; subst.
  cbn [picked combine d_get]; rewrite G; destruct (nth_error l n) as [a|] eqn:EN; [|apply nth_error_None in EN; lia].
  cbn [fold_left]; rewrite (IH ch' _ ND' CH' k), (NM k0 l a G (nth_error_In _ _ EN)).
  destruct (String.eqb k k0) eqn:E.
  - apply String.eqb_eq in E; subst k0; rewrite G, EN.
    assert (X : d_get k (combine ks ch') = None).
    { apply d_get_none; intros IN; apply NI; unfold d_keys in IN; clear - IN; revert ch' IN.
      induction ks as [|y ks IH]; intros [|m ch'] IN; cbn [combine map In] in IN; try contradiction.
      destruct IN as [E|IN]; [left; exact E|right; apply (IH ch'), IN]. }
    rewrite X, d_get_set_same; reflexivity.
  - apply String.eqb_neq in E; rewrite d_get_set_other by congruence; reflexivity.
Qed.
Lemma d_set_entry {V} k v (d : list (string * V)) x : In x (d_set k v d) -> In x d \/ x = (k, v).
Proof.
  induction d as [|(k' & v') d IH]; cbn [d_set]; [intros [<- |[]]; auto|]; destruct (String.eqb k k') eqn:E.
  - apply String.eqb_eq in E; subst; intros [<- |IN]; [right; reflexivity|left; right; exact IN].
  - intros [<- |IN]; [left; left; reflexivity|destruct (IH IN) as [H|H]; [left; right; exact H|auto]].
Qed.
Lemma group_of_entry comb k e : In (k, e) (group_of comb) -> exists a, In a comb /\ e = q_expr a.
Proof.
  unfold group_of; intros H.
  assert (X : In (k, e) (@nil (string * parsed)) \/ exists a, In a comb /\ e = q_expr a); [|destruct X as [[]|X]; exact X].
  revert H; generalize (@nil (string * parsed)); induction comb as [|a comb IH]; intros acc H; cbn [fold_left] in H; [left; exact H|].
  apply IH in H as [H|(b & IB & EB)]; [|right; exists b; split; [right; exact IB|exact EB]].
  apply d_set_entry in H as [H|H]; [left; exact H|injection H as -> ->; right; exists a; split; [left; reflexivity|reflexivity]].
Qed.
Lemma picked_in {A} (alts : list (string * list A)) ks : forall ch a, In a (picked alts ks ch) -> exists k l, d_get k alts = Some l /\ In a l.
Proof.
  induction ks as [|k ks IH]; intros [|n ch] a IN; cbn [picked] in IN; try contradiction.
  destruct (d_get k alts) as [l|] eqn:G; [|apply (IH ch), IN]; destruct (nth_error l n) as [b|] eqn:E; [|apply (IH ch), IN].
  destruct IN as [<- |IN]; [exists k, l; split; [exact G|eapply nth_error_In, E]|apply (IH ch), IN].
Qed.
Lemma combine_get (ks : list string) : forall (ch : list nat) k n, NoDup ks -> In (k, n) (combine ks ch) -> d_get k (combine ks ch) = Some n.
Proof.
  induction ks as [|k0 ks IH]; intros [|m ch] k n ND IN; cbn [combine] in IN; try contradiction.
  inversion ND as [|? ? NI ND']; subst; cbn [combine d_get]; destruct IN as [E|IN].
  - injection E as -> ->; rewrite String.eqb_refl; reflexivity.
  - destruct (String.eqb k k0) eqn:EK; [|apply IH; assumption].
    apply String.eqb_eq in EK; subst; apply in_combine_l in IN; contradiction.
Qed.
Lemma combine_key {A B} (ks : list A) (R : A -> B -> Prop) : forall ch k, Forall2 R ks ch -> In k ks -> exists n, In (k, n) (combine ks ch).
Proof.
  induction ks as [|k0 ks IH]; intros ch k F IN; [destruct IN|]; inversion F as [|? n ? ch' H F']; subst; cbn [combine].
  destruct IN as [-> |IN]; [exists n; left; reflexivity|]; destruct (IH ch' k F' IN) as (m & IM); exists m; right; exact IM.
Qed.

Section Expand.
Variable order : list string -> list string.
Hypothesis OR : lists_set order.

Lemma top_items_refers sl s p : In s (top_items sl p) <-> refers sl s p.
Proof.
  destruct p as [e|l c r]; cbn [top_items refers].
  - destruct e; try apply items_occurs.
  - rewrite in_app_iff, !items_occurs; reflexivity.
Qed.
Lemma part_items_within sl s p : In s (part_items sl p) <-> within (occurs sl s false) p.
Proof. destruct p; cbn [part_items within]; rewrite ?in_app_iff, ?items_occurs; reflexivity. Qed.
Lemma wanted_referred sl q s : In s (wanted order sl q) <-> referred sl q s.
Proof.
  unfold wanted; rewrite (proj2 (OR _)); unfold referred; destruct sl.
  - unfold find_slices; rewrite in_app_iff, top_items_refers, in_flat_snd; split.
    + intros [H|(k & x & IN & HS)]; [left; exact H|right; split; [reflexivity|exists k, x; split; [exact IN|apply part_items_within, HS]]].
    + intros [H|(_ & k & x & IN & HS)]; [left; exact H|right; exists k, x; split; [exact IN|apply part_items_within, HS]].
  - unfold find_subs; rewrite top_items_refers; split; [auto|intros [H|(X & _)]; [exact H|discriminate]].
Qed.
Lemma wanted_nodup sl q : NoDup (wanted order sl q).
Proof. apply OR. Qed.

Lemma variant_spec sl alts q ch : named alts -> choice alts (wanted order sl q) ch ->
  variant_of sl alts q (wanted order sl q) ch (variant order sl alts q ch).
Proof.
  intros NM CH; unfold variant; destruct (wanted order sl q) as [|k0 ks] eqn:EK.
  - repeat split.
    + assumption.
    + intros a; destruct ch; intros [].
    + intros (H & _); exact H.
    + intros k n [].
    + auto.
  - rewrite <- EK in *; split; [reflexivity|split; [|split; [|split]]].
    + intros W p; rewrite applies_add, andb_true_iff, forallb_forall; reflexivity.
    + intros k n IN; pose proof (combine_get _ _ _ _ (wanted_nodup sl q) IN) as G.
      assert (X : exists l a, d_get k alts = Some l /\ nth_error l n = Some a).
      { assert (Y : exists l, d_get k alts = Some l /\ n < List.length l).
        { revert CH IN; generalize (wanted order sl q); clear; intros ks; revert ch.
          induction ks as [|k1 ks IH]; intros [|m ch] CH IN; cbn [combine] in IN; try contradiction.
          inversion CH; subst; destruct IN as [E|IN]; [injection E as -> ->; assumption|eapply IH; eassumption]. }
        destruct Y as (l & GL & LT); exists l; destruct (nth_error l n) as [a|] eqn:EN; [eauto|apply nth_error_None in EN; lia]. }
      destruct X as (l & a & GL & EN); exists l, a; split; [exact GL|split; [exact EN|]].
      assert (Z : d_get k (group_of (picked alts (wanted order sl q) ch)) = Some (q_expr a)).
      { pose proof (picked_fold alts NM _ _ [] (wanted_nodup sl q) CH k) as X; rewrite G, GL, EN in X; exact X. }
      destruct sl; exact Z.
    + intros k e IN; right; apply group_of_entry with (k := k); destruct sl; exact IN.
    + destruct sl; reflexivity.
Qed.

Lemma nodup_tag {A} (i : nat) (l : list A) : NoDup l -> NoDup (map (pair i) l).
Proof.
  induction 1 as [|x l NI ND IH]; cbn [map]; constructor; [|exact IH].
  intros IN; apply in_map_iff in IN as (y & E & IN); injection E as ->; contradiction.
Qed.
Lemma nodup_app {A} (a b : list A) : NoDup a -> NoDup b -> (forall x, In x a -> ~ In x b) -> NoDup (a ++ b).
Proof.
  induction 1 as [|x a NI NA IH]; intros NB DJ; cbn [app]; [exact NB|]; constructor.
  - rewrite in_app_iff; intros [H|H]; [contradiction|apply (DJ x (or_introl eq_refl) H)].
  - apply IH; [exact NB|intros y IY; apply DJ; right; exact IY].
Qed.
Lemma map_variants (f : peq -> list (list nat)) (g : peq -> list nat -> peq) (qs : list peq) : forall base,
  let cs := flat_map (fun iq => map (pair (fst iq)) (f (snd iq))) (CliModel.enumerate base qs) in
  (forall q, NoDup (f q)) ->
  NoDup cs /\ (forall i ch, In (i, ch) cs <-> base <= i /\ exists q, nth_error qs (i - base) = Some q /\ In ch (f q)) /\
  Forall2 (fun c r => exists q, nth_error qs (fst c - base) = Some q /\ In (snd c) (f q) /\ r = g q (snd c)) cs (flat_map (fun q => map (g q) (f q)) qs).
Proof.
  induction qs as [|q qs IH]; intros base; cbv zeta; intros NF; cbn [CliModel.enumerate flat_map].
  - split; [constructor|split; [|constructor]].
    intros i ch; split; [intros []|intros (_ & q & E & _); destruct (i - base); discriminate].
  - cbn [fst snd]; destruct (IH (S base) NF) as (N1 & I1 & F1); cbv zeta in *.
    set (cs := flat_map _ (CliModel.enumerate (S base) qs)) in *; split; [|split].
    + apply nodup_app; [apply nodup_tag, NF|exact N1|].
      intros (i & ch) IN IC; apply in_map_iff in IN as (x & E & _); injection E as <- <-; apply I1 in IC as (LE & _); lia.
    + intros i ch; rewrite in_app_iff, in_map_iff, I1; split.
      * intros [(x & E & IN)|(LE & q' & EN & IN)].
        -- injection E as <- <-; split; [lia|]; exists q; rewrite Nat.sub_diag; auto.
        -- split; [lia|]; exists q'; replace (i - base) with (S (i - S base)) by lia; auto.
      * intros (LE & q' & EN & IN); destruct (Nat.eq_dec i base) as [-> |NE].
        -- rewrite Nat.sub_diag in EN; injection EN as <-; left; eauto.
        -- right; split; [lia|]; exists q'; replace (i - base) with (S (i - S base)) in EN by lia; auto.
    + apply Forall2_app.
      * assert (SUB : forall l, (forall x, In x l -> In x (f q)) ->
          Forall2 (fun c r => exists q0, nth_error (q :: qs) (fst c - base) = Some q0 /\ In (snd c) (f q0) /\ r = g q0 (snd c)) (map (pair base) l) (map (g q) l)).
        { induction l as [|x l IL]; intros SL; cbn [map]; constructor; [|apply IL; intros y IY; apply SL; right; exact IY].
          cbn [fst snd]; rewrite Nat.sub_diag; exists q; split; [reflexivity|split; [apply SL; left; reflexivity|reflexivity]]. }
        apply SUB; auto.
      * assert (GE : forall c, In c cs -> S base <= fst c).
        { intros (i & ch) IC; apply I1 in IC as (LE & _); exact LE. }
        clear - F1 GE; induction F1 as [|c r cs' rs' (q' & EN & IN & E) F IH]; constructor.
        -- exists q'; pose proof (GE c (or_introl eq_refl)); replace (fst c - base) with (S (fst c - S base)) by lia; auto.
        -- apply IH; intros c' IC; apply GE; right; exact IC.
Qed.

Lemma extend_expanded sl alts qs rs : named alts -> extend_all order sl alts qs = Done rs -> expanded sl alts qs rs.
Proof.
  intros NM H; apply extend_all_eq in H as (-> & M).
  destruct (map_variants (fun q => choices alts (wanted order sl q)) (fun q => variant order sl alts q) qs 0
    (fun q => choices_nodup alts (wanted order sl q))) as (ND & IN & F); cbv zeta in *.
  exists (fun i => match nth_error qs i with Some q => wanted order sl q | None => [] end).
  eexists; split; [|split; [exact ND|split]].
  - intros i q E; rewrite E; split; [apply wanted_nodup|intros s; apply wanted_referred].
  - intros i ch; rewrite IN, Nat.sub_0_r; split.
    + intros (_ & q & E & IC); rewrite E; split; [apply nth_error_Some; congruence|apply choices_in, IC].
    + intros (LT & CH); split; [lia|]; destruct (nth_error qs i) as [q|] eqn:E; [|apply nth_error_None in E; lia].
      exists q; split; [reflexivity|apply choices_in, CH].
  - clear ND IN; revert F; generalize (flat_map (fun q => map (variant order sl alts q) (choices alts (wanted order sl q))) qs); intros rs F.
    induction F as [|(i & ch) r cs rs (q & E & IC & ->) F IH]; constructor; [|exact IH]; clear F IH; cbn [fst snd] in *; rewrite Nat.sub_0_r in E.
    exists q; split; [exact E|]; rewrite E; apply variant_spec; [exact NM|apply choices_in, IC].
Qed.

(** * Nothing is missing at evaluation *)
Lemma lookups_mentions sl s p : In s (lookups_of sl p) <-> mentions sl s p.
Proof. unfold mentions; destruct p; cbn [lookups_of within]; rewrite ?in_app_iff, ?lookups_occurs; reflexivity. Qed.

Lemma expanded_keys sl alts qs rs r : expanded sl alts qs rs -> In r rs ->
  exists q, In q qs /\ q_expr r = q_expr q /\ dictionary (negb sl) r = dictionary (negb sl) q /\
    (forall s, referred sl q s -> d_mem s (dictionary sl r) = true) /\
    forall k e, In (k, e) (dictionary sl r) -> In (k, e) (dictionary sl q) \/ exists n l a, d_get n alts = Some l /\ In a l /\ e = q_expr a.
Proof.
  intros (ks & cs & HK & _ & HC & F) IR.
  assert (X : exists c, In c cs /\ exists q, nth_error qs (fst c) = Some q /\ variant_of sl alts q (ks (fst c)) (snd c) r).
  { clear - F IR; induction F as [|c r' cs rs (q & E & V) F IH]; [destruct IR|]; destruct IR as [-> |IR].
    - exists c; split; [left; reflexivity|eauto].
    - destruct (IH IR) as (c' & IC & X); exists c'; split; [right; exact IC|exact X]. }
  destruct X as ((i & ch) & IC & q & E & VE & _ & VD & VN & VO); cbn [fst snd] in *.
  exists q; split; [eapply nth_error_In, E|split; [exact VE|split; [exact VO|split]]].
  2: { intros k e IN; destruct (VN k e IN) as [H|(a & IA & ->)]; [auto|right]; destruct (picked_in _ _ _ _ IA) as (n & l & G & IL); eauto 6. }
  intros s HS; destruct (HK i q E) as (_ & HR); apply HR in HS; apply HC in IC as (_ & CH).
  destruct (combine_key _ _ _ _ CH HS) as (n & IN); destruct (VD s n IN) as (l & a & _ & _ & G); apply d_mem_get; eauto.
Qed.
End Expand.
