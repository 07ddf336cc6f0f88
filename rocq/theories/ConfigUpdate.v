(** The effect of a configuration update, setting by setting. *)
From Verif Require Import Base BaseProofs AttrDictModel AttrDictSpec AttrDictProofs ConfigModel ConfigSpec ConfigProofs.
Local Open Scope string_scope.
Local Open Scope list_scope.
Local Arguments String.eqb : simpl never.

(** ** Loops *)
Definition stepped (sc : schema) (o : obj) (v : val) (o' : obj) : Prop :=
  match o with
  | OLeaf x => o' = OLeaf v
  | OModel _ | ODict _ => update sc o v = Ok o'
  | OList _ => validate sc v = Ok o'
  end.

Lemma loop_model_spec fs d : NoDup (map fst d) -> forall os os', loop_model fs d os = Ok os' ->
  (forall k v, d_get k d = Some v -> In k (map fst os)) ->
  map fst os' = map fst os /\
  (forall k, d_get k d = None -> d_get k os' = d_get k os) /\
  (forall k v, d_get k d = Some v -> exists o o', d_get k os = Some o /\ d_get k os' = Some o' /\
     stepped (field_schema fs k) o v o').
Proof.
  induction d as [|[k0 v0] t IH]; intros ND os os' H A; cbn [loop_model] in H.
  - injection H as <-; split; [reflexivity|split; [reflexivity|discriminate]].
  - simpl in ND; inversion ND as [|? ? Nk NDt]; subst.
    assert (GT : d_get k0 t = None) by (apply d_get_none; exact Nk).
    assert (K : In k0 (map fst os)) by (apply (A k0 v0); simpl; rewrite String.eqb_refl; reflexivity).
    assert (A' : forall os1 : list (string * obj), map fst os1 = map fst os -> forall k v, d_get k t = Some v -> In k (map fst os1)).
    { intros os1 E k v G; rewrite E; apply (A k v); simpl; destruct (String.eqb k k0) eqn:Ek; [|exact G].
      apply String.eqb_eq in Ek; subst; congruence. }
    assert (STEP : forall o x, d_get k0 os = Some o -> loop_model fs t (d_set k0 x os) = Ok os' ->
       stepped (field_schema fs k0) o v0 x ->
       map fst os' = map fst os /\
       (forall k, d_get k ((k0, v0) :: t) = None -> d_get k os' = d_get k os) /\
       (forall k v, d_get k ((k0, v0) :: t) = Some v -> exists o o', d_get k os = Some o /\ d_get k os' = Some o' /\
          stepped (field_schema fs k) o v o')).
    { intros o x G HL ST.
      assert (EK : map fst (d_set k0 x os) = map fst os) by (apply (d_keys_set_in k0 x os); exact K).
      destruct (IH NDt _ _ HL (A' _ EK)) as [E [H1 H2]]; split; [congruence|split].
      - intros k Gk; simpl in Gk; destruct (String.eqb k k0) eqn:Ek; [discriminate|].
        rewrite (H1 k Gk); apply d_get_set_other; apply String.eqb_neq; exact Ek.
      - intros k v Gk; simpl in Gk; destruct (String.eqb k k0) eqn:Ek.
        + apply String.eqb_eq in Ek; subst; injection Gk as <-.
          exists o, x; split; [exact G|split; [|exact ST]]; rewrite (H1 _ GT); apply d_get_set_same.
        + destruct (H2 k v Gk) as [o1 [o2 [G1 [G2 ST2]]]]; exists o1, o2; split; [|auto].
          rewrite <- G1; symmetry; apply d_get_set_other; apply String.eqb_neq; exact Ek. }
    destruct (d_get k0 os) as [[x|l|l|l]|] eqn:G.
    + destruct (val_eqb x v0) eqn:E.
      * apply val_eqb_eq in E; subst x; apply (STEP (OLeaf v0) (OLeaf v0)); [reflexivity| |reflexivity].
        rewrite d_set_self by exact G; exact H.
      * apply (STEP (OLeaf x) (OLeaf v0)); [reflexivity|exact H|reflexivity].
    + destruct (update _ _ v0) as [x|] eqn:U; [|discriminate]; simpl in H.
      apply (STEP (OModel l) x); [reflexivity|exact H|exact U].
    + destruct (update _ _ v0) as [x|] eqn:U; [|discriminate]; simpl in H.
      apply (STEP (ODict l) x); [reflexivity|exact H|exact U].
    + destruct (validate _ v0) as [x|] eqn:U; [|discriminate]; simpl in H.
      apply (STEP (OList l) x); [reflexivity|exact H|exact U].
    + exfalso; apply d_get_none in G; exact (G K).
Qed.

Definition stepped_entry (e : schema) (o : obj) (v : val) (o' : obj) : Prop :=
  match o with
  | OLeaf x => (o' = OLeaf v /\ x = v) \/ validate e v = Ok o'
  | OModel _ => update e o v = Ok o'
  | ODict _ | OList _ => validate e v = Ok o'
  end.
Lemma loop_dict_spec e d : NoDup (map fst d) -> forall os os', loop_dict e d os = Ok os' ->
  (forall k v, d_get k d = Some v -> In k (map fst os)) ->
  map fst os' = map fst os /\
  (forall k, d_get k d = None -> d_get k os' = d_get k os) /\
  (forall k v, d_get k d = Some v -> exists o o', d_get k os = Some o /\ d_get k os' = Some o' /\
     stepped_entry e o v o').
Proof.
  induction d as [|[k0 v0] t IH]; intros ND os os' H A; cbn [loop_dict] in H.
  - injection H as <-; split; [reflexivity|split; [reflexivity|discriminate]].
  - simpl in ND; inversion ND as [|? ? Nk NDt]; subst.
    assert (GT : d_get k0 t = None) by (apply d_get_none; exact Nk).
    assert (K : In k0 (map fst os)) by (apply (A k0 v0); simpl; rewrite String.eqb_refl; reflexivity).
    assert (A' : forall os1 : list (string * obj), map fst os1 = map fst os -> forall k v, d_get k t = Some v -> In k (map fst os1)).
    { intros os1 E k v G; rewrite E; apply (A k v); simpl; destruct (String.eqb k k0) eqn:Ek; [|exact G].
      apply String.eqb_eq in Ek; subst; congruence. }
    assert (STEP : forall o x, d_get k0 os = Some o -> loop_dict e t (d_set k0 x os) = Ok os' ->
       stepped_entry e o v0 x ->
       map fst os' = map fst os /\
       (forall k, d_get k ((k0, v0) :: t) = None -> d_get k os' = d_get k os) /\
       (forall k v, d_get k ((k0, v0) :: t) = Some v -> exists o o', d_get k os = Some o /\ d_get k os' = Some o' /\
          stepped_entry e o v o')).
    { intros o x G HL ST.
      assert (EK : map fst (d_set k0 x os) = map fst os) by (apply (d_keys_set_in k0 x os); exact K).
      destruct (IH NDt _ _ HL (A' _ EK)) as [E [H1 H2]]; split; [congruence|split].
      - intros k Gk; simpl in Gk; destruct (String.eqb k k0) eqn:Ek; [discriminate|].
        rewrite (H1 k Gk); apply d_get_set_other; apply String.eqb_neq; exact Ek.
      - intros k v Gk; simpl in Gk; destruct (String.eqb k k0) eqn:Ek.
        + apply String.eqb_eq in Ek; subst; injection Gk as <-.
          exists o, x; split; [exact G|split; [|exact ST]]; rewrite (H1 _ GT); apply d_get_set_same.
        + destruct (H2 k v Gk) as [o1 [o2 [G1 [G2 ST2]]]]; exists o1, o2; split; [|auto].
          rewrite <- G1; symmetry; apply d_get_set_other; apply String.eqb_neq; exact Ek. }
    destruct (d_get k0 os) as [[x|l|l|l]|] eqn:G.
    + destruct (val_eqb x v0) eqn:E.
      * apply val_eqb_eq in E; subst x; apply (STEP (OLeaf v0) (OLeaf v0)); [reflexivity| |left; auto].
        rewrite d_set_self by exact G; exact H.
      * destruct (validate _ v0) as [y|] eqn:U; [|discriminate]; simpl in H.
        apply (STEP (OLeaf x) y); [reflexivity|exact H|right; exact U].
    + destruct (update _ _ v0) as [x|] eqn:U; [|discriminate]; simpl in H.
      apply (STEP (OModel l) x); [reflexivity|exact H|exact U].
    + destruct (validate _ v0) as [x|] eqn:U; [|discriminate]; simpl in H.
      apply (STEP (ODict l) x); [reflexivity|exact H|exact U].
    + destruct (validate _ v0) as [x|] eqn:U; [|discriminate]; simpl in H.
      apply (STEP (OList l) x); [reflexivity|exact H|exact U].
    + exfalso; apply d_get_none in G; exact (G K).
Qed.

(** ** Settings through one level *)
Lemma setting_model os k q v : NoDup (map fst os) ->
  (setting (OModel os) (k :: q) v <-> exists o, d_get k os = Some o /\ setting o q v).
Proof.
  intros ND; split.
  - intros H; inversion H; subst; exists o; split; [apply d_in_get; assumption|assumption].
  - intros [o [G H]]; econstructor; [exact (d_get_in _ _ _ G)|exact H].
Qed.
Lemma setting_dict os k q v : NoDup (map fst os) ->
  (setting (ODict os) (k :: q) v <-> exists o, d_get k os = Some o /\ setting o q v).
Proof.
  intros ND; split.
  - intros H; inversion H; subst; exists o; split; [apply d_in_get; assumption|assumption].
  - intros [o [G H]]; econstructor; [exact (d_get_in _ _ _ G)|exact H].
Qed.
Lemma at_cons d k q w : NoDup (map fst d) ->
  (at_path (VDict d) (k :: q) w <-> exists u, d_get k d = Some u /\ at_path u q w).
Proof.
  intros ND; split.
  - intros H; inversion H as [|k' w' items p x Hin Hat]; subst; exists w'; split; [apply d_in_get; assumption|assumption].
  - intros [u [G H]]; econstructor; [exact (d_get_in _ _ _ G)|exact H].
Qed.

Lemma updated_model fs g os d k q v : NoDup (map fst fs) -> NoDup (map fst os) -> NoDup (map fst d) ->
  (updated (SModel fs g) (OModel os) (VDict d) (k :: q) v <->
   exists o, d_get k os = Some o /\
    match d_get k d with
    | None => setting o q v
    | Some u => exists x, setting o q x /\
        ((exists w c dflt S', at_path u q w /\ d_get k fs = Some (dflt, S') /\ checker S' q c /\ c w = Ok v) \/
         ((~ exists w, at_path u q w) /\ v = x))
    end).
Proof.
  intros NF NO ND; unfold updated; split.
  - intros [x [Hx H]]; apply setting_model in Hx; [|exact NO]; destruct Hx as [o [G Hx]]; exists o; split; [exact G|].
    destruct (d_get k d) as [u|] eqn:Gd.
    + exists x; split; [exact Hx|]; destruct H as [[w [c [H1 [H2 H3]]]]|[H1 H2]].
      * left; apply at_cons in H1; [|exact ND]; destruct H1 as [u' [Gu H1]]; rewrite Gd in Gu; injection Gu as <-.
        inversion H2 as [|fs0 g0 k0 dflt S' p c0 Hin Hc|]; subst.
        exists w, c, dflt, S'; repeat split; auto; apply d_in_get; assumption.
      * right; split; [|exact H2]; intros [w Hw]; apply H1; exists w; apply at_cons; [exact ND|exists u; auto].
    + destruct H as [[w [c [H1 _]]]|[_ ->]]; [|exact Hx].
      apply at_cons in H1; [|exact ND]; destruct H1 as [u' [Gu _]]; congruence.
  - intros [o [G H]]; destruct (d_get k d) as [u|] eqn:Gd.
    + destruct H as [x [Hx H]]; exists x; split; [apply setting_model; [exact NO|exists o; auto]|].
      destruct H as [[w [c [dflt [S' [H1 [H2 [H3 H4]]]]]]]|[H1 H2]].
      * left; exists w, c; split; [apply at_cons; [exact ND|exists u; auto]|split; [|exact H4]].
        econstructor; [exact (d_get_in _ _ _ H2)|exact H3].
      * right; split; [|exact H2]; intros [w Hw]; apply at_cons in Hw; [|exact ND].
        destruct Hw as [u' [Gu Hw]]; rewrite Gd in Gu; injection Gu as <-; apply H1; exists w; exact Hw.
    + exists v; split; [apply setting_model; [exact NO|exists o; auto]|right; split; [|reflexivity]].
      intros [w Hw]; apply at_cons in Hw; [|exact ND]; destruct Hw as [u' [Gu _]]; congruence.
Qed.
Lemma updated_dict e os d k q v : NoDup (map fst os) -> NoDup (map fst d) ->
  (updated (SDict e) (ODict os) (VDict d) (k :: q) v <->
   exists o, d_get k os = Some o /\
    match d_get k d with
    | None => setting o q v
    | Some u => updated e o u q v
    end).
Proof.
  intros NO ND; unfold updated; split.
  - intros [x [Hx H]]; apply setting_dict in Hx; [|exact NO]; destruct Hx as [o [G Hx]]; exists o; split; [exact G|].
    destruct (d_get k d) as [u|] eqn:Gd.
    + exists x; split; [exact Hx|]; destruct H as [[w [c [H1 [H2 H3]]]]|[H1 H2]].
      * left; apply at_cons in H1; [|exact ND]; destruct H1 as [u' [Gu H1]]; rewrite Gd in Gu; injection Gu as <-.
        inversion H2; subst; exists w, c; auto.
      * right; split; [|exact H2]; intros [w Hw]; apply H1; exists w; apply at_cons; [exact ND|exists u; auto].
    + destruct H as [[w [c [H1 _]]]|[_ ->]]; [|exact Hx].
      apply at_cons in H1; [|exact ND]; destruct H1 as [u' [Gu _]]; congruence.
  - intros [o [G H]]; destruct (d_get k d) as [u|] eqn:Gd.
    + destruct H as [x [Hx H]]; exists x; split; [apply setting_dict; [exact NO|exists o; auto]|].
      destruct H as [[w [c [H1 [H2 H3]]]]|[H1 H2]].
      * left; exists w, c; split; [apply at_cons; [exact ND|exists u; auto]|split; [constructor; exact H2|exact H3]].
      * right; split; [|exact H2]; intros [w Hw]; apply at_cons in Hw; [|exact ND].
        destruct Hw as [u' [Gu Hw]]; rewrite Gd in Gu; injection Gu as <-; apply H1; exists w; exact Hw.
    + exists v; split; [apply setting_dict; [exact NO|exists o; auto]|right; split; [|reflexivity]].
      intros [w Hw]; apply at_cons in Hw; [|exact ND]; destruct Hw as [u' [Gu _]]; congruence.
Qed.
Lemma updated_leaf c x u q v : updated (SLeaf c) (OLeaf x) u q v <-> q = [] /\ c u = Ok v.
Proof.
  unfold updated; split.
  - intros [y [Hy H]]; inversion Hy; subst; split; [reflexivity|].
    destruct H as [[w [c' [H1 [H2 H3]]]]|[H1 _]].
    + inversion H1; inversion H2; subst; exact H3.
    + exfalso; apply H1; exists u; constructor.
  - intros [-> H]; exists x; split; [constructor|left; exists u, c; split; [constructor|split; [constructor|exact H]]].
Qed.

Lemma validate_shape sc v o : validate sc v = Ok o ->
  match sc, o with
  | SLeaf c, OLeaf x => c v = Ok x
  | SModel _ _, OModel _ => True
  | SDict _, ODict _ => True
  | SList c, OList x => c v = Ok x
  | _, _ => False
  end.
Proof.
  destruct sc as [c|fs g|e|c]; intros H.
  - simpl in H; destruct (c v); [|discriminate]; injection H as <-; reflexivity.
  - destruct v; try discriminate H; rewrite validate_model in H; destruct (negb _); [discriminate|].
    destruct (valid_fields d fs); [|discriminate]; simpl in H; destruct (g _); [|discriminate]; injection H as <-; exact I.
  - destruct v; try discriminate H; rewrite validate_dict in H.
    destruct (valid_entries e d); [|discriminate]; injection H as <-; exact I.
  - simpl in H; destruct (c v); [|discriminate]; injection H as <-; reflexivity.
Qed.
Lemma instance_leaf sc x : instance sc (OLeaf x) -> exists c, sc = SLeaf c /\ c x = Ok x.
Proof. intros H; apply validate_shape in H; destruct sc; try contradiction; eauto. Qed.
Lemma instance_is_model sc os : instance sc (OModel os) -> exists fs g, sc = SModel fs g.
Proof. intros H; apply validate_shape in H; destruct sc; try contradiction; eauto. Qed.
Lemma instance_is_dict sc os : instance sc (ODict os) -> exists e, sc = SDict e.
Proof. intros H; apply validate_shape in H; destruct sc; try contradiction; eauto. Qed.

Lemma neat_model fs k o : neat (OModel fs) -> d_get k fs = Some o -> neat o.
Proof. intros H G; inversion H as [| |? F|]; subst; rewrite Forall_forall in F; exact (F _ (d_get_in _ _ _ G)). Qed.
Lemma neat_dict fs k o : neat (ODict fs) -> d_get k fs = Some o -> neat o.
Proof. intros H G; inversion H as [| | |? ND F]; subst; rewrite Forall_forall in F; exact (F _ (d_get_in _ _ _ G)). Qed.
Lemma get_forall {V} (P : string * V -> Prop) l : NoDup (map fst l) ->
  (forall k x, d_get k l = Some x -> P (k, x)) -> Forall P l.
Proof. intros ND H; apply Forall_forall; intros [k x] Hin; apply H; apply d_in_get; assumption. Qed.

Theorem update_spec u : forall sc o r, is_dict u = true -> wf u -> steady sc -> neat o -> instance sc o ->
  addresses o u -> update sc o u = Ok r ->
  instance sc r /\ neat r /\ (forall p x, setting o p x -> exists v, setting r p v) /\
  forall p v, setting r p v <-> updated sc o u p v.
Proof.
  induction u as [| | | |l IHl|d IH] using val_ind'; intros sc o r D W St Nt Iz Ad U; try discriminate D.
  pose proof (wf_inv _ W) as [NDd Wd].
  destruct o as [x|os|os|x].
  - simpl in U; destruct sc; discriminate U.
  - destruct (instance_is_model _ _ Iz) as [fs [g ->]].
    inversion St as [| |? ? NF Fs|]; subst.
    pose proof (proj1 (instance_model fs g os NF) Iz) as [EK [Gd Io]].
    assert (NO : NoDup (map fst os)) by (rewrite EK; exact NF).
    rewrite update_model in U; destruct (loop_model fs d os) as [os'|] eqn:L; [|discriminate]; cbn [bind] in U.
    inversion Ad as [|? ? A|]; subst.
    destruct (loop_model_spec fs d NDd os os' L) as [EK' [L1 L2]].
    { intros k v G; destruct (A k v (d_get_in _ _ _ G)) as [o [Ho _]]; exact (in_map fst _ _ Ho). }
    assert (Ir : instance (SModel fs g) r) by (exact (validate_instance _ St _ _ U)).
    rewrite dump_model, validate_model in U; destruct (negb _); [discriminate|].
    destruct (valid_fields (dump_fields os') fs) as [rs|] eqn:V; [|discriminate]; simpl in U.
    destruct (g (dump_fields rs)); [|discriminate]; injection U as <-.
    pose proof (valid_fields_keys _ _ _ V) as EKr.
    assert (NR : NoDup (map fst rs)) by (rewrite EKr; exact NF).
    (* each field of the result *)
    assert (FLD : forall k y, d_get k rs = Some y -> exists o dflt S', d_get k os = Some o /\ d_get k fs = Some (dflt, S') /\
        neat y /\ (forall q x, setting o q x -> exists v, setting y q v) /\ forall q v, setting y q v <->
          match d_get k d with None => setting o q v | Some u => updated S' o u q v end).
    { intros k y Gy.
      assert (Kf : In k (map fst fs)) by (rewrite <- EKr; exact (d_get_some_key _ _ _ Gy)).
      destruct (d_get k fs) as [[dflt S']|] eqn:Gf; [|exfalso; apply d_get_none in Gf; exact (Gf Kf)].
      destruct (Io k dflt S' Gf) as [o [Go Iok]].
      destruct (valid_fields_get _ _ _ k dflt S' NF V Gf) as [y' [Gy' Vy]].
      rewrite Gy in Gy'; injection Gy' as <-.
      assert (Ss : steady S') by (rewrite Forall_forall in Fs; exact (Fs _ (d_get_in _ _ _ Gf))).
      exists o, dflt, S'; split; [exact Go|split; [reflexivity|]].
      rewrite dump_fields_get in Vy.
      destruct (d_get k d) as [u|] eqn:Gu.
      - destruct (L2 k u Gu) as [o0 [o' [Go0 [Go' ST]]]]; rewrite Go in Go0; injection Go0 as <-.
        rewrite Go' in Vy; simpl in Vy.
        destruct (A k u (d_get_in _ _ _ Gu)) as [o1 [Ho1 Ad1]].
        apply d_in_get in Ho1; [|exact NO]; rewrite Go in Ho1; injection Ho1 as <-.
        assert (EFS : field_schema fs k = S') by (unfold field_schema; rewrite Gf; reflexivity).
        destruct o as [x|l|l|l]; simpl in ST.
        + subst o'; simpl in Vy; destruct (instance_leaf _ _ Iok) as [c [-> _]]; simpl in Vy.
          destruct (c u) as [z|] eqn:Cu; [|discriminate]; simpl in Vy; injection Vy as <-.
          split; [constructor|split; [intros q x0 H; inversion H; subst; exists z; constructor|]]; intros q v; rewrite updated_leaf; split.
          * intros H; inversion H; subst; auto.
          * intros [-> H]; rewrite Cu in H; injection H as <-; constructor.
        + rewrite EFS in ST; clear EFS; inversion Ad1 as [|? du ? E1 E2|]; subst.
          rewrite Forall_forall in IH; pose proof (IH _ (d_get_in _ _ _ Gu)) as IHu; cbn [snd] in IHu.
          destruct (IHu S' (OModel l) o' eq_refl (wf_get _ _ _ W Gu) Ss (neat_model _ _ _ Nt Go) Iok Ad1 ST) as [Io' [No' [Po' Ho']]].
          unfold instance in Io'; rewrite Io' in Vy; injection Vy as <-; auto.
        + rewrite EFS in ST; clear EFS; inversion Ad1 as [| |? du ? E1 E2]; subst.
          rewrite Forall_forall in IH; pose proof (IH _ (d_get_in _ _ _ Gu)) as IHu; cbn [snd] in IHu.
          destruct (IHu S' (ODict l) o' eq_refl (wf_get _ _ _ W Gu) Ss (neat_model _ _ _ Nt Go) Iok Ad1 ST) as [Io' [No' [Po' Ho']]].
          unfold instance in Io'; rewrite Io' in Vy; injection Vy as <-; auto.
        + inversion Ad1.
      - rewrite (L1 k Gu), Go in Vy; simpl in Vy; unfold instance in Iok; rewrite Iok in Vy; injection Vy as <-.
        split; [exact (neat_model _ _ _ Nt Go)|split; [eauto|]]; tauto. }
    split; [exact Ir|split; [|split]].
    + constructor; apply (get_forall (fun f => neat (snd f))); [exact NR|].
      intros k y Gy; destruct (FLD k y Gy) as [? [? [? [_ [_ [H _]]]]]]; exact H.
    + intros [|k q] x H; [inversion H|]; apply setting_model in H; [|exact NO]; destruct H as [o [Go H]].
      assert (Kr : In k (map fst rs)) by (rewrite EKr, <- EK; exact (d_get_some_key _ _ _ Go)).
      destruct (d_get k rs) as [y|] eqn:Gy; [|exfalso; apply d_get_none in Gy; exact (Gy Kr)].
      destruct (FLD k y Gy) as [o0 [dflt [S' [Go0 [Gf [_ [HP _]]]]]]].
      rewrite Go in Go0; injection Go0 as <-; destruct (HP q x H) as [v Hv]; exists v.
      apply setting_model; [exact NR|exists y; auto].
    + intros [|k q] v.
      * split; [intros H; inversion H|intros [x [H _]]; inversion H].
      * rewrite setting_model by exact NR; rewrite (updated_model fs g os d k q v NF NO NDd); split.
        -- intros [y [Gy Hy]]; destruct (FLD k y Gy) as [o [dflt [S' [Go [Gf [_ [_ H]]]]]]].
           exists o; split; [exact Go|]; apply H in Hy; destruct (d_get k d) as [u|]; [|exact Hy].
           destruct Hy as [x [Hx Hy]]; exists x; split; [exact Hx|].
           destruct Hy as [[w [c [H1 [H2 H3]]]]|Hy]; [left; exists w, c, dflt, S'; auto|right; exact Hy].
        -- intros [o [Go H]].
           assert (Kr : In k (map fst rs)) by (rewrite EKr, <- EK; exact (d_get_some_key _ _ _ Go)).
           destruct (d_get k rs) as [y|] eqn:Gy; [|exfalso; apply d_get_none in Gy; exact (Gy Kr)].
           exists y; split; [reflexivity|]; destruct (FLD k y Gy) as [o0 [dflt [S' [Go0 [Gf [_ [_ HF]]]]]]].
           rewrite Go in Go0; injection Go0 as <-; apply HF; destruct (d_get k d) as [u|]; [|exact H].
           destruct H as [x [Hx H]]; exists x; split; [exact Hx|].
           destruct H as [[w [c [dflt' [S'' [H1 [H2 [H3 H4]]]]]]]|H]; [left|right; exact H].
           rewrite Gf in H2; injection H2 as <- <-; exists w, c; auto.
  - destruct (instance_is_dict _ _ Iz) as [e ->].
    inversion St as [| | |? Se]; subst.
    pose proof (proj1 (instance_dict e os) Iz) as Io.
    inversion Nt as [| | |? NO FN]; subst.
    rewrite update_dict in U; destruct (loop_dict e d os) as [os'|] eqn:L; [|discriminate]; cbn [bind] in U.
    inversion Ad as [| |? ? A]; subst.
    destruct (loop_dict_spec e d NDd os os' L) as [EK' [L1 L2]].
    { intros k v G; destruct (A k v (d_get_in _ _ _ G)) as [[o [Ho _]]|[x Ho]]; exact (in_map fst _ _ Ho). }
    assert (Ir : instance (SDict e) r) by (exact (validate_instance _ St _ _ U)).
    assert (Nos' : NoDup (map fst os')) by (rewrite EK'; exact NO).
    (* each entry of the updated root is already valid *)
    assert (FLD : forall k y, d_get k os' = Some y -> exists o, d_get k os = Some o /\ instance e y /\
        neat y /\ (forall q x, setting o q x -> exists v, setting y q v) /\ forall q v, setting y q v <->
          match d_get k d with None => setting o q v | Some u => updated e o u q v end).
    { intros k y Gy; destruct (d_get k d) as [u|] eqn:Gu.
      - destruct (L2 k u Gu) as [o [o' [Go [Go' ST]]]]; rewrite Gy in Go'; injection Go' as <-.
        exists o; split; [exact Go|].
        assert (Iok : instance e o) by (rewrite Forall_forall in Io; exact (Io _ (d_get_in _ _ _ Go))).
        destruct (A k u (d_get_in _ _ _ Gu)) as [[l [Ho Ad1]]|[x Ho]]; apply d_in_get in Ho; try exact NO;
          rewrite Go in Ho; injection Ho as ->; simpl in ST.
        + inversion Ad1 as [|? du ? E1 E2|]; subst.
          rewrite Forall_forall in IH; pose proof (IH _ (d_get_in _ _ _ Gu)) as IHu; cbn [snd] in IHu.
          destruct (IHu e (OModel l) y eq_refl (wf_get _ _ _ W Gu) Se (neat_dict _ _ _ Nt Go) Iok Ad1 ST) as [Io' [No' [Po' Ho']]]; auto.
        + destruct (instance_leaf _ _ Iok) as [c [-> Cx]].
          destruct ST as [[-> ->]|ST].
          * split; [exact Iok|split; [constructor|split; [eauto|]]]; intros q v; rewrite updated_leaf; split.
            -- intros H; inversion H; subst; auto.
            -- intros [-> H]; rewrite Cx in H; injection H as <-; constructor.
          * split; [exact (validate_instance _ Se _ _ ST)|].
            simpl in ST; destruct (c u) as [z|] eqn:Cu; [|discriminate]; simpl in ST; injection ST as <-.
            split; [constructor|split; [intros q x0 H; inversion H; subst; exists z; constructor|]]; intros q v; rewrite updated_leaf; split.
            -- intros H; inversion H; subst; auto.
            -- intros [-> H]; rewrite Cu in H; injection H as <-; constructor.
      - rewrite (L1 k Gu) in Gy; exists y; split; [exact Gy|].
        rewrite Forall_forall in Io; split; [exact (Io _ (d_get_in _ _ _ Gy))|].
        split; [exact (neat_dict _ _ _ Nt Gy)|split; [eauto|tauto]]. }
    assert (Io' : instance (SDict e) (ODict os')).
    { apply instance_dict; apply (get_forall (fun f => instance e (snd f))); [exact Nos'|].
      intros k y Gy; destruct (FLD k y Gy) as [? [_ [H _]]]; exact H. }
    unfold instance in Io'; rewrite Io' in U; injection U as <-.
    split; [exact Ir|split; [|split]].
    + constructor; [exact Nos'|]; apply (get_forall (fun f => neat (snd f))); [exact Nos'|].
      intros k y Gy; destruct (FLD k y Gy) as [? [_ [_ [H _]]]]; exact H.
    + intros [|k q] x H; [inversion H|]; apply setting_dict in H; [|exact NO]; destruct H as [o [Go H]].
      assert (Kr : In k (map fst os')) by (rewrite EK'; exact (d_get_some_key _ _ _ Go)).
      destruct (d_get k os') as [y|] eqn:Gy; [|exfalso; apply d_get_none in Gy; exact (Gy Kr)].
      destruct (FLD k y Gy) as [o0 [Go0 [_ [_ [HP _]]]]].
      rewrite Go in Go0; injection Go0 as <-; destruct (HP q x H) as [v Hv]; exists v.
      apply setting_dict; [exact Nos'|exists y; auto].
    + intros [|k q] v.
      * split; [intros H; inversion H|intros [x [H _]]; inversion H].
      * rewrite setting_dict by exact Nos'; rewrite (updated_dict e os d k q v NO NDd); split.
        -- intros [y [Gy Hy]]; destruct (FLD k y Gy) as [o [Go [_ [_ [_ H]]]]].
           exists o; split; [exact Go|]; apply H; exact Hy.
        -- intros [o [Go H]].
           assert (Kr : In k (map fst os')) by (rewrite EK'; exact (d_get_some_key _ _ _ Go)).
           destruct (d_get k os') as [y|] eqn:Gy; [|exfalso; apply d_get_none in Gy; exact (Gy Kr)].
           exists y; split; [reflexivity|]; destruct (FLD k y Gy) as [o0 [Go0 [_ [_ [_ HF]]]]].
           rewrite Go in Go0; injection Go0 as <-; apply HF; exact H.
  - inversion Ad.
Qed.

(** ** When an update succeeds *)
Inductive unguarded : schema -> Prop :=
| ug_leaf c : unguarded (SLeaf c)
| ug_list c : unguarded (SList c)
| ug_model fs g : (forall d, g d = true) -> Forall (fun f => unguarded (snd (snd f))) fs -> unguarded (SModel fs g)
| ug_dict e : unguarded e -> unguarded (SDict e).

Lemma loop_model_ok fs d : NoDup (map fst d) -> forall os,
  (forall k v, In (k, v) d -> exists o, d_get k os = Some o /\
     match o with
     | OLeaf _ => True
     | OModel _ | ODict _ => exists o', update (field_schema fs k) o v = Ok o'
     | OList _ => False
     end) -> exists os', loop_model fs d os = Ok os'.
Proof.
  induction d as [|[k v] t IH]; intros ND os H; cbn [loop_model]; [eauto|].
  simpl in ND; inversion ND as [|? ? Nk NDt]; subst.
  assert (T : forall x, exists os', loop_model fs t (d_set k x os) = Ok os').
  { intros x; apply (IH NDt); intros k' v' I; destruct (H k' v' (or_intror I)) as [o [G M]].
    exists o; split; [|exact M]; rewrite d_get_set_other; [exact G|]; intros ->; apply Nk; exact (in_map fst _ _ I). }
  destruct (H k v (or_introl eq_refl)) as [o [G M]]; rewrite G; destruct o as [x|l|l|l].
  - destruct (val_eqb x v) eqn:E; [|apply T].
    rewrite <- (d_set_self k (OLeaf x) os G); apply T.
  - destruct M as [o' ->]; simpl; apply T.
  - destruct M as [o' ->]; simpl; apply T.
  - contradiction.
Qed.
Lemma loop_dict_ok e d : NoDup (map fst d) -> forall os,
  (forall k v, In (k, v) d -> exists o, d_get k os = Some o /\
     match o with
     | OLeaf _ => exists o', validate e v = Ok o'
     | OModel _ => exists o', update e o v = Ok o'
     | _ => False
     end) -> exists os', loop_dict e d os = Ok os'.
Proof.
  induction d as [|[k v] t IH]; intros ND os H; cbn [loop_dict]; [eauto|].
  simpl in ND; inversion ND as [|? ? Nk NDt]; subst.
  assert (T : forall x, exists os', loop_dict e t (d_set k x os) = Ok os').
  { intros x; apply (IH NDt); intros k' v' I; destruct (H k' v' (or_intror I)) as [o [G M]].
    exists o; split; [|exact M]; rewrite d_get_set_other; [exact G|]; intros ->; apply Nk; exact (in_map fst _ _ I). }
  destruct (H k v (or_introl eq_refl)) as [o [G M]]; rewrite G; destruct o as [x|l|l|l]; try contradiction.
  - destruct (val_eqb x v) eqn:E.
    + rewrite <- (d_set_self k (OLeaf x) os G); apply T.
    + destruct M as [o' ->]; simpl; apply T.
  - destruct M as [o' ->]; simpl; apply T.
Qed.

Lemma checker_leaf c q c' : checker (SLeaf c) q c' -> q = [] /\ c' = c.
Proof. intros H; inversion H; auto. Qed.

Lemma valid_fields_ex d fs : (forall k dflt S', In (k, (dflt, S')) fs ->
    exists x, validate S' (match d_get k d with Some w => w | None => dflt end) = Ok x) ->
  exists r, valid_fields d fs = Ok r.
Proof.
  induction fs as [|[k [dflt S']] t IH]; intros H; [exists []; reflexivity|]; cbn [valid_fields].
  destruct (H k dflt S' (or_introl eq_refl)) as [x ->]; cbn [bind].
  destruct IH as [r ->]; [intros k' d' S'' I; apply H; right; exact I|]; eexists; reflexivity.
Qed.

Theorem update_succeeds u : forall sc o, is_dict u = true -> wf u -> steady sc -> neat o -> instance sc o ->
  (forall x, o <> OLeaf x) -> addresses o u -> unguarded sc ->
  (forall p w c x, setting o p x -> at_path u p w -> checker sc p c -> exists y, c w = Ok y) ->
  exists r, update sc o u = Ok r.
Proof.
  induction u as [| | | |l IHl|d IH] using val_ind'; intros sc o D W St Nt Iz NL Ad Ug CK; try discriminate D.
  pose proof (wf_inv _ W) as [NDd Wd]; rewrite Forall_forall in IH.
  destruct o as [x|os|os|x].
  - exfalso; exact (NL x eq_refl).
  - clear NL; destruct (instance_is_model _ _ Iz) as [fs [g ->]].
    inversion St as [| |? ? NF Fs|]; subst; inversion Ug as [| |? ? Gt Fu|]; subst.
    rewrite Forall_forall in Fs, Fu.
    pose proof (proj1 (instance_model fs g os NF) Iz) as [EK [Gd Io]].
    assert (NO : NoDup (map fst os)) by (rewrite EK; exact NF).
    inversion Ad as [|? ? A|]; subst.
    rewrite update_model.
    assert (FS : forall k o, d_get k os = Some o -> exists dflt, d_get k fs = Some (dflt, field_schema fs k) /\
        instance (field_schema fs k) o /\ steady (field_schema fs k) /\ unguarded (field_schema fs k)).
    { intros k o Go.
      assert (Kf : In k (map fst fs)) by (rewrite <- EK; exact (d_get_some_key _ _ _ Go)).
      unfold field_schema; destruct (d_get k fs) as [[dflt S']|] eqn:Gf; [|exfalso; apply d_get_none in Gf; exact (Gf Kf)].
      destruct (Io k dflt S' Gf) as [o' [Go' Iok]]; rewrite Go in Go'; injection Go' as <-.
      exists dflt; split; [reflexivity|split; [exact Iok|]].
      split; [exact (Fs _ (d_get_in _ _ _ Gf))|exact (Fu _ (d_get_in _ _ _ Gf))]. }
    assert (CK' : forall k u o, d_get k d = Some u -> d_get k os = Some o ->
       forall p w c x, setting o p x -> at_path u p w -> checker (field_schema fs k) p c -> exists y, c w = Ok y).
    { intros k u o Gu Go p w c x H1 H2 H3; destruct (FS k o Go) as [dflt [Gf _]].
      apply (CK (k :: p) w c x).
      - apply setting_model; [exact NO|eauto].
      - apply at_cons; [exact NDd|eauto].
      - econstructor; [exact (d_get_in _ _ _ Gf)|exact H3]. }
    assert (SUB : forall k u o, d_get k d = Some u -> d_get k os = Some o -> addresses o u -> (forall x, o <> OLeaf x) ->
       exists r, update (field_schema fs k) o u = Ok r /\ instance (field_schema fs k) r).
    { intros k u o Gu Go Ad1 NL; destruct (FS k o Go) as [dflt [Gf [Iok [Sk Uk]]]].
      assert (Du : is_dict u = true) by (inversion Ad1; subst; [exfalso; eapply NL; reflexivity|reflexivity|reflexivity]).
      pose proof (IH _ (d_get_in _ _ _ Gu)) as IHu; cbn [snd] in IHu.
      destruct (IHu (field_schema fs k) o Du (wf_get _ _ _ W Gu) Sk (neat_model _ _ _ Nt Go) Iok NL Ad1 Uk (CK' k u o Gu Go)) as [r Hr].
      exists r; split; [exact Hr|].
      exact (proj1 (update_spec u _ _ _ Du (wf_get _ _ _ W Gu) Sk (neat_model _ _ _ Nt Go) Iok Ad1 Hr)). }
    destruct (loop_model_ok fs d NDd os) as [os' L].
    { intros k u I; destruct (A k u I) as [o [Ho Ad1]]; apply d_in_get in Ho; [|exact NO].
      apply d_in_get in I; [|exact NDd].
      exists o; split; [exact Ho|]; destruct o as [x|l|l|l]; [exact Logic.I| | |inversion Ad1];
        (destruct (SUB k u _ I Ho Ad1) as [r [Hr _]]; [congruence|exists r; exact Hr]). }
    rewrite L; cbn [bind]; rewrite dump_model, validate_model.
    destruct (loop_model_spec fs d NDd os os' L) as [EK' [L1 L2]].
    { intros k v G; destruct (A k v (d_get_in _ _ _ G)) as [o [Ho _]]; exact (in_map fst _ _ Ho). }
    replace (forallb _ _) with true.
    2:{ symmetry; apply forallb_forall; intros kv Hkv; apply smem_in; rewrite <- EK, <- EK', <- (dump_fields_keys os').
        apply in_map; exact Hkv. }
    cbn [negb].
    destruct (valid_fields_ex (dump_fields os') fs) as [rs V].
    { intros k dflt S' If; apply d_in_get in If; [|exact NF].
      destruct (Io k dflt S' If) as [o [Go Iok]].
      assert (EFS : field_schema fs k = S') by (unfold field_schema; rewrite If; reflexivity).
      rewrite dump_fields_get; destruct (d_get k d) as [u|] eqn:Gu.
      - destruct (L2 k u Gu) as [o0 [o' [Go0 [Go' ST]]]]; rewrite Go in Go0; injection Go0 as <-; rewrite Go'; cbn [option_map].
        destruct (A k u (d_get_in _ _ _ Gu)) as [o1 [Ho1 Ad1]]; apply d_in_get in Ho1; [|exact NO].
        rewrite Go in Ho1; injection Ho1 as <-.
        destruct o as [x|l|l|l]; cbn [stepped] in ST.
        + subst o'; destruct (instance_leaf _ _ Iok) as [c [-> Cx]]; cbn [dump validate].
          destruct (CK' k u (OLeaf x) Gu Go [] u c x) as [y Hy]; [constructor|constructor|rewrite EFS; constructor|].
          rewrite Hy; eexists; reflexivity.
        + destruct (SUB k u _ Gu Go Ad1) as [r [Hr Ir]]; [congruence|].
          rewrite ST in Hr; injection Hr as <-; rewrite EFS in Ir; exists o'; exact Ir.
        + destruct (SUB k u _ Gu Go Ad1) as [r [Hr Ir]]; [congruence|].
          rewrite ST in Hr; injection Hr as <-; rewrite EFS in Ir; exists o'; exact Ir.
        + inversion Ad1.
      - rewrite (L1 k Gu), Go; cbn [option_map]; exists o; exact Iok. }
    rewrite V; cbn [bind]; rewrite Gt; eexists; reflexivity.
  - clear NL; destruct (instance_is_dict _ _ Iz) as [e ->].
    inversion St as [| | |? Se]; subst; inversion Ug as [| | |? Ue]; subst.
    pose proof (proj1 (instance_dict e os) Iz) as Io; rewrite Forall_forall in Io.
    inversion Nt as [| | |? NO FN]; subst.
    inversion Ad as [| |? ? A]; subst.
    rewrite update_dict.
    assert (CK' : forall k u o, d_get k d = Some u -> d_get k os = Some o ->
       forall p w c x, setting o p x -> at_path u p w -> checker e p c -> exists y, c w = Ok y).
    { intros k u o Gu Go p w c x H1 H2 H3; apply (CK (k :: p) w c x).
      - apply setting_dict; [exact NO|eauto].
      - apply at_cons; [exact NDd|eauto].
      - constructor; exact H3. }
    assert (SUB : forall k u l, d_get k d = Some u -> d_get k os = Some (OModel l) -> addresses (OModel l) u ->
       exists r, update e (OModel l) u = Ok r /\ instance e r).
    { intros k u l Gu Go Ad1.
      assert (Du : is_dict u = true) by (inversion Ad1; reflexivity).
      pose proof (IH _ (d_get_in _ _ _ Gu)) as IHu; cbn [snd] in IHu.
      destruct (IHu e (OModel l) Du (wf_get _ _ _ W Gu) Se (neat_dict _ _ _ Nt Go) (Io _ (d_get_in _ _ _ Go)) ltac:(congruence) Ad1 Ue
                (CK' k u _ Gu Go)) as [r Hr].
      exists r; split; [exact Hr|].
      exact (proj1 (update_spec u _ _ _ Du (wf_get _ _ _ W Gu) Se (neat_dict _ _ _ Nt Go) (Io _ (d_get_in _ _ _ Go)) Ad1 Hr)). }
    assert (LF : forall k u x, d_get k d = Some u -> d_get k os = Some (OLeaf x) -> exists o', validate e u = Ok o').
    { intros k u x Gu Go; destruct (instance_leaf e x (Io _ (d_get_in _ _ _ Go))) as [c [-> Cx]]; cbn [validate].
      destruct (CK' k u (OLeaf x) Gu Go [] u c x) as [y Hy]; [constructor|constructor|constructor|].
      rewrite Hy; eexists; reflexivity. }
    destruct (loop_dict_ok e d NDd os) as [os' L].
    { intros k u I; pose proof (A k u I) as AI; apply d_in_get in I; [|exact NDd].
      destruct AI as [[l [Ho Ad1]]|[x Ho]]; apply d_in_get in Ho; try exact NO.
      - exists (OModel l); split; [exact Ho|]; destruct (SUB k u l I Ho Ad1) as [r [Hr _]]; exists r; exact Hr.
      - exists (OLeaf x); split; [exact Ho|exact (LF k u x I Ho)]. }
    rewrite L; cbn [bind].
    destruct (loop_dict_spec e d NDd os os' L) as [EK' [L1 L2]].
    { intros k v G; destruct (A k v (d_get_in _ _ _ G)) as [[o [Ho _]]|[x Ho]]; exact (in_map fst _ _ Ho). }
    exists (ODict os'); apply instance_dict; apply (get_forall (fun f => instance e (snd f))); [rewrite EK'; exact NO|].
    intros k y Gy; cbn [snd]; destruct (d_get k d) as [u|] eqn:Gu; [|rewrite (L1 k Gu) in Gy; exact (Io _ (d_get_in _ _ _ Gy))].
    destruct (L2 k u Gu) as [o [o' [Go [Go' ST]]]]; rewrite Gy in Go'; injection Go' as <-.
    destruct (A k u (d_get_in _ _ _ Gu)) as [[l [Ho Ad1]]|[x Ho]]; apply d_in_get in Ho; try exact NO;
      rewrite Go in Ho; injection Ho as ->; cbn [stepped_entry] in ST.
    + destruct (SUB k u l Gu Go Ad1) as [r [Hr Ir]]; rewrite ST in Hr; injection Hr as <-; exact Ir.
    + destruct ST as [[-> ->]|ST]; [exact (Io _ (d_get_in _ _ _ Go))|exact (validate_instance _ Se _ _ ST)].
  - inversion Ad.
Qed.

Lemma classic_at u p : wf u -> (exists y, at_path u p y) \/ ~ exists y, at_path u p y.
Proof.
  intros W; destruct (lk p u) as [y|] eqn:E; [left; exists y; apply at_lk; assumption|right].
  intros [y H]; apply at_lk in H; [congruence|exact W].
Qed.

(** Settings have one value. *)
Lemma setting_fun sc o : steady sc -> instance sc o -> neat o -> forall p x y, setting o p x -> setting o p y -> x = y.
Proof.
  intros St Iz Nt p; revert sc o St Iz Nt; induction p as [|k p IH]; intros sc o St Iz Nt x y H1 H2.
  - inversion H1; subst; inversion H2; reflexivity.
  - destruct o as [z|os|os|z]; try (inversion H1; fail).
    + destruct (instance_is_model _ _ Iz) as [fs [g ->]]; inversion St as [| |? ? NF Fs|]; subst.
      pose proof (proj1 (instance_model fs g os NF) Iz) as [EK [Gd Io]].
      assert (NO : NoDup (map fst os)) by (rewrite EK; exact NF).
      apply setting_model in H1; [|exact NO]; apply setting_model in H2; [|exact NO].
      destruct H1 as [o1 [G1 H1]], H2 as [o2 [G2 H2]]; rewrite G1 in G2; injection G2 as <-.
      assert (Kf : In k (map fst fs)) by (rewrite <- EK; exact (d_get_some_key _ _ _ G1)).
      destruct (d_get k fs) as [[dflt S']|] eqn:Gf; [|exfalso; apply d_get_none in Gf; exact (Gf Kf)].
      destruct (Io k dflt S' Gf) as [o' [Go' Iok]]; rewrite G1 in Go'; injection Go' as <-.
      rewrite Forall_forall in Fs.
      exact (IH S' o1 (Fs _ (d_get_in _ _ _ Gf)) Iok (neat_model _ _ _ Nt G1) x y H1 H2).
    + destruct (instance_is_dict _ _ Iz) as [e ->]; inversion St as [| | |? Se]; subst.
      pose proof (proj1 (instance_dict e os) Iz) as Io; rewrite Forall_forall in Io.
      inversion Nt as [| | |? NO FN]; subst.
      apply setting_dict in H1; [|exact NO]; apply setting_dict in H2; [|exact NO].
      destruct H1 as [o1 [G1 H1]], H2 as [o2 [G2 H2]]; rewrite G1 in G2; injection G2 as <-.
      exact (IH e o1 Se (Io _ (d_get_in _ _ _ G1)) (neat_dict _ _ _ Nt G1) x y H1 H2).
Qed.

(** A successful update means that every value it gives was accepted. *)
Lemma update_checked u sc o r : is_dict u = true -> wf u -> steady sc -> neat o -> instance sc o ->
  addresses o u -> update sc o u = Ok r ->
  forall p w x, setting o p x -> at_path u p w -> exists c y, checker sc p c /\ c w = Ok y /\ setting r p y.
Proof.
  intros D W St Nt Iz Ad U p w x Hx Hw.
  destruct (update_spec u sc o r D W St Nt Iz Ad U) as [Ir [Nr [P H]]].
  destruct (P p x Hx) as [v Hv]; pose proof Hv as Hv'; apply H in Hv'.
  destruct Hv' as [x' [_ [[w' [c [H1 [H2 H3]]]]|[H1 _]]]]; [|exfalso; apply H1; eauto].
  exists c, v; split; [exact H2|split; [|exact Hv]].
  assert (w = w') by (apply (at_lk u p) in Hw; [|exact W]; apply (at_lk u p) in H1; [congruence|exact W]).
  subst; exact H3.
Qed.

(** Two updates in a row and the combined one. *)
Theorem update_twice sc o u1 u2 u3 o1 o2 : steady sc -> neat o -> instance sc o -> unguarded sc ->
  (forall x, o <> OLeaf x) ->
  is_dict u1 = true -> is_dict u2 = true -> is_dict u3 = true -> wf u1 -> wf u2 -> wf u3 ->
  addresses o u1 -> addresses o1 u2 -> addresses o u3 ->
  (forall p x w, setting o p x -> (at_path u3 p w <-> at_path u2 p w \/ (at_path u1 p w /\ ~ exists y, at_path u2 p y))) ->
  update sc o u1 = Ok o1 -> update sc o1 u2 = Ok o2 ->
  exists o3, update sc o u3 = Ok o3 /\ forall p v, setting o3 p v <-> setting o2 p v.
Proof.
  intros St Nt Iz Ug NL D1 D2 D3 W1 W2 W3 A1 A2 A3 C U1 U2.
  destruct (update_spec u1 sc o o1 D1 W1 St Nt Iz A1 U1) as [I1 [N1 [P1 H1]]].
  destruct (update_spec u2 sc o1 o2 D2 W2 St N1 I1 A2 U2) as [I2 [N2 [P2 H2]]].
  pose proof (update_checked u1 sc o o1 D1 W1 St Nt Iz A1 U1) as K1.
  pose proof (update_checked u2 sc o1 o2 D2 W2 St N1 I1 A2 U2) as K2.
  assert (CF : forall p c c', checker sc p c -> checker sc p c' -> c = c').
  { clear -St; intros p; revert sc St; induction p as [|k p IH]; intros sc St c c' H1 H2.
    - inversion H1; subst; inversion H2; reflexivity.
    - inversion H1; subst; inversion H2; subst.
      + inversion St as [| |? ? NF Fs|]; subst; rewrite Forall_forall in Fs.
        match goal with A : In (k, (?d1, ?s1)) fs, B : In (k, (?d2, ?s2)) fs |- _ =>
          pose proof (d_in_get _ _ _ NF A) as E1; pose proof (d_in_get _ _ _ NF B) as E2; rewrite E1 in E2; injection E2 as -> -> end.
        eapply IH; [|eassumption|eassumption].
        match goal with A : In (k, (?d1, ?s1)) fs |- _ => exact (Fs _ A) end.
      + inversion St; subst; eapply IH; eauto. }
  destruct (update_succeeds u3 sc o D3 W3 St Nt Iz NL A3 Ug) as [o3 U3].
  { intros p w c x Hx Hw Hc; apply (C p x w Hx) in Hw; destruct Hw as [Hw|[Hw _]].
    - destruct (P1 p x Hx) as [x1 Hx1]; destruct (K2 p w x1 Hx1 Hw) as [c' [y [Hc' [E _]]]].
      rewrite (CF p c c' Hc Hc'); eauto.
    - destruct (K1 p w x Hx Hw) as [c' [y [Hc' [E _]]]]; rewrite (CF p c c' Hc Hc'); eauto. }
  exists o3; split; [exact U3|].
  destruct (update_spec u3 sc o o3 D3 W3 St Nt Iz A3 U3) as [I3 [N3 [P3 H3]]].
  intros p v; rewrite (H3 p v), (H2 p v); unfold updated; split.
  - intros [x [Hx H]]; destruct (P1 p x Hx) as [x1 Hx1]; exists x1; split; [exact Hx1|].
    destruct H as [[w [c [Hw [Hc E]]]]|[Hn ->]].
    + apply (C p x w Hx) in Hw; destruct Hw as [Hw|[Hw Hn]]; [left; eauto|right; split; [exact Hn|]].
      destruct (K1 p w x Hx Hw) as [c' [y [Hc' [E' Hy]]]].
      rewrite <- (CF p c c' Hc Hc') in E'; rewrite E in E'; injection E' as ->.
      exact (setting_fun sc o1 St I1 N1 p _ _ Hy Hx1).
    + right; split; [intros [w Hw]; apply Hn; exists w; apply (C p x w Hx); left; exact Hw|].
      apply H1 in Hx1; destruct Hx1 as [x' [Hx' [[w [c [Hw _]]]|[_ E]]]].
      * exfalso; apply Hn; destruct (classic_at u2 p W2) as [[y Hy]|NH]; [exists y; apply (C p x y Hx); left; exact Hy|].
        exists w; apply (C p x w Hx); right; auto.
      * subst; exact (setting_fun sc o St Iz Nt p _ _ Hx Hx').
  - intros [x1 [Hx1 H]]; pose proof Hx1 as Hx1'; apply H1 in Hx1'; destruct Hx1' as [x [Hx H0]].
    exists x; split; [exact Hx|].
    destruct H as [[w [c [Hw [Hc E]]]]|[Hn ->]].
    + left; exists w, c; split; [apply (C p x w Hx); left; exact Hw|auto].
    + destruct H0 as [[w [c [Hw [Hc E]]]]|[Hn1 ->]].
      * left; exists w, c; split; [apply (C p x w Hx); right; auto|auto].
      * right; split; [|reflexivity]; intros [w Hw]; apply (C p x w Hx) in Hw; destruct Hw as [Hw|[Hw _]]; eauto.
Qed.
