(** Lemmas on templates. *)
From Coq Require Import Relations.
From Verif Require Import Base BaseProofs AttrDictModel AttrDictSpec AttrDictProofs AttrDictUnion
  AttrDictMore DefModel DefSpec DefCombine DefPriority.
Local Open Scope string_scope.
Local Open Scope list_scope.
Local Arguments String.eqb : simpl never.

(** ** Merging into an empty dictionary gives the dictionary back *)
Lemma fst_entries d : map fst (entries d) = keys_nested d.
Proof. exact (entries_keys (VDict d)). Qed.

Lemma union_loop_entries sk B es : antichain (map fst es) ->
  Forall (fun e => fst e <> [] /\ simple (snd e) /\ lk (fst e) (VDict B) = Some (snd e)) es ->
  forall S S', (forall k, In k (map fst es) -> forall o, lk k (VDict S) <> Some (VDict o)) ->
  (forall k, In k (map fst es) -> unbl k S) ->
  set_entries es S = (S', None) -> union_loop true sk B (map fst es) S = (S', None).
Proof.
  intros AC F; induction es as [|[p v] t IH]; intros S S' ND UB H; [exact H|].
  cbn [map fst] in *; simpl in H.
  destruct AC as [A1 A2]; inversion F as [|? ? [Np [Sv Lv]] Ft]; subst; cbn [fst snd] in *.
  destruct (set_key p v S) as [S1 [e|]] eqn:E; [discriminate|].
  destruct (union_one_effect sk S B p v Np (UB p (or_introl eq_refl)) Lv Sv) as [S2 [E2 OE]].
  assert (U1 : union_one true sk B p S = (S1, None)).
  { unfold union_one; cbn [negb andb].
    apply (proj2 (get_key_lk p B v Np)) in Lv; rewrite Lv.
    destruct v; try exact E.
    destruct (is_dict (get_key_default p VNone S)) eqn:D; [|exact E].
    apply get_default_dict in D; [|exact Np]; destruct D as [o D]; exfalso; apply (ND p (or_introl eq_refl) o D). }
  rewrite U1 in E2; injection E2 as <-.
  cbn [union_loop]; rewrite U1.
  apply IH; auto.
  - intros k Hk o; destruct OE as [Fr _ _]; rewrite Fr; [apply ND; right; exact Hk|apply A1; exact Hk].
  - intros k Hk; eapply unbl_transport; [exact OE|apply A1; exact Hk|apply UB; right; exact Hk].
Qed.

Lemma union_nil X : wf (VDict X) -> union true [] X = (X, None).
Proof.
  intros W; unfold union; rewrite <- (fst_entries X).
  apply union_loop_entries.
  - rewrite fst_entries; apply keys_nested_antichain; exact W.
  - pose proof (entries_simple (VDict X)) as F1; pose proof (entries_lk (VDict X) W) as F2.
    rewrite Forall_forall in *; intros e He; specialize (F1 e He); specialize (F2 e He); tauto.
  - intros k Hk o; rewrite fst_entries in Hk; apply keys_nested_val_nonnil in Hk.
    destruct k; [congruence|]; simpl; congruence.
  - intros k _; apply unbl_nil.
  - exact (set_entries_rebuild (VDict X) W [] (fun k _ H => H)).
Qed.

Lemma union_false_nil X : wf (VDict X) -> union false [] X = (X, None).
Proof.
  intros W; rewrite <- (union_nil X W); unfold union; apply union_loop_disjoint.
  intros k _ []. 
Qed.


(** ** Shapes *)
Lemma same_shape_pair A B : wf (VDict A) -> wf (VDict B) ->
  (forall k w k' w', at_path (VDict A) k w -> leaf w -> at_path (VDict B) k' w' -> leaf w' -> comparable k k' -> k = k') ->
  same_shape [A; B].
Proof.
  intros WA WB H.
  assert (S : forall X, wf (VDict X) -> forall k w k' w', at_path (VDict X) k w -> leaf w -> 
     at_path (VDict X) k' w' -> leaf w' -> comparable k k' -> k = k').
  { intros X WX k w k' w' Hk Lw Hk' Lw' C; rewrite at_lk in Hk, Hk' by exact WX.
    destruct (comparable_cases _ _ C) as [E|[Sp|Sp]]; [exact E| |].
    - rewrite (lk_ext_none _ _ _ _ Hk Lw Sp) in Hk'; discriminate.
    - rewrite (lk_ext_none _ _ _ _ Hk' Lw' Sp) in Hk; discriminate. }
  intros X Y HX HY k w k' w' Hk Lw Hk' Lw' C; simpl in HX, HY.
  destruct HX as [<-|[<-|[]]], HY as [<-|[<-|[]]].
  - eapply S; [exact WA| | | | |]; eauto.
  - eapply H; eauto.
  - symmetry; eapply H; [exact Hk'|exact Lw'|exact Hk|exact Lw|apply comparable_sym; exact C].
  - eapply S; [exact WB| | | | |]; eauto.
Qed.

(** ** The entries other than the reference *)
Lemma own_in k w d : In (k, w) (own d) <-> In (k, w) d /\ k <> "template".
Proof.
  unfold own; rewrite filter_In; cbn [fst]; destruct (String.eqb_spec k "template"); simpl; intuition congruence.
Qed.
Lemma own_del d : NoDup (d_keys d) -> own d = d_del "template" d.
Proof.
  unfold own; induction d as [|[k w] t IH]; intros ND; [reflexivity|].
  cbn [d_keys map fst] in ND; inversion ND as [|? ? NI ND']; subst; simpl.
  rewrite (String.eqb_sym "template" k); destruct (String.eqb_spec k "template") as [->|N]; simpl.
  - rewrite filter_all; [reflexivity|]; intros [a x] Hin; cbn [fst].
    destruct (String.eqb_spec a "template") as [->|]; [|reflexivity].
    exfalso; apply NI; apply (in_map fst) in Hin; exact Hin.
  - rewrite IH by exact ND'; reflexivity.
Qed.
Lemma own_wf d : wf (VDict d) -> wf (VDict (own d)).
Proof.
  intros W; assert (ND : NoDup (d_keys d)) by (apply wf_inv in W; tauto).
  rewrite own_del by exact ND; apply d_del_at; exact W.
Qed.

Lemma perm_get {V} k (d d' : list (string * V)) : NoDup (d_keys d) -> Permutation d' d -> d_get k d' = d_get k d.
Proof.
  intros ND P.
  assert (ND' : NoDup (d_keys d')) by (apply (Permutation_NoDup (l := d_keys d)); [apply Permutation_map, Permutation_sym, P|exact ND]).
  destruct (d_get k d) as [w|] eqn:G.
  - apply d_in_get; [exact ND'|]; apply d_get_in in G; apply (Permutation_in _ (Permutation_sym P)); exact G.
  - apply d_get_none; apply d_get_none in G; intros H; apply G.
    apply (Permutation_in (l := d_keys d')); [apply Permutation_map; exact P|exact H].
Qed.
Lemma perm_wf d d' : Permutation d' d -> wf (VDict d) -> wf (VDict d').
Proof.
  intros P W; apply wf_inv in W; destruct W as [ND F]; apply wf_dict.
  - apply (Permutation_NoDup (l := d_keys d)); [apply Permutation_map, Permutation_sym, P|exact ND].
  - rewrite Forall_forall in *; intros e He; apply F; apply (Permutation_in _ P); exact He.
Qed.
Lemma perm_tidy d d' : Permutation d' d -> tidy d -> tidy d'.
Proof. intros P F; unfold tidy in *; rewrite Forall_forall in *; intros e He; apply F; apply (Permutation_in _ P); exact He. Qed.
Lemma perm_at d d' q v : Permutation d' d -> leaf v -> (at_path (VDict d') q v <-> at_path (VDict d) q v).
Proof.
  intros P L; split; intros H; inversion H as [|k w items p x Hin Hat]; subst; try discriminate L.
  - eapply at_below; [apply (Permutation_in _ P); exact Hin|exact Hat].
  - eapply at_below; [apply (Permutation_in _ (Permutation_sym P)); exact Hin|exact Hat].
Qed.

(** ** Resolving template definitions *)
Section Resolve.
  Variable raw : dict.
  Variable order : dict -> dict.
  Hypothesis TT : template_table raw.
  Hypothesis PO : forall d, Permutation (order d) d.

  Lemma raw_nd : NoDup (d_keys raw). Proof. exact (proj1 TT). Qed.

  Lemma chain_fun n c : chain raw n c -> forall c', chain raw n c' -> c' = c.
  Proof.
    assert (U : forall n d d', In (n, VDict d) raw -> In (n, VDict d') raw -> d = d').
    { intros m d d' H H'; apply d_in_get in H; [|exact raw_nd]; apply d_in_get in H'; [|exact raw_nd]; congruence. }
    induction 1 as [m d Hin Hno|m d p c Hin Hp Hc IH]; intros c' H'; inversion H' as [m' d' Hin' Hno'|m' d' p' c2 Hin' Hp' Hc']; subst.
    - rewrite (U _ _ _ Hin Hin'); reflexivity.
    - assert (d = d') by (eapply U; eauto); subst d'; exfalso; apply Hno; apply (in_map fst) in Hp'; exact Hp'.
    - assert (d = d') by (eapply U; eauto); subst d'; exfalso; apply Hno'; apply (in_map fst) in Hp; exact Hp.
    - assert (d = d') by (eapply U; eauto); subst d'; f_equal; apply IH.
      destruct (proj1 (proj2 TT) _ _ Hin) as [d0 [E [W _]]]; injection E as <-.
      apply wf_inv in W; destruct W as [ND _].
      apply d_in_get in Hp; [|exact ND]; apply d_in_get in Hp'; [|exact ND].
      assert (p' = p) by congruence; subst p'; exact Hc'.
  Qed.

  Lemma chain_in n c d : chain raw n c -> In d c -> exists m, In (m, VDict d) raw.
  Proof.
    induction 1 as [m d0 Hin _|m d0 p c Hin Hp Hc IH]; intros [<-|H]; try (exists m; exact Hin).
    - destruct H.
    - apply IH; exact H.
  Qed.

  Lemma nearest_at ds q v : nearest ds q v -> exists d, In d ds /\ at_path (VDict d) q v.
  Proof. intros [b [d [a [-> [H _]]]]]; exists d; split; [apply in_elt|exact H]. Qed.

  Definition good (r : dict) (c : list dict) : Prop :=
    wf (VDict r) /\ tidy r /\
    forall q v, leaf v -> (at_path (VDict r) q v <-> nearest (map own c) q v).

  Lemma shape_chain n d c n' : In (n, VDict d) raw -> chain raw n' c ->
    forall k w k' w', nearest (map own c) k w -> leaf w -> at_path (VDict (own d)) k' w' -> leaf w' ->
      comparable k k' -> k = k'.
  Proof.
    intros Hin Hc k w k' w' Hk Lw Hk' Lw' C.
    apply nearest_at in Hk; destruct Hk as [e [He Hk]]; apply in_map_iff in He; destruct He as [e0 [<- He]].
    destruct (chain_in _ _ _ Hc He) as [m Hm].
    apply (proj2 (proj2 TT) (own e0) (own d)) with (w := w) (w' := w'); try assumption.
    - apply in_map_iff; exists (m, VDict e0); auto.
    - apply in_map_iff; exists (n, VDict d); auto.
  Qed.

  Lemma merge_good n d c inh : In (n, VDict d) raw -> wf (VDict inh) -> tidy inh ->
    (forall q v, leaf v -> (at_path (VDict inh) q v <-> nearest (map own c) q v)) ->
    (forall k w k' w', nearest (map own c) k w -> leaf w -> at_path (VDict (own d)) k' w' -> leaf w' ->
      comparable k k' -> k = k') ->
    exists r, union true inh (order (d_del TEMPLATE d)) = (r, None) /\ good r (d :: c).
  Proof.
    intros Hin WI TI LI SH.
    destruct (proj1 (proj2 TT) _ _ Hin) as [d0 [E [W [T _]]]]; injection E as <-.
    assert (ND : NoDup (d_keys d)) by (apply wf_inv in W; tauto).
    change TEMPLATE with "template"; rewrite <- own_del by exact ND.
    assert (WO : wf (VDict (order (own d)))) by (eapply perm_wf; [apply PO|apply own_wf; exact W]).
    assert (TO : tidy (order (own d))) by (eapply perm_tidy; [apply PO|exact T]).
    destruct (union_same_shape inh (order (own d)) WI WO TI TO) as [r [ER [WR [TR LR]]]].
    { apply same_shape_pair; [exact WI|exact WO|].
      intros k w k' w' Hk Lw Hk' Lw' C; apply (SH k w k' w'); try assumption.
      - apply LI; assumption.
      - rewrite <- (perm_at _ _ _ _ (PO (own d)) Lw'); exact Hk'. }
    exists r; split; [exact ER|split; [exact WR|split; [exact TR|]]].
    intros q v Lv; rewrite (LR q v Lv); cbn [map]; rewrite nearest_cons, (LI q v Lv).
    rewrite (perm_at _ _ _ _ (PO (own d)) Lv).
    assert (D : (exists x, leaf x /\ at_path (VDict (order (own d))) q x) <-> defines (own d) q).
    { unfold defines; split; intros [x [Lx Hx]]; exists x; split; try exact Lx;
        [rewrite <- (perm_at _ _ _ _ (PO (own d)) Lx)|rewrite (perm_at _ _ _ _ (PO (own d)) Lx)]; exact Hx. }
    rewrite D; tauto.
  Qed.

  Lemma good_nil : forall q v, leaf v -> (at_path (VDict []) q v <-> nearest (map own []) q v).
  Proof. intros q v L; split; intros H; exfalso; [exact (no_leaf_nil q v L H)|exact (nearest_nil q v H)]. Qed.

  Definition memo_ok (resolved : dict) : Prop :=
    forall n v, d_get n resolved = Some v -> exists r c, v = VDict r /\ chain raw n c /\ good r c.

  Lemma trans_step a b c : clos_trans_1n _ (inherits raw) a b -> inherits raw b c -> clos_trans_1n _ (inherits raw) a c.
  Proof. intros H; induction H as [x y H|x y z H T IH]; intros Hc; [eapply Relation_Operators.t1n_trans; [exact H|constructor; exact Hc]|eapply Relation_Operators.t1n_trans; [exact H|apply IH; exact Hc]]. Qed.

  Lemma resolve_template_spec fuel : forall resolved stack name,
    memo_ok resolved -> NoDup stack -> incl stack (d_keys raw) ->
    (forall s, In s stack -> clos_trans_1n _ (inherits raw) s name) ->
    List.length raw < fuel + List.length stack ->
    (In name (d_keys raw) \/ exists s, inherits raw s name) ->
    match resolve_template raw order fuel resolved stack name with
    | Ok r => exists c, chain raw name c /\ good r c
    | Err e => bad_template raw e
    end.
  Proof.
    induction fuel as [|f IH]; intros resolved stack name MO NDS INC ST FU REF; cbn [resolve_template].
    - exfalso; pose proof (NoDup_incl_length NDS INC) as L; unfold d_keys in L; rewrite map_length in L; lia.
    - destruct (smem name stack) eqn:E.
      + left; split; [reflexivity|]; apply smem_in in E; exists name; apply ST; exact E.
      + assert (NI : ~ In name stack) by (rewrite <- smem_in; congruence).
        destruct (d_get name raw) as [v|] eqn:G.
        2:{ right; split; [reflexivity|]; apply d_get_none in G.
            destruct REF as [H|[s H]]; [contradiction|]; exists s, name; auto. }
        pose proof (d_get_in _ _ _ G) as Hin.
        destruct (proj1 (proj2 TT) _ _ Hin) as [d [-> [W [T HT]]]].
        assert (ND : NoDup (d_keys d)) by (apply wf_inv in W; tauto).
        destruct (d_get TEMPLATE d) as [w|] eqn:GT.
        * pose proof (d_get_in _ _ _ GT) as Ht; destruct (HT _ Ht) as [p ->].
          assert (INH : inherits raw name p) by (exists d; auto).
          assert (PAR : match (match d_get p resolved with
                            | Some (VDict r) => Ok r
                            | _ => resolve_template raw order f resolved (name :: stack) p
                            end) with Ok r => exists c, chain raw p c /\ good r c | Err e => bad_template raw e end).
          { assert (REC : match resolve_template raw order f resolved (name :: stack) p with
               | Ok r => exists c, chain raw p c /\ good r c | Err e => bad_template raw e end).
            { apply IH.
              - exact MO.
              - constructor; assumption.
              - intros s [<-|Hs]; [apply (in_map fst) in Hin; exact Hin|apply INC; exact Hs].
              - intros s [<-|Hs]; [constructor; exact INH|eapply trans_step; [apply ST; exact Hs|exact INH]].
              - simpl; lia.
              - right; exists name; exact INH. }
            destruct (d_get p resolved) as [x|] eqn:GP; [|exact REC].
            destruct (MO _ _ GP) as [r [c [-> [Hc Hg]]]]; exists c; auto. }
          destruct (match d_get p resolved with
                            | Some (VDict r) => Ok r
                            | _ => resolve_template raw order f resolved (name :: stack) p
                            end) as [inh|e]; cbn [bind]; [|exact PAR].
          destruct PAR as [c [Hc [WI [TI LI]]]].
          rewrite (union_false_nil inh WI); cbn [to_result bind].
          destruct (merge_good name d c inh Hin WI TI LI) as [r [ER GR]].
          { eapply shape_chain; eauto. }
          rewrite ER; cbn [to_result]; exists (d :: c); split; [|exact GR].
          eapply ch_next; eauto.
        * cbn [bind].
          destruct (merge_good name d [] [] Hin wf_nil (Forall_nil _) good_nil) as [r [ER GR]].
          { intros k w k' w' Hk; exfalso; exact (nearest_nil k w Hk). }
          rewrite ER; cbn [to_result]; exists [d]; split; [|exact GR].
          apply ch_end; [exact Hin|]; apply d_get_none in GT; exact GT.
  Qed.

  Lemma resolve_templates_spec fuel todo : List.length raw < fuel -> incl todo raw ->
    forall resolved, memo_ok resolved ->
    match resolve_templates raw order fuel todo resolved with
    | Ok res => memo_ok res /\ (forall n, In n (d_keys todo) \/ In n (d_keys resolved) -> In n (d_keys res))
    | Err e => bad_template raw e
    end.
  Proof.
    intros FU; induction todo as [|[k v] t IH]; intros INC resolved MO; cbn [resolve_templates].
    - split; [exact MO|]; simpl; tauto.
    - pose proof (INC (k, v) (or_introl eq_refl)) as Hin.
      destruct (proj1 (proj2 TT) _ _ Hin) as [d [-> _]].
      pose proof (resolve_template_spec fuel resolved [] k MO (NoDup_nil _)) as RS.
      assert (RS' := RS ltac:(intros s []) ltac:(intros s []) ltac:(simpl; lia)
                      (or_introl (in_map fst _ _ Hin))); clear RS.
      destruct (resolve_template raw order fuel resolved [] k) as [r|e]; cbn [bind]; [|exact RS'].
      destruct RS' as [c [Hc Hg]].
      assert (MO' : memo_ok (d_set k (VDict r) resolved)).
      { intros n v; destruct (string_dec n k) as [->|N].
        - rewrite d_get_set_same; intros [= <-]; exists r, c; auto.
        - rewrite d_get_set_other by exact N; apply MO. }
      specialize (IH (fun x Hx => INC x (or_intror Hx)) _ MO').
      destruct (resolve_templates raw order fuel t (d_set k (VDict r) resolved)) as [res|e]; [|exact IH].
      destruct IH as [MR KR]; split; [exact MR|].
      intros n Hn; apply KR; cbn [d_keys map fst] in Hn.
      destruct (in_dec string_dec k (d_keys resolved)) as [I|I].
      + rewrite d_keys_set_in by exact I; destruct Hn as [[<-|H]|H]; auto.
      + rewrite d_keys_set_notin by exact I; unfold d_keys; rewrite map_app, in_app_iff; simpl; destruct Hn as [[<-|H]|H]; auto.
  Qed.
End Resolve.

(** ** Filling in references *)
Section Data.
  Variable raw : dict.
  Hypothesis TT : template_table raw.
  Variable resolved : dict.
  Hypothesis MO : memo_ok raw resolved.
  Hypothesis KR : forall n, In n (d_keys raw) -> In n (d_keys resolved).

  Lemma chain_key n c : chain raw n c -> In n (d_keys raw).
  Proof. intros H; inversion H as [m d Hin _|m d p c' Hin _ _]; subst; apply (in_map fst) in Hin; exact Hin. Qed.

  Lemma resolved_get t c : chain raw t c -> exists r, d_get t resolved = Some (VDict r) /\ good r c.
  Proof.
    intros Hc; destruct (d_get t resolved) as [v|] eqn:G.
    - destruct (MO _ _ G) as [r [c' [-> [Hc' Hg]]]].
      assert (c' = c) by (eapply chain_fun; eauto); subst; exists r; auto.
    - exfalso; apply d_get_none in G; apply G; apply KR; eapply chain_key; eauto.
  Qed.

  Lemma gives_good t r c q v : chain raw t c -> good r c -> leaf v -> (gives raw t q v <-> at_path (VDict r) q v).
  Proof.
    intros Hc [_ [_ L]] Lv; rewrite (L q v Lv); split.
    - intros [_ [c' [Hc' Hn]]]; assert (c' = c) by (eapply chain_fun; eauto); subst; exact Hn.
    - intros Hn; split; [exact Lv|exists c; auto].
  Qed.

  Definition res_ok (v v' : val) : Prop :=
    wf v' /\ is_dict v' = is_dict v /\
    (forall d, v' = VDict d -> tidy d) /\
    forall q x, leaf x -> (at_path v' q x <-> effective raw v q x).

  Lemma noempty_of v' d : v' = VDict d -> tidy d -> (exists q x, leaf x /\ at_path v' q x) -> noempty v'.
  Proof.
    intros -> T [q [x [L H]]]; apply ne_dict; [|exact T].
    intros ->; exact (no_leaf_nil q x L H).
  Qed.

  Lemma effective_leaf : forall q v x, effective raw v q x -> leaf x.
  Proof.
    induction q as [|k q IH]; intros v x H.
    - destruct H as [L ->]; exact L.
    - destruct v as [| | | | |d]; try destruct H.
      + destruct H as [_ [w [_ H]]]; apply (IH w x H).
      + destruct H as [_ [t [_ [L _]]]]; exact L.
  Qed.

  Definition go_data := (fix go (d : list (string * val)) : result dict :=
                 match d with
                 | [] => Ok []
                 | (k, w) :: t =>
                     if String.eqb k TEMPLATE || String.eqb k TEMPLATES then go t
                     else bind (resolve_data resolved false w) (fun w' =>
                            bind (go t) (fun r => Ok ((k, w') :: r)))
                 end).

  Lemma reserved_eqb k : String.eqb k TEMPLATE || String.eqb k TEMPLATES = true <-> reserved k.
  Proof.
    unfold reserved, TEMPLATE, TEMPLATES; rewrite orb_true_iff, !String.eqb_eq; tauto.
  Qed.

  Lemma go_spec d : NoDup (d_keys d) ->
    (forall k w, In (k, w) d -> ~ reserved k ->
       exists w', resolve_data resolved false w = Ok w' /\ res_ok w w' /\ noempty w') ->
    exists l, go_data d = Ok l /\ wf (VDict l) /\ tidy l /\ incl (d_keys l) (d_keys d) /\
      (forall k w', In (k, w') l -> exists w, In (k, w) d /\ ~ reserved k /\ res_ok w w') /\
      (forall k w, In (k, w) d -> ~ reserved k -> exists w', In (k, w') l /\ res_ok w w').
  Proof.
    induction d as [|[k w] t IH]; intros ND H.
    - exists []; split; [reflexivity|split; [apply wf_nil|split; [constructor|split; [intros a []|split; [intros a b []|intros a b []]]]]].
    - cbn [d_keys map fst] in ND; inversion ND as [|? ? NI ND']; subst.
      destruct (IH ND' (fun a b Hab => H a b (or_intror Hab))) as [l [E [W [T [I [A B]]]]]].
      cbn [go_data]; fold go_data.
      destruct (String.eqb k TEMPLATE || String.eqb k TEMPLATES) eqn:R.
      + apply reserved_eqb in R; exists l; split; [exact E|split; [exact W|split; [exact T|split; [|split]]]].
        * intros a Ha; right; apply I; exact Ha.
        * intros a b Hab; destruct (A a b Hab) as [w0 [H0 H1]]; exists w0; split; [right; exact H0|exact H1].
        * intros a b [Eab|Hab] NR; [injection Eab as <- <-; contradiction|apply B; assumption].
      + assert (NR : ~ reserved k) by (rewrite <- reserved_eqb; congruence).
        destruct (H k w (or_introl eq_refl) NR) as [w' [Ew [Rw Nw]]].
        rewrite Ew; cbn [bind]; rewrite E; cbn [bind].
        exists ((k, w') :: l); split; [reflexivity|].
        apply wf_inv in W; destruct W as [NDl Fl].
        split; [|split; [|split; [|split]]].
        * apply wf_dict; [|constructor; [exact (proj1 Rw)|exact Fl]].
          cbn [map fst]; constructor; [|exact NDl]; intros Hk; apply NI; apply I; exact Hk.
        * constructor; assumption.
        * intros a [<-|Ha]; [left; reflexivity|right; apply I; exact Ha].
        * intros a b [Eab|Hab]; [injection Eab as <- <-; exists w; split; [left; reflexivity|auto]|].
          destruct (A a b Hab) as [w0 [H0 H1]]; exists w0; split; [right; exact H0|exact H1].
        * intros a b [Eab|Hab] NRa; [injection Eab as <- <-; exists w'; split; [left; reflexivity|exact Rw]|].
          destruct (B a b Hab NRa) as [w0 [H0 H1]]; exists w0; split; [right; exact H0|exact H1].
  Qed.

  Lemma resolve_data_dict top d : resolve_data resolved top (VDict d) =
      if d_mem TEMPLATES d && negb top then Err EModel
      else
        bind (match d_get TEMPLATE d with
              | None => Ok []
              | Some (VStr t) => match d_get t resolved with
                                 | Some (VDict r) => Ok r
                                 | _ => Err EKey
                                 end
              | Some (VList _) | Some (VDict _) => Err EType
              | Some _ => Err EKey
              end) (fun tmpl =>
        bind (go_data d) (fun local =>
        bind (to_result (union true tmpl local)) (fun r => Ok (VDict r)))).
  Proof. reflexivity. Qed.

  Lemma resolve_data_spec v : forall top, wf v -> resolvable raw top v ->
    exists v', resolve_data resolved top v = Ok v' /\ res_ok v v'.
  Proof.
    induction v as [|b|z|s|l IHl|d IH] using val_ind'; intros top W RS;
      try (eexists; split; [reflexivity|]; split; [exact W|split; [reflexivity|split; [discriminate|]]];
           intros q x Lx; split; [intros H; inversion H; subst; split; reflexivity|];
           destruct q; [intros [_ ->]; apply at_here|intros []]).
    inversion RS as [? ? L|? ? Htop Href Hsub Hcmp]; subst; [discriminate L|].
    apply wf_inv in W; destruct W as [ND FW].
    destruct (go_spec d ND) as [l [E [Wl [Tl [Il [A B]]]]]].
    { intros k w Hin NR; destruct (Hsub k w Hin NR) as [Rw [q [x Hx]]].
      rewrite Forall_forall in IH, FW.
      destruct (IH (k, w) Hin false (FW _ Hin) Rw) as [w' [Ew Rk]]; exists w'; split; [exact Ew|split; [exact Rk|]].
      destruct (is_dict w') eqn:D; [|apply ne_leaf; exact D].
      destruct w' as [| | | | |d']; try discriminate D.
      destruct Rk as [_ [_ [T L]]]; eapply noempty_of; [reflexivity|apply T; reflexivity|].
      exists q, x; pose proof (effective_leaf _ _ _ Hx) as Lx; split; [exact Lx|apply L; assumption]. }
    assert (OWN : forall k q x, leaf x -> (at_path (VDict l) (k :: q) x <->
                (~ reserved k /\ exists w, In (k, w) d /\ effective raw w q x))).
    { intros k q x Lx; split.
      - intros H; inversion H as [|? w' items p y Hin Hat]; subst.
        destruct (A _ _ Hin) as [w [Hw [NR Rw]]]; split; [exact NR|]; exists w; split; [exact Hw|].
        apply Rw; assumption.
      - intros [NR [w [Hw He]]]; destruct (B _ _ Hw NR) as [w' [Hin Rw]].
        eapply at_below; [exact Hin|]; apply Rw; assumption. }
    rewrite resolve_data_dict.
    assert (TOP : d_mem TEMPLATES d && negb top = false).
    { destruct (d_mem TEMPLATES d) eqn:M; [|reflexivity]; apply d_mem_keys in M; rewrite (Htop M); reflexivity. }
    rewrite TOP.
    assert (TM : exists tmpl, (match d_get TEMPLATE d with
              | None => Ok []
              | Some (VStr t) => match d_get t resolved with
                                 | Some (VDict r) => Ok r
                                 | _ => Err EKey
                                 end
              | Some (VList _) | Some (VDict _) => Err EType
              | Some _ => Err EKey
              end) = Ok tmpl /\ wf (VDict tmpl) /\ tidy tmpl /\
              forall q x, leaf x -> (at_path (VDict tmpl) q x <-> exists t, In ("template", VStr t) d /\ gives raw t q x)).
    { destruct (d_get TEMPLATE d) as [v|] eqn:G.
      - pose proof (d_get_in _ _ _ G) as Hin; destruct (Href _ Hin) as [t [c [-> Hc]]].
        destruct (resolved_get t c Hc) as [r [Gr Hg]]; rewrite Gr; exists r; split; [reflexivity|].
        split; [exact (proj1 Hg)|split; [exact (proj1 (proj2 Hg))|]].
        intros q x Lx; rewrite <- (gives_good t r c q x Hc Hg Lx); split; [intros H; exists t; auto|].
        intros [t' [Ht' Hgv]]; apply d_in_get in Ht'; [|exact ND].
        assert (t' = t) by (unfold TEMPLATE in G; congruence); subst; exact Hgv.
      - exists []; split; [reflexivity|split; [apply wf_nil|split; [constructor|]]].
        intros q x Lx; split; [intros H; exfalso; exact (no_leaf_nil q x Lx H)|].
        intros [t [Ht _]]; apply d_get_none in G; exfalso; apply G; apply (in_map fst) in Ht; exact Ht. }
    destruct TM as [tmpl [-> [WT [TT' LT]]]]; cbn [bind]; rewrite E; cbn [bind].
    destruct (union_same_shape tmpl l WT Wl TT' Tl) as [r [ER [WR [TR LR]]]].
    { apply same_shape_pair; [exact WT|exact Wl|].
      intros k w k' w' Hk Lw Hk' Lw' C.
      destruct k' as [|k0 q0]; [inversion Hk'; subst; discriminate Lw'|].
      apply (OWN k0 q0 w' Lw') in Hk'; destruct Hk' as [NR [y [Hy He]]].
      apply (LT k w Lw) in Hk; destruct Hk as [t [Ht Hg]].
      symmetry; eapply Hcmp; eauto; apply comparable_sym; exact C. }
    rewrite ER; cbn [to_result bind]; exists (VDict r); split; [reflexivity|].
    split; [exact WR|split; [reflexivity|split; [intros d' [= <-]; exact TR|]]].
    intros q x Lx; rewrite (LR q x Lx), (LT q x Lx); destruct q as [|k q].
    - cbn [effective]; split; [|intros [H _]; discriminate H].
      intros [H|[[t [_ [L [c [Hc Hn]]]]] _]]; [inversion H; subst; discriminate Lx|].
      apply nearest_at in Hn; destruct Hn as [e [_ He]]; inversion He; subst; discriminate Lx.
    - cbn [effective]; cbv zeta; rewrite (OWN k q x Lx).
      assert (D : (exists y, leaf y /\ at_path (VDict l) (k :: q) y) <-> 
                  exists y, ~ reserved k /\ exists w, In (k, w) d /\ effective raw w q y).
      { split; intros [y Hy].
        - destruct Hy as [Ly Hy]; exists y; apply OWN; assumption.
        - exists y; assert (Ly : leaf y) by (destruct Hy as [_ [w [_ He]]]; eapply effective_leaf; eauto).
          split; [exact Ly|apply OWN; assumption]. }
      rewrite D; tauto.
  Qed.
End Data.

(** ** The whole solver *)
Lemma solve_templates_spec order data raw :
  (forall d, Permutation (order d) d) -> wf (VDict data) ->
  as_block (d_get TEMPLATES data) = Ok raw -> template_table raw ->
  match solve_templates order data with
  | Ok r => (forall n, ~ circular raw n) /\ (forall n, ~ dangling raw n) /\
      (resolvable raw true (VDict data) -> wf (VDict r) /\ tidy r /\
         forall q v, leaf v -> (at_path (VDict r) q v <-> effective raw (VDict data) q v))
  | Err e => bad_template raw e \/ ~ resolvable raw true (VDict data)
  end.
Proof.
  intros PO W HR TT; unfold solve_templates; rewrite HR; cbn [bind].
  pose proof (resolve_templates_spec raw order TT PO (S (List.length raw)) raw ltac:(lia) (fun x H => H) []) as RS.
  assert (M0 : memo_ok raw []) by (intros n v H; discriminate H).
  specialize (RS M0).
  destruct (resolve_templates raw order (S (List.length raw)) raw []) as [res|e]; cbn [bind]; [|left; exact RS].
  destruct RS as [MO KR].
  assert (CH : forall n, In n (d_keys raw) -> exists c, chain raw n c).
  { intros n Hn; pose proof (KR n (or_introl Hn)) as Hk.
    destruct (d_get n res) as [v|] eqn:G; [|exfalso; apply d_get_none in G; contradiction].
    destruct (MO _ _ G) as [r [c [_ [Hc _]]]]; exists c; exact Hc. }
  destruct (resolve_data res true (VDict data)) as [r|e] eqn:ED.
  2:{ right; intros RSV.
      destruct (resolve_data_spec raw TT res MO (fun n Hn => KR n (or_introl Hn)) (VDict data) true W RSV) as [v' [E _]]; congruence. }
  cbn [bind]; destruct r as [| | | | |d]; 
    try (exfalso; rewrite resolve_data_dict in ED; destruct (d_mem TEMPLATES data && negb true); [discriminate|];
      match type of ED with bind ?a _ = _ => destruct a as [tm|]; [|discriminate] end; cbn [bind] in ED;
      destruct (go_data res data) as [l0|]; [|discriminate]; cbn [bind] in ED;
      destruct (to_result (union true tm l0)); discriminate).
  split; [|split].
  - intros n C.
    assert (P : forall a b, clos_trans_1n _ (inherits raw) a b -> forall c, chain raw a c -> exists c', chain raw b c' /\ List.length c' < List.length c).
    { induction 1 as [x y H|x y z H T IH]; intros c Hc.
      - destruct H as [dx [Hin Hp]]; inversion Hc as [m d0 Hin' Hno|m d0 p c0 Hin' Hp' Hc']; subst.
        + assert (d0 = dx) by (apply d_in_get in Hin; [|exact (proj1 TT)]; apply d_in_get in Hin'; [|exact (proj1 TT)]; congruence).
          subst; exfalso; apply Hno; apply (in_map fst) in Hp; exact Hp.
        + assert (d0 = dx) by (apply d_in_get in Hin; [|exact (proj1 TT)]; apply d_in_get in Hin'; [|exact (proj1 TT)]; congruence).
          subst d0; destruct (proj1 (proj2 TT) _ _ Hin) as [d1 [E1 [W1 _]]]; injection E1 as <-.
          apply wf_inv in W1; destruct W1 as [ND1 _].
          apply d_in_get in Hp; [|exact ND1]; apply d_in_get in Hp'; [|exact ND1].
          assert (p = y) by congruence; subst p; exists c0; split; [exact Hc'|simpl; lia].
      - destruct H as [dx [Hin Hp]]; inversion Hc as [m d0 Hin' Hno|m d0 p c0 Hin' Hp' Hc']; subst.
        + assert (d0 = dx) by (apply d_in_get in Hin; [|exact (proj1 TT)]; apply d_in_get in Hin'; [|exact (proj1 TT)]; congruence).
          subst; exfalso; apply Hno; apply (in_map fst) in Hp; exact Hp.
        + assert (d0 = dx) by (apply d_in_get in Hin; [|exact (proj1 TT)]; apply d_in_get in Hin'; [|exact (proj1 TT)]; congruence).
          subst d0; destruct (proj1 (proj2 TT) _ _ Hin) as [d1 [E1 [W1 _]]]; injection E1 as <-.
          apply wf_inv in W1; destruct W1 as [ND1 _].
          apply d_in_get in Hp; [|exact ND1]; apply d_in_get in Hp'; [|exact ND1].
          assert (p = y) by congruence; subst p.
          destruct (IH c0 Hc') as [c' [H1 H2]]; exists c'; split; [exact H1|simpl; lia]. }
    assert (Hn : In n (d_keys raw)).
    { inversion C as [x [dx [Hin _]]|x y [dx [Hin _]] T]; subst; apply (in_map fst) in Hin; exact Hin. }
    destruct (CH n Hn) as [c Hc]; destruct (P n n C c Hc) as [c' [Hc' L]].
    assert (c' = c) by (eapply chain_fun; eauto); subst; lia.
  - intros n [b [[dx [Hin Hp]] NB]].
    destruct (CH n (in_map fst _ _ Hin)) as [c Hc].
    inversion Hc as [m d0 Hin' Hno|m d0 p c0 Hin' Hp' Hc']; subst.
    + assert (d0 = dx) by (apply d_in_get in Hin; [|exact (proj1 TT)]; apply d_in_get in Hin'; [|exact (proj1 TT)]; congruence).
      subst; apply Hno; apply (in_map fst) in Hp; exact Hp.
    + assert (d0 = dx) by (apply d_in_get in Hin; [|exact (proj1 TT)]; apply d_in_get in Hin'; [|exact (proj1 TT)]; congruence).
      subst d0; destruct (proj1 (proj2 TT) _ _ Hin) as [d1 [E1 [W1 _]]]; injection E1 as <-.
      apply wf_inv in W1; destruct W1 as [ND1 _].
      apply d_in_get in Hp; [|exact ND1]; apply d_in_get in Hp'; [|exact ND1].
      assert (p = b) by congruence; subst p; apply NB; eapply chain_key; eauto.
  - intros RSV.
    destruct (resolve_data_spec raw TT res MO (fun n Hn => KR n (or_introl Hn)) (VDict data) true W RSV) as [v' [E R]].
    assert (v' = VDict d) by congruence; subst v'; destruct R as [WR [_ [TR LR]]].
    split; [exact WR|split; [apply TR; reflexivity|exact LR]].
Qed.

(** ** Definitions without templates, and the keyword arguments on top *)
Lemma plain_effective raw : forall v, (forall p w, at_path v p w -> forall k, In k p -> ~ reserved k) -> 
  forall q x, leaf x -> (effective raw v q x <-> at_path v q x).
Proof.
  intros v; induction v as [| | | |l IHl|d IH] using val_ind'; intros NT q x Lx;
    try (destruct q; cbn [effective]; split;
         [intros [_ ->]; apply at_here|intros H; inversion H; subst; split; reflexivity|intros []|intros H; inversion H]).
  destruct q as [|k q]; cbn [effective]; cbv zeta.
  - split; [intros [H _]; discriminate H|intros H; inversion H; subst; discriminate Lx].
  - assert (NR : forall w, In (k, w) d -> ~ reserved k).
    { intros w Hw; apply (NT [k] w); [eapply at_below; [exact Hw|apply at_here]|left; reflexivity]. }
    rewrite Forall_forall in IH.
    assert (SUB : forall w, In (k, w) d -> forall p y, at_path w p y -> forall a, In a p -> ~ reserved a).
    { intros w Hw p y Hp a Ha; apply (NT (k :: p) y); [eapply at_below; eauto|right; exact Ha]. }
    split.
    + intros [[_ [w [Hw He]]]|[_ [t [Ht _]]]].
      * eapply at_below; [exact Hw|]; apply (IH (k, w) Hw (SUB w Hw)); assumption.
      * exfalso; apply (NT ["template"] (VStr t)) with (k := "template"); [eapply at_below; [exact Ht|apply at_here]|left; reflexivity|left; reflexivity].
    + intros H; inversion H as [|? w items p y Hw Hat]; subst; left; split; [eapply NR; eauto|].
      exists w; split; [exact Hw|]; apply (IH (k, w) Hw (SUB w Hw)); assumption.
Qed.

Lemma plain_resolvable : forall v, noempty v \/ (exists d, v = VDict d /\ tidy d) -> 
  (forall p w, at_path v p w -> forall k, In k p -> ~ reserved k) -> forall top, resolvable [] top v.
Proof.
  intros v; induction v as [| | | |l IHl|d IH] using val_ind'; intros NE NT top; try (apply rs_leaf; reflexivity).
  assert (NR : forall k w, In (k, w) d -> ~ reserved k).
  { intros k w Hw; apply (NT [k] w); [eapply at_below; [exact Hw|apply at_here]|left; reflexivity]. }
  assert (T : tidy d) by (destruct NE as [N|[d' [[= <-] T]]]; [apply ne_inv in N; tauto|exact T]).
  apply rs_dict.
  - intros H; apply in_map_iff in H; destruct H as [[k w] [E Hin]]; cbn in E; subst k.
    exfalso; apply (NR _ _ Hin); right; reflexivity.
  - intros v Hv; exfalso; apply (NR _ _ Hv); left; reflexivity.
  - intros k w Hin _; rewrite Forall_forall in IH.
    assert (NW : noempty w) by (unfold tidy in T; rewrite Forall_forall in T; apply (T (k, w) Hin)).
    assert (SUB : forall p y, at_path w p y -> forall a, In a p -> ~ reserved a).
    { intros p y Hp a Ha; apply (NT (k :: p) y); [eapply at_below; eauto|right; exact Ha]. }
    split; [apply (IH (k, w) Hin (or_introl NW) SUB)|].
    destruct (noempty_has_leaf w NW) as [q [x [Hq Lx]]]; exists q, x; apply plain_effective; assumption.
  - intros k w q x t q' x' _ _ _ Ht; exfalso; apply (NR _ _ Ht); left; reflexivity.
Qed.

Lemma table_nil : template_table [].
Proof.
  split; [constructor|split; [intros n v []|]].
  intros X Y [].
Qed.

Lemma solve_plain order d : (forall d, Permutation (order d) d) -> wf (VDict d) -> tidy d -> no_templates d ->
  exists r, solve_templates order d = Ok r /\ wf (VDict r) /\ tidy r /\
    forall q v, leaf v -> (at_path (VDict r) q v <-> at_path (VDict d) q v).
Proof.
  intros PO W T NT.
  assert (G : d_get TEMPLATES d = None).
  { apply d_get_none; intros H; apply in_map_iff in H; destruct H as [[k w] [E Hin]]; cbn in E; subst k.
    apply (NT [TEMPLATES] w) with (k := TEMPLATES); [eapply at_below; [exact Hin|apply at_here]|left; reflexivity|right; reflexivity]. }
  pose proof (solve_templates_spec order d [] PO W ltac:(rewrite G; reflexivity) table_nil) as SP.
  assert (RV : resolvable [] true (VDict d)) by (apply plain_resolvable; [right; exists d; auto|exact NT]).
  destruct (solve_templates order d) as [r|e].
  - destruct SP as [_ [_ SP]]; destruct (SP RV) as [WR [TR LR]]; exists r; split; [reflexivity|].
    split; [exact WR|split; [exact TR|]]; intros q v Lv; rewrite (LR q v Lv); apply plain_effective; assumption.
  - destruct SP as [[[_ [n C]]|[_ [n D]]]|N]; [| |contradiction].
    + inversion C as [x [dx [[] _]]|x y [dx [[] _]] T']; subst.
    + destruct D as [b [[dx [[] _]] _]].
Qed.

Lemma init_union d' kwargs : wf (VDict d') -> tidy d' -> wf (VDict kwargs) -> tidy kwargs ->
  same_shape [d'; init_layer kwargs] -> (forall x, leaf x -> ~ at_path (VDict d') ["config"] x) ->
  exists r, union true d' (init_layer kwargs) = (r, None) /\ wf (VDict r) /\
    forall q v, leaf v -> (at_path (VDict r) q v <-> nearest [init_layer kwargs; d'] q v).
Proof.
  intros W' T' WK TK SS NC.
  assert (WI : wf (VDict (init_layer kwargs))).
  { apply wf_dict; [repeat constructor; simpl; tauto|]; constructor; [|constructor].
    apply wf_dict; [repeat constructor; simpl; tauto|]; constructor; [exact WK|constructor]. }
  destruct kwargs as [|e kw].
  - assert (UB : unbl ["config"; "init"] d').
    { rewrite unbl_cons; destruct (d_get "config" d') as [x|] eqn:G; [|exact I].
      destruct (is_dict x) eqn:D; [destruct x; try discriminate D; exact I|].
      exfalso; apply (NC x D); apply at_lk; [exact W'|]; simpl; rewrite G; reflexivity. }
    destruct (set_key_gen ["config"; "init"] (VDict []) ltac:(congruence) (or_intror eq_refl) d' UB) as [r [E [H1 H2 H3]]].
    assert (EU : union true d' (init_layer []) = (r, None)).
    { unfold union; change (keys_nested (init_layer [])) with [["config"; "init"]].
      cbn [union_loop union_one negb andb]; change (get_key ["config"; "init"] (init_layer [])) with (Ok (VDict [])).
      cbn iota beta; rewrite E; reflexivity. }
    exists r; split; [exact EU|].
    assert (WR : wf (VDict r)).
    { pose proof (set_key_wf ["config"; "init"] (VDict []) d' wf_nil W') as H; rewrite E in H; exact H. }
    split; [exact WR|]; intros q v Lv; rewrite !nearest_cons; pose proof (nearest_nil q v).
    assert (N0 : forall x, leaf x -> ~ at_path (VDict (init_layer [])) q x).
    { intros x Lx Hx; rewrite at_lk in Hx by exact WI.
      destruct q as [|a [|b [|c0 q]]]; cbn in Hx.
      - injection Hx as <-; discriminate Lx.
      - destruct (String.eqb a "config"); [injection Hx as <-; discriminate Lx|discriminate].
      - destruct (String.eqb a "config"); [|discriminate]; cbn in Hx.
        destruct (String.eqb b "init"); [injection Hx as <-; discriminate Lx|discriminate].
      - destruct (String.eqb a "config"); [|discriminate]; cbn in Hx.
        destruct (String.eqb b "init"); [|discriminate]; cbn in Hx; discriminate. }
    assert (ND : ~ defines (init_layer []) q) by (intros [x [Lx Hx]]; exact (N0 x Lx Hx)).
    assert (EQ : at_path (VDict r) q v <-> at_path (VDict d') q v).
    { rewrite !at_lk by assumption; destruct (comparable_dec ["config"; "init"] q) as [C|C]; [|rewrite H2 by exact C; tauto].
      destruct (comparable_cases _ _ C) as [<-|[[s [Ns ->]]|Sp]].
      - rewrite H1; destruct (lk ["config"; "init"] (VDict d')) as [y|]; cbn [upd]; [tauto|].
        split; [intros [= <-]; discriminate Lv|discriminate].
      - rewrite !lk_app, H1; destruct (lk ["config"; "init"] (VDict d')) as [y|]; cbn [upd]; [tauto|].
        destruct s; [congruence|]; cbn; split; discriminate.
      - destruct (H3 q Sp) as [o Ho]; rewrite Ho; split; [intros [= <-]; discriminate Lv|].
        destruct q as [|a q]; [intros [= <-]; discriminate Lv|].
        destruct Sp as [s [Ns Es]]; injection Es as <- Es; destruct q as [|b q].
        + intros Hx; exfalso; apply (NC v Lv); apply at_lk; assumption.
        + injection Es as <- Es; destruct q, s; simpl in Es; congruence. }
    rewrite EQ; pose proof (N0 v Lv); tauto.
  - assert (TI : tidy (init_layer (e :: kw))).
    { constructor; [|constructor]; apply ne_dict; [congruence|]; constructor; [|constructor]; apply ne_dict; [congruence|exact TK]. }
    destruct (union_same_shape d' (init_layer (e :: kw)) W' WI T' TI SS) as [r [ER [WR [TR LR]]]].
    exists r; split; [exact ER|split; [exact WR|]].
    intros q v Lv; rewrite (LR q v Lv), !nearest_cons.
    pose proof (nearest_nil q v).
    unfold defines; split; [tauto|]; intros [H1|[[H1|[H1 _]] H2]]; tauto.
Qed.

Lemma wf_at v p x : wf v -> at_path v p x -> wf x.
Proof.
  intros W H; induction H as [|k w items p x Hin Hat IH]; [exact W|].
  apply IH; apply wf_inv in W; destruct W as [_ F]; rewrite Forall_forall in F; apply (F _ Hin).
Qed.

Lemma prepare_priority fuel order torder md scenario ovd kwargs d1 ovs scs c applied :
  (forall d, Permutation (torder d) d) ->
  wf (VDict md) -> wf (VDict c) -> wf (VDict ovd) -> wf (VDict kwargs) ->
  tidy md -> tidy c -> tidy ovd -> tidy kwargs ->
  no_wipe ovd -> no_wipe c -> no_templates md -> no_templates c -> no_templates ovd ->
  same_shape [md; c; ovd; init_layer kwargs] ->
  (forall X x, In X [md; c; ovd] -> leaf x -> ~ at_path (VDict X) ["config"] x) ->
  union true md ovd = (d1, None) ->
  as_block (d_get "overrides" d1) = Ok ovs -> as_block (d_get "scenarios" d1) = Ok scs ->
  selected fuel order scenario ovs scs c applied ->
  exists r, prepare_definition fuel order torder md scenario ovd kwargs = Ok r /\ wf (VDict r) /\
    forall q v, plain_section q -> leaf v ->
      (at_path (VDict r) q v <-> nearest [init_layer kwargs; ovd; c; md] q v).
Proof.
  intros PO Wm Wc Wo WK Tm Tc To TK NWo NWc NTm NTc NTo SS NC U HO HS SEL.
  assert (SS3 : same_shape [md; c; ovd]).
  { apply (same_shape_covered _ _ SS); repeat constructor; apply covered_in; simpl; auto. }
  destruct (load_priority fuel order md scenario ovd d1 ovs scs c applied Wm Wc Wo Tm Tc To NWo NWc SS3 U HO HS SEL)
    as [d [EL [Wd [Td [Cd Ld]]]]].
  assert (NTd : no_templates d).
  { intros p w Hp k Hk R.
    destruct p as [|a p]; [destruct Hk|].
    pose proof (tidy_at d (a :: p) w Td ltac:(congruence) Hp) as NE.
    destruct (noempty_has_leaf w NE) as [q [x [Hq Lx]]].
    assert (HL : at_path (VDict d) ((a :: p) ++ q) x).
    { pose proof (wf_at _ _ _ Wd Hp) as Ww.
      apply at_lk; [exact Wd|]; apply at_lk in Hp; [|exact Wd]; apply at_lk in Hq; [|exact Ww].
      rewrite lk_app, Hp; exact Hq. }
    assert (IK : In k ((a :: p) ++ q)) by (apply in_or_app; left; exact Hk).
    destruct (Cd _ _ Lx HL) as [X [q' [HX [[y [Ly Hy]] EQ]]]].
    assert (NX : no_templates X) by (simpl in HX; destruct HX as [<-|[<-|[<-|[]]]]; assumption).
    destruct EQ as [<-|[p' [EQ ->]]].
    - exact (NX _ _ Hy k IK R).
    - rewrite EQ in IK; destruct IK as [<-|IK].
      + destruct R as [R|R]; discriminate R.
      + apply (NX _ _ Hy k); [right; exact IK|exact R]. }
  unfold prepare_definition; rewrite EL; cbn [bind fst].
  destruct (solve_plain torder d PO Wd Td NTd) as [d' [E [W' [T' L']]]]; rewrite E; cbn [bind].
  change [("config", VDict [("init", VDict kwargs)])] with (init_layer kwargs).
  assert (KC : forall k w, at_path (VDict (init_layer kwargs)) k w -> leaf w -> exists k', k = "config" :: k').
  { intros k w Hk Lw; inversion Hk as [|a b items p x Hin Hat]; subst; [discriminate Lw|]; destruct Hin as [Hin|[]].
    injection Hin as <- <-; eexists; reflexivity. }
  assert (WI : wf (VDict (init_layer kwargs))).
  { apply wf_dict; [repeat constructor; simpl; tauto|]; constructor; [|constructor].
    apply wf_dict; [repeat constructor; simpl; tauto|]; constructor; [exact WK|constructor]. }
  destruct (init_union d' kwargs W' T' WK TK) as [r [ER [WR LR]]].
  - apply same_shape_pair; [exact W'|exact WI|].
    intros k w k' w' Hk Lw Hk' Lw' C.
    destruct (KC k' w' Hk' Lw') as [k0 ->].
    destruct k as [|a k]; [inversion Hk; subst; discriminate Lw|].
    assert (a = "config") as ->.
    { destruct C as [[s Es]|[s Es]]; simpl in Es; congruence. }
    apply L' in Hk; [|exact Lw].
    destruct (Cd _ _ Lw Hk) as [X [q' [HX [[y [Ly Hy]] EQ]]]].
    destruct EQ as [<-|[p' [EQ _]]]; [|discriminate EQ].
    apply (SS X (init_layer kwargs)) with (w := y) (w' := w'); try assumption; simpl in *; tauto.
  - intros x Lx Hx; apply L' in Hx; [|exact Lx].
    destruct (Cd _ _ Lx Hx) as [X [q' [HX [[y [Ly Hy]] EQ]]]].
    destruct EQ as [<-|[p' [EQ _]]]; [|discriminate EQ].
    exact (NC X y HX Ly Hy).
  - rewrite ER; cbn [to_result]; exists r; split; [reflexivity|split; [exact WR|]].
    intros q v Pq Lv; rewrite (LR q v Lv), (nearest_cons (init_layer kwargs)), (nearest_cons (init_layer kwargs)).
    rewrite <- (Ld q v Pq Lv), nearest_cons, (L' q v Lv); pose proof (nearest_nil q v); tauto.
Qed.
