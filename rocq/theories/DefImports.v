(** Lemmas on YAML imports. *)
From Verif Require Import Base BaseProofs AttrDictModel AttrDictSpec AttrDictProofs AttrDictUnion
  AttrDictMore DefModel DefSpec DefCombine DefPriority DefTemplate.
Local Open Scope string_scope.
Local Open Scope list_scope.
Local Arguments String.eqb : simpl never.

(** Loading a dictionary with plain keys changes nothing. *)
Lemma init_val_id v : wf v -> dotfree v -> init_val v = Ok v.
Proof.
  induction v as [| | | |l IHl|d IH] using val_ind'; intros W D; try reflexivity.
  apply wf_inv in W; destruct W as [ND FW]; apply df_inv in D.
  cbn [init_val].
  assert (G : forall t acc, incl t d -> NoDup (d_keys (acc ++ t)) ->
    (fix go (d0 : list (string * val)) (acc0 : dict) {struct d0} : result val :=
       match d0 with
       | [] => Ok (VDict acc0)
       | (k, w) :: t0 =>
           bind (init_val w)
             (fun w' : val =>
              match set_key (split_dot k) w' acc0 with
              | (acc', None) => go t0 acc'
              | (_, Some e) => Err e
              end)
       end) t acc = Ok (VDict (acc ++ t))).
  { induction t as [|[k w] t IHt]; intros acc INC N; [rewrite app_nil_r; reflexivity|].
    pose proof (INC (k, w) (or_introl eq_refl)) as Hin.
    rewrite Forall_forall in IH, FW, D.
    assert (EW : init_val w = Ok w) by exact (IH (k, w) Hin (FW _ Hin) (proj2 (D _ Hin))).
    rewrite EW; cbn [bind].
    assert (SK : split_dot k = [k]).
    { unfold split_dot; apply split_on_nochar; exact (proj1 (D _ Hin)). }
    rewrite SK.
    assert (NK : ~ In k (d_keys acc)).
    { unfold d_keys in N; rewrite map_app in N; cbn in N; apply NoDup_remove_2 in N; intros H; apply N; apply in_or_app; left; exact H. }
    assert (SL : set_key [k] w acc = (acc ++ [(k, w)], None)).
    { simpl; unfold set_leaf; assert (GN : d_get k acc = None) by (apply d_get_none; exact NK).
      destruct w; try (rewrite d_keys_set_notin by exact NK; reflexivity).
      rewrite GN, d_keys_set_notin by exact NK; reflexivity. }
    rewrite SL, (IHt (acc ++ [(k, w)])); [rewrite <- app_assoc; reflexivity|intros x Hx; apply INC; right; exact Hx|].
    rewrite <- app_assoc; exact N. }
  apply (G d [] (fun x H => H) ND).
Qed.

Lemma init_from_dict_id d : wf (VDict d) -> dotfree (VDict d) -> init_from_dict d = Ok d.
Proof. intros W D; unfold init_from_dict; rewrite init_val_id by assumption; reflexivity. Qed.

(** ** Overlap of blocks *)
Lemma clash_app l1 : forall l2, clash (l1 ++ l2) <->
  clash l1 \/ clash l2 \/ exists x y, In x l1 /\ In y l2 /\ overlap x y.
Proof.
  induction l1 as [|a l1 IH]; intros l2; simpl.
  - split; [tauto|]; intros [H|[H|[x [y [[] _]]]]]; [inversion H|exact H].
  - split.
    + intros C; inversion C as [? ? c Hc O|? ? C']; subst.
      * apply in_app_or in Hc; destruct Hc as [Hc|Hc]; [left; eapply cl_here; eauto|].
        right; right; exists a, c; auto.
      * apply IH in C'; destruct C' as [C'|[C'|[x [y [Hx [Hy O]]]]]]; [left; apply cl_later; exact C'|auto|].
        right; right; exists x, y; auto.
    + intros [C|[C|[x [y [[<-|Hx] [Hy O]]]]]].
      * inversion C as [? ? c Hc O|? ? C']; subst; [eapply cl_here; [apply in_or_app; left; exact Hc|exact O]|].
        apply cl_later; apply IH; auto.
      * apply cl_later; apply IH; auto.
      * eapply cl_here; [apply in_or_app; right; exact Hy|exact O].
      * apply cl_later; apply IH; right; right; exists x, y; auto.
Qed.

Lemma clash_cons a l : clash (a :: l) <-> clash l \/ exists y, In y l /\ overlap a y.
Proof.
  split.
  - intros C; inversion C as [? ? c Hc O|? ? C']; subst; [right; exists c; auto|left; exact C'].
  - intros [C|[y [Hy O]]]; [apply cl_later; exact C|eapply cl_here; eauto].
Qed.

Lemma clash_twice ds : clash ds <-> twice_defined ds.
Proof.
  split.
  - induction 1 as [b t c Hc O|b t C IH].
    + apply in_split in Hc; destruct Hc as [l2 [l3 ->]]; exists [], b, l2, c, l3; split; [reflexivity|exact O].
    + destruct IH as [l1 [X [l2 [Y [l3 [-> O]]]]]]; exists (b :: l1), X, l2, Y, l3; split; [reflexivity|exact O].
  - intros [l1 [X [l2 [Y [l3 [-> O]]]]]]; apply clash_app; right; left.
    apply cl_here with (c := Y); [apply in_elt|exact O].
Qed.

Lemma overlap_some r ds c : (forall q v, leaf v -> (at_path (VDict r) q v <-> some_leaf ds q v)) ->
  (overlap r c <-> exists d, In d ds /\ overlap d c).
Proof.
  intros L; split.
  - intros [q [v [w [Lv [Lw [H1 H2]]]]]]; apply L in H1; [|exact Lv]; destruct H1 as [d [Hd H1]].
    exists d; split; [exact Hd|exists q, v, w; auto].
  - intros [d [Hd [q [v [w [Lv [Lw [H1 H2]]]]]]]]; exists q, v, w; repeat split; auto.
    apply L; [exact Lv|exists d; auto].
Qed.

Lemma shape_sub l l' : same_shape l -> incl l' l -> same_shape l'.
Proof. intros S I X Y HX HY; apply S; apply I; assumption. Qed.

Lemma union_strict_err A B : wf (VDict B) -> forall A' e, union false A B = (A', Some e) -> e = EKey.
Proof.
  intros WB A' e; unfold union.
  assert (LOOP : forall sk ks S S', (forall k, In k ks -> k <> [] /\ exists w, lk k (VDict B) = Some w /\ simple w) ->
                union_loop false sk B ks S = (S', Some e) -> e = EKey).
  { clear; intros sk ks; induction ks as [|k t IH]; intros S S' HB; cbn [union_loop]; [discriminate|].
    destruct (HB k (or_introl eq_refl)) as [NN [w [Hw Sw]]].
    destruct (union_one false sk B k S) as [S1 [e1|]] eqn:E.
    - intros [= _ <-]; eapply union_one_err; eauto.
    - intros H; eapply IH; [|exact H]; intros k' Hk'; apply HB; right; exact Hk'. }
  apply LOOP; intros k Hk; apply (keys_nested_val_spec (VDict B) WB) in Hk; exact Hk.
Qed.

Section Files.
  Variable files : list (string * dict).
  Variable rel : string -> string -> string.
  Hypothesis FN : NoDup (map fst files).
  Hypothesis FW : forall p d, In (p, d) files -> wf (VDict d) /\ dotfree (VDict d).

  Definition neat (ds : list dict) : Prop := Forall (fun d => wf (VDict d) /\ tidy d) ds /\ same_shape ds.
  Definition no_import (ds : list dict) : Prop := forall d, In d ds -> ~ In "import" (map fst d).

  Definition read_ok (ds : list dict) (res : result dict) : Prop :=
    (~ clash ds /\ exists r, res = Ok r /\ wf (VDict r) /\ tidy r /\
        forall q v, leaf v -> (at_path (VDict r) q v <-> some_leaf ds q v))
    \/ (clash ds /\ res = Err EKey).

  Lemma neat_app l l' : neat (l ++ l') -> neat l /\ neat l'.
  Proof.
    intros [F S]; apply Forall_app in F; destruct F; split; split; try assumption;
      apply (shape_sub _ _ S); intros x Hx; apply in_or_app; auto.
  Qed.

  Lemma no_import_layers p ds : file_layers files rel p ds -> no_import ds.
  Proof.
    apply (file_layers_mut files rel (fun _ ds => no_import ds) (fun _ _ ds => no_import ds)).
    - intros p0 d Hin N d' [<-|[]]; exact N.
    - intros p0 d l ds0 Hin Hi Hl _ IH d' [<-|H]; [|apply IH; exact H].
      intros H; apply in_map_iff in H; destruct H as [[k w] [E H]]; cbn in E; subst k.
      unfold without in H; apply filter_In in H; destruct H as [_ H]; cbn in H; rewrite String.eqb_refl in H; discriminate.
    - intros p0 d [].
    - intros p0 k l ds0 ds1 _ IH1 _ IH2 d Hd; apply in_app_or in Hd; destruct Hd; auto.
  Qed.

  Lemma without_del k d : NoDup (d_keys d) -> without k d = d_del k d.
  Proof.
    unfold without; induction d as [|[a w] t IH]; intros ND; [reflexivity|].
    cbn [d_keys map fst] in ND; inversion ND as [|? ? NI ND']; subst; simpl.
    rewrite (String.eqb_sym k a); destruct (String.eqb_spec a k) as [->|N]; simpl.
    - apply filter_all; intros [b x] Hin; cbn [fst].
      destruct (String.eqb_spec b k) as [->|]; [|reflexivity].
      exfalso; apply NI; apply (in_map fst) in Hin; exact Hin.
    - rewrite IH by exact ND'; reflexivity.
  Qed.

  Lemma import_step loaded r ds : wf (VDict loaded) -> tidy loaded -> neat ds -> same_shape (loaded :: ds) ->
    wf (VDict r) -> tidy r -> (forall q v, leaf v -> (at_path (VDict r) q v <-> some_leaf ds q v)) ->
    (~ overlap r loaded /\ exists l', union false r loaded = (l', None) /\ wf (VDict l') /\ tidy l' /\
       forall q v, leaf v -> (at_path (VDict l') q v <-> some_leaf (loaded :: ds) q v)) \/
    (overlap r loaded /\ exists l', union false r loaded = (l', Some EKey)).
  Proof.
    intros WL TL [FD SD] SS WR TR LR.
    assert (S2 : same_shape [r; loaded]).
    { apply same_shape_pair; [exact WR|exact WL|]; intros k w k' w' Hk Lw Hk' Lw' C.
      apply LR in Hk; [|exact Lw]; destruct Hk as [d [Hd Hk]].
      apply (SS d loaded) with (w := w) (w' := w'); simpl; auto. }
    destruct (union false r loaded) as [l' [e|]] eqn:E.
    - right; assert (e = EKey) by (exact (union_strict_err r loaded WL l' e E)); subst e; split; [|exists l'; reflexivity].
      destruct (clash_dec_blocks [r; loaded]) as [C|C]; [constructor; [split; assumption|constructor; [split; assumption|constructor]]|exact S2| |].
      + inversion C as [? ? c Hc O|? ? C']; subst; [destruct Hc as [<-|[]]; exact O|].
        inversion C' as [? ? c Hc O|? ? C'']; subst; [destruct Hc|inversion C''].
      + exfalso; assert (NO : ~ overlap r loaded) by (intros O; apply C; eapply cl_here; [left; reflexivity|exact O]).
        destruct (union_strict_apart r loaded WR WL TR TL S2 NO) as [A' [E' _]]; congruence.
    - assert (NO : ~ overlap r loaded) by (intros O; destruct (union_strict_overlap r loaded WR WL O) as [S' E']; congruence).
      left; split; [exact NO|]; destruct (union_strict_apart r loaded WR WL TR TL S2 NO) as [A' [E' [W' [T' L']]]].
      assert (A' = l') by congruence; subst A'; exists l'; split; [reflexivity|split; [exact W'|split; [exact T'|]]].
      intros q v Lv; rewrite (L' q v Lv), (LR q v Lv); unfold some_leaf; split.
      + intros [[d [Hd H]]|H]; [exists d; simpl; auto|exists loaded; simpl; auto].
      + intros [d [[<-|Hd] H]]; [right; exact H|left; exists d; auto].
  Qed.

  (** More fuel does not change an answer. *)
  Lemma loop_mono (rd1 rd2 : string -> result dict) ao b l :
    (forall k r, rd1 k = Ok r -> rd2 k = Ok r) -> forall loaded r,
    import_loop rel rd1 ao b l loaded = Ok r -> import_loop rel rd2 ao b l loaded = Ok r.
  Proof.
    intros H; induction l as [|v t IH]; intros loaded r; cbn [import_loop]; [auto|].
    destruct v as [| | |k| |]; try discriminate.
    destruct (rd1 (rel b k)) as [i|] eqn:E; [|discriminate]; rewrite (H _ _ E); cbn [bind].
    destruct (to_result (union ao i loaded)) as [l'|]; [|discriminate]; cbn [bind]; apply IH.
  Qed.
  Lemma read_mono n m : n <= m -> forall ao p r, read_file files rel n ao p = Ok r -> read_file files rel m ao p = Ok r.
  Proof.
    revert m; induction n as [|n IH]; intros m Hm ao p r; [discriminate|].
    destruct m as [|m]; [lia|]; cbn [read_file].
    destruct (d_get p files) as [d|]; [|discriminate].
    destruct (init_from_dict d) as [d'|]; [|discriminate]; cbn [bind].
    unfold resolve_imports; destruct (d_get "import" d') as [v|]; [|auto].
    destruct (falsy v); [auto|]; destruct v as [| | | |l|]; try discriminate.
    destruct (import_loop rel (read_file files rel n false) ao p l d') as [x|] eqn:E; [|discriminate].
    intros H; rewrite (loop_mono _ (read_file files rel m false) _ _ _ (fun k y => IH m ltac:(lia) false k y) _ _ E); exact H.
  Qed.

  Lemma read_layers p ds : file_layers files rel p ds -> neat ds ->
    exists n, forall fuel, n <= fuel -> read_ok ds (read_file files rel fuel false p).
  Proof.
    intros FL.
    assert (TD : forall p d, In (p, d) files -> forall ds, file_layers files rel p ds -> neat ds -> tidy d).
    { intros p0 d Hin ds0 H [F _]; inversion H as [? d' Hin' Hn|? d' l ds' Hin' Hi Hl Hd]; subst.
      - assert (d' = d) by (apply (d_in_get p0) in Hin; [|exact FN]; apply (d_in_get p0) in Hin'; [|exact FN]; congruence); subst.
        inversion F as [|? ? [_ T] _]; exact T.
      - assert (d' = d) by (apply (d_in_get p0) in Hin; [|exact FN]; apply (d_in_get p0) in Hin'; [|exact FN]; congruence); subst.
        inversion F as [|? ? [_ T] _]; subst; unfold tidy in *; rewrite Forall_forall in *; intros [k w] Hk.
        destruct (string_dec k "import") as [->|N].
        + destruct (FW _ _ Hin) as [W _]; apply wf_inv in W; destruct W as [ND _].
          apply d_in_get in Hk; [|exact ND]; apply d_in_get in Hi; [|exact ND].
          assert (w = VList l) by congruence; subst; apply ne_leaf; reflexivity.
        + apply T; unfold without; apply filter_In; split; [exact Hk|]; cbn.
          destruct (String.eqb_spec k "import"); [contradiction|reflexivity]. }
    revert p ds FL.
    apply (file_layers_mut files rel
      (fun p ds => neat ds -> exists n, forall fuel, n <= fuel -> read_ok ds (read_file files rel fuel false p))
      (fun b l ds => forall loaded, wf (VDict loaded) -> tidy loaded -> neat ds -> same_shape (loaded :: ds) ->
         exists n, forall fuel, n <= fuel -> read_ok (loaded :: ds) (import_loop rel (read_file files rel fuel false) false b l loaded))).
    - (* plain file *)
      intros p0 d Hin N [F S]; exists 1; intros fuel Hf; destruct fuel as [|f]; [lia|].
      cbn [read_file]; destruct (FW _ _ Hin) as [W D].
      pose proof (d_in_get p0 d files FN Hin) as G; rewrite G.
      rewrite init_from_dict_id by assumption; cbn [bind].
      unfold resolve_imports; assert (GN : d_get "import" d = None) by (apply d_get_none; exact N); rewrite GN.
      left; split; [intros C; inversion C as [? ? c Hc O|? ? C']; subst; [destruct Hc|inversion C']|].
      exists d; split; [reflexivity|split; [exact W|split; [inversion F as [|? ? [_ T] _]; exact T|]]].
      intros q v Lv; unfold some_leaf; split; [intros H; exists d; simpl; auto|intros [x [[<-|[]] H]]; exact H].
    - (* with imports *)
      intros p0 d l ds0 Hin Hi Hl HIL IH NE.
      destruct (FW _ _ Hin) as [W D].
      assert (ND : NoDup (d_keys d)) by (apply wf_inv in W; tauto).
      assert (T : tidy d).
      { apply (TD p0 d Hin (without "import" d :: ds0)); [eapply fl_imports; eauto|exact NE]. }
      destruct NE as [F S]; inversion F as [|? ? FX FD]; subst.
      pose proof (no_import_layers p0 (without "import" d :: ds0)) as NIL.
      specialize (NIL ltac:(eapply fl_imports; eauto)).
      destruct (d_del_at "import" d W) as [WX [_ LX]]; rewrite <- without_del in WX, LX by exact ND.
      assert (IMP : forall x, In x ds0 -> forall q v, at_path (VDict x) ("import" :: q) v -> False).
      { intros x Hx q v H; inversion H as [|? w items p1 y Hk Hat]; subst.
        apply (NIL x (or_intror Hx)); apply (in_map fst) in Hk; exact Hk. }
      assert (SS : same_shape (d :: ds0)).
      { intros X Y HX HY k w k' w' Hk Lw Hk' Lw' C.
        assert (Z : forall X k w, In X (d :: ds0) -> at_path (VDict X) k w -> leaf w ->
            (exists Z, In Z (without "import" d :: ds0) /\ at_path (VDict Z) k w) \/ (X = d /\ k = ["import"])).
        { clear - LX FX Hi ND W; intros X k w [<-|HX] Hk Lw; [|left; exists X; simpl; auto].
          destruct k as [|a k]; [inversion Hk; subst; discriminate Lw|].
          destruct (string_dec a "import") as [->|N].
          - right; split; [reflexivity|]; rewrite at_lk in Hk by exact W; simpl in Hk.
            pose proof (d_in_get "import" (VList l) d ND Hi) as G; rewrite G in Hk; destruct k; [reflexivity|discriminate].
          - left; exists (without "import" d); split; [left; reflexivity|]; apply LX; [exact Lw|]; split; [exact Hk|].
            intros r; congruence. }
        assert (IMPX : forall Z k w, In Z (without "import" d :: ds0) -> at_path (VDict Z) k w -> leaf w -> ~ comparable ["import"] k).
        { intros Z0 k0 w0 HZ0 Hk0 Lw0 C0; destruct k0 as [|a k0]; [inversion Hk0; subst; discriminate Lw0|].
          assert (a = "import") as -> by (destruct C0 as [[s Es]|[s Es]]; simpl in Es; congruence).
          inversion Hk0 as [|? w1 items p1 y Hk1 Hat]; subst.
          apply (NIL Z0 HZ0); apply (in_map fst) in Hk1; exact Hk1. }
        destruct (Z X k w HX Hk Lw) as [[X' [HX' Hk2]]|[-> ->]], (Z Y k' w' HY Hk' Lw') as [[Y' [HY' Hk2']]|[-> ->]].
        - eapply (S X' Y'); eauto.
        - exfalso; apply (IMPX X' k w HX' Hk2 Lw); apply comparable_sym; exact C.
        - exfalso; apply (IMPX Y' k' w' HY' Hk2' Lw'); exact C.
        - reflexivity. }
      assert (ND0 : neat ds0) by (split; [exact FD|apply (shape_sub _ _ S); intros x Hx; right; exact Hx]).
      destruct (IH d W T ND0 SS) as [n Hn].
      exists (Datatypes.S n); intros fuel Hf; destruct fuel as [|f]; [lia|].
      cbn [read_file].
      pose proof (d_in_get p0 d files FN Hin) as G; rewrite G.
      rewrite init_from_dict_id by assumption; cbn [bind].
      unfold resolve_imports; rewrite (d_in_get "import" (VList l) d ND Hi).
      assert (FA : falsy (VList l) = false) by (destruct l; [congruence|reflexivity]); rewrite FA.
      assert (OV : forall c, In c ds0 -> (overlap d c <-> overlap (without "import" d) c)).
      { intros c Hc; split; intros [q [v [w [Lv [Lw [H1 H2]]]]]]; exists q, v, w; repeat split; auto.
        - apply LX; [exact Lv|]; split; [exact H1|]; intros r ->; exact (IMP c Hc r w H2).
        - apply LX in H1; [tauto|exact Lv]. }
      assert (CL : clash (d :: ds0) <-> clash (without "import" d :: ds0)).
      { rewrite !clash_cons; split; (intros [C|[y [Hy O]]]; [left; exact C|right; exists y; split; [exact Hy|apply (OV y Hy); exact O]]). }
      destruct (Hn f ltac:(lia)) as [[NC [r [E [WR [TR LR]]]]]|[C E]]; rewrite E; cbn [bind].
      + left; split; [rewrite <- CL; exact NC|].
        assert (HI : at_path (VDict r) ["import"] (VList l)).
        { apply LR; [reflexivity|]; exists d; split; [left; reflexivity|]; eapply at_below; [exact Hi|apply at_here]. }
        destruct (del_key_spec ["import"] r (VList l) WR ltac:(congruence) HI) as [r' [E' [W' [T' L']]]].
        rewrite E'; cbn [to_result]; exists r'; split; [reflexivity|split; [exact W'|split; [apply T'; exact TR|]]].
        intros q v Lv; rewrite (L' q v Lv), (LR q v Lv); unfold some_leaf; split.
        * intros [[x [[<-|Hx] H]] NP]; [|exists x; simpl; auto].
          exists (without "import" d); split; [left; reflexivity|]; apply LX; [exact Lv|]; split; [exact H|].
          intros r0 ->; apply NP; exists r0; reflexivity.
        * intros [x [[<-|Hx] H]].
          -- apply LX in H; [|exact Lv]; destruct H as [H NQ]; split; [exists d; simpl; auto|].
             intros [s ->]; exact (NQ s eq_refl).
          -- split; [exists x; simpl; auto|]; intros [s ->]; exact (IMP x Hx s v H).
      + right; split; [rewrite <- CL; exact C|reflexivity].
    - (* no more imports *)
      intros p0 loaded WL TL _ _; exists 0; intros fuel _; cbn [import_loop]; left; split.
      + intros C; inversion C as [? ? c Hc O|? ? C']; subst; [destruct Hc|inversion C'].
      + exists loaded; split; [reflexivity|split; [exact WL|split; [exact TL|]]].
        intros q v Lv; unfold some_leaf; split; [intros H; exists loaded; simpl; auto|intros [x [[<-|[]] H]]; exact H].
    - (* one more import *)
      intros p0 k l ds1 ds2 HF IHF HI IHI loaded WL TL NE SS.
      destruct (neat_app _ _ NE) as [NE1 NE2].
      destruct (IHF NE1) as [n1 H1].
      assert (SS1 : same_shape (loaded :: ds1)).
      { apply (shape_sub _ _ SS); intros x [<-|Hx]; [left; reflexivity|right; apply in_or_app; auto]. }
      (* what the first import gives does not depend on the fuel *)
      destruct (H1 n1 (le_n _)) as [[NC [r0 [E0 [W0 [T0 L0]]]]]|[C E0]].
      + assert (ST : forall fuel, n1 <= fuel -> exists r, read_file files rel fuel false (rel p0 k) = Ok r /\ wf (VDict r) /\ tidy r /\
                  forall q v, leaf v -> (at_path (VDict r) q v <-> some_leaf ds1 q v)).
        { intros fuel Hf; destruct (H1 fuel Hf) as [[_ H]|[C _]]; [exact H|contradiction]. }
        (* bound for the rest must not depend on the fuel: use determinism of reading *)
        assert (MONO : forall fuel, n1 <= fuel -> read_file files rel fuel false (rel p0 k) = Ok r0).
        { intros fuel Hf; apply (read_mono n1 fuel Hf); exact E0. }
        destruct (import_step loaded r0 ds1 WL TL NE1 SS1 W0 T0 L0) as [[NO [l' [EU [WL' [TL' LL']]]]]|[O [l' EU]]].
        * assert (SS2 : same_shape (l' :: ds2)).
          { intros X Y HX HY k0 w k' w' Hk Lw Hk' Lw' Cm.
            assert (Z : forall X k w, In X (l' :: ds2) -> at_path (VDict X) k w -> leaf w ->
               exists Z, In Z (loaded :: ds1 ++ ds2) /\ at_path (VDict Z) k w).
            { intros X0 k1 w1 [<-|HX0] Hk1 Lw1.
              - apply LL' in Hk1; [|exact Lw1]; destruct Hk1 as [d [[<-|Hd] Hk1]]; [exists loaded; simpl; auto|].
                exists d; split; [right; apply in_or_app; auto|exact Hk1].
              - exists X0; split; [right; apply in_or_app; auto|exact Hk1]. }
            destruct (Z X k0 w HX Hk Lw) as [X' [HX' Hk2]], (Z Y k' w' HY Hk' Lw') as [Y' [HY' Hk2']].
            eapply (SS X' Y'); eauto. }
          destruct (IHI l' WL' TL' NE2 SS2) as [n2 H2].
          assert (CL : clash (loaded :: ds1 ++ ds2) <-> clash (l' :: ds2)).
          { rewrite !clash_cons, clash_app; split.
            - intros [[C|[C|[x [y [Hx [Hy O]]]]]]|[y [Hy O]]].
              + contradiction.
              + left; exact C.
              + right; exists y; split; [exact Hy|]; apply (overlap_some _ _ y LL'); exists x; simpl; auto.
              + apply in_app_or in Hy; destruct Hy as [Hy|Hy].
                * exfalso; apply NO; apply (overlap_some _ _ loaded L0); exists y; split; [exact Hy|apply overlap_sym; exact O].
                * right; exists y; split; [exact Hy|]; apply (overlap_some _ _ y LL'); exists loaded; simpl; auto.
            - intros [C|[y [Hy O]]]; [auto|].
              apply (overlap_some _ _ y LL') in O; destruct O as [x [[<-|Hx] O]].
              + right; exists y; split; [apply in_or_app; auto|exact O].
              + left; right; right; exists x, y; auto. }
          exists (n1 + n2); intros fuel Hf; cbn [import_loop].
          rewrite (MONO fuel ltac:(lia)); cbn [bind]; rewrite EU; cbn [to_result bind].
          destruct (H2 fuel ltac:(lia)) as [[NC2 [r [E [WR [TR LR]]]]]|[C E]]; rewrite E.
          -- left; split; [rewrite CL; exact NC2|]; exists r; split; [reflexivity|split; [exact WR|split; [exact TR|]]].
             intros q v Lv; rewrite (LR q v Lv); unfold some_leaf; split.
             ++ intros [d [[<-|Hd] H]]; [apply LL' in H; [|exact Lv]; destruct H as [x [[<-|Hx] H]]; [exists loaded; simpl; auto|]|].
                ** exists x; split; [right; apply in_or_app; auto|exact H].
                ** exists d; split; [right; apply in_or_app; auto|exact H].
             ++ intros [d [[<-|Hd] H]]; [exists l'; split; [left; reflexivity|]; apply LL'; [exact Lv|]; exists loaded; simpl; auto|].
                apply in_app_or in Hd; destruct Hd as [Hd|Hd]; [|exists d; simpl; auto].
                exists l'; split; [left; reflexivity|]; apply LL'; [exact Lv|]; exists d; simpl; auto.
          -- right; split; [rewrite CL; exact C|reflexivity].
        * exists n1; intros fuel Hf; cbn [import_loop].
          rewrite (MONO fuel Hf); cbn [bind]; rewrite EU; cbn [to_result bind]; right; split; [|reflexivity].
          apply (overlap_some _ _ loaded L0) in O; destruct O as [d [Hd O]].
          eapply cl_here; [apply in_or_app; left; exact Hd|apply overlap_sym; exact O].
      + exists n1; intros fuel Hf; cbn [import_loop].
        destruct (H1 fuel Hf) as [[NC _]|[_ E]]; [contradiction|].
        rewrite E; cbn [bind]; right; split; [|reflexivity].
        apply cl_later; apply clash_app; left; exact C.
  Qed.
End Files.

(** ** Overriding imports *)
Lemma nearest_merge X A B rest : wf (VDict X) -> wf (VDict A) -> wf (VDict B) ->
  (forall q v, leaf v -> (at_path (VDict X) q v <-> at_path (VDict A) q v \/
      (at_path (VDict B) q v /\ ~ exists x, leaf x /\ at_path (VDict A) q x))) ->
  forall q v, leaf v -> (nearest (X :: rest) q v <-> nearest (A :: B :: rest) q v).
Proof.
  intros WX WA WB L q v Lv; rewrite !nearest_cons, (L q v Lv).
  assert (D : defines X q <-> defines A q \/ defines B q).
  { unfold defines; split.
    - intros [x [Lx Hx]]; apply L in Hx; [|exact Lx]; destruct Hx as [Hx|[Hx _]]; [left|right]; exists x; auto.
    - intros [[x [Lx Hx]]|[x [Lx Hx]]].
      + exists x; split; [exact Lx|]; apply L; auto.
      + destruct (defines_dec A q WA) as [[y [Ly Hy]]|N]; [exists y; split; [exact Ly|]; apply L; auto|].
        exists x; split; [exact Lx|]; apply L; auto. }
  rewrite D; unfold defines; tauto.
Qed.

Lemma loop_override rel rd b l : forall loaded rs, wf (VDict loaded) -> tidy loaded ->
  Forall2 (fun v r => exists k, v = VStr k /\ rd (rel b k) = Ok r /\ wf (VDict r) /\ tidy r) l rs ->
  same_shape (loaded :: rs) ->
  exists x, import_loop rel rd true b l loaded = Ok x /\ wf (VDict x) /\ tidy x /\
    forall q v, leaf v -> (at_path (VDict x) q v <-> nearest (loaded :: rs) q v).
Proof.
  induction l as [|v l IH]; intros loaded rs WL TL F SS; inversion F as [|? r ? rs' Hr F']; subst; cbn [import_loop].
  - exists loaded; split; [reflexivity|split; [exact WL|split; [exact TL|]]].
    intros q v Lv; rewrite nearest_cons; pose proof (nearest_nil q v); tauto.
  - destruct Hr as [k [-> [E [WR TR]]]]; rewrite E; cbn [bind].
    assert (S2 : same_shape [r; loaded]) by (apply (shape_sub _ _ SS); intros x [<-|[<-|[]]]; simpl; auto).
    destruct (union_same_shape r loaded WR WL TR TL S2) as [l' [EU [W' [T' L']]]].
    rewrite EU; cbn [to_result bind].
    destruct (IH l' rs' W' T' F') as [x [EX [WX [TX LX]]]].
    + apply (same_shape_covered _ _ SS); constructor.
      * intros k0 w Hk Lw; apply L' in Hk; [|exact Lw]; destruct Hk as [Hk|[Hk _]]; [exists loaded, w|exists r, w]; simpl; auto.
      * rewrite Forall_forall; intros y Hy; apply covered_in; simpl; auto.
    + exists x; split; [exact EX|split; [exact WX|split; [exact TX|]]].
      intros q v Lv; rewrite (LX q v Lv); apply (nearest_merge l' loaded r rs'); assumption.
Qed.

Lemma read_override (files : list (string * dict)) rel fuel p (d : dict) l rs : NoDup (map fst files) -> In (p, d) files ->
  wf (VDict d) -> dotfree (VDict d) -> tidy d -> In ("import", VList l) d -> l <> [] ->
  Forall2 (fun v r => exists k, v = VStr k /\ read_file files rel fuel false (rel p k) = Ok r /\ wf (VDict r) /\ tidy r) l rs ->
  same_shape (d :: rs) ->
  exists x, read_file files rel (S fuel) true p = Ok x /\ wf (VDict x) /\ 
    forall q v, leaf v -> (at_path (VDict x) q v <-> nearest (d :: rs) q v /\ ~ prefix ["import"] q).
Proof.
  intros FN Hin W D T Hi Hl F SS.
  assert (ND : NoDup (d_keys d)) by (apply wf_inv in W; tauto).
  destruct (loop_override rel (read_file files rel fuel false) p l d rs W T F SS) as [x [E [WX [TX LX]]]].
  assert (HI : at_path (VDict x) ["import"] (VList l)).
  { apply LX; [reflexivity|]; rewrite nearest_cons; left; eapply at_below; [exact Hi|apply at_here]. }
  destruct (del_key_spec ["import"] x (VList l) WX ltac:(congruence) HI) as [r' [E' [W' [T' L']]]].
  exists r'; split; [|split; [exact W'|]].
  - cbn [read_file].
    pose proof (d_in_get p d files FN Hin) as G; rewrite G.
    rewrite init_from_dict_id by assumption; cbn [bind].
    unfold resolve_imports; rewrite (d_in_get "import" (VList l) d ND Hi).
    assert (FA : falsy (VList l) = false) by (destruct l; [congruence|reflexivity]); rewrite FA, E; cbn [bind].
    rewrite E'; reflexivity.
  - intros q v Lv; rewrite (L' q v Lv), (LX q v Lv); tauto.
Qed.
