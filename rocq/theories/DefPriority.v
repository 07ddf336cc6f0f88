(** Lemmas on the order of priority of definition sources. *)
From Verif Require Import Base BaseProofs AttrDictModel AttrDictSpec AttrDictProofs AttrDictUnion
  AttrDictMore DefModel DefSpec DefCombine.
Local Open Scope string_scope.
Local Open Scope list_scope.

Lemma filter_all {A} (f : A -> bool) l : (forall x, In x l -> f x = true) -> filter f l = l.
Proof.
  induction l as [|x t IH]; intros H; [reflexivity|]; simpl.
  rewrite (H x (or_introl eq_refl)), IH; [reflexivity|intros y Hy; apply H; right; exact Hy].
Qed.
Lemma filter_none {A} (f : A -> bool) l : (forall x, In x l -> f x = false) -> filter f l = [].
Proof.
  induction l as [|x t IH]; intros H; [reflexivity|]; simpl.
  rewrite (H x (or_introl eq_refl)), IH; [reflexivity|intros y Hy; apply H; right; exact Hy].
Qed.

Lemma union_replace_plain ao A B : wf (VDict B) -> no_wipe B -> union_replace ao A B = union ao A B.
Proof.
  intros WB NW; unfold union_replace, union.
  assert (H : forall k, In k (keys_nested B) -> has_wipe k = false).
  { intros k Hk; apply (keys_nested_val_spec (VDict B) WB) in Hk; destruct Hk as [_ [w [Hw _]]].
    apply at_lk in Hw; [|exact WB]; apply NW in Hw.
    unfold has_wipe; destruct (smem WIPE k) eqn:E; [|reflexivity]; apply smem_in in E; contradiction. }
  rewrite (filter_all (fun k => negb (has_wipe k))) by (intros k Hk; rewrite (H k Hk); reflexivity).
  rewrite (filter_none has_wipe) by exact H.
  destruct (union_loop ao (keys_nested A) B (keys_nested B) A) as [S [e|]]; reflexivity.
Qed.

(** Deleting a top-level section *)
Lemma d_del_at k d : wf (VDict d) -> wf (VDict (d_del k d)) /\ (tidy d -> tidy (d_del k d)) /\
  forall q v, leaf v -> (at_path (VDict (d_del k d)) q v <-> at_path (VDict d) q v /\ forall r, q <> k :: r).
Proof.
  intros W; assert (WD : wf (VDict (d_del k d))).
  { apply wf_inv in W; destruct W as [ND F]; apply wf_dict; [apply d_nodup_del; exact ND|apply d_del_forall; exact F]. }
  split; [exact WD|split; [intros T; apply d_del_forall; exact T|]].
  assert (ND : NoDup (d_keys d)) by (apply wf_inv in W; tauto).
  intros q v Lv; rewrite !at_lk by assumption; destruct q as [|a q].
  - simpl; split; [intros [= <-]; discriminate Lv|intros [[= <-] _]; discriminate Lv].
  - simpl; destruct (string_dec a k) as [->|N].
    + rewrite d_get_del_same by exact ND; split; [discriminate|intros [_ H]; exfalso; apply (H q); reflexivity].
    + rewrite d_get_del_other by exact N; split; [|tauto]; intros H; split; [exact H|intros r; congruence].
Qed.

(** [same_shape] only depends on where leaves are. *)
Definition covered (X : dict) (Ys : list dict) : Prop :=
  forall k w, at_path (VDict X) k w -> leaf w -> exists Y w', In Y Ys /\ leaf w' /\ at_path (VDict Y) k w'.

Lemma same_shape_covered Xs Ys : same_shape Ys -> Forall (fun X => covered X Ys) Xs -> same_shape Xs.
Proof.
  intros SS F X X' HX HX' k w k' w' Hk Lw Hk' Lw' C; rewrite Forall_forall in F.
  destruct (F X HX k w Hk Lw) as [Y [u [IY [Lu Hu]]]], (F X' HX' k' w' Hk' Lw') as [Y' [u' [IY' [Lu' Hu']]]].
  eapply (SS Y Y'); eauto.
Qed.

Lemma covered_in X Ys : In X Ys -> covered X Ys.
Proof. intros H k w Hk Lw; exists X, w; auto. Qed.

Definition defines (d : dict) (q : list string) : Prop := exists x, leaf x /\ at_path (VDict d) q x.

Lemma leaf_fun d q v w : wf (VDict d) -> at_path (VDict d) q v -> at_path (VDict d) q w -> v = w.
Proof. intros W; rewrite !at_lk by exact W; congruence. Qed.

Lemma defines_dec d q : wf (VDict d) -> defines d q \/ ~ defines d q.
Proof.
  intros W; destruct (lk q (VDict d)) as [x|] eqn:E.
  - destruct (is_dict x) eqn:D.
    + right; intros [y [Ly Hy]]; apply at_lk in Hy; [|exact W]; assert (x = y) by congruence; subst; unfold leaf in Ly; congruence.
    + left; exists x; split; [exact D|apply at_lk; assumption].
  - right; intros [y [_ Hy]]; apply at_lk in Hy; [|exact W]; congruence.
Qed.

Lemma nearest_cons d ds q v : 
  nearest (d :: ds) q v <-> at_path (VDict d) q v \/ (nearest ds q v /\ ~ defines d q).
Proof.
  unfold nearest; split.
  - intros [b [x [a [E [H N]]]]]; destruct b as [|y b]; simpl in E; injection E as -> ->; [left; exact H|].
    right; split.
    + exists b, x, a; split; [reflexivity|split; [exact H|]]; intros m z Hm; apply N; right; exact Hm.
    + intros [z [Lz Hz]]; exact (N y z (or_introl eq_refl) Lz Hz).
  - intros [H|[[b [x [a [-> [H N]]]]] ND]].
    + exists [], d, ds; split; [reflexivity|split; [exact H|intros m z []]].
    + exists (d :: b), x, a; split; [reflexivity|split; [exact H|]].
      intros m z [<-|Hm] Lz Hz; [apply ND; exists z; auto|exact (N m z Hm Lz Hz)].
Qed.
Lemma nearest_nil q v : ~ nearest [] q v.
Proof. intros [b [x [a [E _]]]]; destruct b; discriminate. Qed.

Lemma rename_plain d : wf (VDict d) -> wf (VDict (rename_locations d)) /\ (tidy d -> tidy (rename_locations d)) /\
  forall q v, plain_section q -> leaf v -> (at_path (VDict (rename_locations d)) q v <-> at_path (VDict d) q v).
Proof.
  intros W; unfold rename_locations; destruct (d_get "locations" d) as [x|] eqn:G; [|split; [exact W|split; [auto|tauto]]].
  assert (Wx : wf x) by (eapply wf_get; eauto).
  assert (W1 : wf (VDict (d_set "nodes" x d))) by (apply wf_set; assumption).
  destruct (d_del_at "locations" _ W1) as [W2 [T2 L]]; split; [exact W2|split].
  { intros T; apply T2; apply d_set_forall; [intros; cbn [snd]; eapply tidy_get; eauto|exact T]. }
  intros q v Pq Lv; rewrite (L q v Lv); destruct q as [|k q]; [destruct Pq|]; destruct Pq as [_ [_ [N1 N2]]].
  rewrite !at_lk by assumption; rewrite lk_set_other by exact N2.
  split; [tauto|]; intros H; split; [exact H|intros r; congruence].
Qed.

(** The three stages *)
Lemma stages md c ovd : wf (VDict md) -> wf (VDict c) -> wf (VDict ovd) -> tidy md -> tidy c -> tidy ovd ->
  no_wipe ovd -> no_wipe c -> same_shape [md; c; ovd] ->
  exists d1, union_replace true md ovd = (d1, None) /\ wf (VDict d1) /\
  let d2 := d_del "scenarios" (d_del "overrides" d1) in
  exists d3, union_replace true d2 c = (d3, None) /\ wf (VDict d3) /\ tidy d3 /\
  let ov2 := d_del "overrides" (d_del "scenarios" ovd) in
  exists d4, union_replace true d3 ov2 = (d4, None) /\ wf (VDict d4) /\ tidy d4 /\
    (forall q v, plain_section q -> leaf v -> (at_path (VDict d4) q v <-> nearest [ovd; c; md] q v)) /\
    covered d3 [md; c; ovd] /\ covered d4 [md; c; ovd] /\
    (forall q v, plain_section q -> leaf v -> (at_path (VDict d3) q v <-> at_path (VDict c) q v \/
        (~ defines c q /\ nearest [ovd; md] q v))).
Proof.
  intros Wm Wc Wo Tm Tc To NWo NWc SS.
  (* first pass *)
  destruct (union_same_shape md ovd Wm Wo Tm To) as [d1 [E1 [W1 [T1 L1]]]].
  { apply (same_shape_covered _ _ SS); constructor; [|constructor; [|constructor]]; apply covered_in; simpl; auto. }
  exists d1; split; [rewrite union_replace_plain by assumption; exact E1|split; [exact W1|]]; intros d2.
  destruct (d_del_at "overrides" d1 W1) as [Wa [Ta La]].
  destruct (d_del_at "scenarios" _ Wa) as [W2 [T2 L2]]; fold d2 in W2, T2, L2.
  specialize (T2 (Ta T1)).
  assert (C1 : covered d1 [md; c; ovd]).
  { intros k w Hk Lw; apply L1 in Hk; [|exact Lw]; destruct Hk as [Hk|[Hk _]]; [exists ovd, w|exists md, w]; simpl; auto. }
  assert (C2 : covered d2 [md; c; ovd]).
  { intros k w Hk Lw; apply L2 in Hk; [|exact Lw]; destruct Hk as [Hk _]; apply La in Hk; [|exact Lw]; apply (C1 k w); tauto. }
  (* scenario *)
  destruct (union_same_shape d2 c W2 Wc T2 Tc) as [d3 [E3 [W3 [T3 L3]]]].
  { apply (same_shape_covered _ _ SS); constructor; [exact C2|constructor; [apply covered_in; simpl; auto|constructor]]. }
  exists d3; split; [rewrite union_replace_plain by assumption; exact E3|split; [exact W3|split; [exact T3|]]]; intros ov2.
  destruct (d_del_at "scenarios" ovd Wo) as [Wb [Tb Lb]].
  destruct (d_del_at "overrides" _ Wb) as [Wo2 [To2 Lo2]]; fold ov2 in Wo2, To2, Lo2.
  specialize (To2 (Tb To)).
  assert (C3 : covered d3 [md; c; ovd]).
  { intros k w Hk Lw; apply L3 in Hk; [|exact Lw]; destruct Hk as [Hk|[Hk _]]; [exists c, w; simpl; auto|apply (C2 k w); assumption]. }
  assert (CO : covered ov2 [md; c; ovd]).
  { intros k w Hk Lw; apply Lo2 in Hk; [|exact Lw]; destruct Hk as [Hk _]; apply Lb in Hk; [|exact Lw]; exists ovd, w; simpl; tauto. }
  destruct (union_same_shape d3 ov2 W3 Wo2 T3 To2) as [d4 [E4 [W4 [T4 L4]]]].
  { apply (same_shape_covered _ _ SS); constructor; [exact C3|constructor; [exact CO|constructor]]. }
  assert (NW2 : no_wipe ov2).
  { intros p w Hp; assert (at_path (VDict ovd) p w \/ p = []) as [H| ->]; [|apply (NWo p w H)|simpl; tauto].
    destruct p as [|a p]; [right; reflexivity|left].
    rewrite at_lk in * by assumption; simpl in Hp.
    unfold ov2 in Hp.
    assert (N1 : NoDup (d_keys ovd)) by (apply wf_inv in Wo; tauto).
    assert (N2 : NoDup (d_keys (d_del "scenarios" ovd))) by (apply wf_inv in Wb; tauto).
    destruct (string_dec a "overrides") as [->|NA]; [rewrite d_get_del_same in Hp by exact N2; discriminate|].
    rewrite d_get_del_other in Hp by exact NA.
    destruct (string_dec a "scenarios") as [->|NB]; [rewrite d_get_del_same in Hp by exact N1; discriminate|].
    rewrite d_get_del_other in Hp by exact NB; exact Hp. }
  exists d4; split; [rewrite union_replace_plain by assumption; exact E4|split; [exact W4|split; [exact T4|]]].
  assert (P2 : forall q v, plain_section q -> leaf v -> (at_path (VDict d2) q v <-> nearest [ovd; md] q v)).
  { intros q v Pq Lv; rewrite (L2 q v Lv), (La q v Lv), (L1 q v Lv).
    rewrite !nearest_cons; pose proof (nearest_nil q v).
    assert (Q1 : forall r, q <> "overrides" :: r) by (intros r ->; destruct Pq; congruence).
    assert (Q2 : forall r, q <> "scenarios" :: r) by (intros r ->; destruct Pq as [_ [? _]]; congruence).
    unfold defines; tauto. }
  assert (P3 : forall q v, plain_section q -> leaf v -> (at_path (VDict d3) q v <-> at_path (VDict c) q v \/
        (~ defines c q /\ nearest [ovd; md] q v))).
  { intros q v Pq Lv; rewrite (L3 q v Lv), (P2 q v Pq Lv); unfold defines; tauto. }
  assert (C4 : covered d4 [md; c; ovd]).
  { intros k w Hk Lw; apply L4 in Hk; [|exact Lw]; destruct Hk as [Hk|[Hk _]]; [apply (CO k w)|apply (C3 k w)]; assumption. }
  split; [|split; [exact C3|split; [exact C4|exact P3]]].
  - intros q v Pq Lv; rewrite (L4 q v Lv), (Lo2 q v Lv), (Lb q v Lv), (P3 q v Pq Lv), !nearest_cons.
    pose proof (nearest_nil q v).
    assert (Q1 : forall r, q <> "overrides" :: r) by (intros r ->; destruct Pq; congruence).
    assert (Q2 : forall r, q <> "scenarios" :: r) by (intros r ->; destruct Pq as [_ [? _]]; congruence).
    assert (D : (exists x, leaf x /\ at_path (VDict ov2) q x) <-> defines ovd q).
    { split; intros [x [Lx Hx]]; exists x; split; try exact Lx.
      - apply Lo2 in Hx; [|exact Lx]; destruct Hx as [Hx _]; apply Lb in Hx; [tauto|exact Lx].
      - apply Lo2; [exact Lx|]; split; [|exact Q1]; apply Lb; auto. }
    rewrite D; tauto.
Qed.

Lemma rename_covered d q v : wf (VDict d) -> leaf v -> at_path (VDict (rename_locations d)) q v ->
  at_path (VDict d) q v \/ exists q', q = "nodes" :: q' /\ at_path (VDict d) ("locations" :: q') v.
Proof.
  intros W Lv; unfold rename_locations; destruct (d_get "locations" d) as [x|] eqn:G; [|auto].
  assert (Wx : wf x) by (eapply wf_get; eauto).
  assert (W1 : wf (VDict (d_set "nodes" x d))) by (apply wf_set; assumption).
  destruct (d_del_at "locations" _ W1) as [W2 [T2 L]].
  rewrite (L q v Lv); intros [H _]; destruct q as [|a q]; [inversion H; subst; discriminate Lv|].
  rewrite at_lk in H by exact W1; rewrite !at_lk by exact W.
  destruct (string_dec a "nodes") as [->|N].
  - right; exists q; split; [reflexivity|]; rewrite lk_set_same in H; rewrite at_lk by exact W; simpl; rewrite G; exact H.
  - left; rewrite lk_set_other in H by exact N; exact H.
Qed.

(** What the scenario stands for. *)
Definition selected (fuel : nat) (order : list string -> list string) (scenario : option string)
    (ovs scs c : dict) (applied : list string) : Prop :=
  match scenario with
  | None => c = [] /\ applied = []
  | Some sc => exists names, load_overrides (d_keys ovs) scs fuel sc = Ok names /\
      applied = order names /\ combine_overrides ovs applied [] = Ok c
  end.

Lemma load_priority fuel order md scenario ovd d1 ovs scs c applied :
  wf (VDict md) -> wf (VDict c) -> wf (VDict ovd) -> tidy md -> tidy c -> tidy ovd ->
  no_wipe ovd -> no_wipe c -> same_shape [md; c; ovd] ->
  union true md ovd = (d1, None) ->
  as_block (d_get "overrides" d1) = Ok ovs -> as_block (d_get "scenarios" d1) = Ok scs ->
  selected fuel order scenario ovs scs c applied ->
  exists r, load_scenario_overrides fuel order md scenario ovd = Ok (r, applied) /\ wf (VDict r) /\ tidy r /\
    (forall q v, leaf v -> at_path (VDict r) q v -> exists X q', In X [md; c; ovd] /\ defines X q' /\
        (q = q' \/ exists p, q = "nodes" :: p /\ q' = "locations" :: p)) /\
    forall q v, plain_section q -> leaf v -> (at_path (VDict r) q v <-> nearest [ovd; c; md] q v).
Proof.
  intros Wm Wc Wo Tm Tc To NWo NWc SS U HO HS SEL.
  destruct (stages md c ovd Wm Wc Wo Tm Tc To NWo NWc SS) as
    [d1' [E1 [W1 [d3 [E3 [W3 [T3 [d4 [E4 [W4 [T4 [L4 [C3 [C4 P3]]]]]]]]]]]]]].
  assert (d1' = d1) by (rewrite union_replace_plain in E1 by assumption; congruence); subst d1'.
  cbv zeta in E3, E4.
  assert (EL : exists d5, load_scenario_overrides fuel order md scenario ovd = Ok (rename_locations d5, applied) /\
                 ((ovd = [] /\ d5 = d3) \/ d5 = d4)).
  { unfold load_scenario_overrides; rewrite E1; cbn [to_result bind]; rewrite HO; cbn [bind]; rewrite HS; cbn [bind]; cbv zeta.
    assert (ST : (match scenario with
        | None => Ok (d_del "scenarios" (d_del "overrides" d1), [])
        | Some sc =>
            bind (load_overrides (d_keys ovs) scs fuel sc) (fun names =>
            bind (combine_overrides ovs (order names) []) (fun c =>
            bind (to_result (union_replace true (d_del "scenarios" (d_del "overrides" d1)) c)) (fun d3 => Ok (d3, order names))))
        end) = Ok (d3, applied)).
    { destruct scenario as [sc|]; cbn [selected] in SEL.
      - destruct SEL as [names [HL [-> HC]]]; rewrite HL; cbn [bind]; rewrite HC; cbn [bind].
        rewrite E3; reflexivity.
      - destruct SEL as [-> ->]; f_equal; f_equal; vm_compute in E3; injection E3 as <-; reflexivity. }
    rewrite ST; cbn [bind].
    destruct ovd as [|e o]; cbn [bind].
    - exists d3; split; [reflexivity|left; auto].
    - rewrite E4; cbn [to_result bind]; exists d4; split; [reflexivity|right; reflexivity]. }
  destruct EL as [d5 [EL CASES]].
  assert (D5 : wf (VDict d5) /\ tidy d5 /\ covered d5 [md; c; ovd] /\
     forall q v, plain_section q -> leaf v -> (at_path (VDict d5) q v <-> nearest [ovd; c; md] q v)).
  { destruct CASES as [[-> ->]| ->]; [|auto].
    split; [exact W3|split; [exact T3|split; [exact C3|]]].
    intros q v Pq Lv; rewrite (P3 q v Pq Lv), !nearest_cons.
    pose proof (no_leaf_nil q v Lv); pose proof (nearest_nil q v).
    assert (~ defines [] q) by (intros [x [Lx Hx]]; exact (no_leaf_nil q x Lx Hx)); tauto. }
  destruct D5 as [W5 [T5 [C5 L5]]].
  destruct (rename_plain d5 W5) as [W6 [T6 L6]].
  exists (rename_locations d5); split; [exact EL|split; [exact W6|split; [apply T6; exact T5|split]]].
  - intros q v Lv Hq; apply rename_covered in Hq; [|exact W5|exact Lv].
    destruct Hq as [Hq|[p [-> Hq]]]; destruct (C5 _ _ Hq Lv) as [X [w [HX [Lw Hw]]]];
      [exists X, q|exists X, ("locations" :: p)]; (split; [exact HX|split; [exists w; auto|]]); [left; reflexivity|right; exists p; auto].
  - intros q v Pq Lv; rewrite (L6 q v Pq Lv); apply L5; assumption.
Qed.
