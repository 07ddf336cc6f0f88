(** The order of priority in terms of the scenario tables of a definition. *)
From Coq Require Import Relations.
From Verif Require Import Base BaseProofs AttrDictModel AttrDictSpec AttrDictProofs AttrDictUnion
  AttrDictMore DefModel DefSpec DefScenario DefCombine DefPriority DefTemplate DefImports.
Local Open Scope string_scope.
Local Open Scope list_scope.

Lemma set_key_other_head k p v d a : k <> a -> d_get a (fst (set_key (k :: p) v d)) = d_get a d.
Proof.
  intros N; assert (M : a <> k) by congruence; destruct p as [|k2 r].
  - simpl; unfold set_leaf; destruct v; try (simpl; apply d_get_set_other; exact M).
    destruct (d_get k d) as [x|]; [|simpl; apply d_get_set_other; exact M].
    destruct (set_into _ x) as [x' e]; simpl; apply d_get_set_other; exact M.
  - simpl; destruct (d_get k d) as [x|].
    + destruct x as [| | | | |o]; try reflexivity.
      * destruct (set_key (k2 :: r) v []) as [o e] eqn:E; simpl in E; rewrite E; simpl; apply d_get_set_other; exact M.
      * destruct (set_key (k2 :: r) v o) as [o' e] eqn:E; simpl in E; rewrite E.
        destruct e as [e|]; [destruct e|]; simpl; try (apply d_get_set_other; exact M).
        destruct (set_key (k2 :: r) v []) as [o2 e2] eqn:E2; simpl in E2; rewrite E2; simpl.
        rewrite d_get_set_other by exact M; apply d_get_set_other; exact M.
    + destruct (set_key (k2 :: r) v []) as [o e] eqn:E; simpl in E; rewrite E; simpl; apply d_get_set_other; exact M.
Qed.

Lemma union_loop_other ao sk B a ks : (forall k, In k ks -> exists h r, k = h :: r /\ h <> a) ->
  forall S, d_get a (fst (union_loop ao sk B ks S)) = d_get a S.
Proof.
  induction ks as [|k t IH]; intros H S; [reflexivity|]; simpl.
  assert (O : d_get a (fst (union_one ao sk B k S)) = d_get a S).
  { destruct (H k (or_introl eq_refl)) as [h [r [-> N]]]; unfold union_one.
    destruct (negb ao && path_mem (h :: r) sk); [reflexivity|].
    destruct (get_key (h :: r) B) as [v|e]; [|reflexivity].
    destruct v; try (apply set_key_other_head; exact N).
    destruct (is_dict _); [reflexivity|apply set_key_other_head; exact N]. }
  destruct (union_one ao sk B k S) as [S' [e|]]; simpl in O |- *; [exact O|].
  rewrite IH by (intros k' Hk'; apply H; right; exact Hk'); exact O.
Qed.

Lemma union_other ao A B a : ~ In a (d_keys B) -> d_get a (fst (union ao A B)) = d_get a A.
Proof.
  intros N; apply union_loop_other; intros k Hk; destruct (keys_head_in B k Hk) as [h [r [-> Hh]]].
  exists h, r; split; [reflexivity|]; intros ->; exact (N Hh).
Qed.

Lemma nearest_first ds q v : leaf v -> (nearest ds q v <-> first_of (map of_dict ds) q v).
Proof.
  intros L; induction ds as [|d t IH]; simpl.
  - split; [intros H; exact (nearest_nil q v H)|intros []].
  - split.
    + intros [b [x [a [E [H N]]]]]; destruct b as [|y b]; simpl in E; injection E as -> ->.
      * left; exact H.
      * right; split; [intros [z [Lz Hz]]; exact (N y z (or_introl eq_refl) Lz Hz)|].
        apply IH; exists b, x, a; split; [reflexivity|split; [exact H|]].
        intros m z Hm; apply N; right; exact Hm.
    + intros [H|[N H]].
      * exists [], d, t; split; [reflexivity|split; [exact H|intros m x []]].
      * apply IH in H; destruct H as [b [x [a [-> [H K]]]]].
        exists (d :: b), x, a; split; [reflexivity|split; [exact H|]].
        intros m z [<-|Hm] Lz Hz; [apply N; exists z; split; assumption|exact (K m z Hm Lz Hz)].
Qed.

Lemma first_of_ext srcs srcs' q :
  Forall2 (fun s s' : list string -> val -> Prop => forall v, leaf v -> (s q v <-> s' q v)) srcs srcs' ->
  forall v, leaf v -> (first_of srcs q v <-> first_of srcs' q v).
Proof.
  induction 1 as [|s s' t t' H F IH]; intros v L; [simpl; tauto|]; simpl.
  rewrite (H v L), (IH v L).
  assert (E : (exists x, leaf x /\ s q x) <-> (exists x, leaf x /\ s' q x)).
  { split; intros [x [Lx Hx]]; exists x; (split; [exact Lx|apply (H x Lx); exact Hx]). }
  rewrite E; tauto.
Qed.

Lemma leaf_below d p w : tidy d -> p <> [] -> at_path (VDict d) p w ->
  exists r x, leaf x /\ at_path (VDict d) (p ++ r) x.
Proof.
  intros T N H; pose proof (tidy_at _ _ _ T N H) as E; apply noempty_has_leaf in E.
  destruct E as [r [x [Hx Lx]]]; exists r, x; split; [exact Lx|].
  clear -H Hx; induction H as [|k w items p x' Hin H IH]; [exact Hx|].
  simpl; eapply at_below; [exact Hin|exact (IH Hx)].
Qed.

Lemma same_shape_incl Xs Ys : incl Xs Ys -> same_shape Ys -> same_shape Xs.
Proof. intros I S X Y HX HY; apply S; apply I; assumption. Qed.

Lemma scenario_priority fuel order torder md sc ovd kwargs ovs scs sel bs :
  (forall l, Permutation (order l) l) -> (forall d, Permutation (torder d) d) ->
  wf (VDict md) -> wf (VDict ovd) -> wf (VDict kwargs) -> tidy md -> tidy ovd -> tidy kwargs ->
  no_wipe ovd -> no_templates md -> no_templates ovd ->
  (* the scenario tables of the model definition *)
  In ("overrides", VDict ovs) md -> In ("scenarios", VDict scs) md ->
  ~ In "overrides" (map fst ovd) -> ~ In "scenarios" (map fst ovd) ->
  (* the scenario makes sense, and [bs] are the override blocks it stands for *)
  (forall s, reaches scs sc s -> ~ cyclic scs s) -> ~ ill_formed (map fst ovs) scs sc ->
  NoDup sel -> (forall o, In o sel <-> selects (map fst ovs) scs sc o) ->
  Forall2 (fun o b => In (o, VDict b) ovs) sel bs ->
  (forall b, In b bs -> no_wipe b /\ no_templates b /\ ~ In "import" (map fst b)) ->
  ~ twice_defined bs ->
  (* all sources agree on where leaves sit *)
  same_shape (md :: ovd :: init_layer kwargs :: bs) ->
  (forall X x, In X (md :: ovd :: bs) -> leaf x -> ~ at_path (VDict X) ["config"] x) ->
  (List.length scs < fuel)%nat ->
  exists r, prepare_definition fuel order torder md (Some sc) ovd kwargs = Ok r /\ wf (VDict r) /\
    forall q v, plain_section q -> leaf v ->
      (at_path (VDict r) q v <->
       first_of [of_dict (init_layer kwargs); of_dict ovd; of_any bs; of_dict md] q v).
Proof.
  intros PO PT Wm Wo Wk Tm To Tk Nwo Ntm Nto Iov Isc Nov Nsc Cyc WF NDs Sel F2 Bs NT SS NC Fu.
  destruct (wf_inv md Wm) as [NDm Fm].
  assert (Govs : d_get "overrides" md = Some (VDict ovs)) by (apply d_in_get; assumption).
  assert (Gscs : d_get "scenarios" md = Some (VDict scs)) by (apply d_in_get; assumption).
  pose proof (wf_get _ _ _ Wm Govs) as Wovs; pose proof (wf_get _ _ _ Wm Gscs) as Wscs.
  destruct (wf_inv _ Wovs) as [NDo _]; destruct (wf_inv _ Wscs) as [NDc _].
  destruct (union_same_shape md ovd Wm Wo Tm To) as [d1 [U1 _]].
  { apply (same_shape_incl [md; ovd] _) with (2 := SS); intros x [<-|[<-|[]]]; simpl; tauto. }
  pose proof (union_other true md ovd "overrides" Nov) as G1; pose proof (union_other true md ovd "scenarios" Nsc) as G2.
  rewrite U1 in G1, G2; simpl in G1, G2; rewrite Govs in G1; rewrite Gscs in G2.
  destruct (load_complete (d_keys ovs) scs NDc sc fuel Cyc Fu) as [_ LC].
  destruct (LC WF) as [names [Ln [NDn Hn]]].
  assert (P : Permutation sel (order names)).
  { transitivity names; [|symmetry; apply PO].
    apply NoDup_Permutation; [exact NDs|exact NDn|]; intros o; rewrite (Sel o), (Hn o); reflexivity. }
  assert (F2' : blocks_of ovs sel bs).
  { clear -F2 Bs NDo; induction F2 as [|o b sel bs H F IH]; constructor.
    - exists (VDict b); split; [apply d_in_get; assumption|]; constructor; intros x E.
      exfalso; apply (Bs b (or_introl eq_refl)); exact (d_get_some_key _ _ _ E).
    - apply IH; intros b' Hb'; apply Bs; right; exact Hb'. }
  destruct (forall2_perm _ _ _ _ P F2') as [bs' [Pb F2'']].
  assert (WTb : Forall (fun b => wf (VDict b) /\ tidy b) bs).
  { apply Forall_forall; intros b Hb.
    assert (exists o, In (o, VDict b) ovs) as [o Ho].
    { clear -F2 Hb; induction F2 as [|o b0 sel bs H F IH]; [destruct Hb|].
      destruct Hb as [<-|Hb]; [exists o; exact H|exact (IH Hb)]. }
    split; [exact (wf_get _ _ _ Wovs (d_in_get _ _ _ NDo Ho))|].
    apply (d_in_get _ _ _ NDo) in Ho.
    pose proof (tidy_get _ _ _ Tm Govs) as No; apply ne_inv in No; destruct No as [_ To'].
    pose proof (tidy_get _ _ _ To' Ho) as Nb; apply ne_inv in Nb; exact (proj2 Nb). }
  assert (WTb' : Forall (fun b => wf (VDict b) /\ tidy b) bs').
  { rewrite Forall_forall in *; intros b Hb; apply WTb; apply (Permutation_in _ (Permutation_sym Pb) Hb). }
  assert (SSb : same_shape bs).
  { apply (same_shape_incl bs _) with (2 := SS); intros x Hx; simpl; tauto. }
  assert (SSb' : same_shape bs').
  { apply (same_shape_incl bs' bs); [|exact SSb]; intros x Hx; exact (Permutation_in _ (Permutation_sym Pb) Hx). }
  assert (NCl : ~ clash ([] :: bs')).
  { rewrite clash_nil; intros C; apply NT; apply clash_twice; exact (clash_perm _ _ (Permutation_sym Pb) C). }
  destruct (combine_apart bs' [] wf_nil (Forall_nil _) WTb' (same_shape_nil _ SSb') NCl) as [c [Ec [Wc [Tc Lc]]]].
  assert (Lc' : forall q v, leaf v -> (at_path (VDict c) q v <-> of_any bs q v)).
  { intros q v L; rewrite (Lc q v L); unfold some_leaf, of_any, of_dict; split.
    - intros [d [[<-|Hd] H]]; [exfalso; exact (no_leaf_nil _ _ L H)|].
      exists d; split; [exact (Permutation_in _ (Permutation_sym Pb) Hd)|exact H].
    - intros [d [Hd H]]; exists d; split; [right; exact (Permutation_in _ Pb Hd)|exact H]. }
  assert (Sub : forall p w, p <> [] -> at_path (VDict c) p w -> exists b r x, In b bs /\ leaf x /\ at_path (VDict b) (p ++ r) x).
  { intros p w N H; destruct (leaf_below c p w Tc N H) as [r [x [Lx Hx]]].
    apply (Lc' _ _ Lx) in Hx; destruct Hx as [b [Hb Hx]]; exists b, r, x; repeat split; assumption. }
  assert (Nwc : no_wipe c).
  { intros p w H; destruct p as [|a p]; [intros []|].
    destruct (Sub (a :: p) w ltac:(discriminate) H) as [b [r [x [Hb [Lx Hx]]]]].
    intros I; apply (proj1 (Bs b Hb) _ _ Hx); apply in_or_app; left; exact I. }
  assert (Ntc : no_templates c).
  { intros p w H; destruct p as [|a p]; [intros k []|].
    destruct (Sub (a :: p) w ltac:(discriminate) H) as [b [r [x [Hb [Lx Hx]]]]].
    intros k I; apply (proj1 (proj2 (Bs b Hb)) _ _ Hx); apply in_or_app; left; exact I. }
  assert (SSc : same_shape [md; c; ovd; init_layer kwargs]).
  { apply (same_shape_covered _ (md :: ovd :: init_layer kwargs :: bs)); [exact SS|].
    repeat constructor; try (apply covered_in; simpl; tauto).
    intros q v H L; apply (Lc' q v L) in H; destruct H as [b [Hb H]].
    exists b, v; split; [simpl; tauto|split; assumption]. }
  destruct (prepare_priority fuel order torder md (Some sc) ovd kwargs d1 ovs scs c (order names)) as [r [R1 [R2 R3]]];
    try assumption.
  - intros X x HX Lx H; simpl in HX; destruct HX as [<-|[<-|[<-|[]]]].
    + exact (NC md x (or_introl eq_refl) Lx H).
    + apply (Lc' _ _ Lx) in H; destruct H as [b [Hb H]]; exact (NC b x (or_intror (or_intror Hb)) Lx H).
    + exact (NC ovd x (or_intror (or_introl eq_refl)) Lx H).
  - rewrite G1; reflexivity.
  - rewrite G2; reflexivity.
  - exists names; split; [exact Ln|split; [reflexivity|]].
    rewrite (combine_overrides_blocks _ _ _ F2''); exact Ec.
  - exists r; split; [exact R1|split; [exact R2|]]; intros q v Pq L.
    rewrite (R3 q v Pq L), (nearest_first _ q v L); simpl map.
    apply first_of_ext; [|exact L].
    constructor; [reflexivity|]; constructor; [reflexivity|]; constructor; [|repeat constructor; auto].
    intros x Lx; exact (Lc' q x Lx).
Qed.
