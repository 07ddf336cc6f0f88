(** Lemmas about links. *)
From Verif Require Import Base BaseProofs AttrDictModel AttrDictSpec AttrDictProofs AttrDictUnion AttrDictMore AttrDictLayers NodeModel NodeSpec NodeProofs.
Local Open Scope string_scope.
Local Open Scope list_scope.
Local Arguments String.eqb : simpl never.

Lemma d_in_del {V} k (d : list (string * V)) : NoDup (d_keys d) ->
  forall a w, In (a, w) (d_del k d) <-> In (a, w) d /\ a <> k.
Proof.
  intros ND a w; split.
  - intros I.
    assert (ND' := d_nodup_del k d ND); apply (d_in_get _ _ _ ND') in I.
    destruct (String.eqb_spec a k) as [->|N]; [rewrite d_get_del_same in I by exact ND; discriminate|].
    rewrite d_get_del_other in I by exact N; split; [apply d_get_in; exact I|exact N].
  - intros [I N]; apply d_get_in; rewrite d_get_del_other by exact N; apply d_in_get; assumption.
Qed.

Lemma at_del k d q v : NoDup (d_keys d) -> leaf v ->
  (at_path (VDict (d_del k d)) q v <-> at_path (VDict d) q v /\ hd_error q <> Some k).
Proof.
  intros ND L; split.
  - intros A; inversion A as [|a w it p x I A']; subst; [discriminate L|].
    apply (d_in_del k d ND) in I; destruct I as [I N]; split; [eapply at_below; eassumption|simpl; congruence].
  - intros [A N]; inversion A as [|a w it p x I A']; subst; [discriminate L|].
    eapply at_below; [apply (d_in_del k d ND); split; [exact I|simpl in N; congruence]|exact A'].
Qed.

Lemma wf_del k d : wf (VDict d) -> wf (VDict (d_del k d)).
Proof.
  intros W; destruct (wf_inv _ W) as [ND F]; apply wf_dict; [apply (d_nodup_del k d ND)|].
  rewrite Forall_forall in *; intros [a w] I; apply (d_in_del k d ND) in I; apply F; tauto.
Qed.

Definition form (done : list string) (p : list string) : Prop := exists n l q, p = n :: l :: q /\ In l done.

Lemma union_disjoint_true A B : wf (VDict A) -> wf (VDict B) -> disjoint_keys (VDict A) (VDict B) ->
  union false A B = union true A B.
Proof.
  intros WA WB DJ; unfold union; apply union_loop_disjoint; intros k HB HA.
  apply (keys_nested_val_spec (VDict B) WB) in HB; apply (keys_nested_val_spec (VDict A) WA) in HA.
  destruct HB as [N [w [HB1 HB2]]], HA as [_ [w' [HA1 HA2]]].
  apply (DJ k w' k w); unfold def_key; rewrite ?at_lk by assumption; auto.
  left; apply prefix_refl.
Qed.

Lemma union_disjoint_keys A B A' : wf (VDict A) -> wf (VDict B) -> wf (VDict A') -> disjoint_keys (VDict A) (VDict B) ->
  union false A B = (A', None) ->
  (forall q v, leaf v -> (at_path (VDict A') q v <-> at_path (VDict A) q v \/ at_path (VDict B) q v)) ->
  forall k w, def_key (VDict A') k w -> def_key (VDict A) k w \/ def_key (VDict B) k w.
Proof.
  intros WA WB W' DJ E L k w [N [AT D]].
  destruct D as [D|D].
  - apply (L k w D) in AT; destruct AT as [AT|AT]; [left|right]; (split; [exact N|split; [exact AT|left; exact D]]).
  - subst w; rewrite (union_disjoint_true A B WA WB DJ) in E; unfold union in E.
    assert (K : forall k, In k (keys_nested B) -> k <> [] /\ exists w, lk k (VDict B) = Some w /\ simple w).
    { intros k0 H; apply (keys_nested_val_spec (VDict B) WB) in H; exact H. }
    apply (at_lk _ _ _ W') in AT.
    destruct (union_loop_empties _ _ _ K _ _ E k N AT) as [X|X]; [left|right];
      (split; [exact N|split; [apply at_lk; assumption|right; reflexivity]]).
Qed.

Definition entry (a b name : string) (fd td : dict) : dict :=
  d_set b (VDict [(name, VDict td)]) (d_set a (VDict [(name, VDict fd)]) []).

Lemma entry_eq a b name fd td : a <> b ->
  entry a b name fd td = [(a, VDict [(name, VDict fd)]); (b, VDict [(name, VDict td)])].
Proof. intros N; unfold entry; simpl; destruct (String.eqb_spec b a); [congruence|reflexivity]. Qed.

Lemma one_wf name d : wf (VDict d) -> wf (VDict [(name, VDict d)]).
Proof. intros W; apply wf_dict; [apply NoDup_cons; [intros []|apply NoDup_nil]|apply Forall_cons; [exact W|apply Forall_nil]]. Qed.

Lemma entry_wf a b name fd td : wf (VDict fd) -> wf (VDict td) -> wf (VDict (entry a b name fd td)).
Proof. intros F T; unfold entry; apply wf_set; [apply one_wf; exact T|apply wf_set; [apply one_wf; exact F|apply wf_nil]]. Qed.

Lemma entry_leaf a b name fd td p v : a <> b -> leaf v ->
  (at_path (VDict (entry a b name fd td)) p v <->
   exists q, (p = a :: name :: q /\ at_path (VDict fd) q v) \/ (p = b :: name :: q /\ at_path (VDict td) q v)).
Proof.
  intros N L; rewrite (entry_eq a b name fd td N); split.
  - intros A; inversion A as [|k w it r x I A1]; subst; [discriminate L|].
    destruct I as [E|[E|[]]]; injection E as <- <-; (inversion A1 as [|k' w' it' r' x' I' A2]; subst; [discriminate L|]);
      destruct I' as [E|[]]; injection E as <- <-; exists r'; auto.
  - intros [q [[-> A]|[-> A]]]; [eapply at_below; [left; reflexivity|]|eapply at_below; [right; left; reflexivity|]];
      (eapply at_below; [left; reflexivity|exact A]).
Qed.

Lemma entry_form a b name fd td k w : a <> b -> def_key (VDict (entry a b name fd td)) k w -> form [name] k.
Proof.
  intros N [NN [A D]]; rewrite (entry_eq a b name fd td N) in A.
  assert (G : forall x, at_path (VDict [(name, VDict x)]) (tl k) w -> tl k = [] \/ exists q, tl k = name :: q).
  { intros x H; inversion H as [|k' w' it r y I A2]; subst; [auto|]; destruct I as [E|[]]; injection E as <- <-; right; exists r; reflexivity. }
  inversion A as [|n w1 it r x I A1]; subst; [congruence|]; simpl in G.
  destruct I as [E|[E|[]]]; injection E as <- <-.
  - destruct (G fd A1) as [->|[q ->]]; [|exists a, name, q; simpl; auto].
    inversion A1; subst; destruct D as [D|D]; discriminate D.
  - destruct (G td A1) as [->|[q ->]]; [|exists b, name, q; simpl; auto].
    inversion A1; subst; destruct D as [D|D]; discriminate D.
Qed.

(** The settings of a link at a node, as the model makes them. *)
Lemma one_way_spec data : wf (VDict data) ->
  (match d_get "one_way" (d_del "link_to" (d_del "link_from" data)) with Some v => truthy v | None => false end = true
   <-> one_way data).
Proof.
  intros W; destruct (wf_inv _ W) as [ND _]; rewrite !d_get_del_other by discriminate; unfold one_way; split.
  - destruct (d_get "one_way" data) as [v|] eqn:G; [|discriminate]; intros T; exists v; split; [apply d_get_in; exact G|].
    rewrite <- truthy_falsy; congruence.
  - intros [v [I F]]; rewrite (d_in_get _ _ _ ND I); rewrite <- truthy_falsy in F; destruct (truthy v); congruence.
Qed.

Definition good (data : dict) (a b : string) : Prop :=
  wf (VDict data) /\ goes data a b /\ a <> b /\
  (one_way data -> In "carrier_in" (d_keys data) /\ In "carrier_out" (d_keys data)).

Lemma add_link_ok known name data acc a b done : good data a b -> wf (VDict acc) -> ~ In name done ->
  (forall k w, def_key (VDict acc) k w -> form done k) ->
  exists acc', add_link known name data acc = Ok acc' /\ wf (VDict acc') /\
    (forall k w, def_key (VDict acc') k w -> form (name :: done) k) /\
    forall p v, leaf v -> (at_path (VDict acc') p v <-> at_path (VDict acc) p v \/
      (In a known /\ In b known /\ exists n q, p = n :: name :: q /\ (n = a \/ n = b) /\
        at_path (VDict data) q v /\ kept_at data a b n q)).
Proof.
  intros [W [[GA GB] [NE OW]]] WA ND FA; destruct (wf_inv _ W) as [NDD _].
  assert (WK : forall k w, def_key (VDict acc) k w -> form (name :: done) k).
  { intros k w H; destruct (FA k w H) as [n [l [q [-> I]]]]; exists n, l, q; simpl; auto. }
  unfold add_link; rewrite (d_in_get _ _ _ NDD GA), (d_in_get _ _ _ NDD GB); cbv zeta.
  set (data' := d_del "link_to" (d_del "link_from" data)).
  assert (W' : wf (VDict data')) by (apply wf_del, wf_del; exact W); destruct (wf_inv _ W') as [NDD' _].
  destruct (smem a known && smem b known) eqn:K.
  2: { exists acc; split; [reflexivity|split; [exact WA|split; [exact WK|]]].
       intros p v L; split; [tauto|]; intros [H|[Ka [Kb _]]]; [exact H|].
       apply smem_in in Ka; apply smem_in in Kb; rewrite Ka, Kb in K; discriminate. }
  apply andb_true_iff in K; destruct K as [Ka Kb]; apply smem_in in Ka; apply smem_in in Kb.
  set (ow := match d_get "one_way" data' with Some v => truthy v | None => false end).
  pose proof (one_way_spec data W) as OS; fold data' in OS; fold ow in OS.
  assert (PE : forall c, c = "carrier_in" \/ c = "carrier_out" -> ow = true -> pop c data' = Ok (d_del c data')).
  { intros c C O; unfold pop; assert (M : d_mem c data' = true); [|rewrite M; reflexivity].
    unfold d_mem, data'; rewrite !d_get_del_other by (destruct C; subst c; discriminate).
    apply OS in O; destruct (OW O) as [I1 I2]; apply d_mem_keys; destruct C; subst c; assumption. }
  set (fd := if ow then d_del "carrier_out" data' else data').
  set (td := if ow then d_del "carrier_in" data' else data').
  assert (EF : (if ow then pop "carrier_out" data' else Ok data') = Ok fd).
  { unfold fd; destruct ow eqn:O; [apply PE; auto|reflexivity]. }
  assert (ET : (if ow then pop "carrier_in" data' else Ok data') = Ok td).
  { unfold td; destruct ow eqn:O; [apply PE; auto|reflexivity]. }
  rewrite EF, ET; cbn [bind]; fold (entry a b name fd td).
  assert (WF : wf (VDict fd)) by (unfold fd; destruct ow; [apply wf_del|]; exact W').
  assert (WT : wf (VDict td)) by (unfold td; destruct ow; [apply wf_del|]; exact W').
  pose proof (entry_wf a b name fd td WF WT) as WE.
  assert (DJ : disjoint_keys (VDict acc) (VDict (entry a b name fd td))).
  { intros k w k' w' H H'; destruct (FA _ _ H) as [n [l [q [-> I]]]]; destruct (entry_form _ _ _ _ _ _ _ NE H') as [n' [l' [q' [-> [<-|[]]]]]].
    intros [[r E]|[r E]]; simpl in E; injection E as _ E _; congruence. }
  destruct (union_strict_ok acc (entry a b name fd td) WA WE DJ) as [acc' [E [WN L]]].
  exists acc'; rewrite E; split; [reflexivity|split; [exact WN|split]].
  - intros k w H; destruct (union_disjoint_keys acc (entry a b name fd td) acc' WA WE WN DJ E L k w H) as [X|X]; [apply (WK k w X)|].
    destruct (entry_form _ _ _ _ _ _ _ NE X) as [n [l [q [-> [<-|[]]]]]]; exists n, name, q; simpl; auto.
  - intros p v Lv; rewrite (L p v Lv), (entry_leaf a b name fd td p v NE Lv).
    assert (DF : forall q, at_path (VDict fd) q v <-> at_path (VDict data) q v /\ kept_at data a b a q).
    { intros q; unfold fd, kept_at; destruct ow eqn:O.
      - rewrite (at_del "carrier_out" data' q v NDD' Lv); unfold data'.
        rewrite (at_del "link_to" _ q v (d_nodup_del _ _ NDD) Lv), (at_del "link_from" _ q v NDD Lv).
        pose proof (proj1 OS eq_refl) as O'; split; [intros [[[H1 H2] H3] H4]; repeat split; auto; intros _ X; congruence|].
        intros [H1 [H2 [H3 [H4 H5]]]]; repeat split; auto.
      - unfold data'; rewrite (at_del "link_to" _ q v (d_nodup_del _ _ NDD) Lv), (at_del "link_from" _ q v NDD Lv).
        assert (NO : ~ one_way data) by (intros X; apply OS in X; congruence); tauto. }
    assert (DT : forall q, at_path (VDict td) q v <-> at_path (VDict data) q v /\ kept_at data a b b q).
    { intros q; unfold td, kept_at; destruct ow eqn:O.
      - rewrite (at_del "carrier_in" data' q v NDD' Lv); unfold data'.
        rewrite (at_del "link_to" _ q v (d_nodup_del _ _ NDD) Lv), (at_del "link_from" _ q v NDD Lv).
        pose proof (proj1 OS eq_refl) as O'; split; [intros [[[H1 H2] H3] H4]; repeat split; auto; intros _ X; congruence|].
        intros [H1 [H2 [H3 [H4 H5]]]]; repeat split; auto.
      - unfold data'; rewrite (at_del "link_to" _ q v (d_nodup_del _ _ NDD) Lv), (at_del "link_from" _ q v NDD Lv).
        assert (NO : ~ one_way data) by (intros X; apply OS in X; congruence); tauto. }
    split.
    + intros [H|[q [[-> H]|[-> H]]]]; [left; exact H| |]; right; (split; [exact Ka|split; [exact Kb|]]).
      * exists a, q; apply DF in H; tauto.
      * exists b, q; apply DT in H; tauto.
    + intros [H|[_ [_ [n [q [-> [[->| ->] H]]]]]]]; [left; exact H| |]; right; exists q; [left|right]; (split; [reflexivity|]); [apply DF|apply DT]; tauto.
Qed.

Lemma add_links_ok known links : forall acc done,
  (forall name data, In (name, data) links -> exists a b, good data a b) ->
  NoDup (map fst links) -> (forall n, In n (map fst links) -> ~ In n done) ->
  wf (VDict acc) -> (forall k w, def_key (VDict acc) k w -> form done k) ->
  exists out, add_links known links acc = Ok out /\ wf (VDict out) /\
    (forall k w, def_key (VDict out) k w -> form (map fst links ++ done) k) /\
    forall p v, leaf v -> (at_path (VDict out) p v <-> at_path (VDict acc) p v \/
      exists name data a b n q, In (name, data) links /\ goes data a b /\ In a known /\ In b known /\
        p = n :: name :: q /\ (n = a \/ n = b) /\ at_path (VDict data) q v /\ kept_at data a b n q).
Proof.
  induction links as [|[name data] links IH]; intros acc done G ND DJ WA FA.
  - exists acc; split; [reflexivity|split; [exact WA|split; [exact FA|]]].
    intros p v L; split; [tauto|]; intros [H|[? [? [? [? [? [? [[] _]]]]]]]]; exact H.
  - simpl in ND; inversion ND as [|? ? NI ND']; subst.
    destruct (G name data (or_introl eq_refl)) as [a [b GD]].
    destruct (add_link_ok known name data acc a b done GD WA (DJ name (or_introl eq_refl)) FA) as [acc1 [E1 [W1 [F1 L1]]]].
    destruct (IH acc1 (name :: done)) as [out [E [W [F L]]]]; try assumption.
    + intros n d I; apply (G n d); right; exact I.
    + intros n I [<-|J]; [contradiction|exact (DJ n (or_intror I) J)].
    + exists out; simpl; rewrite E1; cbn [bind]; split; [exact E|split; [exact W|split]].
      * intros k w H; destruct (F k w H) as [n [l [q [-> I]]]]; exists n, l, q; split; [reflexivity|].
        simpl; apply in_app_or in I; destruct I as [I|[<-|I]]; [right; apply in_or_app; auto|auto|right; apply in_or_app; auto].
      * intros p v Lv; rewrite (L p v Lv), (L1 p v Lv).
        assert (UE : forall a' b', goes data a' b' -> a' = a /\ b' = b).
        { destruct GD as [WD [[GA GB] _]]; destruct (wf_inv _ WD) as [NDD _]; intros a' b' [HA HB].
          apply (d_in_get _ _ _ NDD) in GA; apply (d_in_get _ _ _ NDD) in GB; apply (d_in_get _ _ _ NDD) in HA; apply (d_in_get _ _ _ NDD) in HB.
          split; congruence. }
        split.
        -- intros [[H|[Ka [Kb [n [q H]]]]]|[nm [d [a' [b' [n [q [I H]]]]]]]].
           ++ left; exact H.
           ++ right; exists name, data, a, b, n, q; split; [left; reflexivity|]; destruct GD as [_ [GO _]]; tauto.
           ++ right; exists nm, d, a', b', n, q; split; [right; exact I|exact H].
        -- intros [H|[nm [d [a' [b' [n [q [[E'|I] H]]]]]]]].
           ++ left; left; exact H.
           ++ injection E' as <- <-; destruct H as [GO [Ka [Kb H]]]; destruct (UE a' b' GO) as [-> ->]; left; right; split; [exact Ka|split; [exact Kb|exists n, q; exact H]].
           ++ right; exists nm, d, a', b', n, q; auto.
Qed.
