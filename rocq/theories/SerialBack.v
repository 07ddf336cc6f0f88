(** Reading attributes back, and whole datasets. *)
From Verif Require Import Base BaseProofs AttrDictModel AttrDictSpec AttrDictProofs DefImports SerialModel SerialSpec SerialProofs.
Local Open Scope string_scope.
Local Open Scope list_scope.
Local Arguments String.eqb : simpl never.

(** ** The file *)
Definition storable (v : attr) : Prop := match v with ABool _ | ANone | ADict _ | ASet _ => False | _ => True end.
Lemma store_one_rep v : storable v -> (match v with AList l => Forall (fun i => exists s, i = IStr s) l | _ => True end) ->
  exists w, store_one v = Ok w /\ rep v w.
Proof.
  intros S F; destruct v as [s|z|b| |d|l|l|]; simpl in *; try contradiction; try (eexists; split; [reflexivity|left; reflexivity]).
  destruct l as [|i [|j l]].
  - eexists; split; [reflexivity|right; right; auto].
  - inversion F as [|? ? [s ->] _]; subst; eexists; split; [reflexivity|right; left; eauto].
  - inversion F as [|? ? [s ->] _]; subst; eexists; split; [reflexivity|left; reflexivity].
Qed.
Lemma store_ok p :
  (forall k v, In (k, v) p -> exists w, store_one v = Ok w) ->
  exists s, store p = Ok s /\ d_keys s = d_keys p /\
    forall k, match d_get k p, d_get k s with
              | Some v, Some w => store_one v = Ok w
              | None, None => True
              | _, _ => False
              end.
Proof.
  induction p as [|[k v] p IH]; intros H; simpl.
  - exists []; split; [reflexivity|split; [reflexivity|intros k; exact Logic.I]].
  - destruct (H k v (or_introl eq_refl)) as [w E]; rewrite E; simpl.
    destruct IH as [s [Es [K G]]]; [intros k' v' H'; apply (H k' v'); right; exact H'|].
    rewrite Es; simpl; eexists; split; [reflexivity|split].
    + simpl; unfold d_keys in *; simpl; f_equal; exact K.
    + intros j; simpl; destruct (String.eqb j k); [exact E|apply G].
Qed.

Section Yaml.
Variable dump : dict -> string.
Variable parse : string -> result dict.
Variable path_text : string -> option string.
Notation yaml := (yaml_ok dump parse path_text).
Notation serialise := (serialise dump).
Notation deserialise := (deserialise parse path_text).
Notation packed := (packed dump).
Notation pack := (pack dump).

Lemma pack_storable v : supported v -> storable (pack v) /\
  (match pack v with AList l => Forall (fun i => exists s, i = IStr s) l | _ => True end).
Proof. destruct 1; simpl; auto. Qed.
Lemma names_strings ns : Forall (fun i => exists s, i = IStr s) (map IStr ns).
Proof. apply Forall_forall; intros i H; apply in_map_iff in H; destruct H as [s [<- _]]; eauto. Qed.

Lemma store_packed a p : savable a -> packed eq a p -> exists s, store p = Ok s /\ packed rep a s.
Proof.
  intros SV K; destruct (savable_get a SV) as [ND SG].
  destruct K as [N KK KV [D [w1 [G1 [E1 L1]]]] [B [w2 [G2 [E2 L2]]]] [Nn [w3 [G3 [E3 L3]]]] [Sg [w4 [G4 [E4 L4]]]] [T [w5 [G5 [E5 L5]]]]]; subst w1 w2 w3 w4 w5.
  assert (NAM : forall ns, exists w, store_one (names ns) = Ok w /\ rep (names ns) w).
  { intros ns; apply store_one_rep; [exact Logic.I|apply names_strings]. }
  destruct (store_ok p) as [s [Es [Ks Gs]]].
  { intros k w I; apply d_in_get in I; [|exact N].
    destruct (in_dec string_dec k ["serialised_dicts"; "serialised_bools"; "serialised_nones"; "serialised_single_element_list"; "serialised_sets"]) as [R|NR].
    - simpl in R; destruct R as [<-|[<-|[<-|[<-|[<-|[]]]]]]; [rewrite G1 in I|rewrite G2 in I|rewrite G3 in I|rewrite G4 in I|rewrite G5 in I];
        injection I as <-; match goal with |- exists w, store_one (names ?l) = _ => destruct (NAM l) as [w [Ew _]]; eauto end.
    - destruct (KK k NR) as [[v Gv]|X]; [|congruence].
      destruct (KV k v Gv) as [w' [Gw <-]]; rewrite Gw in I; injection I as <-.
      destruct (pack_storable v (proj2 (SG k v Gv))) as [S1 S2]; destruct (store_one_rep _ S1 S2) as [w [Ew _]]; eauto. }
  exists s; split; [exact Es|].
  assert (GS : forall k v, d_get k p = Some v -> exists w, d_get k s = Some w /\ store_one v = Ok w).
  { intros k v G; specialize (Gs k); rewrite G in Gs; destruct (d_get k s) as [w|]; [eauto|contradiction]. }
  assert (GN : forall k ns, d_get k p = Some (names ns) -> exists w, d_get k s = Some w /\ rep (names ns) w).
  { intros k ns G; destruct (GS k _ G) as [w [Gw Ew]]; exists w; split; [exact Gw|].
    destruct (NAM ns) as [w' [Ew' R]]; rewrite Ew in Ew'; injection Ew' as <-; exact R. }
  constructor.
  - rewrite Ks; exact N.
  - intros k NR; destruct (KK k NR) as [H|H]; [left; exact H|right]; specialize (Gs k); rewrite H in Gs; destruct (d_get k s); [contradiction|reflexivity].
  - intros k v Gv; destruct (KV k v Gv) as [w' [Gw <-]]; destruct (GS k _ Gw) as [w [Gw' Ew]]; exists w; split; [exact Gw'|].
    destruct (pack_storable v (proj2 (SG k v Gv))) as [S1 S2]; destruct (store_one_rep _ S1 S2) as [w2 [Ew2 R]].
    rewrite Ew in Ew2; injection Ew2 as <-; exact R.
  - destruct (GN _ _ G1) as [w [? ?]]; exists D, w; auto.
  - destruct (GN _ _ G2) as [w [? ?]]; exists B, w; auto.
  - destruct (GN _ _ G3) as [w [? ?]]; exists Nn, w; auto.
  - destruct (GN _ _ G4) as [w [? ?]]; exists Sg, w; auto.
  - destruct (GN _ _ G5) as [w [? ?]]; exists T, w; auto.
Qed.

(** ** Reading *)
Lemma item_names_strs ns : item_names (map IStr ns) = Ok ns.
Proof. induction ns as [|n ns IH]; simpl; [reflexivity|rewrite IH; reflexivity]. Qed.
Lemma rep_names ns w : rep (names ns) w -> item_names (listify w) = Ok ns.
Proof.
  unfold names; intros [->|[[s [E ->]]|[E ->]]]; simpl.
  - apply item_names_strs.
  - destruct ns as [|n [|]]; try discriminate; injection E as ->; reflexivity.
  - destruct ns; [reflexivity|discriminate].
Qed.

Lemma undo_ok key f p ns w0 : NoDup (d_keys p) -> d_get key p = Some w0 -> rep (names ns) w0 -> NoDup ns -> ~ In key ns ->
  (forall n, In n ns -> exists v w, d_get n p = Some v /\ f v = Ok w) ->
  exists p', undo key f p = (p', None) /\ NoDup (d_keys p') /\ d_get key p' = None /\
    (forall k, k <> key -> ~ In k ns -> d_get k p' = d_get k p) /\
    (forall k v w, In k ns -> d_get k p = Some v -> f v = Ok w -> d_get k p' = Some w).
Proof.
  intros N G R NN NK H; unfold undo, pop_list; rewrite G, (rep_names _ _ R).
  destruct (each_ok f ns (d_del key p)) as [p' [E [N' [A B]]]]; [apply d_nodup_del; exact N|exact NN| |].
  { intros n Hn; destruct (H n Hn) as [v [w [Gv F]]]; exists v, w; split; [|exact F].
    rewrite d_get_del_other by (intros ->; contradiction); exact Gv. }
  exists p'; split; [exact E|split; [exact N'|split; [|split]]].
  - rewrite A by exact NK; apply d_get_del_same; exact N.
  - intros k Q I; rewrite A by exact I; apply d_get_del_other; exact Q.
  - intros k v w I Gv F; apply (B k v w I); [|exact F]; rewrite d_get_del_other by (intros ->; contradiction); exact Gv.
Qed.

Lemma read_dumped a k d : yaml a -> d_get k a = Some (ADict d) -> plain_dict d -> read_rich_yaml parse path_text (dump d) = Ok d.
Proof.
  intros Y G0 P; destruct (Y k d (d_get_in _ _ _ G0)) as [Y1 Y2]; unfold read_rich_yaml; rewrite Y2, Y1; cbn [bind]; rewrite plain_init by exact P; cbn [bind].
  destruct P as [_ [_ NI]]; destruct (d_get "import" d) eqn:G; [destruct (NI _ (d_get_in _ _ _ G)); reflexivity|reflexivity].
Qed.

Definition final (v w : attr) : Prop :=
  match v with ASet l => w = ASet (nodup item_eq_dec l) | _ => w = v end.
Lemma final_same v w : final v w -> same_value v w.
Proof.
  destruct v; simpl; intros ->; try constructor; intros i; rewrite nodup_In; tauto.
Qed.

(** [now a cur done]: the values at a stage; [f v] is the value expected for an original [v]. *)
Lemma deserialise_packed a p : savable a -> yaml a -> packed rep a p ->
  (forall k, d_get k a = Some (AList []) -> d_get k p = Some (AList [])) ->
  exists b, deserialise p = (b, None) /\ NoDup (d_keys b) /\
    (forall k, d_get k a = None -> d_get k b = None) /\
    forall k v, d_get k a = Some v -> exists w, d_get k b = Some w /\ final v w.
Proof.
  intros SV Y K EM; destruct (savable_get a SV) as [ND SG].
  assert (RN : forall k, reserved k -> d_get k a = None).
  { intros k R; destruct (d_get k a) as [v|] eqn:G; [exfalso; exact (proj1 (SG k v G) R)|reflexivity]. }
  destruct K as [N KK KV [D [w1 [G1 [E1 [ND1 L1]]]]] [B [w2 [G2 [E2 [ND2 L2]]]]] [Nn [w3 [G3 [E3 [ND3 L3]]]]] [Sg [w4 [G4 [E4 [ND4 L4]]]]] [T [w5 [G5 [E5 [ND5 L5]]]]]].
  assert (RI : forall q ns k, (forall k, In k ns <-> exists v, d_get k a = Some v /\ q v = true) -> reserved k -> ~ In k ns).
  { intros q ns k L R I; apply L in I; destruct I as [v [G _]]; rewrite RN in G by exact R; discriminate. }
  assert (IL : forall (q : attr -> bool) ns k v, (forall k, In k ns <-> exists v, d_get k a = Some v /\ q v = true) -> d_get k a = Some v ->
     (In k ns <-> q v = true)).
  { intros q ns k v L G; rewrite L; split; [intros [u [Gu P]]; rewrite G in Gu; injection Gu as <-; exact P|intros P; eauto]. }
  unfold SerialModel.deserialise.
  (* dictionaries *)
  destruct (undo_ok "serialised_dicts" (back_dict parse path_text) p D w1 N G1 E1 ND1) as [p1 [U1 [N1 [C1 [A1 B1]]]]].
  { apply (RI is_dict_attr); [exact L1|simpl; unfold reserved; simpl; tauto]. }
  { intros n Hn; apply L1 in Hn; destruct Hn as [v [Gv Pv]]; destruct v; try discriminate.
    destruct (KV n _ Gv) as [w [Gw R]]; destruct (SG n _ Gv) as [_ S]; inversion S; subst.
    destruct R as [->|[[s [X _]]|[X _]]]; try discriminate; simpl in Gw.
    exists (AStr (dump d)), (ADict d); split; [exact Gw|]; simpl; rewrite (read_dumped a _ d Y) by eassumption; reflexivity. }
  rewrite U1; unfold next at 1.
  assert (V1 : forall k v, d_get k a = Some v -> exists w, d_get k p1 = Some w /\ match v with ADict d => w = ADict d | _ => rep (pack v) w end).
  { intros k v G; destruct (KV k v G) as [w [Gw R]]; destruct (in_dec string_dec k D) as [I|NI].
    - pose proof (proj1 (IL _ _ k v L1 G) I) as P; destruct v; try discriminate.
      destruct R as [->|[[s [X _]]|[X _]]]; try discriminate; simpl in Gw; destruct (SG k _ G) as [_ S]; inversion S; subst.
      exists (ADict d); split; [|reflexivity]; apply (B1 k _ _ I Gw); simpl; rewrite (read_dumped a _ d Y) by eassumption; reflexivity.
    - exists w; rewrite A1; [|intros ->; rewrite RN in G by (unfold reserved; simpl; tauto); discriminate|exact NI]; split; [exact Gw|].
      destruct v; try exact R; exfalso; apply NI; apply (IL _ _ k _ L1 G); reflexivity. }
  assert (Z1 : forall k, k <> "serialised_dicts" -> d_get k a = None -> d_get k p1 = d_get k p).
  { intros k Q G; apply A1; [exact Q|]; intros I; apply L1 in I; destruct I as [v [Gv _]]; congruence. }
  (* booleans *)
  destruct (undo_ok "serialised_bools" back_bool p1 B w2 N1) as [p2 [U2 [N2 [C2 [A2 B2]]]]]; [|exact E2|exact ND2| | |].
  { rewrite Z1; [exact G2|discriminate|apply RN; unfold reserved; simpl; tauto]. }
  { apply (RI is_bool_attr); [exact L2|unfold reserved; simpl; tauto]. }
  { intros n Hn; apply L2 in Hn; destruct Hn as [v [Gv Pv]]; destruct (V1 n v Gv) as [w [Gw _]]; eexists; eexists; split; [exact Gw|reflexivity]. }
  rewrite U2; unfold next at 1.
  assert (V2 : forall k v, d_get k a = Some v -> exists w, d_get k p2 = Some w /\ match v with ADict _ | ABool _ => w = v | _ => rep (pack v) w end).
  { intros k v G; destruct (V1 k v G) as [w [Gw R]]; destruct (in_dec string_dec k B) as [I|NI].
    - pose proof (proj1 (IL _ _ k v L2 G) I) as P; destruct v; try discriminate.
      destruct R as [->|[[s [X _]]|[X _]]]; try discriminate; simpl in Gw.
      exists (ABool b); split; [|reflexivity]; apply (B2 k _ _ I Gw); destruct b; reflexivity.
    - exists w; rewrite A2; [|intros ->; rewrite RN in G by (unfold reserved; simpl; tauto); discriminate|exact NI]; split; [exact Gw|].
      destruct v; try exact R; exfalso; apply NI; apply (IL _ _ k _ L2 G); reflexivity. }
  assert (Z2 : forall k, k <> "serialised_dicts" -> k <> "serialised_bools" -> d_get k a = None -> d_get k p2 = d_get k p).
  { intros k Q1 Q2 G; rewrite A2; [apply Z1; assumption|exact Q2|]; intros I; apply L2 in I; destruct I as [v [Gv _]]; congruence. }
  (* None *)
  destruct (undo_ok "serialised_nones" back_none p2 Nn w3 N2) as [p3 [U3 [N3 [C3 [A3 B3]]]]]; [|exact E3|exact ND3| | |].
  { rewrite Z2; [exact G3|discriminate|discriminate|apply RN; unfold reserved; simpl; tauto]. }
  { apply (RI is_none_attr); [exact L3|unfold reserved; simpl; tauto]. }
  { intros n Hn; apply L3 in Hn; destruct Hn as [v [Gv Pv]]; destruct (V2 n v Gv) as [w [Gw _]]; eexists; eexists; split; [exact Gw|reflexivity]. }
  rewrite U3; unfold next at 1.
  assert (V3 : forall k v, d_get k a = Some v -> exists w, d_get k p3 = Some w /\ match v with ADict _ | ABool _ | ANone => w = v | _ => rep (pack v) w end).
  { intros k v G; destruct (V2 k v G) as [w [Gw R]]; destruct (in_dec string_dec k Nn) as [I|NI].
    - pose proof (proj1 (IL _ _ k v L3 G) I) as P; destruct v; try discriminate.
      exists ANone; split; [|reflexivity]; apply (B3 k _ _ I Gw); reflexivity.
    - exists w; rewrite A3; [|intros ->; rewrite RN in G by (unfold reserved; simpl; tauto); discriminate|exact NI]; split; [exact Gw|].
      destruct v; try exact R; exfalso; apply NI; apply (IL _ _ k _ L3 G); reflexivity. }
  assert (Z3 : forall k, k <> "serialised_dicts" -> k <> "serialised_bools" -> k <> "serialised_nones" -> d_get k a = None -> d_get k p3 = d_get k p).
  { intros k Q1 Q2 Q3 G; rewrite A3; [apply Z2; assumption|exact Q3|]; intros I; apply L3 in I; destruct I as [v [Gv _]]; congruence. }
  (* one-element lists *)
  destruct (undo_ok "serialised_single_element_list" back_single p3 Sg w4 N3) as [p4 [U4 [N4 [C4 [A4 B4]]]]]; [|exact E4|exact ND4| | |].
  { rewrite Z3; [exact G4|discriminate|discriminate|discriminate|apply RN; unfold reserved; simpl; tauto]. }
  { apply (RI is_single); [exact L4|unfold reserved; simpl; tauto]. }
  { intros n Hn; apply L4 in Hn; destruct Hn as [v [Gv Pv]]; destruct (V3 n v Gv) as [w [Gw _]]; eexists; eexists; split; [exact Gw|reflexivity]. }
  rewrite U4; unfold next at 1.
  assert (EM3 : forall k, d_get k a = Some (AList []) -> d_get k p4 = Some (AList [])).
  { intros k G; assert (NR : ~ reserved k) by apply (SG k _ G).
    assert (NN : forall q : attr -> bool, forall ns, (forall k, In k ns <-> exists v, d_get k a = Some v /\ q v = true) -> q (AList []) = false -> ~ In k ns).
    { intros q ns L Q I; apply (IL _ _ k _ L G) in I; congruence. }
    rewrite A4 by (first [intros ->; apply NR; unfold reserved; simpl; tauto|exact (NN _ _ L4 eq_refl)]).
    rewrite A3 by (first [intros ->; apply NR; unfold reserved; simpl; tauto|exact (NN _ _ L3 eq_refl)]).
    rewrite A2 by (first [intros ->; apply NR; unfold reserved; simpl; tauto|exact (NN _ _ L2 eq_refl)]).
    rewrite A1 by (first [intros ->; apply NR; unfold reserved; simpl; tauto|exact (NN _ _ L1 eq_refl)]).
    apply EM; exact G. }
  assert (V4 : forall k v, d_get k a = Some v -> exists w, d_get k p4 = Some w /\
     match v with ASet l => w = AList l \/ (l = [] /\ w = AEmpty) | _ => w = v end).
  { intros k v G; destruct (V3 k v G) as [w [Gw R]]; destruct (in_dec string_dec k Sg) as [I|NI].
    - pose proof (proj1 (IL _ _ k v L4 G) I) as P; destruct v as [| | | | |[|i [|]]|[|i [|]]|]; try discriminate;
        (exists (AList [i]); split; [apply (B4 k _ _ I Gw); unfold back_single; f_equal; f_equal|try reflexivity; left; reflexivity]);
        (destruct R as [->|[[s [X ->]]|[X _]]]; [reflexivity| |discriminate]); simpl in X; injection X as ->; reflexivity.
    - assert (Gw' : d_get k p4 = Some w).
      { rewrite A4; [exact Gw|intros ->; rewrite RN in G by (unfold reserved; simpl; tauto); discriminate|exact NI]. }
      exists w; split; [exact Gw'|].
      assert (NS : is_single v = false) by (destruct (is_single v) eqn:Q; [exfalso; apply NI; apply (IL _ _ k _ L4 G); exact Q|reflexivity]).
      destruct v as [s|z|b| |d|l|l|]; try exact R; try (destruct R as [->|[[s' [X _]]|[X _]]]; [reflexivity|discriminate|discriminate]).
      + destruct l as [|i [|j l]]; [|discriminate|].
        * rewrite (EM3 k G) in Gw'; injection Gw' as <-; reflexivity.
        * destruct R as [->|[[s [X _]]|[X _]]]; [reflexivity|discriminate|discriminate].
      + destruct l as [|i [|j l]]; [|discriminate|].
        * destruct R as [->|[[s [X _]]|[X ->]]]; [left; reflexivity|discriminate|right; auto].
        * destruct R as [->|[[s [X _]]|[X _]]]; [left; reflexivity|discriminate|discriminate]. }
  assert (Z4 : forall k, k <> "serialised_dicts" -> k <> "serialised_bools" -> k <> "serialised_nones" -> k <> "serialised_single_element_list" -> d_get k a = None -> d_get k p4 = d_get k p).
  { intros k Q1 Q2 Q3 Q4 G; rewrite A4; [apply Z3; assumption|exact Q4|]; intros I; apply L4 in I; destruct I as [v [Gv _]]; congruence. }
  (* sets *)
  destruct (undo_ok "serialised_sets" back_set p4 T w5 N4) as [p5 [U5 [N5 [C5 [A5 B5]]]]]; [|exact E5|exact ND5| | |].
  { rewrite Z4; [exact G5|discriminate|discriminate|discriminate|discriminate|apply RN; unfold reserved; simpl; tauto]. }
  { apply (RI is_set_attr); [exact L5|unfold reserved; simpl; tauto]. }
  { intros n Hn; apply L5 in Hn; destruct Hn as [v [Gv Pv]]; destruct (V4 n v Gv) as [w [Gw R]]; destruct v; try discriminate.
    exists w; destruct R as [->|[_ ->]]; eexists; (split; [exact Gw|reflexivity]). }
  exists p5; split; [exact U5|split; [exact N5|split]].
  - intros k G.
    assert (NT : ~ In k T) by (intros X; apply L5 in X; destruct X as [v [Gv _]]; congruence).
    assert (NS : ~ In k Sg) by (intros X; apply L4 in X; destruct X as [v [Gv _]]; congruence).
    assert (NN : ~ In k Nn) by (intros X; apply L3 in X; destruct X as [v [Gv _]]; congruence).
    assert (NB : ~ In k B) by (intros X; apply L2 in X; destruct X as [v [Gv _]]; congruence).
    destruct (string_dec k "serialised_sets") as [->|Q5]; [exact C5|rewrite A5 by assumption].
    destruct (string_dec k "serialised_single_element_list") as [->|Q4]; [exact C4|rewrite A4 by assumption].
    destruct (string_dec k "serialised_nones") as [->|Q3]; [exact C3|rewrite A3 by assumption].
    destruct (string_dec k "serialised_bools") as [->|Q2]; [exact C2|rewrite A2 by assumption].
    destruct (string_dec k "serialised_dicts") as [->|Q1]; [exact C1|rewrite Z1 by assumption].
    assert (NR : ~ reserved k) by (unfold reserved; simpl; intuition congruence).
    destruct (KK k NR) as [[v Gv]|X]; [congruence|exact X].
  - intros k v G; destruct (V4 k v G) as [w [Gw R]]; destruct (in_dec string_dec k T) as [I|NI].
    + pose proof (proj1 (IL _ _ k v L5 G) I) as P; destruct v; try discriminate.
      destruct R as [->|[-> ->]]; (eexists; split; [apply (B5 k _ _ I Gw); reflexivity|reflexivity]).
    + exists w; rewrite A5; [|intros ->; rewrite RN in G by (unfold reserved; simpl; tauto); discriminate|exact NI]; split; [exact Gw|].
      destruct v; try exact R; exfalso; apply NI; apply (IL _ _ k _ L5 G); reflexivity.
Qed.

Lemma same_from a b : NoDup (d_keys a) -> NoDup (d_keys b) ->
  (forall k, d_get k a = None -> d_get k b = None) ->
  (forall k v, d_get k a = Some v -> exists w, d_get k b = Some w /\ final v w) -> same_attrs a b.
Proof.
  intros NA NB H1 H2; split; [exact NB|split].
  - intros k v I; destruct (H2 k v (d_in_get _ _ _ NA I)) as [w [G F]]; exists w; split; [apply d_get_in; exact G|apply final_same; exact F].
  - intros k w I; apply d_in_get in I; [|exact NB]; destruct (d_get k a) as [v|] eqn:G; [exists v; apply d_get_in; exact G|].
    rewrite (H1 k G) in I; discriminate.
Qed.

(** Through a file. *)
Lemma file_round_trip a : savable a -> yaml a -> (forall k, ~ In (k, AList []) a) ->
  exists p s b, serialise a = (p, None) /\ store p = Ok s /\ deserialise s = (b, None) /\ same_attrs a b.
Proof.
  intros SV Y NE; destruct (serialise_packed dump a SV) as [p [E K]].
  destruct (store_packed a p SV K) as [s [Es Ks]].
  destruct (deserialise_packed a s SV Y Ks) as [b [Eb [N [H1 H2]]]].
  { intros k G; exfalso; apply (NE k), d_get_in; exact G. }
  exists p, s, b; split; [exact E|split; [exact Es|split; [exact Eb|]]].
  apply same_from; [apply SV|exact N|exact H1|exact H2].
Qed.

(** In memory. *)
Lemma packed_eq_rep a p : packed eq a p -> packed rep a p.
Proof.
  intros [N KK KV [D [w1 [G1 [E1 L1]]]] [B [w2 [G2 [E2 L2]]]] [Nn [w3 [G3 [E3 L3]]]] [Sg [w4 [G4 [E4 L4]]]] [T [w5 [G5 [E5 L5]]]]].
  constructor; auto.
  - intros k v G; destruct (KV k v G) as [w [Gw <-]]; exists (pack v); split; [exact Gw|left; reflexivity].
  - exists D, w1; repeat split; auto; try apply L1; left; auto.
  - exists B, w2; repeat split; auto; try apply L2; left; auto.
  - exists Nn, w3; repeat split; auto; try apply L3; left; auto.
  - exists Sg, w4; repeat split; auto; try apply L4; left; auto.
  - exists T, w5; repeat split; auto; try apply L5; left; auto.
Qed.
Lemma memory_round_trip a : savable a -> yaml a ->
  exists p b, serialise a = (p, None) /\ deserialise p = (b, None) /\ same_attrs a b.
Proof.
  intros SV Y; destruct (serialise_packed dump a SV) as [p [E K]].
  destruct (deserialise_packed a p SV Y (packed_eq_rep _ _ K)) as [b [Eb [N [H1 H2]]]].
  { intros k G; destruct (pk_vals _ _ _ _ K k _ G) as [w [Gw <-]]; exact Gw. }
  exists p, b; split; [exact E|split; [exact Eb|]].
  apply same_from; [apply SV|exact N|exact H1|exact H2].
Qed.

(** ** Datasets *)
Lemma each_attrs_ok (f : attrs -> attrs * option exn) (P : attrs -> attrs -> Prop) l :
  (forall k a, In (k, a) l -> exists b, f a = (b, None) /\ P a b) ->
  exists m, each_attrs f l = (m, None) /\ Forall2 (fun x y => fst x = fst y /\ P (snd x) (snd y)) l m.
Proof.
  induction l as [|[k a] l IH]; intros H; simpl; [exists []; split; [reflexivity|constructor]|].
  destruct (H k a (or_introl eq_refl)) as [b [E Pb]]; rewrite E.
  destruct IH as [m [Em Fm]]; [intros k' a' I; apply (H k' a'); right; exact I|].
  rewrite Em; eexists; split; [reflexivity|constructor; [split; [reflexivity|exact Pb]|exact Fm]].
Qed.
Lemma each_attrs_pairs l : (forall k a, In (k, a) l -> savable a /\ yaml a) ->
  exists m n, each_attrs serialise l = (m, None) /\ each_attrs deserialise m = (n, None) /\
    Forall2 (fun x y => fst x = fst y /\ same_attrs (snd x) (snd y)) l n.
Proof.
  induction l as [|[k a] l IH]; intros H; simpl; [exists [], []; split; [reflexivity|split; [reflexivity|constructor]]|].
  destruct (H k a (or_introl eq_refl)) as [SV Y]; destruct (memory_round_trip a SV Y) as [p [b [E [Eb S]]]].
  destruct IH as [m [n [Em [En F]]]]; [intros k' a' I; apply (H k' a'); right; exact I|].
  rewrite E, Em; eexists; eexists; split; [reflexivity|split; [simpl; rewrite Eb, En; reflexivity|constructor; auto]].
Qed.
Lemma each_attrs_file l : (forall k a, In (k, a) l -> savable a /\ yaml a /\ forall k, ~ In (k, AList []) a) ->
  exists m s n, each_attrs serialise l = (m, None) /\ store_all m = Ok s /\ each_attrs deserialise s = (n, None) /\
    Forall2 (fun x y => fst x = fst y /\ same_attrs (snd x) (snd y)) l n.
Proof.
  induction l as [|[k a] l IH]; intros H; simpl; [exists [], [], []; repeat split; constructor|].
  destruct (H k a (or_introl eq_refl)) as [SV [Y NE]]; destruct (file_round_trip a SV Y NE) as [p [s [b [E [Es [Eb S]]]]]].
  destruct IH as [m [t [n [Em [Et [En F]]]]]]; [intros k' a' I; apply (H k' a'); right; exact I|].
  rewrite E, Em; eexists; eexists; eexists; split; [reflexivity|split; [|split]].
  - simpl; rewrite Es; cbn [bind]; rewrite Et; reflexivity.
  - simpl; rewrite Eb, En; reflexivity.
  - constructor; auto.
Qed.

Lemma same_attrs_refl a : NoDup (map fst a) -> same_attrs a a.
Proof. intros N; split; [exact N|split]; intros k v I; exists v; [split; [exact I|constructor]|exact I]. Qed.

Definition with_kwargs (kw a : attrs) : attrs := fold_left (fun a kv => d_set (fst kv) (snd kv) a) kw a.

Lemma save_unchanged kw written ds :
  savable (with_kwargs kw (top ds)) -> NoDup (map fst (top ds)) ->
  (forall k a, In (k, a) (vars ds) -> savable a /\ yaml a) -> (forall k a, In (k, a) (coords ds) -> savable a /\ yaml a) ->
  exists ds', save_netcdf dump parse path_text kw written ds = (ds', written) /\ same_dataset ds ds'.
Proof.
  intros ST NT SV SC; unfold save_netcdf; fold (with_kwargs kw (top ds)).
  destruct (serialise_packed dump _ ST) as [p [E _]]; rewrite E.
  destruct (each_attrs_pairs _ SV) as [m [n [Em [En Fn]]]]; rewrite Em.
  destruct (each_attrs_pairs _ SC) as [m' [n' [Em' [En' Fn']]]]; rewrite Em', En, En'.
  eexists; split; [reflexivity|split; [apply same_attrs_refl; exact NT|split; assumption]].
Qed.

Lemma file_dataset kw ds :
  savable (with_kwargs kw (top ds)) -> yaml (with_kwargs kw (top ds)) -> (forall k, ~ In (k, AList []) (with_kwargs kw (top ds))) ->
  (forall k a, In (k, a) (vars ds) -> savable a /\ yaml a /\ forall k, ~ In (k, AList []) a) ->
  coords ds = [] ->
  exists f ds', file_of dump kw ds = Ok f /\ read_netcdf parse path_text f = Ok ds' /\
    same_dataset {| top := with_kwargs kw (top ds); vars := vars ds; coords := [] |} ds'.
Proof.
  intros ST Y NE SV SC; unfold file_of; fold (with_kwargs kw (top ds)).
  destruct (file_round_trip _ ST Y NE) as [p [s [b [E [Es [Eb S]]]]]].
  destruct (each_attrs_file _ SV) as [m [t [n [Em [Et [En F]]]]]].
  rewrite E, Em, SC; simpl each_attrs; rewrite Es; cbn [bind]; rewrite Et; cbn [bind store_all].
  eexists; eexists; split; [reflexivity|]; unfold read_netcdf; simpl; rewrite Eb, En; split; [reflexivity|].
  split; [exact S|split; [exact F|constructor]].
Qed.
End Yaml.
