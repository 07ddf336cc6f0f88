(** C24 and C25: technologies at nodes and links between nodes. *)
From Verif Require Import Base BaseProofs AttrDictModel AttrDictSpec AttrDictProofs AttrDictUnion AttrDictMore AttrDictLayers NodeModel NodeSpec NodeProofs NodeLinks DefCheck.
Local Open Scope string_scope.
Local Open Scope list_scope.
Local Arguments String.eqb : simpl never.

(** * C25 *)
Lemma at_key (d : dict) k v : at_path (VDict d) [k] v <-> In (k, v) d.
Proof.
  split.
  - intros H; inversion H as [|a w it p x I A]; subst; inversion A; subst; exact I.
  - intros I; eapply at_below; [exact I|constructor].
Qed.

Lemma inherit_tech_sources techs tables name item node tech table :
  NoDup (d_keys techs) -> NoDup (d_keys tables) ->
  sources techs tables name item node tech table -> clean node tech table ->
  exists d, inherit_tech techs tables name item = Ok d /\ wf (VDict d) /\
    (forall q v, leaf v -> (at_path (VDict d) q v <-> inherited node tech table q v)) /\
    (active d = false <-> inactive node tech table).
Proof.
  intros NT NB [HI HT HB] [WN [WT [WB [C NA]]]].
  assert (DO : def_of tables name table /\ ~ In (name, VNone) tables).
  { destruct HB as [[N ->]|I]; [split; [apply do_absent; exact N|apply N]|split; [apply do_dict; exact I|]].
    intros J; apply (d_in_get _ _ _ NB) in I; apply (d_in_get _ _ _ NB) in J; congruence. }
  destruct (inherit_tech_ok techs tables name item node tech table NT NB HI HT (proj1 DO) (proj2 DO) WN WT WB C) as [d [E [W [L H]]]].
  exists d; split; [exact E|split; [exact W|split; [exact L|]]].
  rewrite (active_spec d W); split.
  - intros [v [I F]]; destruct (is_dict v) eqn:D.
    + exfalso.
      assert (S : exists u, leaf u /\ inherited node tech table ["active"] u).
      { assert (G : forall (X : dict), (forall x, ~ In ("active", VDict x) X) -> In "active" (d_keys X) -> sets X ["active"]).
        { intros X NX J; apply in_map_iff in J; destruct J as [[a u] [Ea J]]; simpl in Ea; subst a; exists u; split; [|apply at_key; exact J].
          destruct u; try reflexivity; exfalso; exact (NX _ J). }
        destruct (sets_leaf_dec node ["active"] WN) as [[u [Lu Au]]|N1]; [exists u; split; [exact Lu|left; exact Au]|].
        destruct (sets_leaf_dec tech ["active"] WT) as [[u [Lu Au]]|N2]; [exists u; split; [exact Lu|right; left; auto]|].
        destruct (H "active") as [J|[J|J]]; [apply in_map_iff; exists ("active", v); auto| | |].
        - exfalso; apply N1, (G node); [intros x; apply (NA x)|exact J].
        - exfalso; apply N2, (G tech); [intros x; apply (NA x)|exact J].
        - destruct (G table) as [u [Lu Au]]; [intros x; apply (NA x)|exact J|]; exists u; split; [exact Lu|right; right; auto]. }
      destruct S as [u [Lu U]]; apply (L ["active"] u Lu), at_key in U.
      destruct (wf_inv _ W) as [ND _]; apply (d_in_get _ _ _ ND) in U; apply (d_in_get _ _ _ ND) in I.
      unfold leaf in Lu; congruence.
    + exists v; split; [exact F|split; [exact D|]]; apply (L _ _ D), at_key; exact I.
  - intros [v [F [Lv I]]]; exists v; split; [apply at_key, L; assumption|exact F].
Qed.

(** Each setting of a technology at a node is the node's, else the technology's, else that of the
    data tables, and inactive technologies do not appear.  Partial: the three sources
    must not collide in shape; see the refutation. *)
Theorem C25_inherited_partial techs tables items :
  NoDup (d_keys techs) -> NoDup (d_keys tables) -> NoDup (d_keys items) ->
  (forall name item, In (name, item) items ->
     exists node tech table, sources techs tables name item node tech table /\ clean node tech table) ->
  exists out off, inherit_techs techs tables items = Ok (out, off) /\
    forall name item node tech table, In (name, item) items ->
      sources techs tables name item node tech table -> clean node tech table ->
      (inactive node tech table -> In name off /\ forall d, ~ In (name, d) out) /\
      (~ inactive node tech table -> exists d, In (name, d) out /\ ~ In name off /\
          forall q v, leaf v -> (at_path (VDict d) q v <-> inherited node tech table q v)).
Proof.
  intros NT NB NI H.
  assert (E : exists r, inherit_techs techs tables items = Ok r).
  { clear NI; induction items as [|[n i] rest IH]; [eexists; reflexivity|]; simpl.
    destruct (H n i (or_introl eq_refl)) as [node [tech [table [S C]]]].
    destruct (inherit_tech_sources _ _ _ _ _ _ _ NT NB S C) as [d [E _]]; rewrite E; cbn [bind].
    destruct (IH (fun n' i' I => H n' i' (or_intror I))) as [r ->]; eexists; reflexivity. }
  destruct E as [[out off] E]; exists out, off; split; [exact E|].
  destruct (inherit_techs_split _ _ _ _ _ E) as [H1 [H2 H3]].
  intros name item node tech table I S C.
  destruct (inherit_tech_sources _ _ _ _ _ _ _ NT NB S C) as [d [ED [_ [L A]]]].
  assert (U : forall i, In (name, i) items -> i = item).
  { intros i J; apply (d_in_get _ _ _ NI) in J; apply (d_in_get _ _ _ NI) in I; congruence. }
  split; intros X.
  - apply A in X; split; [apply H2; exists item, d; auto|].
    intros d' J; apply H1 in J; destruct J as [i [J [Y Z]]]; rewrite (U i J) in Y; congruence.
  - exists d; split; [apply H1; exists item; split; [exact I|split; [exact ED|]]|split; [|exact L]].
    + destruct (active d) eqn:AD; [reflexivity|exfalso; apply X, A; reflexivity].
    + intros J; apply H2 in J; destruct J as [i [d' [J [Y Z]]]]; rewrite (U i J) in Y; apply X, A; congruence.
Qed.
Print Assumptions C25_inherited_partial.

(** A technology that is not defined at the top level is refused. *)
Theorem C25_undefined_tech techs tables items name v :
  In (name, v) items -> (forall w, ~ In (name, w) techs) -> exists e, inherit_techs techs tables items = Err e.
Proof. apply inherit_techs_undefined. Qed.
Print Assumptions C25_undefined_tech.

(** Inactive nodes contribute nothing; all others are as they were defined. *)
Theorem C25_nodes items out off : inherit_nodes items = Ok (out, off) ->
  Forall (fun ni => wf (snd ni)) items ->
  (forall n d, In (n, d) out <-> exists v, In (n, v) items /\ (v = VNone /\ d = [] \/ v = VDict d) /\ forall x, In ("active", x) d -> ~ falsy x) /\
  (forall n, In n off <-> exists d x, In (n, VDict d) items /\ In ("active", x) d /\ falsy x).
Proof.
  revert out off; induction items as [|[m v] rest IH]; intros out off E F.
  - injection E as <- <-; split; intros; simpl; [split; [tauto|intros [? [[] _]]]|split; [tauto|intros [? [? [[] _]]]]].
  - inversion F as [|? ? W F']; subst; simpl in W, E; destruct (as_dict v) as [d0|] eqn:D; [|discriminate]; cbn [bind] in E.
    destruct (inherit_nodes rest) as [[o f]|]; [|discriminate]; cbn [bind fst snd] in E; destruct (IH o f eq_refl F') as [H1 H2].
    assert (DV : v = VNone /\ d0 = [] \/ v = VDict d0) by (destruct v; simpl in D; try discriminate; injection D as <-; auto).
    assert (W0 : wf (VDict d0)) by (destruct DV as [[_ ->]|V]; [apply wf_nil|rewrite <- V; exact W]).
    assert (DU : forall d, v = VNone /\ d = [] \/ v = VDict d -> d = d0) by (intros d; destruct DV as [[-> ->]| ->]; intros [[X ->]|X]; congruence).
    pose proof (active_spec d0 W0) as A.
    destruct (active d0) eqn:AD; injection E as <- <-; split.
    + intros n d; simpl; rewrite H1; split.
      * intros [X|[w [I R]]]; [injection X as <- <-|exists w; auto].
        exists v; split; [auto|split; [exact DV|]]; intros x I N; assert (X : true = false) by (apply A; exists x; auto); discriminate.
      * intros [w [[X|I] [R1 R2]]]; [injection X as <- <-; left; f_equal; symmetry; apply DU; exact R1|right; exists w; auto].
    + intros n; rewrite H2; split.
      * intros [d [x [I R]]]; exists d, x; simpl; auto.
      * intros [d [x [[X|I] R]]]; [|exists d, x; auto].
        injection X as <- ->; exfalso; rewrite (DU d) in R by auto; assert (X : true = false) by (apply A; exists x; auto); discriminate.
    + intros n d; simpl; rewrite H1; split.
      * intros [w [I R]]; exists w; auto.
      * intros [w [[X|I] [R1 R2]]]; [|exists w; auto]; injection X as <- <-; exfalso.
        rewrite (DU d R1) in R2; destruct (proj1 A eq_refl) as [x [I N]]; exact (R2 x I N).
    + intros n; simpl; rewrite H2; split.
      * intros [<-|[d [x [I R]]]]; [|exists d, x; auto].
        destruct (proj1 A eq_refl) as [x [I N]]; exists d0, x; split; [left; f_equal|auto].
        destruct DV as [[-> ->]|V]; [destruct I|exact V].
      * intros [d [x [[X|I] R]]]; [injection X as <- ->; auto|right; exists d, x; auto].
Qed.
Print Assumptions C25_nodes.

(** Links and base technologies cannot be defined at nodes. *)
Theorem C25_node_errors techs tables items links :
  (forall name d, In (name, VDict d) items -> In "base_tech" (d_keys d) ->
     (forall x, In ("active", x) d -> ~ falsy x) -> wf (VDict d) -> techs_at_node techs tables items links = Err EModel) /\
  (forall out off name d, inherit_techs techs tables items = Ok (out, off) -> In (name, d) out ->
     In ("base_tech", VStr "transmission") d -> NoDup (d_keys d) ->
     techs_at_node techs tables items links = Err EModel).
Proof.
  split.
  - intros name d I B A W; unfold techs_at_node.
    assert (X : existsb (fun ni : string * val => base_tech_at_node (snd ni)) items = true); [|rewrite X; reflexivity].
    apply existsb_exists; exists (name, VDict d); split; [exact I|]; simpl; apply andb_true_iff; split; [|apply d_mem_keys; exact B].
    destruct (active d) eqn:AD; [reflexivity|]; apply (active_spec d W) in AD; destruct AD as [x [J F]]; destruct (A x J F).
  - intros out off name d E I B ND; unfold techs_at_node; destruct (existsb _ items); [reflexivity|]; rewrite E; cbn [bind fst].
    assert (X : existsb (fun nd : string * dict => is_link (snd nd)) out = true); [|rewrite X; reflexivity].
    apply existsb_exists; exists (name, d); split; [exact I|]; unfold is_link; cbn [snd]; rewrite (d_in_get _ _ _ ND B); reflexivity.
Qed.
Print Assumptions C25_node_errors.

Definition ex_techs : dict :=
  [("pv", VDict [("base_tech", VStr "supply"); ("flow_cap_max", VInt 10); ("lifetime", VInt 25)]);
   ("wind", VDict [("base_tech", VStr "supply"); ("active", VBool false)]);
   ("cable", VDict [("base_tech", VStr "transmission"); ("link_from", VStr "A"); ("link_to", VStr "B");
                    ("one_way", VBool true); ("carrier_in", VStr "power"); ("carrier_out", VStr "power")]);
   ("wire", VDict [("base_tech", VStr "transmission"); ("link_from", VStr "B"); ("link_to", VStr "A");
                   ("carrier_in", VStr "power"); ("carrier_out", VStr "power")]);
   ("pipe", VDict [("base_tech", VStr "transmission"); ("link_from", VStr "B"); ("link_to", VStr "C");
                   ("carrier_in", VStr "gas"); ("carrier_out", VStr "gas")])].
Definition ex_tables : dict := [("pv", VDict [("lifetime", VInt 20); ("color", VStr "red")])].
Definition ex_items : dict := [("pv", VDict [("flow_cap_max", VInt 5)]); ("wind", VNone)].
Example C25_example : inherit_techs ex_techs ex_tables ex_items =
  Ok ([("pv", [("lifetime", VInt 25); ("color", VStr "red"); ("base_tech", VStr "supply"); ("flow_cap_max", VInt 5)])], ["wind"]).
Proof. vm_compute; reflexivity. Qed.
Example C25_example_sources : forall name item, In (name, item) ex_items ->
  exists node tech table, sources ex_techs ex_tables name item node tech table /\ clean node tech table.
Proof.
  intros name item [E|[E|[]]]; injection E as <- <-.
  - eexists; eexists; eexists; split.
    + split; [right; reflexivity|left; reflexivity|right; left; reflexivity].
    + split; [apply wfb_wf; reflexivity|split; [apply wfb_wf; reflexivity|split; [apply wfb_wf; reflexivity|split]]].
      * apply compatibleb_ok; [apply wf_all_ok; reflexivity|reflexivity].
      * intros d; simpl; repeat split; intros H; repeat (destruct H as [H|H]; [discriminate|]); exact H.
  - eexists; eexists; eexists; split.
    + split; [left; split; reflexivity|right; left; reflexivity|left; split; [|reflexivity]].
      intros v [H|[]]; discriminate.
    + split; [apply wfb_wf; reflexivity|split; [apply wfb_wf; reflexivity|split; [apply wfb_wf; reflexivity|split]]].
      * apply compatibleb_ok; [apply wf_all_ok; reflexivity|reflexivity].
      * intros d; simpl; repeat split; intros H; repeat (destruct H as [H|H]; [discriminate|]); exact H.
Qed.

(** A node cannot replace a plain value of the technology by an indexed one: the definition is
    refused with an error. *)
Theorem C25_indexed_override_refuted :
  exists techs tables items name item node tech table,
    In (name, item) items /\ sources techs tables name item node tech table /\
    wf (VDict node) /\ wf (VDict tech) /\ inherit_techs techs tables items = Err EKey.
Proof.
  exists ex_techs, [], [("pv", VDict [("flow_cap_max", VDict [("data", VInt 5); ("index", VStr "power"); ("dims", VStr "carriers")])])],
    "pv".
  eexists; eexists; eexists; eexists; split; [left; reflexivity|split].
  - split; [right; reflexivity|left; reflexivity|left; split; [intros v []|reflexivity]].
  - split; [apply wfb_wf; reflexivity|split; [apply wfb_wf; reflexivity|vm_compute; reflexivity]].
Qed.
Print Assumptions C25_indexed_override_refuted.

(** * C24 *)
Lemma nodup_out techs tables items out off : inherit_techs techs tables items = Ok (out, off) ->
  NoDup (map fst items) -> NoDup (map fst out).
Proof.
  revert out off; induction items as [|[n i] rest IH]; intros out off E ND; [injection E as <- <-; constructor|].
  simpl in E; destruct (inherit_tech techs tables n i) as [d|]; [|discriminate]; cbn [bind] in E.
  destruct (inherit_techs techs tables rest) as [[o f]|] eqn:ER; [|discriminate]; cbn [bind fst snd] in E.
  inversion ND as [|? ? NI ND']; subst; specialize (IH o f eq_refl ND').
  destruct (active d); injection E as <- <-; [|exact IH]; simpl; constructor; [|exact IH].
  intros J; apply in_map_iff in J; destruct J as [[m x] [Em J]]; simpl in Em; subst m.
  apply (inherit_techs_split _ _ _ _ _ ER) in J; destruct J as [j [J _]]; apply NI, in_map_iff; exists (n, j); auto.
Qed.

(** The settings found in the node format are exactly those of the active links whose two nodes are
    known, at their two nodes.  Partial: the two nodes of a link must differ. *)
Theorem C24_links_partial techs tables known out off :
  inherit_techs techs tables techs = Ok (out, off) -> NoDup (d_keys techs) ->
  (forall name d, In (name, d) out -> NoDup (d_keys d)) ->
  (forall name d, In (name, d) out -> In ("base_tech", VStr "transmission") d ->
     exists a b, wf (VDict d) /\ goes d a b /\ a <> b /\
       (one_way d -> In "carrier_in" (d_keys d) /\ In "carrier_out" (d_keys d))) ->
  exists links, links_to_nodes techs tables known = Ok links /\
    forall p v, leaf v -> (at_path (VDict links) p v <->
      exists name d a b n q, In (name, d) out /\ In ("base_tech", VStr "transmission") d /\ goes d a b /\
        In a known /\ In b known /\ p = n :: name :: q /\ (n = a \/ n = b) /\
        at_path (VDict d) q v /\ kept_at d a b n q).
Proof.
  intros E ND NK G; unfold links_to_nodes; rewrite E; cbn [bind fst].
  set (ls := filter (fun nd : string * dict => is_link (snd nd)) out).
  assert (LI : forall name d, In (name, d) ls <-> In (name, d) out /\ In ("base_tech", VStr "transmission") d).
  { intros name d; unfold ls; rewrite filter_In; cbn [snd]; unfold is_link; split; intros [I X]; (split; [exact I|]).
    - destruct (d_get "base_tech" d) as [[| | |s| |]|] eqn:B; try discriminate; apply String.eqb_eq in X; subst s; apply d_get_in; exact B.
    - rewrite (d_in_get _ _ _ (NK name d I) X); reflexivity. }
  destruct (add_links_ok known ls [] []) as [links [EL [_ [_ L]]]].
  - intros name d I; apply LI in I; destruct (G name d (proj1 I) (proj2 I)) as [a [b H]]; exists a, b; exact H.
  - pose proof (nodup_out _ _ _ _ _ E ND) as NO; clear - NO; unfold ls; induction out as [|[n d] out IH]; [constructor|].
    simpl in *; inversion NO; subst; destruct (is_link d); [|auto]; simpl; constructor; [|auto].
    intros J; apply in_map_iff in J; destruct J as [x [Ex J]]; apply filter_In in J; apply H1, in_map_iff; exists x; tauto.
  - intros n _ [].
  - apply wf_nil.
  - intros k w [N [A _]]; inversion A as [|a x it r y I A']; subst; [congruence|destruct I].
  - exists links; split; [exact EL|]; intros p v Lv; rewrite (L p v Lv); split.
    + intros [A|[name [d [a [b [n [q [I H]]]]]]]]; [exfalso; inversion A as [|a x it r y I A']; subst; [discriminate Lv|destruct I]|].
      apply LI in I; exists name, d, a, b, n, q; tauto.
    + intros [name [d [a [b [n [q [I [B H]]]]]]]]; right; exists name, d, a, b, n, q; rewrite LI; tauto.
Qed.
Print Assumptions C24_links_partial.

(** So a two-way link has its carriers at both nodes; a one-way link has no outflow where it
    starts and no inflow where it ends. *)
Theorem C24_directions_partial techs tables known out off name d a b ci co links :
  inherit_techs techs tables techs = Ok (out, off) -> NoDup (d_keys techs) ->
  (forall name d, In (name, d) out -> NoDup (d_keys d)) ->
  (forall name d, In (name, d) out -> In ("base_tech", VStr "transmission") d ->
     exists a b, wf (VDict d) /\ goes d a b /\ a <> b /\
       (one_way d -> In "carrier_in" (d_keys d) /\ In "carrier_out" (d_keys d))) ->
  links_to_nodes techs tables known = Ok links ->
  In (name, d) out -> In ("base_tech", VStr "transmission") d -> goes d a b -> In a known -> In b known ->
  In ("carrier_in", ci) d -> In ("carrier_out", co) d -> leaf ci -> leaf co ->
  let has n k v := at_path (VDict links) [n; name; k] v in
  has a "carrier_in" ci /\ has b "carrier_out" co /\
  (~ one_way d -> has a "carrier_out" co /\ has b "carrier_in" ci) /\
  (one_way d -> (forall v, leaf v -> ~ has a "carrier_out" v) /\ (forall v, leaf v -> ~ has b "carrier_in" v)).
Proof.
  intros E ND NK G EL I B GO KA KB CI CO LI LO has.
  destruct (C24_links_partial techs tables known out off E ND NK G) as [links' [EL' L]].
  rewrite EL in EL'; injection EL' as <-.
  destruct (G name d I B) as [a' [b' [W [GO' [NE _]]]]].
  destruct (wf_inv _ W) as [NDD _].
  assert (UE : forall x y, goes d x y -> x = a /\ y = b).
  { intros x y [HA HB]; destruct GO as [GA GB].
    apply (d_in_get _ _ _ NDD) in GA; apply (d_in_get _ _ _ NDD) in GB; apply (d_in_get _ _ _ NDD) in HA; apply (d_in_get _ _ _ NDD) in HB.
    split; congruence. }
  destruct (UE _ _ GO') as [-> ->].
  pose proof (nodup_out _ _ _ _ _ E ND) as NO.
  assert (UD : forall d', In (name, d') out -> d' = d).
  { intros d' I'; apply (d_in_get (V := dict) _ _ _ NO) in I'; pose proof (d_in_get (V := dict) _ _ _ NO I) as I2; congruence. }
  assert (HAS : forall n k v, leaf v -> (has n k v <-> (n = a \/ n = b) /\ In (k, v) d /\ kept_at d a b n [k])).
  { intros n k v Lv; unfold has; rewrite (L _ _ Lv); split.
    - intros [nm [d' [x [y [n' [q [I' [B' [GX [_ [_ [EP [NN [A K]]]]]]]]]]]]]]; injection EP as <- <- <-.
      rewrite (UD d' I') in *; destruct (UE _ _ GX) as [-> ->]; apply at_key in A; auto.
    - intros [NN [A K]]; exists name, d, a, b, n, [k]; apply at_key in A.
      split; [exact I|split; [exact B|split; [exact GO|split; [exact KA|split; [exact KB|split; [reflexivity|auto]]]]]]. }
  split; [apply HAS; [exact LI|]; split; [auto|split; [exact CI|]]|].
  { repeat split; simpl; try discriminate; intros _ X; congruence. }
  split; [apply HAS; [exact LO|]; split; [auto|split; [exact CO|]]|].
  { repeat split; simpl; try discriminate; intros _ X; congruence. }
  split; intros O.
  - split; apply HAS; try assumption; (split; [auto|split; [assumption|]]); repeat split; simpl; try discriminate; intros X; contradiction.
  - split; intros v Lv H; apply HAS in H; try exact Lv; destruct H as [_ [_ [_ [_ [H1 H2]]]]]; [apply (H1 O eq_refl)|apply (H2 O eq_refl)]; reflexivity.
Qed.
Print Assumptions C24_directions_partial.

Example C24_example : links_to_nodes ex_techs ex_tables ["A"; "B"] =
  Ok [("A", VDict [("cable", VDict [("base_tech", VStr "transmission"); ("one_way", VBool true); ("carrier_in", VStr "power")]);
                   ("wire", VDict [("base_tech", VStr "transmission"); ("carrier_in", VStr "power"); ("carrier_out", VStr "power")])]);
      ("B", VDict [("cable", VDict [("base_tech", VStr "transmission"); ("one_way", VBool true); ("carrier_out", VStr "power")]);
                   ("wire", VDict [("base_tech", VStr "transmission"); ("carrier_in", VStr "power"); ("carrier_out", VStr "power")])])].
Proof. vm_compute; reflexivity. Qed.
Example C24_example_hypotheses :
  exists out off, inherit_techs ex_techs ex_tables ex_techs = Ok (out, off) /\ NoDup (d_keys ex_techs) /\
  (forall name d, In (name, d) out -> NoDup (d_keys d)) /\
  (forall name d, In (name, d) out -> In ("base_tech", VStr "transmission") d ->
     exists a b, wf (VDict d) /\ goes d a b /\ a <> b /\
       (one_way d -> In "carrier_in" (d_keys d) /\ In "carrier_out" (d_keys d))).
Proof.
  eexists; eexists; split; [vm_compute; reflexivity|].
  assert (K : forall l, wfb (VDict l) = true -> NoDup (d_keys l)) by (intros l H; apply wfb_wf in H; apply (wf_inv l H)).
  split; [apply K; reflexivity|split].
  - intros name d [E|[E|[E|[E|[]]]]]; injection E as <- <-; apply K; reflexivity.
  - intros name d [E|[E|[E|[E|[]]]]]; injection E as <- <-; intros B.
    + exfalso; simpl in B; repeat (destruct B as [B|B]; [discriminate|]); exact B.
    + exists "A", "B"; split; [apply wfb_wf; reflexivity|split; [split; simpl; tauto|split; [discriminate|intros _; simpl; tauto]]].
    + exists "B", "A"; split; [apply wfb_wf; reflexivity|split; [split; simpl; tauto|split; [discriminate|intros _; simpl; tauto]]].
    + exists "B", "C"; split; [apply wfb_wf; reflexivity|split; [split; simpl; tauto|split; [discriminate|intros _; simpl; tauto]]].
Qed.

(** A one-way link from a node to itself is not refused; it has no inflow at all. *)
Theorem C24_self_link_refuted :
  exists techs links name a, links_to_nodes techs [] [a] = Ok links /\
    (exists d, In (name, VDict d) techs /\ goes d a a /\ one_way d /\ In ("carrier_in", VStr "power") d) /\
    (exists v, at_path (VDict links) [a; name; "carrier_out"] v) /\
    forall n v, ~ at_path (VDict links) [n; name; "carrier_in"] v.
Proof.
  eexists [("loop", VDict [("base_tech", VStr "transmission"); ("link_from", VStr "A"); ("link_to", VStr "A");
                    ("one_way", VBool true); ("carrier_in", VStr "power"); ("carrier_out", VStr "power")])].
  eexists; exists "loop", "A"; split; [vm_compute; reflexivity|split; [|split]].
  - eexists; split; [left; reflexivity|split; [split; simpl; tauto|split; [|simpl; tauto]]].
    exists (VBool true); split; [simpl; tauto|]; intros [X|[X|[X|[X|[X|X]]]]]; discriminate.
  - eexists; eapply at_below; [left; reflexivity|eapply at_below; [left; reflexivity|apply at_key; simpl; right; right; left; reflexivity]].
  - intros n v H; inversion H as [|a x it r y J H1]; subst; destruct J as [X|[]]; injection X as <- <-.
    inversion H1 as [|a x it r y J H2]; subst; destruct J as [X|[]]; injection X as <-; apply at_key in H2; simpl in H2.
    repeat (destruct H2 as [H2|H2]; [discriminate|]); exact H2.
Qed.
Print Assumptions C24_self_link_refuted.
