(** Property theorems C01 - C06 and C57: nested attribute dictionaries. *)
From Verif Require Import Base AttrDictModel AttrDictSpec AttrDictProofs AttrDictUnion AttrDictMore AttrDictLayers DefCheck.
Local Open Scope string_scope.
Local Open Scope list_scope.

(** * C01: setting a dotted key *)

(** Whenever the call succeeds, reading the key gives the stored value. *)
Theorem C01_set_read_back key v d d' :
  leaf v -> api_set key v d = (d', None) -> api_get key d' = Ok v.
Proof. exact (api_set_read key v d d'). Qed.
Print Assumptions C01_set_read_back.

(** A refused call raises KeyError and leaves the dictionary as it was. *)
Theorem C01_set_refused_unchanged key v d d' e :
  leaf v -> api_set key v d = (d', Some e) -> d' = d /\ e = EKey.
Proof. intros L; exact (set_key_err (split_dot key) v d L d' e). Qed.
Print Assumptions C01_set_refused_unchanged.

(** Full effect when no plain value stands in the way of the key. *)
Theorem C01_set_key_partial key v d :
  wf (VDict d) -> leaf v -> ~ blocked (VDict d) (split_dot key) ->
  exists d', api_set key v d = (d', None) /\ wf (VDict d') /\ api_get key d' = Ok v /\
    forall q x, leaf x -> (at_path (VDict d') q x <->
       (q = split_dot key /\ x = v) \/ (~ comparable (split_dot key) q /\ at_path (VDict d) q x)).
Proof. exact (api_set_guarded key v d). Qed.
Print Assumptions C01_set_key_partial.

(** For keys of at most two segments the full property holds without the guard. *)
Theorem C01_set_key_two_segments key v d d' :
  wf (VDict d) -> leaf v -> (List.length (split_dot key) <= 2)%nat -> api_set key v d = (d', None) ->
  forall q x, leaf x -> (at_path (VDict d') q x <->
       (q = split_dot key /\ x = v) \/ (~ comparable (split_dot key) q /\ at_path (VDict d) q x)).
Proof. exact (api_set_short key v d d'). Qed.
Print Assumptions C01_set_key_two_segments.

(** From three segments on it fails: a plain value in the way makes the call
    succeed and delete the siblings of that value. *)
Theorem C01_set_key_refuted :
  exists key v d d' q x, leaf v /\ wf (VDict d) /\ api_set key v d = (d', None) /\
    leaf x /\ ~ comparable (split_dot key) q /\
    at_path (VDict d) q x /\ ~ at_path (VDict d') q x.
Proof.
  exists "a.b.c", (VInt 3), [("a", VDict [("b", VInt 1); ("x", VInt 2)])],
    [("a", VDict [("b", VDict [("c", VInt 3)])])], ["a"; "x"], (VInt 2).
  split; [reflexivity|]; split; [apply wfb_wf; reflexivity|]; split; [reflexivity|].
  split; [reflexivity|]; split; [intros [[r H]|[r H]]; discriminate H|]; split.
  - apply at_below with (w := VDict [("b", VInt 1); ("x", VInt 2)]); [left; reflexivity|].
    apply at_below with (w := VInt 2); [right; left; reflexivity|constructor].
  - intros H; apply at_lk in H; [discriminate|apply wfb_wf; reflexivity].
Qed.
Print Assumptions C01_set_key_refuted.

Definition ex_tree : dict :=
  [("techs", VDict [("pv", VDict [("flow_cap_max", VInt 10); ("lifetime", VInt 25)]); ("grid", VNone)]);
   ("config", VDict [("build", VDict [("mode", VStr "base")])])].
Lemma ex_tree_wf : wf (VDict ex_tree).
Proof. apply wfb_wf; reflexivity. Qed.
Example C01_example :
  wf (VDict ex_tree) /\ unbl (split_dot "techs.pv.flow_out_eff") ex_tree /\
  api_set "techs.pv.flow_out_eff" (VInt 1) ex_tree =
   ([("techs", VDict [("pv", VDict [("flow_cap_max", VInt 10); ("lifetime", VInt 25); ("flow_out_eff", VInt 1)]); ("grid", VNone)]);
     ("config", VDict [("build", VDict [("mode", VStr "base")])])], None).
Proof. split; [exact ex_tree_wf|split; [vm_compute; tauto|reflexivity]]. Qed.
Example C01_example_unblocked : ~ blocked (VDict ex_tree) (split_dot "techs.grid.flow_cap_max").
Proof. apply blocked_unbl; [exact ex_tree_wf|vm_compute; tauto]. Qed.
Example C01_example_refused :
  api_set "config.build.mode" (VInt 1) [("config", VInt 0)] = ([("config", VInt 0)], Some EKey).
Proof. reflexivity. Qed.

(** * C02: flattening and rebuilding *)
Theorem C02_flat_round_trip d :
  wf (VDict d) -> dotfree (VDict d) ->
  exists f, as_dict_flat d = Ok f /\ init_from_dict f = Ok d.
Proof. exact (flat_round_trip d). Qed.
Print Assumptions C02_flat_round_trip.

Theorem C02_flat_entries d f :
  wf (VDict d) -> dotfree (VDict d) -> as_dict_flat d = Ok f ->
  NoDup (map fst f) /\
  forall key v, In (key, v) f <-> exists p, key = join_dot p /\ def_key (VDict d) p v.
Proof. exact (flat_keys d f). Qed.
Print Assumptions C02_flat_entries.

Example C02_example_dotfree : dotfree (VDict ex_tree).
Proof.
  repeat (apply df_dict || apply df_leaf || constructor || split); reflexivity.
Qed.
Example C02_example : as_dict_flat ex_tree =
  Ok [("techs.pv.flow_cap_max", VInt 10); ("techs.pv.lifetime", VInt 25); ("techs.grid", VNone);
      ("config.build.mode", VStr "base")].
Proof. reflexivity. Qed.

(** * C03: union with overriding *)
Theorem C03_union_override A B :
  wf (VDict A) -> wf (VDict B) -> fits (VDict A) (VDict B) ->
  exists A', union true A B = (A', None) /\ wf (VDict A') /\
    forall q v, leaf v -> (at_path (VDict A') q v <-> merged_leaf (VDict A) (VDict B) q v).
Proof. exact (union_override_leaves A B). Qed.
Print Assumptions C03_union_override.

(** Read for dictionaries of a common shape: B's value where B has a leaf, A's
    everywhere else. *)
Theorem C03_union_override_shape A B :
  wf (VDict A) -> wf (VDict B) -> tidy A -> tidy B -> same_shape [A; B] ->
  exists A', union true A B = (A', None) /\ wf (VDict A') /\ tidy A' /\
   forall q v, leaf v -> (at_path (VDict A') q v <->
      at_path (VDict B) q v \/ (at_path (VDict A) q v /\ ~ exists x, leaf x /\ at_path (VDict B) q x)).
Proof. exact (union_same_shape A B). Qed.
Print Assumptions C03_union_override_shape.

Definition ex_over : dict :=
  [("techs", VDict [("pv", VDict [("lifetime", VInt 30)]); ("wind", VDict [("lifetime", VInt 20)])])].
Example C03_example :
  fst (union true ex_tree ex_over) =
  [("techs", VDict [("pv", VDict [("flow_cap_max", VInt 10); ("lifetime", VInt 30)]); ("grid", VNone);
                    ("wind", VDict [("lifetime", VInt 20)])]);
   ("config", VDict [("build", VDict [("mode", VStr "base")])])].
Proof. reflexivity. Qed.
Example C03_example_fits : fits (VDict ex_tree) (VDict ex_over).
Proof.
  assert (W : wf (VDict ex_over)).
  { apply wfb_wf; reflexivity. }
  intros k w Hk; apply def_key_iff in Hk; [|exact W]; destruct Hk as [Hk _].
  vm_compute in Hk; destruct Hk as [<-|[<-|[]]]; apply blocked_unbl; try exact ex_tree_wf; vm_compute; tauto.
Qed.

(** * C04: union without overriding *)

(** A key defined on both sides is always refused. *)
Theorem C04_union_strict_conflict_partial A B k w x :
  wf (VDict A) -> wf (VDict B) -> def_key (VDict A) k w -> def_key (VDict B) k x ->
  exists A', union false A B = (A', Some EKey).
Proof. exact (union_strict_conflict A B k w x). Qed.
Print Assumptions C04_union_strict_conflict_partial.

(** Without any overlap it succeeds and keeps every leaf of both sides. *)
Theorem C04_union_strict_disjoint_partial A B :
  wf (VDict A) -> wf (VDict B) -> disjoint_keys (VDict A) (VDict B) ->
  exists A', union false A B = (A', None) /\ wf (VDict A') /\
    forall q v, leaf v -> (at_path (VDict A') q v <-> at_path (VDict A) q v \/ at_path (VDict B) q v).
Proof. exact (union_strict_ok A B). Qed.
Print Assumptions C04_union_strict_disjoint_partial.

(** The remaining case is not refused: a plain value in B silently replaces a
    whole sub-dictionary of A although overriding is not allowed. *)
Theorem C04_union_strict_refuted :
  exists A B A' q v, wf (VDict A) /\ wf (VDict B) /\ union false A B = (A', None) /\ leaf v /\
    at_path (VDict A) q v /\ ~ at_path (VDict A') q v.
Proof.
  exists [("a", VDict [("b", VInt 2)])], [("a", VInt 1)], [("a", VInt 1)], ["a"; "b"], (VInt 2).
  split; [apply wfb_wf; reflexivity|]; split; [apply wfb_wf; reflexivity|].
  split; [reflexivity|]; split; [reflexivity|]; split.
  - apply at_below with (w := VDict [("b", VInt 2)]); [left; reflexivity|].
    apply at_below with (w := VInt 2); [left; reflexivity|constructor].
  - intros H; apply at_lk in H; [discriminate|apply wfb_wf; reflexivity].
Qed.
Print Assumptions C04_union_strict_refuted.

(** The same two dictionaries the other way round are refused. *)
Example C04_asymmetric :
  union false [("a", VInt 1)] [("a", VDict [("b", VInt 2)])] = ([("a", VInt 1)], Some EKey).
Proof. reflexivity. Qed.
(** A refused merge may already have copied earlier keys. *)
Example C04_not_atomic :
  union false [("a", VInt 1)] [("c", VInt 2); ("a", VInt 3)] = ([("a", VInt 1); ("c", VInt 2)], Some EKey).
Proof. reflexivity. Qed.
Example C04_example : union false ex_tree [("overrides", VDict [("o1", VInt 1)]); ("techs", VDict [("wind", VInt 2)])]
  = ([("techs", VDict [("pv", VDict [("flow_cap_max", VInt 10); ("lifetime", VInt 25)]); ("grid", VNone); ("wind", VInt 2)]);
     ("config", VDict [("build", VDict [("mode", VStr "base")])]); ("overrides", VDict [("o1", VInt 1)])], None).
Proof. reflexivity. Qed.

(** * C05: layers *)
Theorem C05_last_layer_wins layers A :
  wf (VDict A) -> tidy A -> Forall (fun L => wf (VDict L) /\ tidy L) layers -> same_shape (A :: layers) ->
  exists A', union_all layers A = (A', None) /\ wf (VDict A') /\ tidy A' /\
    forall q v, leaf v -> (at_path (VDict A') q v <-> last_wins layers A q v).
Proof. exact (union_all_spec layers A). Qed.
Print Assumptions C05_last_layer_wins.

Theorem C05_layer_idempotent A B :
  wf (VDict A) -> wf (VDict B) -> tidy A -> tidy B -> same_shape [A; B] ->
  exists A1 A2, union true A B = (A1, None) /\ union true A1 B = (A2, None) /\
    forall q v, leaf v -> (at_path (VDict A2) q v <-> at_path (VDict A1) q v).
Proof. exact (union_idem A B). Qed.
Print Assumptions C05_layer_idempotent.

Definition ex_layers : list dict :=
  [[("a", VDict [("x", VInt 1); ("y", VNone)])]; [("a", VDict [("x", VInt 2)]); ("b", VInt 5)]; [("b", VInt 6)]].
Example C05_example : union_all ex_layers [("a", VDict [("y", VInt 0); ("z", VInt 9)])]
  = ([("a", VDict [("y", VNone); ("z", VInt 9); ("x", VInt 2)]); ("b", VInt 6)], None).
Proof. reflexivity. Qed.
Example C05_example_shape : same_shape ([("a", VDict [("y", VInt 0); ("z", VInt 9)])] :: ex_layers).
Proof.
  assert (S : forall X, In X ([("a", VDict [("y", VInt 0); ("z", VInt 9)])] :: ex_layers) ->
     forall k w, at_path (VDict X) k w -> leaf w -> In k [["a"; "x"]; ["a"; "y"]; ["a"; "z"]; ["b"]]).
  { intros X HX k w Hk Lw.
    assert (WX : wf (VDict X)).
    { simpl in HX; destruct HX as [<-|[<-|[<-|[<-|[]]]]];
      apply wfb_wf; reflexivity. }
    assert (D : def_key (VDict X) k w).
    { split; [intros ->; inversion Hk; subst; discriminate Lw|split; [exact Hk|left; exact Lw]]. }
    apply def_key_iff in D; [|exact WX]; destruct D as [D _].
    simpl in HX; destruct HX as [<-|[<-|[<-|[<-|[]]]]]; vm_compute in D; simpl; intuition. }
  intros X Y HX HY k w k' w' Hk Lw Hk' Lw' C.
  pose proof (S X HX k w Hk Lw) as K1; pose proof (S Y HY k' w' Hk' Lw') as K2.
  destruct C as [[r ->]|[r ->]]; simpl in K1, K2;
    repeat (match goal with H : _ \/ _ |- _ => destruct H end); subst; simpl in *; try congruence; try tauto.
Qed.
(** The same with empty sub-dictionaries allowed, as long as no setting of one layer sits
    at, above or below one of another in a way that makes the outcome ambiguous. *)
Theorem C05_last_layer_wins_empty_blocks layers A :
  wf (VDict A) -> Forall (fun L => wf (VDict L)) layers -> compatible (A :: layers) ->
  exists A', union_all layers A = (A', None) /\ wf (VDict A') /\
    forall q v, leaf v -> (at_path (VDict A') q v <-> last_wins layers A q v).
Proof. exact (union_all_compatible layers A). Qed.
Print Assumptions C05_last_layer_wins_empty_blocks.

Definition ex_layers_empty : list dict :=
  [[("a", VDict [("x", VInt 1)]); ("b", VDict [])]; [("a", VDict []); ("b", VDict [("y", VInt 2)])]].
Example C05_example_empty : union_all ex_layers_empty [("a", VDict [("x", VInt 0)])]
  = ([("a", VDict [("x", VInt 1)]); ("b", VDict [("y", VInt 2)])], None).
Proof. reflexivity. Qed.
Example C05_example_empty_compatible : compatible ([("a", VDict [("x", VInt 0)])] :: ex_layers_empty).
Proof. apply compatibleb_ok; [apply wf_all_ok; reflexivity|reflexivity]. Qed.
(** With an empty dictionary in a layer the last layer does not win. *)
Example C05_empty_dict_does_not_override :
  union true [("a", VInt 1)] [("a", VDict [])] = ([("a", VInt 1)], None).
Proof. reflexivity. Qed.

(** * C06: deletion *)
Theorem C06_del_key key d x :
  wf (VDict d) -> at_path (VDict d) (split_dot key) x ->
  exists d', api_del key d = (d', None) /\ wf (VDict d') /\ (tidy d -> tidy d') /\
    (exists e, api_get key d' = Err e) /\
    forall q v, leaf v -> (at_path (VDict d') q v <-> at_path (VDict d) q v /\ ~ prefix (split_dot key) q).
Proof. exact (api_del_ok key d x). Qed.
Print Assumptions C06_del_key.

Theorem C06_del_missing key d :
  wf (VDict d) -> (~ exists x, at_path (VDict d) (split_dot key) x) -> exists e, api_del key d = (d, Some e).
Proof. intros W; exact (del_key_missing_spec (split_dot key) d W (BaseProofs.split_on_nonnil _ _)). Qed.
Print Assumptions C06_del_missing.

Example C06_example : api_del "config.build.mode" ex_tree =
  ([("techs", VDict [("pv", VDict [("flow_cap_max", VInt 10); ("lifetime", VInt 25)]); ("grid", VNone)])], None).
Proof. reflexivity. Qed.
Example C06_example_missing : api_del "config.solve.solver" ex_tree = (ex_tree, Some EKey).
Proof. reflexivity. Qed.

(** * C57: whole-block replacement with [_REPLACE_] *)
Theorem C57_replace_block ao p v A x :
  wf (VDict A) -> wf v -> p <> [] -> ~ In WIPE p -> at_path (VDict A) p x ->
  forall other, VDict other = nest (p ++ [WIPE]) v ->
  exists A', union_replace ao A other = (A', None) /\ wf (VDict A') /\
    forall q y, leaf y -> (at_path (VDict A') q y <->
       (exists r, q = p ++ r /\ at_path v r y) \/ (~ prefix p q /\ at_path (VDict A) q y)).
Proof. exact (union_replace_block ao p v A x). Qed.
Print Assumptions C57_replace_block.

(** Replacing something the definition does not have is an error, not an addition. *)
Theorem C57_replace_missing ao p v A :
  wf (VDict A) -> p <> [] -> ~ In WIPE p -> (~ exists x, at_path (VDict A) p x) -> leaf v ->
  forall other, VDict other = nest (p ++ [WIPE]) v ->
  exists e, union_replace ao A other = (A, Some e).
Proof. exact (union_replace_absent ao p v A). Qed.
Print Assumptions C57_replace_missing.

Example C57_example : union_replace true ex_tree
   [("techs", VDict [("pv", VDict [("_REPLACE_", VDict [("x", VInt 1); ("y", VInt 2)])])])] =
  ([("techs", VDict [("grid", VNone); ("pv", VDict [("x", VInt 1); ("y", VInt 2)])]);
     ("config", VDict [("build", VDict [("mode", VStr "base")])])], None).
Proof. reflexivity. Qed.
Example C57_example_missing : union_replace true ex_tree
   [("techs", VDict [("wind", VDict [("_REPLACE_", VInt 1)])])] = (ex_tree, Some EKey).
Proof. reflexivity. Qed.
