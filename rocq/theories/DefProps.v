(** Property theorems C07 - C11: assembling a model definition. *)
From Coq Require Import Relations.
From Verif Require Import Base BaseProofs AttrDictModel AttrDictSpec AttrDictProofs AttrDictUnion AttrDictMore
  DefModel DefSpec DefScenario DefCombine DefPriority DefTemplate DefImports DefCheck DefTotal DefSources.
Local Open Scope string_scope.
Local Open Scope list_scope.

(** * C07: order of priority of definition sources *)

(** Keyword arguments, then the override dictionary, then the overrides the scenario
    stands for, then the model definition.  Missing from the full property: sources
    whose leaves sit above or below each other, empty blocks, [_REPLACE_] and
    templates (for those see C10). *)
Theorem C07_priority_partial fuel order torder md sc ovd kwargs ovs scs sel bs :
  (forall l, Permutation (order l) l) -> (forall d, Permutation (torder d) d) ->
  wf (VDict md) -> wf (VDict ovd) -> wf (VDict kwargs) -> tidy md -> tidy ovd -> tidy kwargs ->
  no_wipe ovd -> no_templates md -> no_templates ovd ->
  In ("overrides", VDict ovs) md -> In ("scenarios", VDict scs) md ->
  ~ In "overrides" (map fst ovd) -> ~ In "scenarios" (map fst ovd) ->
  (forall s, reaches scs sc s -> ~ cyclic scs s) -> ~ ill_formed (map fst ovs) scs sc ->
  NoDup sel -> (forall o, In o sel <-> selects (map fst ovs) scs sc o) ->
  Forall2 (fun o b => In (o, VDict b) ovs) sel bs ->
  (forall b, In b bs -> no_wipe b /\ no_templates b /\ ~ In "import" (map fst b)) ->
  ~ twice_defined bs ->
  same_shape (md :: ovd :: init_layer kwargs :: bs) ->
  (forall X x, In X (md :: ovd :: bs) -> leaf x -> ~ at_path (VDict X) ["config"] x) ->
  (List.length scs < fuel)%nat ->
  exists r, prepare_definition fuel order torder md (Some sc) ovd kwargs = Ok r /\ wf (VDict r) /\
    forall q v, plain_section q -> leaf v ->
      (at_path (VDict r) q v <->
       first_of [of_dict (init_layer kwargs); of_dict ovd; of_any bs; of_dict md] q v).
Proof. exact (scenario_priority fuel order torder md sc ovd kwargs ovs scs sel bs). Qed.
Print Assumptions C07_priority_partial.

(** Without a scenario, or with tables that the override dictionary changes: [c] is
    whatever the scenario resolved to. *)
Theorem C07_priority_any_scenario_partial fuel order torder md scenario ovd kwargs d1 ovs scs c applied :
  (forall d, Permutation (torder d) d) ->
  wf (VDict md) -> wf (VDict c) -> wf (VDict ovd) -> wf (VDict kwargs) ->
  tidy md -> tidy c -> tidy ovd -> tidy kwargs -> no_wipe ovd -> no_wipe c ->
  no_templates md -> no_templates c -> no_templates ovd ->
  same_shape [md; c; ovd; init_layer kwargs] ->
  (forall X x, In X [md; c; ovd] -> leaf x -> ~ at_path (VDict X) ["config"] x) ->
  union true md ovd = (d1, None) ->
  as_block (d_get "overrides" d1) = Ok ovs -> as_block (d_get "scenarios" d1) = Ok scs ->
  selected fuel order scenario ovs scs c applied ->
  exists r, prepare_definition fuel order torder md scenario ovd kwargs = Ok r /\ wf (VDict r) /\
    forall q v, plain_section q -> leaf v ->
      (at_path (VDict r) q v <-> nearest [init_layer kwargs; ovd; c; md] q v).
Proof. exact (prepare_priority fuel order torder md scenario ovd kwargs d1 ovs scs c applied). Qed.
Print Assumptions C07_priority_any_scenario_partial.

Definition ex_ovs : dict :=
  [("cold", VDict [("techs", VDict [("pv", VDict [("cap", VInt 2); ("life", VInt 30)])])]);
   ("big", VDict [("techs", VDict [("wind", VDict [("cap", VInt 9)])])]);
   ("unused", VDict [("techs", VDict [("pv", VDict [("cap", VInt 99)])])])].
Definition ex_scs : dict :=
  [("winter", VList [VStr "cold"; VStr "windy"]); ("windy", VList [VStr "big"])].
Definition ex_md : dict :=
  [("techs", VDict [("pv", VDict [("cap", VInt 1); ("life", VInt 20); ("name", VStr "PV")])]);
   ("config", VDict [("init", VDict [("mode", VStr "base"); ("ts", VStr "time")])]);
   ("overrides", VDict ex_ovs); ("scenarios", VDict ex_scs)].
Definition ex_ovd : dict := [("techs", VDict [("pv", VDict [("life", VInt 40)])])].
Definition ex_kwargs : dict := [("mode", VStr "operate")].
Definition ex_bs : list dict :=
  [[("techs", VDict [("pv", VDict [("cap", VInt 2); ("life", VInt 30)])])];
   [("techs", VDict [("wind", VDict [("cap", VInt 9)])])]].

Ltac small_nodup := repeat (constructor; [simpl; intuition discriminate|]); constructor.
Lemma ex_scs_nodup : NoDup (d_keys ex_scs).
Proof. unfold d_keys; simpl; small_nodup. Qed.
Lemma ex_load : load_overrides (map fst ex_ovs) ex_scs 3 "winter" = Ok ["cold"; "big"].
Proof. reflexivity. Qed.
Lemma not_at_config X x : wf (VDict X) -> (match lk ["config"] (VDict X) with Some v => is_dict v | None => true end) = true ->
  leaf x -> ~ at_path (VDict X) ["config"] x.
Proof.
  intros W H L A; apply at_lk in A; [|exact W]; rewrite A in H; unfold leaf in L; congruence.
Qed.
Definition overlapb (a b : dict) : bool := existsb (fun k => path_mem k (keys_nested b)) (keys_nested a).
Lemma overlapb_ok a b : wf (VDict a) -> wf (VDict b) -> overlapb a b = false -> ~ overlap a b.
Proof.
  intros Wa Wb H [q [v [w [Lv [Lw [Ha Hb]]]]]].
  assert (T : overlapb a b = true); [|congruence].
  apply existsb_exists; exists q; split.
  - eapply def_key_iff; [exact Wa|]; apply leaf_def_key; [exact (leaf_nonroot _ _ _ Lv Ha)|exact Lv|exact Ha].
  - apply path_mem_in; eapply def_key_iff; [exact Wb|]; apply leaf_def_key; [exact (leaf_nonroot _ _ _ Lw Hb)|exact Lw|exact Hb].
Qed.
Fixpoint clashb (ds : list dict) : bool :=
  match ds with [] => false | d :: t => existsb (overlapb d) t || clashb t end.
Lemma clashb_ok ds : Forall (fun d => wf (VDict d)) ds -> clashb ds = false -> ~ twice_defined ds.
Proof.
  intros F H T; apply clash_twice in T; induction T as [b t c Hc O|b t C IH];
    simpl in H; apply orb_false_iff in H; destruct H as [H1 H2]; inversion F as [|? ? Wb Ft]; subst.
  - rewrite Forall_forall in Ft; apply (overlapb_ok b c Wb (Ft c Hc)); [|exact O].
    destruct (overlapb b c) eqn:E; [|reflexivity].
    rewrite <- H1; symmetry; apply existsb_exists; exists c; auto.
  - exact (IH Ft H2).
Qed.

(** The hypotheses hold for a definition with nested scenarios, and this is the result. *)
Example C07_example :
  exists r, prepare_definition 3 (fun l => rev l) (fun d => d) ex_md (Some "winter") ex_ovd ex_kwargs = Ok r /\
    (forall q v, plain_section q -> leaf v ->
      (at_path (VDict r) q v <->
       first_of [of_dict (init_layer ex_kwargs); of_dict ex_ovd; of_any ex_bs; of_dict ex_md] q v)) /\
    r = [("techs", VDict [("pv", VDict [("cap", VInt 2); ("life", VInt 40); ("name", VStr "PV")]);
                          ("wind", VDict [("cap", VInt 9)])]);
         ("config", VDict [("init", VDict [("mode", VStr "operate"); ("ts", VStr "time")])])].
Proof.
  destruct (load_ok _ _ ex_scs_nodup _ _ _ ex_load) as [N [W S]].
  assert (WL : Forall (fun d => wf (VDict d)) (ex_md :: ex_ovd :: init_layer ex_kwargs :: ex_bs))
    by (apply wf_all_ok; reflexivity).
  destruct (C07_priority_partial 3 (fun l => rev l) (fun d => d) ex_md "winter" ex_ovd ex_kwargs ex_ovs ex_scs
              ["cold"; "big"] ex_bs) as [r [R1 [_ R2]]].
  - intros l; symmetry; apply Permutation_rev.
  - intros d; apply Permutation_refl.
  - apply wfb_wf; reflexivity.
  - apply wfb_wf; reflexivity.
  - apply wfb_wf; reflexivity.
  - apply tidyb_ok; reflexivity.
  - apply tidyb_ok; reflexivity.
  - apply tidyb_ok; reflexivity.
  - apply no_wipe_ok; reflexivity.
  - apply no_templates_ok; reflexivity.
  - apply no_templates_ok; reflexivity.
  - simpl; tauto.
  - simpl; tauto.
  - simpl; intuition discriminate.
  - simpl; intuition discriminate.
  - exact (load_ok_acyclic _ _ ex_scs_nodup _ _ _ ex_load).
  - exact W.
  - exact N.
  - exact S.
  - repeat constructor; simpl; tauto.
  - intros b [<-|[<-|[]]]; (split; [apply no_wipe_ok; reflexivity|split; [apply no_templates_ok; reflexivity|simpl; intuition discriminate]]).
  - apply clashb_ok; [apply wf_all_ok; reflexivity|reflexivity].
  - apply same_shapeb_ok; [exact WL|reflexivity].
  - intros X x HX; apply not_at_config; [rewrite Forall_forall in WL; apply WL; simpl in *; tauto|].
    simpl in HX; destruct HX as [<-|[<-|[<-|[<-|[]]]]]; reflexivity.
  - simpl; lia.
  - exists r; split; [exact R1|split; [exact R2|]].
    vm_compute in R1; injection R1 as <-; reflexivity.
Qed.

(** The guard on shapes is needed: a plain value given by the override dictionary for
    something the scenario defines as a block wins, but an empty or None value does not. *)
Theorem C07_priority_refuted :
  exists md ovd kwargs r q v x, wf (VDict md) /\ wf (VDict ovd) /\ plain_section q /\ leaf v /\
    prepare_definition 1 (fun l => l) (fun d => d) md None ovd kwargs = Ok r /\
    at_path (VDict ovd) q v /\ at_path (VDict r) q x /\ x <> v.
Proof.
  exists [("techs", VDict [("pv", VDict [("costs", VDict [("capex", VInt 1)])])])],
    [("techs", VDict [("pv", VDict [("costs", VNone)])])], [],
    [("techs", VDict [("pv", VDict [("costs", VDict [("capex", VInt 1)])])]);
     ("config", VDict [("init", VDict [])])],
    ["techs"; "pv"; "costs"], VNone, (VDict [("capex", VInt 1)]).
  split; [apply wfb_wf; reflexivity|split; [apply wfb_wf; reflexivity|]].
  split; [simpl; intuition discriminate|split; [reflexivity|split; [reflexivity|]]].
  split; [apply at_lk; [apply wfb_wf; reflexivity|reflexivity]|].
  split; [apply at_lk; [apply wfb_wf; reflexivity|reflexivity]|discriminate].
Qed.
Print Assumptions C07_priority_refuted.

(** * C08: combining the overrides of a scenario does not depend on their order *)
Theorem C08_order_independent_partial overrides names names' bs :
  Permutation names names' -> blocks_of overrides names bs ->
  Forall (fun b => wf (VDict b) /\ tidy b) bs -> same_shape bs ->
  (combine_overrides overrides names [] = Err EModel /\ combine_overrides overrides names' [] = Err EModel) \/
  (exists r r', combine_overrides overrides names [] = Ok r /\ combine_overrides overrides names' [] = Ok r' /\
     forall q v, leaf v -> (at_path (VDict r) q v <-> at_path (VDict r') q v)).
Proof. exact (combine_overrides_order overrides names names' bs). Qed.
Print Assumptions C08_order_independent_partial.

(** Which of the two it is: an error exactly if two overrides define the same leaf,
    otherwise all leaves of all overrides. *)
Theorem C08_combination_partial overrides names bs :
  blocks_of overrides names bs -> Forall (fun b => wf (VDict b) /\ tidy b) bs -> same_shape bs ->
  (twice_defined bs -> combine_overrides overrides names [] = Err EModel) /\
  (~ twice_defined bs -> exists r, combine_overrides overrides names [] = Ok r /\
     forall q v, leaf v -> (at_path (VDict r) q v <-> of_any bs q v)).
Proof.
  intros B F SS; rewrite (combine_overrides_blocks _ _ _ B); split; intros H.
  - apply clash_twice in H; apply combine_clash; try assumption; [exact wf_nil|constructor|apply same_shape_nil; exact SS|].
    apply clash_nil; exact H.
  - destruct (combine_apart bs [] wf_nil (Forall_nil _) F (same_shape_nil _ SS)) as [r [R [_ [_ L]]]].
    + rewrite clash_nil, clash_twice; exact H.
    + exists r; split; [exact R|]; intros q v Lv; rewrite (L q v Lv); unfold some_leaf, of_any, of_dict; split.
      * intros [d [[<-|Hd] Hq]]; [exfalso; exact (no_leaf_nil _ _ Lv Hq)|exists d; auto].
      * intros [d [Hd Hq]]; exists d; simpl; auto.
Qed.
Print Assumptions C08_combination_partial.

(** Overrides that do not exist or cannot be used are never passed over. *)
Theorem C08_refused overrides names :
  (forall c, combine_overrides overrides names [] = Ok c -> forall n, In n names -> exists v b, d_get n overrides = Some v /\ block_of v b) /\
  (forall pre n post acc, names = pre ++ n :: post -> combine_overrides overrides pre [] = Ok acc ->
     (d_get n overrides = None -> combine_overrides overrides names [] = Err EModel) /\
     (forall v, d_get n overrides = Some v -> (forall b, ~ block_of v b) -> combine_overrides overrides names [] = Err EValue)).
Proof.
  split; [intros c; exact (combine_all_usable overrides names [] c)|intros pre n post acc -> E; exact (combine_first overrides pre n post acc E)].
Qed.
Print Assumptions C08_refused.
Example C08_refused_example :
  combine_overrides [("o", VNone); ("p", VDict [("import", VStr ""); ("a", VInt 1)])] ["o"; "p"] [] = Ok [("import", VStr ""); ("a", VInt 1)] /\
  combine_overrides [("o", VNone); ("p", VDict [("import", VList [VStr "x.yaml"])])] ["o"; "p"] [] = Err EValue /\
  combine_overrides [("o", VNone); ("p", VInt 3)] ["o"; "p"] [] = Err EValue /\ combine_overrides [("o", VNone)] ["o"; "p"] [] = Err EModel.
Proof. repeat split; reflexivity. Qed.

(** Without the guard on shapes both parts fail: the order decides whether the
    overrides combine at all. *)
Theorem C08_order_refuted :
  exists overrides names names' r, Permutation names names' /\
    combine_overrides overrides names [] = Ok r /\ combine_overrides overrides names' [] = Err EModel.
Proof.
  exists [("o1", VDict [("a", VDict [("b", VInt 2)])]); ("o2", VDict [("a", VInt 1)])], ["o1"; "o2"], ["o2"; "o1"], [("a", VInt 1)].
  split; [apply perm_swap|split; reflexivity].
Qed.
Print Assumptions C08_order_refuted.
(** Even a direct contradiction ([x.a.b] is 1 and 2) goes unnoticed in some orders. *)
Theorem C08_conflict_unnoticed_refuted :
  exists overrides names names' bs r, Permutation names names' /\ blocks_of overrides names bs /\ twice_defined bs /\
    combine_overrides overrides names [] = Ok r /\ combine_overrides overrides names' [] = Err EModel.
Proof.
  pose (b1 := [("x", VDict [("a", VDict [("b", VInt 1)])])]).
  pose (b2 := [("x", VDict [("a", VInt 5)])]).
  pose (b3 := [("x", VDict [("a", VDict [("b", VInt 2)])])]).
  exists [("o1", VDict b1); ("o2", VDict b2); ("o3", VDict b3)], ["o1"; "o2"; "o3"], ["o1"; "o3"; "o2"], [b1; b2; b3], b3.
  split; [apply perm_skip, perm_swap|split; [|split; [|split; reflexivity]]].
  - repeat (apply Forall2_cons; [eexists; split; [reflexivity|constructor; discriminate]|]); apply Forall2_nil.
  - exists [], b1, [b2], b3, []; split; [reflexivity|].
    exists ["x"; "a"; "b"], (VInt 1), (VInt 2); split; [reflexivity|split; [reflexivity|split]];
      (apply at_lk; [apply wfb_wf; reflexivity|reflexivity]).
Qed.
Print Assumptions C08_conflict_unnoticed_refuted.

Example C08_example :
  blocks_of ex_ovs ["cold"; "big"] ex_bs /\ Forall (fun b => wf (VDict b) /\ tidy b) ex_bs /\ same_shape ex_bs /\
  ~ twice_defined ex_bs /\ combine_overrides ex_ovs ["big"; "cold"] [] =
    Ok [("techs", VDict [("wind", VDict [("cap", VInt 9)]); ("pv", VDict [("cap", VInt 2); ("life", VInt 30)])])].
Proof.
  split; [repeat (apply Forall2_cons; [eexists; split; [reflexivity|constructor; discriminate]|]); apply Forall2_nil|].
  split; [apply neat_all_ok; reflexivity|].
  split; [apply same_shapeb_ok; [apply wf_all_ok; reflexivity|reflexivity]|].
  split; [apply clashb_ok; [apply wf_all_ok; reflexivity|reflexivity]|reflexivity].
Qed.
Example C08_example_conflict : combine_overrides ex_ovs ["cold"; "unused"] [] = Err EModel.
Proof. reflexivity. Qed.

(** * C09: scenario resolution *)
Theorem C09_scenario_partial ovs scs sc fuel :
  NoDup (map fst scs) -> (forall s, reaches scs sc s -> ~ cyclic scs s) -> (List.length scs < fuel)%nat ->
  (ill_formed ovs scs sc -> exists e, load_overrides ovs scs fuel sc = Err e /\
     (e = EModel \/ (e = EType /\ exists s l, reaches scs sc s /\ lists scs s (VList l)))) /\
  (~ ill_formed ovs scs sc -> exists l, load_overrides ovs scs fuel sc = Ok l /\ NoDup l /\
     forall o, In o l <-> selects ovs scs sc o).
Proof.
  intros ND C F; destruct (load_complete ovs scs ND sc fuel C F) as [A B]; split; [|exact B].
  intros I; destruct (A I) as [e [E [->| ->]]]; [exists EModel; auto|exists EType; split; [exact E|right]].
  split; [reflexivity|exact (load_type_error ovs scs ND fuel sc E)].
Qed.
Print Assumptions C09_scenario_partial.

(** Missing from the full property: circular references.  They are never resolved or
    reported, at any recursion depth (Python's recursion limit is hit). *)
Theorem C09_circular_refuted :
  (forall ovs scs sc s fuel, NoDup (map fst scs) -> reaches scs sc s -> cyclic scs s -> ~ ill_formed ovs scs sc ->
     load_overrides ovs scs fuel sc = Err EDiverge) /\
  exists ovs scs sc s, NoDup (map fst scs) /\ reaches scs sc s /\ cyclic scs s /\ ~ ill_formed ovs scs sc.
Proof.
  split; [intros ovs scs sc s fuel ND; exact (load_cyclic ovs scs ND fuel sc s)|].
  pose (scs := [("a", VList [VStr "b"; VStr "o"]); ("b", VList [VStr "a"])]).
  assert (La : forall v, lists scs "a" v -> v = VStr "b" \/ v = VStr "o").
  { intros v H; apply (items_lists scs) in H; [|simpl; small_nodup].
    simpl in H; destruct H as [<-|[<-|[]]]; auto. }
  assert (Lb : forall v, lists scs "b" v -> v = VStr "a").
  { intros v H; apply (items_lists scs) in H; [|simpl; small_nodup].
    simpl in H; destruct H as [<-|[]]; auto. }
  assert (Rab : refers scs "a" "b").
  { split; [|simpl; right; left; reflexivity]; apply li_list with (l := [VStr "b"; VStr "o"]); simpl; auto. }
  assert (Rba : refers scs "b" "a").
  { split; [|simpl; left; reflexivity]; apply li_list with (l := [VStr "a"]); simpl; auto. }
  exists ["o"], scs, "a", "a"; split; [simpl; small_nodup|split; [apply rt1n_refl|split]].
  - apply Relation_Operators.t1n_trans with (y := "b"); [exact Rab|apply t1n_step; exact Rba].
  - intros [s [v [R [L B]]]].
    assert (K : s = "a" \/ s = "b").
    { assert (G : forall x y, reaches scs x y -> x = "a" \/ x = "b" -> y = "a" \/ y = "b").
      { intros x y Hxy; induction Hxy as [|x z y [Hl Hi] Hz IH]; [auto|].
        intros [->| ->]; apply IH; [apply La in Hl|apply Lb in Hl].
        - destruct Hl as [H|H]; injection H as ->; [auto|].
          exfalso; unfold is_scenario, scs in Hi; simpl in Hi; intuition discriminate.
        - injection Hl as E; left; exact E. }
      exact (G "a" s R (or_introl eq_refl)). }
    destruct K as [->| ->]; [apply La in L|apply Lb in L]; [destruct L as [->| ->]|subst v];
      unfold bad_item, is_scenario, scs in B; simpl in B; intuition.
Qed.
Print Assumptions C09_circular_refuted.

Example C09_example : load_overrides (map fst ex_ovs) ex_scs 3 "winter,unused" = Ok ["cold"; "big"; "unused"] /\
  ~ ill_formed (map fst ex_ovs) ex_scs "winter,unused" /\
  (forall s, reaches ex_scs "winter,unused" s -> ~ cyclic ex_scs s) /\
  load_overrides (map fst ex_ovs) ex_scs 3 "winter,unknown" = Err EModel.
Proof.
  assert (E : load_overrides (map fst ex_ovs) ex_scs 3 "winter,unused" = Ok ["cold"; "big"; "unused"]) by reflexivity.
  split; [exact E|split; [exact (proj1 (proj2 (load_ok _ _ ex_scs_nodup _ _ _ E)))|split]].
  - exact (load_ok_acyclic _ _ ex_scs_nodup _ _ _ E).
  - reflexivity.
Qed.

(** * C10: templates *)
(** Resolution always ends, for every input. *)
Theorem C10_templates_terminate order data : solve_templates order data <> Err EDiverge.
Proof. exact (solve_templates_ends order data). Qed.
Print Assumptions C10_templates_terminate.

(** Nearest definition wins; success excludes circular and dangling templates, and for
    a resolvable definition failure is due to one of them.  Missing from the full
    property: ambiguous shapes, and the kind of error for an undefined template. *)
Theorem C10_templates_partial order data raw :
  (forall d, Permutation (order d) d) -> wf (VDict data) ->
  as_block (d_get "templates" data) = Ok raw -> template_table raw ->
  match solve_templates order data with
  | Ok r => (forall n, ~ circular raw n) /\ (forall n, ~ dangling raw n) /\
            (resolvable raw true (VDict data) ->
             wf (VDict r) /\ tidy r /\
             forall q v, leaf v -> (at_path (VDict r) q v <-> effective raw (VDict data) q v))
  | Err e => bad_template raw e \/ ~ resolvable raw true (VDict data)
  end.
Proof. exact (solve_templates_spec order data raw). Qed.
Print Assumptions C10_templates_partial.

(** An undefined template is a KeyError, not a model error. *)
Theorem C10_undefined_refuted :
  exists data raw n, as_block (d_get "templates" data) = Ok raw /\ template_table raw /\ dangling raw n /\
    forall order, (forall d, Permutation (order d) d) -> solve_templates order data = Err EKey.
Proof.
  pose (raw := [("t", VDict [("template", VStr "nowhere")])]).
  exists [("templates", VDict raw)], raw, "t".
  split; [reflexivity|split; [|split]].
  - split; [simpl; small_nodup|split].
    + intros n v [H|[]]; injection H as <- <-; eexists; split; [reflexivity|].
      split; [apply wfb_wf; reflexivity|split; [constructor|]].
      intros w [H|[]]; injection H as <-; eexists; reflexivity.
    + apply same_shapeb_ok; [apply wf_all_ok; reflexivity|reflexivity].
  - exists "nowhere"; split; [exists [("template", VStr "nowhere")]; simpl; auto|simpl; intuition discriminate].
  - intros order P; reflexivity.
Qed.
Print Assumptions C10_undefined_refuted.

Definition ex_raw : dict :=
  [("supply", VDict [("base", VStr "supply"); ("cap", VInt 1); ("costs", VDict [("capex", VInt 3)])]);
   ("pv", VDict [("template", VStr "supply"); ("cap", VInt 2)])].
Definition ex_data : dict :=
  [("templates", VDict ex_raw);
   ("techs", VDict [("roof", VDict [("template", VStr "pv"); ("costs", VDict [("capex", VInt 7)])])])].
Example C10_example : solve_templates (fun d => d) ex_data =
  Ok [("techs", VDict [("roof", VDict [("base", VStr "supply"); ("cap", VInt 2); ("costs", VDict [("capex", VInt 7)])])])].
Proof. reflexivity. Qed.
(** The example is a resolvable definition. *)
Lemma ex_chain_supply c : chain ex_raw "supply" c -> c = [[("base", VStr "supply"); ("cap", VInt 1); ("costs", VDict [("capex", VInt 3)])]].
Proof.
  intros H; inversion H as [n d Hin Nt|n d p c' Hin Ht Hc]; subst; simpl in Hin; destruct Hin as [E|[E|[]]];
    try discriminate E; injection E as <-; [reflexivity|]; simpl in Ht; intuition discriminate.
Qed.
Lemma ex_chain_pv c : chain ex_raw "pv" c -> c =
  [[("template", VStr "supply"); ("cap", VInt 2)]; [("base", VStr "supply"); ("cap", VInt 1); ("costs", VDict [("capex", VInt 3)])]].
Proof.
  intros H; inversion H as [n d Hin Nt|n d p c' Hin Ht Hc]; subst; simpl in Hin; destruct Hin as [E|[E|[]]];
    try discriminate E; injection E as <-.
  - simpl in Nt; tauto.
  - simpl in Ht; destruct Ht as [E'|[E'|[]]]; [|discriminate E'].
    assert (p = "supply") by congruence; subst p; rewrite (ex_chain_supply _ Hc); reflexivity.
Qed.
Lemma ex_gives q v : gives ex_raw "pv" q v -> q = ["base"] \/ q = ["cap"] \/ q = ["costs"; "capex"].
Proof.
  intros [L [c [C [b [d [a [E [H _]]]]]]]]; apply ex_chain_pv in C; subst c; simpl in E.
  assert (K : In d (b ++ d :: a)) by (apply in_or_app; right; left; reflexivity).
  rewrite <- E in K.
  assert (D : In q (keys_nested d)).
  { simpl in K; eapply def_key_iff with (w := v);
      [destruct K as [<-|[<-|[]]]; apply wfb_wf; reflexivity|].
    apply leaf_def_key; [exact (leaf_nonroot _ _ _ L H)|exact L|exact H]. }
  simpl in K; destruct K as [<-|[<-|[]]]; simpl in D; intuition.
Qed.
Example C10_example_resolvable : template_table ex_raw /\ resolvable ex_raw true (VDict ex_data).
Proof.
  split.
  - split; [simpl; small_nodup|split].
    + intros n v H; simpl in H; destruct H as [H|[H|[]]]; injection H as <- <-; eexists; (split; [reflexivity|]);
        (split; [apply wfb_wf; reflexivity|]); (split; [apply tidyb_ok; reflexivity|]);
        intros w H; simpl in H; repeat (destruct H as [H|H]; try discriminate H); try contradiction;
        injection H as <-; eexists; reflexivity.
    + apply same_shapeb_ok; [apply wf_all_ok; reflexivity|reflexivity].
  - assert (Lf : forall top z, resolvable ex_raw top (VInt z)) by (intros; constructor; reflexivity).
    assert (Costs : resolvable ex_raw false (VDict [("capex", VInt 7)])).
    { apply rs_dict.
      - simpl; intuition discriminate.
      - intros v [H|[]]; discriminate H.
      - intros k w [H|[]] _; injection H as <- <-; split; [apply Lf|exists [], (VInt 7); simpl; auto].
      - intros k w q x t q' x' _ _ _ [H|[]]; discriminate H. }
    assert (Ec : forall q x, effective ex_raw (VDict [("capex", VInt 7)]) q x -> q = ["capex"]).
    { intros q x H; destruct q as [|k q]; simpl in H; [destruct H as [H _]; discriminate H|].
      destruct H as [[_ [w [[H|[]] E]]]|[_ [t [[H|[]] _]]]]; [|discriminate H].
      injection H as <- <-; destruct q as [|k q]; simpl in E; [reflexivity|contradiction]. }
    assert (Roof : resolvable ex_raw false (VDict [("template", VStr "pv"); ("costs", VDict [("capex", VInt 7)])])).
    { apply rs_dict.
      - simpl; intuition discriminate.
      - intros v [H|[H|[]]]; [injection H as <-|discriminate H].
        exists "pv"; eexists; split; [reflexivity|].
        apply ch_next with (parent := "supply"); [simpl; auto|simpl; auto|].
        apply ch_end; [simpl; auto|simpl; intuition discriminate].
      - intros k w [H|[H|[]]] N; injection H as <- <-; [exfalso; apply N; left; reflexivity|].
        split; [exact Costs|exists ["capex"], (VInt 7)]; simpl; left; split; [intros [H|H]; discriminate H|exists (VInt 7); auto].
      - intros k w q x t q' x' [H|[H|[]]] N E Ht G; injection H as <- <-; [exfalso; apply N; left; reflexivity|].
        apply Ec in E; subst q; destruct Ht as [H|[H|[]]]; [injection H as <-|discriminate H].
        apply ex_gives in G; destruct G as [->|[->| ->]]; intros [[r H]|[r H]]; try discriminate H; reflexivity. }
    assert (Er : exists q x, effective ex_raw (VDict [("template", VStr "pv"); ("costs", VDict [("capex", VInt 7)])]) q x).
    { exists ["costs"; "capex"], (VInt 7); simpl; left; split; [intros [H|H]; discriminate H|].
      eexists; split; [right; left; reflexivity|]; left; split; [intros [H|H]; discriminate H|].
      exists (VInt 7); split; [left; reflexivity|split; reflexivity]. }
    apply rs_dict.
    + reflexivity.
    + intros v H; simpl in H; intuition discriminate.
    + intros k w [H|[H|[]]] N; injection H as <- <-; [exfalso; apply N; right; reflexivity|]; split.
      * apply rs_dict.
        -- simpl; intuition discriminate.
        -- intros v [H|[]]; discriminate H.
        -- intros k w [H|[]] _; injection H as <- <-; split; [exact Roof|exact Er].
        -- intros k w q x t q' x' _ _ _ [H|[]]; discriminate H.
      * destruct Er as [q [x H]]; exists ("roof" :: q), x; simpl; left; split; [intros [E|E]; discriminate E|].
        eexists; split; [left; reflexivity|exact H].
    + intros k w q x t q' x' _ _ _ H; simpl in H; intuition discriminate.
Qed.
Example C10_example_circular : solve_templates (fun d => d)
  [("templates", VDict [("a", VDict [("template", VStr "b")]); ("b", VDict [("template", VStr "a")])])] = Err EModel.
Proof. reflexivity. Qed.

(** * C11: imports of YAML files *)
(** Without override: the union of all files reached, or a KeyError exactly if two of
    them define the same key; an import statement never survives. *)
Theorem C11_imports_partial files rel p ds :
  NoDup (map fst files) ->
  (forall p d, In (p, d) files -> wf (VDict d) /\ dotfree (VDict d)) ->
  file_layers files rel p ds -> Forall (fun d => wf (VDict d) /\ tidy d) ds -> same_shape ds ->
  exists n, forall fuel, (n <= fuel)%nat ->
    (twice_defined ds /\ read_file files rel fuel false p = Err EKey) \/
    (~ twice_defined ds /\ exists r, read_file files rel fuel false p = Ok r /\ wf (VDict r) /\
       forall q v, leaf v -> (at_path (VDict r) q v <-> of_any ds q v)).
Proof.
  intros ND FW L F S; destruct (read_layers files rel ND FW p ds L (conj F S)) as [n H].
  exists n; intros fuel Hf; destruct (H fuel Hf) as [[C [r [R [W [_ E]]]]]|[C R]]; rewrite clash_twice in C.
  - right; split; [exact C|exists r; auto].
  - left; auto.
Qed.
Print Assumptions C11_imports_partial.

(** With override, the importing file wins over its imports, an earlier import over a
    later one. *)
Theorem C11_override_partial files rel fuel p d l rs :
  NoDup (map fst files) -> In (p, d) files -> wf (VDict d) -> dotfree (VDict d) -> tidy d ->
  In ("import", VList l) d -> l <> [] ->
  Forall2 (fun v r => exists k, v = VStr k /\ read_file files rel fuel false (rel p k) = Ok r /\ wf (VDict r) /\ tidy r) l rs ->
  same_shape (d :: rs) ->
  exists x, read_file files rel (S fuel) true p = Ok x /\ wf (VDict x) /\
    forall q v, leaf v -> (at_path (VDict x) q v <-> nearest (d :: rs) q v /\ ~ prefix ["import"] q).
Proof. exact (read_override files rel fuel p d l rs). Qed.
Print Assumptions C11_override_partial.

(** Circular imports are followed forever. *)
Theorem C11_circular_refuted :
  exists files rel p, forall fuel ao, read_file files rel fuel ao p = Err EDiverge.
Proof.
  exists [("m.yaml", [("import", VList [VStr "m.yaml"]); ("x", VInt 1)])], (fun _ k => k), "m.yaml".
  induction fuel as [|f IH]; intros ao; [reflexivity|].
  cbn [read_file d_get String.eqb Ascii.eqb Bool.eqb]; simpl init_from_dict; simpl bind.
  unfold resolve_imports; simpl d_get; simpl falsy; cbn [import_loop]; rewrite IH; reflexivity.
Qed.
Print Assumptions C11_circular_refuted.
(** An empty import list is not removed, and then breaks an importing file. *)
Theorem C11_empty_import_refuted :
  exists files rel p p', (exists r, read_file files rel 2 false p' = Ok r /\ In "import" (map fst r)) /\
    read_file files rel 3 false p = Err EKey.
Proof.
  exists [("a.yaml", [("import", VList [VStr "b.yaml"]); ("x", VInt 1)]); ("b.yaml", [("import", VList []); ("y", VInt 2)])],
    (fun _ k => k), "a.yaml", "b.yaml".
  split; [|reflexivity]; eexists; split; [reflexivity|simpl; auto].
Qed.
Print Assumptions C11_empty_import_refuted.

Definition ex_files : list (string * dict) :=
  [("model.yaml", [("import", VList [VStr "techs.yaml"; VStr "nodes.yaml"]); ("config", VDict [("name", VStr "m")])]);
   ("techs.yaml", [("techs", VDict [("pv", VDict [("cap", VInt 1)])])]);
   ("nodes.yaml", [("import", VList [VStr "more.yaml"]); ("nodes", VDict [("A", VInt 0)])]);
   ("more.yaml", [("techs", VDict [("wind", VDict [("cap", VInt 2)])])])].
Example C11_example :
  (forall p d, In (p, d) ex_files -> wf (VDict d) /\ dotfree (VDict d)) /\
  (exists ds, file_layers ex_files (fun _ k => k) "model.yaml" ds /\ Forall (fun d => wf (VDict d) /\ tidy d) ds /\
     same_shape ds /\ ~ twice_defined ds) /\
  read_file ex_files (fun _ k => k) 4 false "model.yaml" =
  Ok [("techs", VDict [("wind", VDict [("cap", VInt 2)]); ("pv", VDict [("cap", VInt 1)])]);
      ("nodes", VDict [("A", VInt 0)]); ("config", VDict [("name", VStr "m")])].
Proof.
  split; [|split; [|reflexivity]].
  - intros p d H; simpl in H; repeat (destruct H as [H|H]); try contradiction; injection H as <- <-;
      (split; [apply wfb_wf; reflexivity|apply dotfreeb_ok; reflexivity]).
  - eexists; split.
    + eapply fl_imports; [left; reflexivity|left; reflexivity|discriminate|].
      eapply il_cons; [apply fl_plain; [simpl; auto|simpl; intuition discriminate]|].
      eapply il_cons; [|apply il_nil].
      eapply fl_imports; [right; right; left; reflexivity|left; reflexivity|discriminate|].
      eapply il_cons; [apply fl_plain; [simpl; auto 6|simpl; intuition discriminate]|apply il_nil].
    + cbn. split; [apply neat_all_ok; reflexivity|].
      split; [apply same_shapeb_ok; [apply wf_all_ok; reflexivity|reflexivity]|].
      apply clashb_ok; [apply wf_all_ok; reflexivity|reflexivity].
Qed.
Example C11_example_override :
  read_file [("m.yaml", [("import", VList [VStr "t.yaml"]); ("x", VInt 1)]); ("t.yaml", [("x", VInt 2); ("y", VInt 3)])]
    (fun _ k => k) 3 true "m.yaml" = Ok [("x", VInt 1); ("y", VInt 3)].
Proof. reflexivity. Qed.
