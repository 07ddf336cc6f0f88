(** The input checks that come with the package: C107. *)
From Coq Require Import QArith Qcanon Lia.
From Verif Require Import Base BaseProofs LangModel MathText EvalModel EvalSpec BuildModel BuildSpec HelperModel HelperSpec ShipModel ShipSpec ShipExample NetSpec NetExample PlaceSpec
  RuleExample StepExample BoundSpec BoundFast ShipFast BoundExample GuardModel GuardSpec GuardText GuardProofs.
From Verif Require CliModel BuildProps RuleProps.
Local Open Scope nat_scope.
Local Open Scope string_scope.
Local Open Scope list_scope.
Local Arguments String.eqb : simpl never.

Lemma checks_read fs name k : In fs choices -> In (name, k) (checks fs) -> exists w, d_get name readings = Some w /\ parse_where_text (names_of fs) (k_where k) = Some w.
Proof.
  intros IF IK; destruct (all_read fs IF) as (E & A); rewrite forallb_forall in A; specialize (A _ IK); cbn [fst] in A; destruct (d_get name readings) as [w|] eqn:G; [|discriminate]; exists w; split; [reflexivity|].
  revert E IK; generalize (checks fs) as l; induction l as [|(n & c) l IH]; cbn [map fst snd In]; [intros _ []|]; intros E [H|H].
  - injection H as -> ->; injection E as E _; rewrite E; exact G.
  - injection E as _ E; exact (IH E H).
Qed.
Lemma join_in cs ss name k : In (name, k) (join cs ss) -> In name (map fst cs).
Proof.
  intros H; apply in_flat_map in H as ((n & t) & IN & H); cbn [fst snd] in H; destruct (d_get n ss) as [(r & m)|]; [|destruct H]; destruct H as [H|[]]; injection H as <- _; apply in_map_iff; exists (n, t); auto.
Qed.
Lemma checks_of fs name k : In (name, k) (checks fs) -> k_active k = negb (smem name (flat_map file_off fs)) /\ (In name (map fst base_checks) \/ exists f, In f fs /\ In name (map fst (file_checks f))).
Proof.
  intros H; unfold checks in H; apply in_map_iff in H as ((n & c) & E & H); injection E as <- <-; split; [reflexivity|]; apply in_app_or in H as [H|H]; [left; apply join_in in H; exact H|].
  apply in_flat_map in H as (f & IF & H); right; exists f; split; [exact IF|]; apply (in_map fst) in H; exact H.
Qed.
Lemma checks_milp fs name k : In fs choices -> In (name, k) (checks fs) -> In name milps -> In Milp fs.
Proof.
  intros _ IK IM; destruct (proj2 (checks_of fs name k IK)) as [H|(f & IF & H)].
  - apply smem_in in H; cbn [milps In] in IM; repeat (destruct IM as [<- |IM]; [vm_compute in H; discriminate H|]); destruct IM.
  - destruct f; [exact IF| |destruct H|destruct H]; exfalso; destruct H as [H|[]]; apply smem_in in IM; rewrite <- H in IM; vm_compute in IM; discriminate IM.
Qed.
Lemma checks_known fs name k : In fs choices -> In (name, k) (checks fs) -> exists P, d_get name violations = Some P.
Proof.
  intros IF IK; destruct (checks_read fs name k IF IK) as (w & G & _); apply d_get_in in G; apply (in_map fst) in G; cbn [map fst readings In] in G.
  repeat (destruct G as [<- |G]; [eexists; reflexivity|]); destruct G.
Qed.

(** ** Each check is violated exactly where it says: at a place of a technology, in the sense of [violations]. *)
Theorem C107_checks fs name k P U :
  In fs choices -> In (name, k) (checks fs) -> d_get name violations = Some P -> prepared U ->
  (violated (world_data (names_of fs) U) (names_of fs) k <-> k_active k = true /\ exists p, defined_place U p /\ P U p).
Proof.
  intros IF IK HV PU; destruct (checks_read fs name k IF IK) as (w & G & PW); unfold violated, defined_place, whole; split.
  - intros (KA & w' & i & PW' & II & HW & HM); rewrite PW in PW'; injection PW' as <-; split; [exact KA|]; exists (at_index (u_dims U) i); split; [split; [exists i; auto|exact HM]|].
    apply (meaning fs IF U PU name w P _ (checks_milp fs name k IF IK) G HV), HW.
  - intros (KA & p & ((i & II & ->) & HM) & HP); split; [exact KA|]; exists w, i; split; [exact PW|split; [exact II|split; [|exact HM]]].
    apply (meaning fs IF U PU name w P _ (checks_milp fs name k IF IK) G HV), HP.
Qed.
Print Assumptions C107_checks.

(** ** The checks can be made, and the model is refused exactly if one of severity "raise" is violated, a warning given
    exactly if another one is. *)
Theorem C107_refused fs U :
  In fs choices -> prepared U -> exists warning error, checked fs U = Some (warning, error) /\
  (error <> None <-> exists name k P p, In (name, k) (checks fs) /\ k_active k = true /\ k_raise k = true /\ d_get name violations = Some P /\ defined_place U p /\ P U p) /\
  (warning <> None <-> exists name k P p, In (name, k) (checks fs) /\ k_active k = true /\ k_raise k = false /\ d_get name violations = Some P /\ defined_place U p /\ P U p).
Proof.
  intros IF PU; unfold checked; destruct (check_inputs _ _ _ _ _) as [(warning & error)|] eqn:C.
  2:{ exfalso; apply BuildProps.C47_accepted in C as (k & IK & _ & PW); apply in_map_iff in IK as ((name & k') & <- & IK); destruct (checks_read fs name k' IF IK) as (w & _ & PW'); cbn [snd] in PW; congruence. }
  destruct (BuildProps.C47_checks _ _ _ _ _ _ _ C) as (ws & rs & _ & _ & _ & HE & HW); exists warning, error; split; [reflexivity|].
  assert (K : forall b, (exists k, In k (map snd (checks fs)) /\ k_raise k = b /\ violated (world_data (names_of fs) U) (names_of fs) k) <->
    exists name k P p, In (name, k) (checks fs) /\ k_active k = true /\ k_raise k = b /\ d_get name violations = Some P /\ defined_place U p /\ P U p).
  { intros b; split.
    - intros (k & IK & KR & V); apply in_map_iff in IK as ((name & k') & <- & IK); cbn [snd] in *; destruct (checks_known fs name k' IF IK) as (P & HP).
      apply (C107_checks fs name k' P U IF IK HP PU) in V as (KA & p & DP & HPP); exists name, k', P, p; auto 10.
    - intros (name & k & P & p & IK & KA & KR & HP & DP & HPP); exists k; split; [apply in_map_iff; exists (name, k); auto|split; [exact KR|]].
      apply (C107_checks fs name k P U IF IK HP PU); split; [exact KA|exists p; auto]. }
  split; [rewrite HE; apply K|rewrite HW; apply K].
Qed.
Print Assumptions C107_refused.

(** ** The checks of a model: those of its files, all active unless the clustering of storage is. *)
Theorem C107_active fs name k : In (name, k) (checks fs) ->
  (In name (map fst base_checks) \/ exists f, In f fs /\ In name (map fst (file_checks f))) /\
  (k_active k = false <-> name = "cyclic_storage_needs_inter_cluster" /\ In Inter fs).
Proof.
  intros IK; destruct (checks_of fs name k IK) as (KA & FR); split; [exact FR|]; rewrite KA, negb_false_iff, smem_in, in_flat_map; split.
  - intros (f & IF & H); destruct f; cbn [file_off In] in H; try (destruct H; fail); destruct H as [<- |[]]; auto.
  - intros (-> & IF); exists Inter; split; [exact IF|left; reflexivity].
Qed.
Print Assumptions C107_active.

(** * Examples *)

(** A model with these kinds of inputs; infinities compare as usual. *)
Definition with_kinds (bools : list string) (U : world) : world :=
  {| u_dims := u_dims U; u_env := u_env U; u_bool := fun s => smem s bools;
     u_less := fun a b => match a, b with Inf neg, Val _ => neg | Val _, Inf neg => negb neg | _, _ => false end |}.
Definition switches : list string := ["carrier_in"; "carrier_out"; "carrier_export"; "cyclic_storage"; "include_storage"].
(** Two places; a plant and a load at each. *)
Definition coast_labels : list (string * list string) :=
  [("nodes", ["north"; "south"]); ("techs", ["plant"; "load"]); ("carriers", ["power"; "heat"]); ("timesteps", ["t0"]); ("costs", ["monetary"])].
Definition both (t c : string) : list (list string * cell) := [(["north"; t; c], Boo true); (["south"; t; c], Boo true)].
Definition coast_arrays : list (string * darr) :=
  [("base_tech", rows_of ["techs"] [(["plant"], Txt "supply"); (["load"], Txt "demand")]);
   ("carrier_out", rows_of three (both "plant" "power"));
   ("carrier_in", rows_of three (both "load" "power"))].
Definition coast_with (extra : list (string * darr)) : world :=
  with_kinds switches (system coast_labels (extra ++ coast_arrays) [("storage_initial", num 0)] (rows_of three (both "plant" "power" ++ both "load" "power"))).
Definition coast_at (n t c : string) : pos := spot [("nodes", n); ("techs", t); ("carriers", c); ("timesteps", "t0"); ("costs", "monetary")].

Definition numeric_cell (c : cell) : bool := match c with Boo _ | Txt _ => false | _ => true end.
Definition numeric_rows (rows : list (list string * cell)) : bool := forallb (fun r => numeric_cell (snd r)) rows.
Lemma rows_numeric ds rows c p : numeric_rows rows = true -> numeric_cell c = true -> numeric_cell (fill c (a_at (rows_of ds rows) p)) = true.
Proof.
  intros HR HC; unfold rows_of; cbn [table a_at]; set (key := map p ds); induction rows as [|(k & x) r IH]; cbn [look]; [exact HC|].
  cbn [numeric_rows forallb snd] in HR; apply andb_true_iff in HR as (HX & HR); destruct (same_key k key); [destruct x; try discriminate HX; try reflexivity; exact HC|exact (IH HR)].
Qed.
Lemma kinds_prepared bools U : proper U -> labels U "nodes" <> [] -> (forall s, In s compared -> smem s bools = false) -> (forall s p, In s compared -> numeric_cell (value_in U s p) = true) -> prepared (with_kinds bools U).
Proof.
  intros (SD & _) NE B V; split; [exact SD|split; [exact NE|split; [intros [] x; split; reflexivity|split; [exact B|]]]].
  intros s p b x IS; specialize (V s p IS); change (value_in (with_kinds bools U) s p) with (value_in U s p); destruct (value_in U s p); try discriminate V; split; discriminate.
Qed.
Ltac by_kinds := apply kinds_prepared; [proper_system|discriminate|intros s H; repeat (destruct H as [<- |H]; [reflexivity|]); destruct H|
  intros s p H; repeat (destruct H as [<- |H]; [first [reflexivity|apply rows_numeric; reflexivity]|]); destruct H].
Ltac no_there := let H := fresh in intros H; vm_compute in H; first [discriminate H|destruct H as (H & _); apply H; reflexivity|destruct H as (_ & H); eapply H; reflexivity].
Ltac yes_there := vm_compute; first [reflexivity|split; [discriminate|intros ?; discriminate]].
Ltac in_place := split; [eexists; split; [|reflexivity]; vm_compute; tauto|reflexivity].

(** A model without complaints, and models that are refused or warned about. *)
Definition initial (c : cell) : list (string * darr) := [("storage_initial", rows_of ["techs"] [(["plant"], c)])].
Example C107_example :
  prepared (coast_with []) /\ checked [] (coast_with []) = Some (None, None) /\
  prepared (coast_with (initial (num 2))) /\
  (exists e, checked [Operate; Milp] (coast_with (initial (num 2))) = Some (None, Some e)) /\
  checked [] (coast_with (initial (num 1))) = Some (None, None) /\
  (exists w, checked [Spores] (coast_with [("cost_flow_in", rows_of ["techs"; "costs"] [(["plant"; "monetary"], num 0)])]) = Some (Some w, None)).
Proof.
  split; [by_kinds|split; [vm_compute; reflexivity|split; [by_kinds|split; [eexists; vm_compute; reflexivity|split; [vm_compute; reflexivity|eexists; vm_compute; reflexivity]]]]].
Qed.

(** * What the checks miss *)

(** ** A node may have a latitude and no longitude, in a model with coordinates. *)
Theorem C107_coordinates_refuted : exists U p q,
  prepared U /\ defined_place U p /\ defined_place U q /\
  there U "latitude" p /\ there U "longitude" p /\ there U "latitude" q /\ ~ there U "longitude" q /\
  checked [] U = Some (None, None).
Proof.
  exists (coast_with [("latitude", rows_of ["nodes"] [(["north"], num 50); (["south"], num 40)]); ("longitude", rows_of ["nodes"] [(["north"], num 5)])]),
    (at_index ["nodes"; "techs"; "carriers"; "timesteps"; "costs"] ["north"; "plant"; "power"; "t0"; "monetary"]), (at_index ["nodes"; "techs"; "carriers"; "timesteps"; "costs"] ["south"; "plant"; "power"; "t0"; "monetary"]).
  split; [by_kinds|split; [in_place|split; [in_place|split; [yes_there|split; [yes_there|split; [yes_there|split; [no_there|vm_compute; reflexivity]]]]]]].
Qed.
Print Assumptions C107_coordinates_refuted.

(** ** A technology may export a carrier that it has nothing to do with at any node. *)
Theorem C107_export_refuted : exists U p q,
  prepared U /\ whole U p /\ defined_place U q /\ (forall d, d <> "carriers" -> p d = q d) /\
  there U "carrier_export" p /\ (forall n, In n (labels U "nodes") -> ~ there U "carrier_out" (at_node p n)) /\
  checked [] U = Some (None, None).
Proof.
  exists (coast_with [("carrier_export", rows_of ["techs"; "carriers"] [(["plant"; "heat"], Boo true)])]),
    (at_index ["nodes"; "techs"; "carriers"; "timesteps"; "costs"] ["north"; "plant"; "heat"; "t0"; "monetary"]), (at_index ["nodes"; "techs"; "carriers"; "timesteps"; "costs"] ["north"; "plant"; "power"; "t0"; "monetary"]).
  split; [by_kinds|split; [eexists; split; [|reflexivity]; vm_compute; tauto|split; [in_place|split; [|split; [yes_there|split; [|vm_compute; reflexivity]]]]]].
  - intros d ND; unfold at_index; cbn; destruct (String.eqb d "nodes"), (String.eqb d "techs"); try reflexivity; destruct (String.eqb_spec d "carriers"); [contradiction|reflexivity].
  - intros n IN; vm_compute in IN; destruct IN as [<- |[<- |[]]]; no_there.
Qed.
Print Assumptions C107_export_refuted.

(** ** A demand may be minus infinity, and the initial level of a storage infinite. *)
Theorem C107_infinite_refuted : exists U p,
  prepared U /\ defined_place U p /\ raw U "sink_use_equals" p = Inf true /\ raw U "storage_initial" p = Inf false /\
  checked [] U = Some (None, None).
Proof.
  exists (coast_with [("sink_use_equals", rows_of use_dims [(["north"; "load"; "t0"], Inf true)]); ("storage_initial", rows_of ["techs"] [(["load"], Inf false)])]),
    (at_index ["nodes"; "techs"; "carriers"; "timesteps"; "costs"] ["north"; "load"; "power"; "t0"; "monetary"]).
  split; [by_kinds|split; [in_place|split; [reflexivity|split; [reflexivity|vm_compute; reflexivity]]]].
Qed.
Print Assumptions C107_infinite_refuted.

(** ** A model without any storage is refused with clustered time: cyclic storage is on by default. *)
Theorem C107_cyclic_refuted : exists U e,
  prepared U /\ (forall p, ~ reads U "base_tech" p (Txt "storage") /\ ~ on U "include_storage" p) /\
  checked [] U = Some (None, Some e) /\ checked [Inter] U = Some (None, None).
Proof.
  exists (coast_with [("cyclic_storage", table [] (fun _ => Boo true)); ("lookup_cluster_last_timestep", rows_of ["timesteps"] [(["t0"], Txt "t0")])]); eexists.
  split; [by_kinds|split; [|split; vm_compute; reflexivity]].
  intros p; split; [|intros [H|H]; vm_compute in H; discriminate H].
  change (fill Miss (look [(["plant"], Txt "supply"); (["load"], Txt "demand")] [p "techs"]) <> Txt "storage"); unfold look, same_key.
  destruct (list_eq_dec _ _ _); [discriminate|]; destruct (list_eq_dec _ _ _); discriminate.
Qed.
Print Assumptions C107_cyclic_refuted.

(** ** The depth of discharge is said to have no effect with clustered time; it has one. *)
Definition days_with (extra : list (string * darr)) : world := with_kinds switches (system days_labels (extra ++ days_arrays) step_defaults (rows_of three [(["here"; "battery"; "power"], Boo true); (["here"; "load"; "power"], Boo true)])).
Definition days_deep : world := days_with [("storage_discharge_depth", rows_of ["techs"] [(["battery"], Val quarter)])].
Lemma deep_proper : proper days_deep.
Proof. proper_system. Qed.
Theorem C107_depth_refuted : exists w,
  checked [Inter] days_deep = Some (Some w, None) /\
  (forall name k, In (name, k) (checks [Inter]) -> k_raise k = false -> violated (world_data (names_of [Inter]) days_deep) (names_of [Inter]) k -> name = "no_storage_discharge_depth_when_clustering") /\
  (* the only difference between the two is the depth of discharge *)
  (forall s, s <> "storage_discharge_depth" -> n_array (u_env days_deep) s = n_array (u_env (days_with [])) s) /\
  solution as_listed cluster_math (days_with []) /\ ~ solution as_listed cluster_math days_deep.
Proof.
  eexists; split; [vm_compute; reflexivity|split; [|split; [|split]]].
  - intros name k IK KR V; assert (PD : prepared days_deep) by by_kinds.
    assert (IF : In [Inter] choices) by (cbn; tauto); destruct (checks_known [Inter] name k IF IK) as (P & HP).
    assert (KN : In name ["flow_in_for_supply_tech"; "flow_out_for_demand_tech"; "no_storage_discharge_depth_when_clustering"]).
    { vm_compute in IK; repeat (destruct IK as [E|IK]; [injection E as <- <-; first [discriminate KR|cbn; tauto]|]); destruct IK. }
    apply (C107_checks [Inter] name k P days_deep IF IK HP PD) in V as (_ & p & _ & HPP); destruct KN as [<- |[<- |[<- |[]]]]; [| |reflexivity]; exfalso.
    + assert (E : P = fun U p => reads U "base_tech" p (Txt "supply") /\ there U "cost_flow_in" p) by (assert (Some P = Some (fun U p => reads U "base_tech" p (Txt "supply") /\ there U "cost_flow_in" p)) by (rewrite <- HP; reflexivity); congruence).
      rewrite E in HPP; destruct HPP as (_ & H); vm_compute in H; destruct H as (H & _); apply H; reflexivity.
    + assert (E : P = fun U p => reads U "base_tech" p (Txt "demand") /\ there U "cost_flow_out" p) by (assert (Some P = Some (fun U p => reads U "base_tech" p (Txt "demand") /\ there U "cost_flow_out" p)) by (rewrite <- HP; reflexivity); congruence).
      rewrite E in HPP; destruct HPP as (_ & H); vm_compute in H; destruct H as (H & _); apply H; reflexivity.
  - intros s NS; cbn [days_deep days_with with_kinds u_env system n_array]; unfold array_from; cbn [app d_get]; destruct (String.eqb_spec s "storage_discharge_depth"); [contradiction|reflexivity].
  - apply solution_sound; [apply feasible_sound|]; vm_compute; reflexivity.
  - intros ((_ & HC) & _).
    assert (LE : (amount days_deep "storage_discharge_depth" (asset "here" "battery") * amount days_deep "storage_cap" (asset "here" "battery") <= amount days_deep "storage" (use_at "here" "battery" "t0"))%Qc).
    { refine (RuleProps.C77_depth as_listed cluster_math days_deep "here" "battery" "power" "t0" as_listed_set ltac:(cbn; tauto) _ _ _ _ _).
      - sited_by deep_proper.
      - is_given.
      - is_given.
      - is_num.
      - destruct (find_in (active (layered cluster_math) (h_constraints (layered cluster_math))) "storage_discharge_depth_limit") as [c|] eqn:F; [|vm_compute in F; discriminate F].
        exists c; split; [exact F|apply HC, (find_some _ _ F)]. }
    vm_compute in LE; apply LE; reflexivity.
Qed.
Print Assumptions C107_depth_refuted.
