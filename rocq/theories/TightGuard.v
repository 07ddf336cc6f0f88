(** A further theorem on C107, found missing by changing the model. *)
From Verif Require Import Base BaseProofs EvalModel BuildModel MathText ShipModel GuardModel.
Local Open Scope string_scope.
Local Open Scope list_scope.

(** The checks of base.yaml are made in every model, those of milp.yaml and operate.yaml in models that use these files, and no
    others; all but three end the build. *)
Definition in_base : list string :=
  ["must_have_base"; "distance_only_for_transmission"; "unbounded_flow_cap_cost"; "unbounded_storage_cap_cost"; "unbounded_area_use_cost";
   "unbounded_source_use_cost"; "finite_source_use"; "all_or_nothing_lat_lon"; "export_only_for_outflows"; "storage_initial_max";
   "flow_in_for_supply_tech"; "flow_out_for_demand_tech"; "no_storage_discharge_depth_when_clustering"; "cyclic_storage_needs_inter_cluster"].
Definition in_milp : list string :=
  ["distance_only_for_transmission_milp"; "conflicting_flow_caps"; "unit_commitment_only_for_units"; "conflicting_storage_caps"].
Definition only_warn : list string := ["flow_in_for_supply_tech"; "flow_out_for_demand_tech"; "no_storage_discharge_depth_when_clustering"].

Lemma base_joined : map (fun x => (fst x, k_raise (snd x))) (join base_checks base_says) = map (fun n => (n, negb (smem n only_warn))) in_base.
Proof. reflexivity. Qed.
Lemma file_joined f : map (fun x => (fst x, k_raise (snd x))) (file_checks f) =
  map (fun n => (n, negb (smem n only_warn))) match f with Milp => in_milp | Operate => ["operate_mode_cyclic_storage"] | Spores | Inter => [] end.
Proof. destruct f; reflexivity. Qed.

Theorem C107_severity fs :
  (forall n, (exists k, In (n, k) (checks fs)) <-> In n in_base \/ (In Milp fs /\ In n in_milp) \/ (In Operate fs /\ n = "operate_mode_cyclic_storage")) /\
  forall n k, In (n, k) (checks fs) -> (k_raise k = false <-> In n only_warn).
Proof.
  assert (A : map (fun x => (fst x, k_raise (snd x))) (checks fs) = map (fun n => (n, negb (smem n only_warn)))
    (in_base ++ flat_map (fun f => match f with Milp => in_milp | Operate => ["operate_mode_cyclic_storage"] | Spores | Inter => [] end) fs)).
  { unfold checks; rewrite map_map; cbn [fst snd k_raise]; rewrite !map_app, base_joined; f_equal.
    induction fs as [|f fs IH]; [reflexivity|]; cbn [flat_map]; rewrite !map_app, IH, file_joined; reflexivity. }
  split.
  - intros n; split.
    + intros (k & I); apply (in_map (fun x => (fst x, k_raise (snd x)))) in I; rewrite A in I; cbn [fst snd] in I.
      apply in_map_iff in I; destruct I as (m & E & I); injection E as -> _; apply in_app_iff in I; destruct I as [I|I]; [auto|].
      apply in_flat_map in I; destruct I as (f & F & I); destruct f; cbn beta iota in I; [auto|destruct I as [<-|[]]; auto|destruct I|destruct I].
    + intros H; assert (I : In (n, negb (smem n only_warn)) (map (fun x => (fst x, k_raise (snd x))) (checks fs))).
      { rewrite A; apply (in_map (fun n => (n, negb (smem n only_warn)))); apply in_app_iff; destruct H as [H|[[F H]|[F ->]]]; [auto| |]; right; apply in_flat_map.
        - exists Milp; auto.
        - exists Operate; split; [exact F|left; reflexivity]. }
      apply in_map_iff in I; destruct I as ([m k] & E & I); cbn [fst snd] in E; injection E as -> _; exists k; exact I.
  - intros n k I; apply (in_map (fun x => (fst x, k_raise (snd x)))) in I; rewrite A in I; cbn [fst snd] in I.
    apply in_map_iff in I; destruct I as (m & E & _).
    assert (E1 : m = n) by exact (f_equal fst E); assert (E2 : negb (smem m only_warn) = k_raise k) by exact (f_equal snd E).
    rewrite <- E2, negb_false_iff, E1; apply (smem_in n only_warn).
Qed.
Print Assumptions C107_severity.
Example C107_severity_example :
  map (fun x => (fst x, k_raise (snd x), k_active (snd x))) (skipn 10 (checks [Operate; Inter])) =
  [("flow_in_for_supply_tech", false, true); ("flow_out_for_demand_tech", false, true); ("no_storage_discharge_depth_when_clustering", false, true);
   ("cyclic_storage_needs_inter_cluster", true, false); ("operate_mode_cyclic_storage", true, true)].
Proof. reflexivity. Qed.
