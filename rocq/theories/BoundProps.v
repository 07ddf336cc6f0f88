(** C96: decision variables exist where they should and stay within their limits. *)
From Coq Require Import QArith Qcanon Lia.
From Verif Require Import Base BaseProofs LangModel MathText EvalModel EvalSpec BuildModel BuildSpec HelperModel HelperSpec ShipModel ShipSpec ShipNumbers ShipExample NetSpec NetProofs NetExample
  PlaceSpec ShipPlace RuleText RuleProofs MilpProofs ShipFast RuleExample MilpExample CostSpec CostText CostExample MilpProps StepExample RestExample RestProps BoundModel BoundSpec BoundFast BoundProofs BoundExample.
Local Open Scope nat_scope.
Local Open Scope string_scope.
Local Open Scope list_scope.
Local Arguments Qcplus : simpl never.
Local Arguments Qcmult : simpl never.
Local Arguments Qcminus : simpl never.

Lemma plain_planned files : In files planning_plain -> In files planning. Proof. among. Qed.
Lemma milp_planned files : In files planning_milp -> In files planning. Proof. among. Qed.
Lemma planned_milp files : In files planning_milp -> In files milp_lists. Proof. among. Qed.
(** What a variable's entry says, with the labels of its dimensions computed. *)
Ltac entry_with SO DE VT LI SI CW H :=
  match type of SI with sited ?V ?l =>
    pose proof (var_here _ _ V SO _ _ _ _ _ _ l DE VT LI eq_refl eq_refl SI CW) as H; cbv zeta in H;
    match type of H with context [cut ?fe l] => let k := eval vm_compute in (cut fe l) in change (cut fe l) with k in H end
  end.
Ltac entry_by SO DE VT LI SI SD IF F H :=
  match type of SI with sited ?V ?l => match type of VT with var_text ?m _ = Some (_, ?w) =>
    let CW := fresh in
    assert (CW : forall p, whole V p -> fits l p -> weval (world_where (math_names m) V) w p = true) by (refine (known_here _ V l F w true _ _ _); [facts SD|knowns IF|vm_compute; reflexivity]);
    entry_with SO DE VT LI SI CW H; clear CW end end.

(** * C96 *)
Theorem C96_capacities order files U n t c :
  In files planning_plain -> solution order files U -> sited U (cap_at n t c) ->
  between U "flow_cap_min" "flow_cap" "flow_cap_max" (cap_at n t c) /\
  (given U "area_use_min" (asset n t) \/ given U "area_use_max" (asset n t) \/ given U "area_use_per_flow_cap" (asset n t) \/ reads_as U "sink_unit" (asset n t) (Txt "per_area") \/ reads_as U "source_unit" (asset n t) (Txt "per_area") ->
    between U "area_use_min" "area_use" "area_use_max" (asset n t)) /\
  (reads_as U "base_tech" (tech_at t) (Txt "supply") -> between U "source_cap_min" "source_cap" "source_cap_max" (asset n t)) /\
  (reads_as U "base_tech" (tech_at t) (Txt "storage") \/ reads_as U "include_storage" (asset n t) (Boo true) -> between U "storage_cap_min" "storage_cap" "storage_cap_max" (asset n t)).
Proof.
  intros IP SO SI; pose proof (plain_planned _ IP) as IPL; pose proof (planning_shipped _ IPL) as IF; pose proof (proj1 (proj1 SI)) as SD.
  pose proof (fun s => decided_in _ _ files s planning_decided IPL) as DE; pose proof (fun i s x => limits_at _ _ _ files i s x plain_read_limits IP) as LI; pose proof (fun i s fe w => base_var files i s fe w IF) as VT.
  split; [|split; [|split]].
  - entry_by SO (DE "flow_cap" ltac:(cbn; tauto)) (VT 0 _ _ _ eq_refl eq_refl) (LI 0 _ _ eq_refl eq_refl) SI SD IF (@nil (string * fact)) H; split; [apply H|split; apply H].
  - intros [G|[G|[G|[G|G]]]].
    + entry_by SO (DE "area_use" ltac:(cbn; tauto)) (VT 5 _ _ _ eq_refl eq_refl) (LI 1 _ _ eq_refl eq_refl) SI SD IF [("area_use_min", Given)] H; split; [apply H|split; apply H].
    + entry_by SO (DE "area_use" ltac:(cbn; tauto)) (VT 5 _ _ _ eq_refl eq_refl) (LI 1 _ _ eq_refl eq_refl) SI SD IF [("area_use_max", Given)] H; split; [apply H|split; apply H].
    + entry_by SO (DE "area_use" ltac:(cbn; tauto)) (VT 5 _ _ _ eq_refl eq_refl) (LI 1 _ _ eq_refl eq_refl) SI SD IF [("area_use_per_flow_cap", Given)] H; split; [apply H|split; apply H].
    + entry_by SO (DE "area_use" ltac:(cbn; tauto)) (VT 5 _ _ _ eq_refl eq_refl) (LI 1 _ _ eq_refl eq_refl) SI SD IF [("sink_unit", Is (Txt "per_area"))] H; split; [apply H|split; apply H].
    + entry_by SO (DE "area_use" ltac:(cbn; tauto)) (VT 5 _ _ _ eq_refl eq_refl) (LI 1 _ _ eq_refl eq_refl) SI SD IF [("source_unit", Is (Txt "per_area"))] H; split; [apply H|split; apply H].
  - intros G; entry_by SO (DE "source_cap" ltac:(cbn; tauto)) (VT 7 _ _ _ eq_refl eq_refl) (LI 2 _ _ eq_refl eq_refl) SI SD IF [("base_tech", Is (Txt "supply"))] H; split; [apply H|split; apply H].
  - intros [G|G].
    + entry_by SO (DE "storage_cap" ltac:(cbn; tauto)) (VT 8 _ _ _ eq_refl eq_refl) (LI 3 _ _ eq_refl eq_refl) SI SD IF [("base_tech", Is (Txt "storage"))] H; split; [apply H|split; apply H].
    + entry_by SO (DE "storage_cap" ltac:(cbn; tauto)) (VT 8 _ _ _ eq_refl eq_refl) (LI 3 _ _ eq_refl eq_refl) SI SD IF [("include_storage", Is (Boo true))] H; split; [apply H|split; apply H].
Qed.
Print Assumptions C96_capacities.
Example C96_capacities_ex : between (farm false) "flow_cap_min" "flow_cap" "flow_cap_max" (cap_at "here" "field" "power") /\ between (farm false) "area_use_min" "area_use" "area_use_max" (asset "here" "field") /\
  between (farm false) "source_cap_min" "source_cap" "source_cap_max" (asset "here" "field").
Proof.
  assert (SI : sited (farm false) (cap_at "here" "field" "power")) by (pose proof (farm_proper false) as FP; sited_by FP).
  destruct (C96_capacities as_listed base_math (farm false) "here" "field" "power" (or_introl eq_refl) (farm_solution false) SI) as (A & B & C & _); split; [exact A|split; [apply B; right; left; is_given|apply C; is_as]].
Qed.
(** With units the lower limits are those of constraints (C80_least); the upper ones are still those of the whole technology. *)
Theorem C96_bought order files U n t c :
  In files planning_milp -> solution order files U -> sited U (cap_at n t c) ->
  at_most U "flow_cap" "flow_cap_max" (cap_at n t c) /\
  (given U "area_use_min" (asset n t) \/ given U "area_use_max" (asset n t) \/ given U "area_use_per_flow_cap" (asset n t) -> at_most U "area_use" "area_use_max" (asset n t)) /\
  (reads_as U "base_tech" (tech_at t) (Txt "supply") -> at_most U "source_cap" "source_cap_max" (asset n t)) /\
  (reads_as U "base_tech" (tech_at t) (Txt "storage") \/ reads_as U "include_storage" (asset n t) (Boo true) -> at_most U "storage_cap" "storage_cap_max" (asset n t)) /\
  (reads_as U "cap_method" (asset n t) (Txt "integer") -> between U "purchased_units_min" "purchased_units" "purchased_units_max" (asset n t) /\ integral (amount U "purchased_units" (asset n t))).
Proof.
  intros IP SO SI; pose proof (milp_planned _ IP) as IPL; pose proof (planning_shipped _ IPL) as IF; pose proof (proj1 (proj1 SI)) as SD; pose proof (planned_milp _ IP) as IM.
  pose proof (fun s => decided_in _ _ files s planning_decided IPL) as DE; pose proof (fun i s x => limits_at _ _ _ files i s x milp_read_limits IP) as LI; pose proof (fun i s fe w => base_var files i s fe w IF) as VT.
  split; [|split; [|split; [|split]]].
  - entry_by SO (DE "flow_cap" ltac:(cbn; tauto)) (VT 0 _ _ _ eq_refl eq_refl) (LI 0 _ _ eq_refl eq_refl) SI SD IF (@nil (string * fact)) H; split; [apply H|split; apply H].
  - intros [G|[G|G]].
    + entry_by SO (DE "area_use" ltac:(cbn; tauto)) (VT 5 _ _ _ eq_refl eq_refl) (LI 1 _ _ eq_refl eq_refl) SI SD IF [("area_use_min", Given)] H; split; [apply H|split; apply H].
    + entry_by SO (DE "area_use" ltac:(cbn; tauto)) (VT 5 _ _ _ eq_refl eq_refl) (LI 1 _ _ eq_refl eq_refl) SI SD IF [("area_use_max", Given)] H; split; [apply H|split; apply H].
    + entry_by SO (DE "area_use" ltac:(cbn; tauto)) (VT 5 _ _ _ eq_refl eq_refl) (LI 1 _ _ eq_refl eq_refl) SI SD IF [("area_use_per_flow_cap", Given)] H; split; [apply H|split; apply H].
  - intros G; entry_by SO (DE "source_cap" ltac:(cbn; tauto)) (VT 7 _ _ _ eq_refl eq_refl) (LI 2 _ _ eq_refl eq_refl) SI SD IF [("base_tech", Is (Txt "supply"))] H; split; [apply H|split; apply H].
  - intros [G|G].
    + entry_by SO (DE "storage_cap" ltac:(cbn; tauto)) (VT 8 _ _ _ eq_refl eq_refl) (LI 3 _ _ eq_refl eq_refl) SI SD IF [("base_tech", Is (Txt "storage"))] H; split; [apply H|split; apply H].
    + entry_by SO (DE "storage_cap" ltac:(cbn; tauto)) (VT 8 _ _ _ eq_refl eq_refl) (LI 3 _ _ eq_refl eq_refl) SI SD IF [("include_storage", Is (Boo true))] H; split; [apply H|split; apply H].
  - intros G; pose proof (milp_var files 0 _ _ _ IM eq_refl eq_refl) as VU; pose proof (decided_in _ _ files "purchased_units" units_decided IP ltac:(cbn; tauto)) as DU; pose proof (limits_at _ _ _ files 0 _ _ unit_read IM eq_refl eq_refl) as LU.
    assert (CW : forall p, whole U p -> fits (cap_at n t c) p -> weval (world_where (math_names (layered files)) U) (WCmp (EName "cap_method") CEq (EStr "integer")) p = true).
    { refine (known_here files U _ [("cap_method", Is (Txt "integer"))] (WCmp (EName "cap_method") CEq (EStr "integer")) true _ _ eq_refl); [facts SD|constructor; [exact (unit_input files "cap_method" IM ltac:(cbn; tauto))|constructor]]. }
    entry_with SO DU VU LU SI CW H; split; [split; [apply H|split; apply H]|apply H; reflexivity].
Qed.
Print Assumptions C96_bought.
Example C96_bought_ex : at_most dock "flow_cap" "flow_cap_max" (cap_at "here" "engine" "power") /\ between dock "purchased_units_min" "purchased_units" "purchased_units_max" (asset "here" "engine") /\ integral (amount dock "purchased_units" (asset "here" "engine")) /\
  at_most dock "storage_cap" "storage_cap_max" (asset "here" "battery").
Proof.
  pose proof (C96_bought as_listed unit_math dock "here" "engine" "power" (or_introl eq_refl) dock_solution (dock_cap "engine" ltac:(cbn; tauto))) as (A & _ & _ & _ & B).
  pose proof (C96_bought as_listed unit_math dock "here" "battery" "power" (or_introl eq_refl) dock_solution (dock_cap "battery" ltac:(cbn; tauto))) as (_ & _ & _ & C & _).
  split; [exact A|]; destruct B as (B1 & B2); [is_as|]; split; [exact B1|split; [exact B2|apply C; left; is_as]].
Qed.
(** Flows exist where a technology has the carrier, and nowhere else; they are not negative. *)
Theorem C96_flows order files U n t c k :
  In files shipped -> solution order files U -> sited U (flow_at n t c k) ->
  (switched_on U "carrier_out" (cap_at n t c) -> positive_or_zero U "flow_out" (flow_at n t c k)) /\ (switched_off U "carrier_out" (cap_at n t c) -> absent U "flow_out" (flow_at n t c k)) /\
  (switched_on U "carrier_in" (cap_at n t c) -> positive_or_zero U "flow_in" (flow_at n t c k)) /\ (switched_off U "carrier_in" (cap_at n t c) -> absent U "flow_in" (flow_at n t c k)) /\
  (switched_on U "carrier_export" (cap_at n t c) -> between U "export_min" "flow_export" "export_max" (flow_at n t c k)) /\ (switched_off U "carrier_export" (cap_at n t c) -> absent U "flow_export" (flow_at n t c k)) /\
  (reads_as U "base_tech" (tech_at t) (Txt "supply") -> positive_or_zero U "source_use" (use_at n t k)).
Proof.
  intros IF SO SI; pose proof (proj1 (proj1 SI)) as SD; pose proof (proj1 (proj2 (proj2 SI))) as PL.
  pose proof (fun s => decided_in _ _ files s always_decided IF) as DE; pose proof (fun i s x => limits_at _ _ _ files i s x always_read IF) as LI; pose proof (fun i s fe w => base_var files i s fe w IF) as VT.
  assert (KE : Forall (fact_known (math_names (layered files))) [("carrier_export", Off)]) by (constructor; [exact (proj1 (forallb_forall _ _) export_known files IF)|constructor]).
  split; [|split; [|split; [|split; [|split; [|split]]]]].
  - intros G; entry_by SO (DE "flow_out" ltac:(cbn; tauto)) (VT 2 _ _ _ eq_refl eq_refl) (LI 1 _ _ eq_refl eq_refl) SI SD IF [("carrier_out", On)] H; split; apply H.
  - intros G; refine (var_gone order files U SO _ _ _ (flow_at n t c k) (DE "flow_out" ltac:(cbn; tauto)) (VT 2 _ _ _ eq_refl eq_refl) eq_refl eq_refl eq_refl SD PL (known_here files U _ [("carrier_out", Off)] (WName "carrier_out") false _ _ eq_refl)); [facts SD|knowns IF].
  - intros G; entry_by SO (DE "flow_in" ltac:(cbn; tauto)) (VT 3 _ _ _ eq_refl eq_refl) (LI 2 _ _ eq_refl eq_refl) SI SD IF [("carrier_in", On)] H; split; apply H.
  - intros G; refine (var_gone order files U SO _ _ _ (flow_at n t c k) (DE "flow_in" ltac:(cbn; tauto)) (VT 3 _ _ _ eq_refl eq_refl) eq_refl eq_refl eq_refl SD PL (known_here files U _ [("carrier_in", Off)] (WName "carrier_in") false _ _ eq_refl)); [facts SD|knowns IF].
  - intros G; entry_by SO (DE "flow_export" ltac:(cbn; tauto)) (VT 4 _ _ _ eq_refl eq_refl) (LI 3 _ _ eq_refl eq_refl) SI SD IF [("carrier_export", On)] H; split; [apply H|split; apply H].
  - intros G; refine (var_gone order files U SO _ _ _ (flow_at n t c k) (DE "flow_export" ltac:(cbn; tauto)) (VT 4 _ _ _ eq_refl eq_refl) eq_refl eq_refl eq_refl SD PL (known_here files U _ [("carrier_export", Off)] (WName "carrier_export") false _ KE eq_refl)); facts SD.
  - intros G; entry_by SO (DE "source_use" ltac:(cbn; tauto)) (VT 6 _ _ _ eq_refl eq_refl) (LI 4 _ _ eq_refl eq_refl) SI SD IF [("base_tech", Is (Txt "supply"))] H; split; apply H.
Qed.
Print Assumptions C96_flows.
Example C96_flows_ex : positive_or_zero dock "flow_out" (flow_at "here" "engine" "power" "t1") /\ absent dock "flow_in" (flow_at "here" "engine" "power" "t1") /\ absent dock "flow_export" (flow_at "here" "engine" "power" "t1") /\
  positive_or_zero dock "source_use" (use_at "here" "engine" "t1").
Proof.
  pose proof (C96_flows as_listed unit_math dock "here" "engine" "power" "t1" (milp_shipped _ unit_listed) dock_solution (dock_at "engine" "t1" ltac:(cbn; tauto) ltac:(cbn; tauto))) as (A & _ & _ & B & _ & C & D).
  split; [apply A; is_as|split; [apply B|split; [apply C|apply D; is_as]]]; (split; [dims_in|right; reflexivity]).
Qed.
(** Unmet demand and unused supply are there only on request, with their signs. *)
Theorem C96_slack order files U n t c k b :
  In files shipped -> solution order files U -> sited U (flow_at n t c k) -> n_config (u_env U) "ensure_feasibility" = Boo b ->
  if b then positive_or_zero U "unmet_demand" (bus_at n c k) /\ given U "unused_supply" (bus_at n c k) /\ (amount U "unused_supply" (bus_at n c k) <= 0)%Qc
  else absent U "unmet_demand" (bus_at n c k) /\ absent U "unused_supply" (bus_at n c k).
Proof.
  intros IF SO SI CF; pose proof (proj1 (proj1 SI)) as SD; pose proof (proj1 (proj2 (proj2 SI))) as PL.
  pose proof (fun s => decided_in _ _ files s always_decided IF) as DE; pose proof (fun i s x => limits_at _ _ _ files i s x always_read IF) as LI; pose proof (fun i s fe w => base_var files i s fe w IF) as VT.
  pose proof (fun p => config_is files U "ensure_feasibility" b true p CF) as CC.
  assert (PB : placed U (bus_at n c k)).
  { destruct PL as (_ & PL); split; [apart|]; intros d v IV; apply PL; cbn in IV |- *; intuition. }
  destruct b; cbn [Bool.eqb] in CC.
  - entry_with SO (DE "unmet_demand" ltac:(cbn; tauto)) (VT 10 _ _ _ eq_refl eq_refl) (LI 5 _ _ eq_refl eq_refl) SI (fun p (_ : whole U p) (_ : fits (flow_at n t c k) p) => CC p) H1.
    entry_with SO (DE "unused_supply" ltac:(cbn; tauto)) (VT 11 _ _ _ eq_refl eq_refl) (LI 6 _ _ eq_refl eq_refl) SI (fun p (_ : whole U p) (_ : fits (flow_at n t c k) p) => CC p) H2.
    split; [split; apply H1|split; apply H2].
  - split.
    + refine (var_gone order files U SO _ _ _ (bus_at n c k) (DE "unmet_demand" ltac:(cbn; tauto)) (VT 10 _ _ _ eq_refl eq_refl) eq_refl eq_refl eq_refl SD PB (fun p _ _ => CC p)).
    + refine (var_gone order files U SO _ _ _ (bus_at n c k) (DE "unused_supply" ltac:(cbn; tauto)) (VT 11 _ _ _ eq_refl eq_refl) eq_refl eq_refl eq_refl SD PB (fun p _ _ => CC p)).
Qed.
Print Assumptions C96_slack.
Example C96_slack_ex : positive_or_zero (farm false) "unmet_demand" (bus_at "here" "power" "t0") /\ given (farm false) "unused_supply" (bus_at "here" "power" "t0").
Proof. destruct (C96_slack as_listed base_math (farm false) "here" "sun" "power" "t0" true base_listed (farm_solution false) (farm_at false "sun" "power" "t0" ltac:(cbn; tauto) ltac:(cbn; tauto)) eq_refl) as (A & B & _); auto. Qed.
(** Levels of stores are not negative. *)
Theorem C96_store order files U n t c k :
  In files chronological -> solution order files U -> sited U (flow_at n t c k) -> reads_as U "base_tech" (tech_at t) (Txt "storage") \/ reads_as U "include_storage" (asset n t) (Boo true) -> positive_or_zero U "storage" (use_at n t k).
Proof.
  intros IC SO SI G; assert (IF : In files shipped) by (revert IC; among); pose proof (proj1 (proj1 SI)) as SD.
  pose proof (fun s => decided_in _ _ files s always_decided IF) as DE; pose proof (in_repeat _ _ _ _ _ store_read IC) as LI; cbv beta in LI; pose proof (fun i s fe w => base_var files i s fe w IF) as VT.
  destruct G as [G|G].
  - entry_by SO (DE "storage" ltac:(cbn; tauto)) (VT 9 _ _ _ eq_refl eq_refl) LI SI SD IF [("base_tech", Is (Txt "storage"))] H; split; apply H.
  - entry_by SO (DE "storage" ltac:(cbn; tauto)) (VT 9 _ _ _ eq_refl eq_refl) LI SI SD IF [("include_storage", Is (Boo true))] H; split; apply H.
Qed.
Print Assumptions C96_store.
Example C96_store_ex : positive_or_zero hill "storage" (use_at "here" "battery" "t1").
Proof. apply (C96_store as_listed base_math hill "here" "battery" "power" "t1" (or_introl eq_refl) hill_solution (hill_flow_at "battery" "t1" ltac:(cbn; tauto) ltac:(cbn; tauto))); left; is_as. Qed.
(** Running units are whole numbers, switches are off or on. *)
Theorem C96_switches order files U n t c k :
  In files milp_lists -> solution order files U -> sited U (flow_at n t c k) ->
  (reads_as U "force_async_flow" (asset n t) (Boo true) -> given U "async_flow_switch" (use_at n t k) /\ (amount U "async_flow_switch" (use_at n t k) = 0%Qc \/ amount U "async_flow_switch" (use_at n t k) = 1%Qc)) /\
  (reads_as U "integer_dispatch" (asset n t) (Boo true) -> reads_as U "cap_method" (asset n t) (Txt "integer") -> positive_or_zero U "operating_units" (use_at n t k) /\ integral (amount U "operating_units" (use_at n t k))).
Proof.
  intros IM SO SI; pose proof (proj1 (proj1 SI)) as SD.
  pose proof (fun s => decided_in _ _ files s milp_decided IM) as DE; pose proof (fun i s x => limits_at _ _ _ files i s x unit_read IM) as LI; pose proof (fun i s fe w => milp_var files i s fe w IM) as VT.
  split.
  - intros G; assert (CW : forall p, whole U p -> fits (flow_at n t c k) p -> weval (world_where (math_names (layered files)) U) (WCmp (EName "force_async_flow") CEq (EBool true)) p = true).
    { refine (known_here files U _ [("force_async_flow", Is (Boo true))] (WCmp (EName "force_async_flow") CEq (EBool true)) true _ _ eq_refl); [facts SD|constructor; [exact (unit_input files "force_async_flow" IM ltac:(cbn; tauto))|constructor]]. }
    entry_with SO (DE "async_flow_switch" ltac:(cbn; tauto)) (VT 2 _ _ _ eq_refl eq_refl) (LI 2 _ _ eq_refl eq_refl) SI CW H; split; [apply H|apply whole_bit; [apply H; reflexivity|apply H|apply H]].
  - intros G1 G2; pose proof (VT 1 _ _ _ eq_refl eq_refl) as VO; match type of VO with _ = Some (_, ?w) =>
      assert (CW : forall p, whole U p -> fits (flow_at n t c k) p -> weval (world_where (math_names (layered files)) U) w p = true) by
        (refine (known_here files U _ [("integer_dispatch", Is (Boo true)); ("cap_method", Is (Txt "integer"))] w true _ _ eq_refl); [facts SD|];
         constructor; [exact (unit_input files "integer_dispatch" IM ltac:(cbn; tauto))|constructor; [exact (unit_input files "cap_method" IM ltac:(cbn; tauto))|constructor]]) end.
    entry_with SO (DE "operating_units" ltac:(cbn; tauto)) VO (LI 1 _ _ eq_refl eq_refl) SI CW H; split; [split; apply H|apply H; reflexivity].
Qed.
Print Assumptions C96_switches.
Example C96_switches_ex : (amount dock "async_flow_switch" (use_at "here" "battery" "t1") = 0%Qc \/ amount dock "async_flow_switch" (use_at "here" "battery" "t1") = 1%Qc) /\ integral (amount dock "operating_units" (use_at "here" "engine" "t1")).
Proof.
  split.
  - apply (C96_switches as_listed unit_math dock "here" "battery" "power" "t1" unit_listed dock_solution (dock_at "battery" "t1" ltac:(cbn; tauto) ltac:(cbn; tauto))); is_as.
  - apply (C96_switches as_listed unit_math dock "here" "engine" "power" "t1" unit_listed dock_solution (dock_at "engine" "t1" ltac:(cbn; tauto) ltac:(cbn; tauto))); is_as.
Qed.

(** Wherever one looks, there is no negative flow. *)
Lemma nowhere_negative order files U s l :
  In files shipped -> In s ["flow_out"; "flow_in"] -> solution order files U -> sound (u_env U) -> placed U l ->
  forallb (fun d => smem d (map fst l)) ["nodes"; "techs"; "carriers"; "timesteps"] = true -> forallb (fun d => smem d ["nodes"; "techs"; "carriers"; "timesteps"]) (map fst l) = true -> n_default (u_env U) s = Val 0%Qc ->
  numeric U s l /\ (0 <= amount U s l)%Qc.
Proof.
  intros IF IS SO SD PL S1 S2 ED.
  pose proof (fun s => decided_in _ _ files s always_decided IF) as DE; pose proof (fun i s x => limits_at _ _ _ files i s x always_read IF) as LI; pose proof (fun i s fe w => base_var files i s fe w IF) as VT.
  assert (H : absent U s l \/ given U s l /\ (0 <= amount U s l)%Qc).
  { destruct IS as [<- |[<- |[]]].
    - pose proof (var_any order files U SO _ _ _ _ _ _ l (DE "flow_out" ltac:(cbn; tauto)) (VT 2 _ _ _ eq_refl eq_refl) (LI 1 _ _ eq_refl eq_refl) eq_refl S1 S2 SD PL) as [H|H]; [left; exact H|right; split; apply H].
    - pose proof (var_any order files U SO _ _ _ _ _ _ l (DE "flow_in" ltac:(cbn; tauto)) (VT 3 _ _ _ eq_refl eq_refl) (LI 2 _ _ eq_refl eq_refl) eq_refl S1 S2 SD PL) as [H|H]; [left; exact H|right; split; apply H]. }
  destruct H as [(WD & EM)|(GI & P)]; [|split; [exact (given_numeric _ _ _ GI)|exact P]].
  assert (EV : value_at U s l = Val 0%Qc) by (unfold value_at; rewrite EM; exact ED).
  split; [split; [exact WD|exists 0%Qc; exact EV]|unfold amount; rewrite EV; apply Qcle_refl].
Qed.
Theorem C96_nowhere_negative order files U s n t c k :
  In files shipped -> In s ["flow_out"; "flow_in"] -> solution order files U -> sound (u_env U) -> placed U (flow_at n t c k) -> n_default (u_env U) s = Val 0%Qc ->
  numeric U s (flow_at n t c k) /\ (0 <= amount U s (flow_at n t c k))%Qc.
Proof. intros IF IS SO SD PL ED; exact (nowhere_negative order files U s _ IF IS SO SD PL eq_refl eq_refl ED). Qed.
Print Assumptions C96_nowhere_negative.
Example C96_nowhere_negative_ex : (0 <= amount dock "flow_out" (flow_at "here" "battery" "heat" "t0"))%Qc.
Proof.
  apply (C96_nowhere_negative as_listed unit_math dock "flow_out" "here" "battery" "heat" "t0" (milp_shipped _ unit_listed) ltac:(cbn; tauto) dock_solution (proj1 dock_proper)); [|reflexivity].
  split; [apart|]; intros d v IV; cbn in IV; destruct IV as [E|[E|[E|[E|[]]]]]; injection E as <- <-; vm_compute; intuition.
Qed.

(** Rules of every formulation of a list. *)
Definition rules_on (names : list string) (files : list math_file) : bool :=
  forallb (fun s => smem s (active_names (h_constraints (layered files)) (layered files)) && negb (smem s (h_off (layered files)))) names.
Lemma solved_rule order files U names s : solution order files U -> rules_on names files = true -> In s names -> constraint_holds order (layered files) U s.
Proof.
  intros (FE & _) R IS; unfold rules_on in R; rewrite forallb_forall in R; specialize (R s IS); rewrite andb_true_iff, negb_true_iff in R; destruct R as (R1 & R2).
  apply feasible_constraint; [exact FE|apply smem_in, R1|exact R2].
Qed.
Lemma flow_rules_on : forallb (rules_on ["flow_out_max"; "flow_in_max"]) planning_plain = true. Proof. vm_compute; reflexivity. Qed.
Lemma async_rules_on : forallb (rules_on ["async_flow_in_milp"; "async_flow_out_milp"]) milp_lists = true. Proof. vm_compute; reflexivity. Qed.
Lemma plain_plain files : In files planning_plain -> In files plain_lists. Proof. among. Qed.
Lemma below_given U s l x : given U s l -> below x (value_at U s l) -> (x <= amount U s l)%Qc.
Proof. intros (_ & _ & q & E); unfold value_at, amount, value_at; rewrite E; exact (fun H => H). Qed.

(** * C71 in terms of the inputs alone *)
Theorem C71_solved order files U n t c k :
  lists_set order -> In files planning_plain -> solution order files U -> sited U (flow_at n t c k) -> sited U (cap_at n t c) -> given U "flow_cap_max" (cap_at n t c) ->
  numeric U "timestep_resolution" [("timesteps", k)] -> (0 <= amount U "timestep_resolution" [("timesteps", k)])%Qc ->
  (switched_on U "carrier_out" (cap_at n t c) -> numeric U "flow_out_parasitic_eff" (flow_at n t c k) -> (0 <= amount U "flow_out_parasitic_eff" (flow_at n t c k))%Qc ->
    given U "flow_out" (flow_at n t c k) /\ (0 <= amount U "flow_out" (flow_at n t c k))%Qc /\
    (amount U "flow_out" (flow_at n t c k) <= amount U "flow_cap_max" (cap_at n t c) * amount U "timestep_resolution" [("timesteps", k)] * amount U "flow_out_parasitic_eff" (flow_at n t c k))%Qc) /\
  (switched_on U "carrier_in" (cap_at n t c) ->
    given U "flow_in" (flow_at n t c k) /\ (0 <= amount U "flow_in" (flow_at n t c k))%Qc /\ (amount U "flow_in" (flow_at n t c k) <= amount U "flow_cap_max" (cap_at n t c) * amount U "timestep_resolution" [("timesteps", k)])%Qc).
Proof.
  intros OR IP SO SI SC GM NR PR; pose proof (planning_shipped _ (plain_planned _ IP)) as IF.
  destruct (proj1 (C96_capacities order files U n t c IP SO SC)) as (GC & _ & UP); apply (below_given _ _ _ _ GM) in UP.
  destruct (C96_flows order files U n t c k IF SO SI) as (FO & _ & FI & _).
  destruct (C71_continuous order files U n t c k OR (or_introl (plain_plain _ IP)) SI (given_numeric _ _ _ GC) NR) as (MO & MI & _).
  pose proof (proj1 (forallb_forall _ _) flow_rules_on files IP) as RO.
  split.
  - intros ON NE PE; destruct (FO ON) as (GF & PF); split; [exact GF|split; [exact PF|]].
    apply (Qcle_trans _ _ _ (MO ON (given_numeric _ _ _ GF) NE (solved_rule order files U _ _ SO RO (or_introl eq_refl)))).
    apply Qcmult_le_compat_r; [|exact PE]; apply Qcmult_le_compat_r; [exact UP|exact PR].
  - intros ON; destruct (FI ON) as (GF & PF); split; [exact GF|split; [exact PF|]].
    apply (Qcle_trans _ _ _ (MI ON (given_numeric _ _ _ GF) (solved_rule order files U _ _ SO RO (or_intror (or_introl eq_refl))))); apply Qcmult_le_compat_r; [exact UP|exact PR].
Qed.
Print Assumptions C71_solved.
Example C71_solved_ex : (amount (farm false) "flow_out" (flow_at "here" "field" "power" "t1") <= amount (farm false) "flow_cap_max" (cap_at "here" "field" "power") * amount (farm false) "timestep_resolution" [("timesteps", "t1")] * amount (farm false) "flow_out_parasitic_eff" (flow_at "here" "field" "power" "t1"))%Qc.
Proof.
  assert (SI : sited (farm false) (cap_at "here" "field" "power")) by (pose proof (farm_proper false) as FP; sited_by FP).
  destruct (C71_solved as_listed base_math (farm false) "here" "field" "power" "t1" as_listed_set (or_introl eq_refl) (farm_solution false) (farm_at false "field" "power" "t1" ltac:(cbn; tauto) ltac:(cbn; tauto)) SI) as (A & _);
    [is_given|is_num|vm_compute; discriminate|]; apply A; [is_as|is_num|vm_compute; discriminate].
Qed.

(** * C79 without conditions on the variables *)
Theorem C79_solved order files U n t c k :
  lists_set order -> In files milp_lists -> solution order files U -> sited U (flow_at n t c k) -> reads_as U "force_async_flow" (asset n t) (Boo true) -> numeric U "bigM" [] ->
  (forall s, In s ["flow_in"; "flow_out"] -> In "carriers" (a_dims (n_array (u_env U) s)) /\ n_default (u_env U) s = Val 0%Qc) ->
  (forall c, In c (labels U "carriers") -> amount U "flow_in" (("carriers", c) :: use_at n t k) = 0%Qc) \/ (forall c, In c (labels U "carriers") -> amount U "flow_out" (("carriers", c) :: use_at n t k) = 0%Qc).
Proof.
  intros OR IM SO SI RA NB DF; assert (IF : In files shipped) by (revert IM; among); pose proof (proj1 (proj1 SI)) as SD; pose proof (proj1 (proj2 (proj2 SI))) as PL.
  destruct (proj1 (C96_switches order files U n t c k IM SO SI) RA) as (GS & BI).
  assert (PC : forall c', In c' (labels U "carriers") -> placed U (("carriers", c') :: use_at n t k)).
  { intros c' IC; destruct PL as (NL & PL); split; [apart|]; intros d v IV; cbn in IV; destruct IV as [E|[E|[E|[E|[]]]]]; injection E as <- <-; try (apply PL; cbn; tauto); split; [apply (PL "carriers" c); cbn; tauto|exact IC]. }
  assert (NN : forall s c', In s ["flow_out"; "flow_in"] -> In c' (labels U "carriers") -> numeric U s (("carriers", c') :: use_at n t k) /\ (0 <= amount U s (("carriers", c') :: use_at n t k))%Qc).
  { intros s c' IS IC; apply (nowhere_negative order files U s _ IF IS SO SD (PC c' IC) eq_refl eq_refl); apply DF; cbn in IS |- *; tauto. }
  pose proof (proj1 (forallb_forall _ _) async_rules_on files IM) as RO.
  refine (C79_not_both order files U n t c k OR IM SI GS BI NB _ _ _ (solved_rule order files U _ _ SO RO (or_introl eq_refl)) (solved_rule order files U _ _ SO RO (or_intror (or_introl eq_refl)))).
  - split; [apply DF; left; reflexivity|intros c' IC; apply (NN "flow_in" c'); [cbn; tauto|exact IC]].
  - split; [apply DF; right; left; reflexivity|intros c' IC; apply (NN "flow_out" c'); [cbn; tauto|exact IC]].
  - intros c' IC; split; apply NN; cbn; tauto.
Qed.
Print Assumptions C79_solved.
Example C79_solved_ex : (forall c, In c (labels dock "carriers") -> amount dock "flow_in" (("carriers", c) :: use_at "here" "battery" "t1") = 0%Qc) \/ (forall c, In c (labels dock "carriers") -> amount dock "flow_out" (("carriers", c) :: use_at "here" "battery" "t1") = 0%Qc).
Proof.
  apply (C79_solved as_listed unit_math dock "here" "battery" "power" "t1" as_listed_set unit_listed dock_solution (dock_at "battery" "t1" ltac:(cbn; tauto) ltac:(cbn; tauto))); [is_as|is_num|].
  intros s [<- |[<- |[]]]; split; [cbn; tauto|reflexivity|cbn; tauto|reflexivity].
Qed.

(** * C52: links with several carriers *)

(** Without the hypothesis of C52 on carriers its statement is wrong: a lossless link that carries power and
    heat takes power in the north and gives the same amount of heat in the south. *)
Theorem C52_refuted : exists files U oshare ishare c k,
  In files shipped /\ solution as_listed files U /\ network U /\ links U oshare ishare /\
  (forall n t c, In t (labels U "techs") -> is_link U t -> oshare n t c k = 1%Qc /\ ishare n t c k = 1%Qc) /\
  In c (labels U "carriers") /\ In k (labels U "timesteps") /\
  (over_nodes U (fun n => sum_over (plants U) (fun t => flow U "flow_out" n t c k)) + over_nodes U (fun n => slack U "unmet_demand" n c k) <>
   over_nodes U (fun n => sum_over (plants U) (fun t => flow U "flow_in" n t c k)) + over_nodes U (fun n => over_techs U (fun t => flow U "flow_export" n t c k))
   - over_nodes U (fun n => slack U "unused_supply" n c k))%Qc.
Proof.
  exists base_math, pipe, grid_ishare, grid_ishare, "heat", "t0".
  split; [exact base_listed|split; [exact pipe_solution|split; [exact pipe_network|split; [exact pipe_links|split; [intros; split; reflexivity|]]]]].
  split; [vm_compute; auto|split; [vm_compute; auto|]]; intros E; apply (f_equal this) in E; vm_compute in E; discriminate E.
Qed.
Print Assumptions C52_refuted.

(** * C56: the first timestep with linked clusters *)

(** The level after the first timestep of the first day need not be the given fraction of the capacity less what was discharged. *)
Theorem C56_refuted : exists files U n t, In files shipped /\ In inter_file files /\ solution as_listed files U /\ proper U /\
  ~ cyclic U n t /\ loss U n t = 0%Qc /\
  (amount U "storage_inter_cluster" [("nodes", n); ("techs", t); ("datesteps", nth 0 (labels U "datesteps") "")] + level U n t 0)%Qc <>
  (amount U "storage_initial" (asset n t) * amount U "storage_cap" (asset n t) + ShipSpec.charged U n t 0 - discharged U n t 0)%Qc.
Proof.
  exists cluster_math, days, "here", "battery"; split; [right; right; left; reflexivity|split; [left; reflexivity|split; [exact days_solution|split; [exact days_proper|]]]].
  split; [intros [E|E]; discriminate E|]; split; [apply Qc_is_canon; vm_compute; reflexivity|].
  intros E; apply (f_equal this) in E; vm_compute in E; discriminate E.
Qed.
Print Assumptions C56_refuted.
