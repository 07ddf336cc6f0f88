(** Properties of single technologies and places in the math that comes with the package. *)
From Coq Require Import QArith Qcanon Lia.
From Verif Require Import Base BaseProofs LangModel MathText EvalModel EvalSpec BuildModel BuildSpec HelperModel HelperSpec ShipModel ShipSpec ShipNumbers ShipExample NetSpec NetProofs NetExample
  PlaceSpec ShipPlace RuleText RuleProofs MilpProofs ShipFast RuleExample.
Local Open Scope nat_scope.
Local Open Scope string_scope.
Local Open Scope list_scope.
Local Arguments Qcplus : simpl never.
Local Arguments Qcmult : simpl never.
Local Arguments Qcminus : simpl never.

(** * C70: demand *)

(** What a demand technology takes, less losses, is the demand given (absolute, for the area used or for the capacity). *)
Theorem C70_met order files U n t c k f :
  lists_set order -> In files shipped -> sited U (flow_at n t c k) -> reads_as U "base_tech" (tech_at t) (Txt "demand") -> per_unit U "sink_unit" n t f \/ per_capacity U "sink_unit" n t f ->
  given U "flow_in" (flow_at n t c k) -> numeric U "flow_in_eff" (flow_at n t c k) -> given U "sink_use_equals" (flow_at n t c k) ->
  expression_is order (layered files) U "flow_in_inc_eff" -> constraint_holds order (layered files) U "balance_demand" ->
  (amount U "flow_in" (flow_at n t c k) * amount U "flow_in_eff" (flow_at n t c k) = amount U "sink_use_equals" (flow_at n t c k) * f)%Qc.
Proof.
  intros OR IF SI BT SC GF NE GE EI CH; destruct (inflow_is order OR files IF U n t c k "demand" SI BT (or_introl eq_refl) GF NE EI) as (NI & E).
  rewrite <- E; exact (demand_equals order OR files IF U n t c k f SI BT SC NI GE CH).
Qed.
Print Assumptions C70_met.
(** Without a fixed demand it stays below the largest one given. *)
Theorem C70_at_most order files U n t c k f :
  lists_set order -> In files shipped -> sited U (flow_at n t c k) -> reads_as U "base_tech" (tech_at t) (Txt "demand") -> per_unit U "sink_unit" n t f \/ per_capacity U "sink_unit" n t f ->
  given U "flow_in" (flow_at n t c k) -> numeric U "flow_in_eff" (flow_at n t c k) -> absent U "sink_use_equals" (flow_at n t c k) -> given U "sink_use_max" (flow_at n t c k) ->
  expression_is order (layered files) U "flow_in_inc_eff" -> constraint_holds order (layered files) U "balance_demand" ->
  (amount U "flow_in" (flow_at n t c k) * amount U "flow_in_eff" (flow_at n t c k) <= amount U "sink_use_max" (flow_at n t c k) * f)%Qc.
Proof.
  intros OR IF SI BT SC GF NE AE GE EI CH; destruct (inflow_is order OR files IF U n t c k "demand" SI BT (or_introl eq_refl) GF NE EI) as (NI & E).
  rewrite <- E; exact (demand_below order OR files IF U n t c k f SI BT SC NI AE GE CH).
Qed.
Print Assumptions C70_at_most.
(** ... and above the smallest one given. *)
Theorem C70_at_least order files U n t c k f :
  lists_set order -> In files shipped -> sited U (flow_at n t c k) -> reads_as U "base_tech" (tech_at t) (Txt "demand") -> per_unit U "sink_unit" n t f \/ per_capacity U "sink_unit" n t f ->
  given U "flow_in" (flow_at n t c k) -> numeric U "flow_in_eff" (flow_at n t c k) -> absent U "sink_use_equals" (flow_at n t c k) -> given U "sink_use_min" (flow_at n t c k) ->
  expression_is order (layered files) U "flow_in_inc_eff" -> constraint_holds order (layered files) U "balance_demand_min_use" ->
  (amount U "sink_use_min" (flow_at n t c k) * f <= amount U "flow_in" (flow_at n t c k) * amount U "flow_in_eff" (flow_at n t c k))%Qc.
Proof.
  intros OR IF SI BT SC GF NE AE GE EI CH; destruct (inflow_is order OR files IF U n t c k "demand" SI BT (or_introl eq_refl) GF NE EI) as (NI & E).
  rewrite <- E; exact (demand_above order OR files IF U n t c k f SI BT SC NI AE GE CH).
Qed.
Print Assumptions C70_at_least.
Ltac town_site := apply town_flow; cbn; tauto.
Ltac town_rule := first [apply town_shared; cbn; tauto|apply town_plain; cbn; tauto|exact town_in|exact town_out].
Example C70_met_ex : (amount town "flow_in" (flow_at "here" "load" "power" "t0") * third_quarter = Q2Qc 6)%Qc.
Proof.
  pose proof (C70_met as_listed base_math town "here" "load" "power" "t0" 1%Qc as_listed_set base_shared) as H.
  rewrite Qcmult_1_r in H; refine (H _ _ _ _ _ _ _ _); [town_site|is_as|left; left; split; [is_as|reflexivity]|is_given|is_num|is_given|town_rule|town_rule].
Qed.
(** A demand given for each unit of the installed capacity. *)
Example C70_per_capacity_ex : (amount town "flow_in" (flow_at "here" "shop" "heat" "t0") * 1 = half * Q2Qc 4)%Qc.
Proof.
  assert (PC : per_capacity town "sink_unit" "here" "shop" (Q2Qc 4)) by (split; [is_as|split; [is_over|apply Qc_is_canon; vm_compute; reflexivity]]).
  refine (C70_met as_listed base_math town "here" "shop" "heat" "t0" _ as_listed_set base_shared _ _ (or_intror PC) _ _ _ _ _); [town_site|is_as|is_given|is_num|is_given|town_rule|town_rule].
Qed.
Example C70_at_most_ex : (amount town "flow_in" (flow_at "here" "flex" "power" "t0") * 1 <= Q2Qc 4 * Q2Qc 2)%Qc /\ (1 * Q2Qc 2 <= amount town "flow_in" (flow_at "here" "flex" "power" "t0") * 1)%Qc.
Proof.
  assert (PU : per_unit town "sink_unit" "here" "flex" (amount town "area_use" (asset "here" "flex"))) by (right; split; [is_as|split; [is_num|reflexivity]]).
  split.
  - refine (C70_at_most as_listed base_math town "here" "flex" "power" "t0" _ as_listed_set base_shared _ _ (or_introl PU) _ _ _ _ _ _); [town_site|is_as|is_given|is_num|is_as|is_given|town_rule|town_rule].
  - refine (C70_at_least as_listed base_math town "here" "flex" "power" "t0" _ as_listed_set base_shared _ _ (or_introl PU) _ _ _ _ _ _); [town_site|is_as|is_given|is_num|is_as|is_given|town_rule|town_rule].
Qed.

(** * C72: sources *)

(** What a supply technology without storage gives of a carrier is the source used, less losses. *)
Theorem C72_supply order files U n t c k :
  lists_set order -> In files shipped -> sited U (flow_at n t c k) -> reads_as U "base_tech" (tech_at t) (Txt "supply") -> reads_as U "include_storage" (asset n t) (Boo false) ->
  given U "flow_out" (flow_at n t c k) -> numeric U "source_use" (use_at n t k) ->
  numeric U "source_eff" (flow_at n t c k) -> numeric U "flow_out_eff" (flow_at n t c k) -> numeric U "flow_out_parasitic_eff" (flow_at n t c k) ->
  (amount U "flow_out_eff" (flow_at n t c k) * amount U "flow_out_parasitic_eff" (flow_at n t c k))%Qc <> 0%Qc ->
  expression_is order (layered files) U "flow_out_inc_eff" -> constraint_holds order (layered files) U "balance_supply_no_storage" ->
  amount U "flow_out" (flow_at n t c k) =
    (amount U "source_use" (use_at n t k) * amount U "source_eff" (flow_at n t c k) * (amount U "flow_out_eff" (flow_at n t c k) * amount U "flow_out_parasitic_eff" (flow_at n t c k)))%Qc.
Proof.
  intros OR IF SI BT IS GF NS NE NO NP NZ EI CH; destruct (outflow_is order OR files IF U n t c k "supply" SI BT (or_intror (or_introl eq_refl)) GF NO NP NZ EI) as (NI & E).
  rewrite <- (supply_gives order OR files IF U n t c k SI BT IS NS NE NI CH), E, Qcmult_comm, Qcmult_div_r by exact NZ; reflexivity.
Qed.
Print Assumptions C72_supply.
(** The source used is what is given, or lies between the limits given (absolute, for the area used or for the capacity installed). *)
Theorem C72_limits order files U n t c k f :
  lists_set order -> In files shipped -> sited U (flow_at n t c k) -> given U "source_use" (use_at n t k) -> per_unit U "source_unit" n t f \/ per_capacity U "source_unit" n t f ->
  constraint_holds order (layered files) U "source_availability_supply" -> constraint_holds order (layered files) U "balance_supply_min_use" ->
  (given U "source_use_equals" (use_at n t k) -> amount U "source_use" (use_at n t k) = (amount U "source_use_equals" (use_at n t k) * f)%Qc) /\
  (absent U "source_use_equals" (use_at n t k) -> given U "source_use_max" (use_at n t k) -> (amount U "source_use" (use_at n t k) <= amount U "source_use_max" (use_at n t k) * f)%Qc) /\
  (absent U "source_use_equals" (use_at n t k) -> given U "source_use_min" (use_at n t k) -> reads_as U "base_tech" (tech_at t) (Txt "supply") ->
    (amount U "source_use_min" (use_at n t k) * f <= amount U "source_use" (use_at n t k))%Qc).
Proof.
  intros OR IF SI GU SC C1 C2; repeat split.
  - intros GE; exact (source_equals order OR files IF U n t c k SI GU f SC GE C1).
  - intros AE GM; exact (source_below order OR files IF U n t c k SI GU f SC AE GM C1).
  - intros AE GM BT; exact (source_above order OR files IF U n t c k SI GU f SC BT AE GM C2).
Qed.
Print Assumptions C72_limits.
(** ... and never more than the source capacity allows in the time. *)
Theorem C72_capacity order files U n t c k :
  lists_set order -> In files shipped -> sited U (flow_at n t c k) -> given U "source_cap" (asset n t) -> numeric U "source_use" (use_at n t k) -> numeric U "timestep_resolution" [("timesteps", k)] ->
  constraint_holds order (layered files) U "source_max" ->
  (amount U "source_use" (use_at n t k) <= amount U "timestep_resolution" [("timesteps", k)] * amount U "source_cap" (asset n t))%Qc.
Proof. intros OR IF SI GC NU NT CH; exact (source_capped order OR files IF U n t c k SI GC NU NT CH). Qed.
Print Assumptions C72_capacity.
Example C72_supply_ex : (amount town "flow_out" (flow_at "here" "plant" "power" "t0") = Q2Qc 20 * 1 * (third_quarter * 1))%Qc.
Proof.
  refine (C72_supply as_listed base_math town "here" "plant" "power" "t0" as_listed_set base_shared _ _ _ _ _ _ _ _ _ _ _);
    [town_site|is_as|is_as|is_given|is_num|is_num|is_num|is_num|vm_compute; discriminate|town_rule|town_rule].
Qed.
Example C72_limits_ex : amount town "source_use" (use_at "here" "plant" "t0") = (Q2Qc 5 * Q2Qc 4)%Qc /\
  (amount town "source_use" (use_at "here" "wind" "t0") <= Q2Qc 2 * (Q2Qc 4 + (0 + 0)))%Qc /\ (1 * (Q2Qc 4 + (0 + 0)) <= amount town "source_use" (use_at "here" "wind" "t0"))%Qc.
Proof.
  split; [|split].
  - refine (proj1 (C72_limits as_listed base_math town "here" "plant" "power" "t0" (amount town "area_use" (asset "here" "plant")) as_listed_set base_shared _ _ _ _ _) _);
      [town_site|is_given|left; right; split; [is_as|split; [is_num|reflexivity]]|town_rule|town_rule|is_given].
  - refine (proj1 (proj2 (C72_limits as_listed base_math town "here" "wind" "power" "t0" (sum_over (labels town "carriers") (fun c => amount town "flow_cap" (("carriers", c) :: asset "here" "wind"))) as_listed_set base_shared _ _ _ _ _)) _ _);
      [town_site|is_given|right; split; [is_as|split; [is_over|reflexivity]]|town_rule|town_rule|is_as|is_given].
  - refine (proj2 (proj2 (C72_limits as_listed base_math town "here" "wind" "power" "t0" (sum_over (labels town "carriers") (fun c => amount town "flow_cap" (("carriers", c) :: asset "here" "wind"))) as_listed_set base_shared _ _ _ _ _)) _ _ _);
      [town_site|is_given|right; split; [is_as|split; [is_over|reflexivity]]|town_rule|town_rule|is_as|is_given|is_as].
Qed.
Example C72_capacity_ex : (amount town "source_use" (use_at "here" "plant" "t0") <= Q2Qc 2 * Q2Qc 16)%Qc.
Proof. refine (C72_capacity as_listed base_math town "here" "plant" "power" "t0" as_listed_set base_shared _ _ _ _ _); [town_site|is_given|is_num|is_num|town_rule]. Qed.

(** * C75: conversion *)

(** A conversion technology without storage puts out, over all its carriers and before losses, what it takes in after losses. *)
Theorem C75_balance order files U n t c k :
  lists_set order -> In files shipped -> sited U (flow_at n t c k) -> reads_as U "base_tech" (tech_at t) (Txt "conversion") -> reads_as U "include_storage" (asset n t) (Boo false) ->
  numeric_over U "flow_out_inc_eff" "carriers" (use_at n t k) -> numeric_over U "flow_in_inc_eff" "carriers" (use_at n t k) ->
  constraint_holds order (layered files) U "balance_conversion" ->
  sum_over (labels U "carriers") (fun c => amount U "flow_out_inc_eff" (("carriers", c) :: use_at n t k)) =
  sum_over (labels U "carriers") (fun c => amount U "flow_in_inc_eff" (("carriers", c) :: use_at n t k)).
Proof. intros OR IF SI BT IS NO NI CH; exact (conversion_balances order OR files IF U n t c k SI BT IS NO NI CH). Qed.
Print Assumptions C75_balance.
(** From one carrier [ci] to another [co], the outflow is the inflow times all efficiencies. *)
Theorem C75_one_to_one order files U n t ci co k :
  lists_set order -> In files shipped -> sited U (flow_at n t ci k) -> sited U (flow_at n t co k) -> reads_as U "base_tech" (tech_at t) (Txt "conversion") -> reads_as U "include_storage" (asset n t) (Boo false) ->
  numeric_over U "flow_out_inc_eff" "carriers" (use_at n t k) -> numeric_over U "flow_in_inc_eff" "carriers" (use_at n t k) ->
  given U "flow_in" (flow_at n t ci k) -> given U "flow_out" (flow_at n t co k) ->
  (forall c, In c (labels U "carriers") -> c <> ci -> amount U "flow_in_inc_eff" (("carriers", c) :: use_at n t k) = 0%Qc) ->
  (forall c, In c (labels U "carriers") -> c <> co -> amount U "flow_out_inc_eff" (("carriers", c) :: use_at n t k) = 0%Qc) ->
  numeric U "flow_in_eff" (flow_at n t ci k) -> numeric U "flow_out_eff" (flow_at n t co k) -> numeric U "flow_out_parasitic_eff" (flow_at n t co k) ->
  (amount U "flow_out_eff" (flow_at n t co k) * amount U "flow_out_parasitic_eff" (flow_at n t co k))%Qc <> 0%Qc ->
  expression_is order (layered files) U "flow_in_inc_eff" -> expression_is order (layered files) U "flow_out_inc_eff" -> constraint_holds order (layered files) U "balance_conversion" ->
  amount U "flow_out" (flow_at n t co k) =
    (amount U "flow_in" (flow_at n t ci k) * amount U "flow_in_eff" (flow_at n t ci k) * (amount U "flow_out_eff" (flow_at n t co k) * amount U "flow_out_parasitic_eff" (flow_at n t co k)))%Qc.
Proof.
  intros OR IF SI SO BT IS NO NI GI GO ZI ZO NE NE' NP NZ EI EO CH; pose proof (C75_balance order files U n t ci k OR IF SI BT IS NO NI CH) as B.
  assert (KB : In "conversion" kinds) by (cbn; tauto).
  destruct (inflow_is order OR files IF U n t ci k "conversion" SI BT KB GI NE EI) as (NI' & E1); destruct (outflow_is order OR files IF U n t co k "conversion" SO BT KB GO NE' NP NZ EO) as (NO' & E2).
  assert (MV : forall s c, In s ["flow_in_inc_eff"; "flow_out_inc_eff"] -> In c (labels U "carriers") -> amount U s (("carriers", c) :: use_at n t k) = amount U s (flow_at n t c k)).
  { intros s c' HS IC; unfold amount, value_at; f_equal; f_equal; destruct SI as (((_ & LO & _) & _) & _); apply LO; intros d _; unfold spot, flow_at, use_at; cbn [d_get].
    repeat match goal with |- context [String.eqb ?a ?b] => destruct (String.eqb_spec a b) end; subst; cbn; congruence. }
  assert (ND : NoDup (labels U "carriers")) by (destruct SI as (((ND & _) & _) & _); apply ND).
  assert (IC : forall c, sited U (flow_at n t c k) -> In c (labels U "carriers")) by (intros c' (_ & _ & (_ & PL) & _); apply (PL "carriers" c'); cbn; tauto).
  assert (single : forall ls c (f : string -> Qc), NoDup ls -> In c ls -> (forall x, In x ls -> x <> c -> f x = 0%Qc) -> sum_over ls f = f c).
  { clear; intros ls c f; induction ls as [|x ls IH]; intros ND IC Z; [destruct IC|]; inversion ND as [|? ? NI ND']; subst; change (sum_over (x :: ls) f) with (f x + sum_over ls f)%Qc.
    destruct IC as [->|IC].
    - rewrite (sum_over_ext ls f (fun _ => 0%Qc)), sum_over_zero; [ring|]; intros y IY; apply Z; [right; exact IY|]; intros ->; exact (NI IY).
    - rewrite IH by (auto; intros y IY; apply Z; right; exact IY); rewrite (Z x) by (first [left; reflexivity|intros ->; exact (NI IC)]); ring. }
  rewrite (single _ co _ ND (IC co SO) ZO), (single _ ci _ ND (IC ci SI) ZI) in B.
  rewrite (MV _ co), (MV _ ci) in B by (first [cbn; tauto|apply IC; assumption]); rewrite E1, E2 in B.
  rewrite <- B, Qcmult_comm, Qcmult_div_r by exact NZ; reflexivity.
Qed.
Print Assumptions C75_one_to_one.
Example C75_balance_ex : sum_over (labels town "carriers") (fun c => amount town "flow_out_inc_eff" (("carriers", c) :: use_at "here" "boiler" "t0")) =
  sum_over (labels town "carriers") (fun c => amount town "flow_in_inc_eff" (("carriers", c) :: use_at "here" "boiler" "t0")).
Proof. refine (C75_balance as_listed base_math town "here" "boiler" "power" "t0" as_listed_set base_shared _ _ _ _ _ _); [town_site|is_as|is_as|is_over|is_over|town_rule]. Qed.
Example C75_one_to_one_ex : (amount town "flow_out" (flow_at "here" "boiler" "heat" "t0") = Q2Qc 4 * 1 * (half * 1))%Qc.
Proof.
  refine (C75_one_to_one as_listed base_math town "here" "boiler" "power" "heat" "t0" as_listed_set base_shared _ _ _ _ _ _ _ _ _ _ _ _ _ _ _ _ _);
    [town_site|town_site|is_as|is_as|is_over|is_over|is_given|is_given|..|is_num|is_num|is_num|vm_compute; discriminate|town_rule|town_rule|town_rule].
  all: intros c [<- |[<- |[]]] NC; first [destruct (NC eq_refl)|vm_compute; reflexivity].
Qed.

(** * C76: rules on capacities *)

(** All places together stay within the limits for the whole system. *)
Theorem C76_systemwide order files U n t c :
  lists_set order -> In files shipped -> sited U (cap_at n t c) -> numeric_over U "flow_cap" "nodes" [("techs", t); ("carriers", c)] ->
  (given U "flow_cap_max_systemwide" [("techs", t); ("carriers", c)] -> constraint_holds order (layered files) U "flow_capacity_systemwide_max" ->
    (over_nodes U (fun n => amount U "flow_cap" (cap_at n t c)) <= amount U "flow_cap_max_systemwide" [("techs", t); ("carriers", c)])%Qc) /\
  (In files plain_lists -> given U "flow_cap_min_systemwide" [("techs", t); ("carriers", c)] -> constraint_holds order (layered files) U "flow_capacity_systemwide_min" ->
    (amount U "flow_cap_min_systemwide" [("techs", t); ("carriers", c)] <= over_nodes U (fun n => amount U "flow_cap" (cap_at n t c)))%Qc).
Proof.
  intros OR IF SI NO; split.
  - intros GM CH; exact (systemwide_below order OR files IF U n t c SI GM NO CH).
  - intros IP GM CH; exact (systemwide_above order OR files U n t c SI IP GM NO CH).
Qed.
Print Assumptions C76_systemwide.
(** Area is tied to capacity, and no place uses more area than it has. *)
Theorem C76_area order files U n t c :
  lists_set order -> In files shipped -> sited U (cap_at n t c) -> given U "area_use" (asset n t) ->
  (given U "area_use_per_flow_cap" (asset n t) -> numeric U "flow_cap" (cap_at n t c) -> constraint_holds order (layered files) U "area_use_per_flow_capacity" ->
    amount U "area_use" (asset n t) = (amount U "flow_cap" (cap_at n t c) * amount U "area_use_per_flow_cap" (asset n t))%Qc) /\
  (given U "available_area" [("nodes", n)] -> numeric_over U "area_use" "techs" [("nodes", n)] -> constraint_holds order (layered files) U "area_use_capacity_per_loc" ->
    (over_techs U (fun t => amount U "area_use" [("techs", t); ("nodes", n)]) <= amount U "available_area" [("nodes", n)])%Qc).
Proof.
  intros OR IF SI GA; split.
  - intros GP NF CH; exact (area_bound_to_cap order OR files IF U n t c SI GA GP NF CH).
  - intros GP NF CH; exact (area_within order OR files IF U n t c SI GA GP NF CH).
Qed.
Print Assumptions C76_area.
(** The capacity of a storage fits its size. *)
Theorem C76_storage order files U n t c :
  lists_set order -> In files shipped -> sited U (cap_at n t c) -> given U "storage_cap" (asset n t) -> numeric U "flow_cap" (cap_at n t c) ->
  (given U "flow_cap_per_storage_cap_min" (asset n t) -> constraint_holds order (layered files) U "flow_capacity_per_storage_capacity_min" ->
    (amount U "storage_cap" (asset n t) * amount U "flow_cap_per_storage_cap_min" (asset n t) <= amount U "flow_cap" (cap_at n t c))%Qc) /\
  (given U "flow_cap_per_storage_cap_max" (asset n t) -> constraint_holds order (layered files) U "flow_capacity_per_storage_capacity_max" ->
    (amount U "flow_cap" (cap_at n t c) <= amount U "storage_cap" (asset n t) * amount U "flow_cap_per_storage_cap_max" (asset n t))%Qc).
Proof.
  intros OR IF SI GS NF; split; intros GM CH.
  - exact (storage_ratio_above order OR files IF U n t c SI GS GM NF CH).
  - exact (storage_ratio_below order OR files IF U n t c SI GS GM NF CH).
Qed.
Print Assumptions C76_storage.
(** If asked for, the source capacity is the flow capacity. *)
Theorem C76_source order files U n t c :
  lists_set order -> In files shipped -> sited U (cap_at n t c) -> given U "source_cap" (asset n t) -> reads_as U "source_cap_equals_flow_cap" (asset n t) (Boo true) -> numeric U "flow_cap" (cap_at n t c) ->
  constraint_holds order (layered files) U "source_capacity_equals_flow_capacity" -> amount U "source_cap" (asset n t) = amount U "flow_cap" (cap_at n t c).
Proof. intros OR IF SI GS RE NF CH; exact (source_as_flow order OR files IF U n t c SI GS RE NF CH). Qed.
Print Assumptions C76_source.
(** Both ends of a link have the same capacity. *)
Theorem C76_link order files U n n' t c c' :
  lists_set order -> In files shipped -> sited U (cap_at n t c) -> sited U (cap_at n' t c') -> reads_as U "base_tech" (tech_at t) (Txt "transmission") -> numeric U "link_flow_cap" (tech_at t) ->
  numeric_over U "flow_cap" "carriers" (asset n t) -> numeric_over U "flow_cap" "carriers" (asset n' t) -> constraint_holds order (layered files) U "symmetric_transmission" ->
  over_carriers U (fun c => amount U "flow_cap" (("carriers", c) :: asset n t)) = over_carriers U (fun c => amount U "flow_cap" (("carriers", c) :: asset n' t)).
Proof.
  intros OR IF SI SI' BT NL NF NF' CH; unfold over_carriers.
  rewrite (link_end order OR files IF U n t c SI BT NF NL CH), (link_end order OR files IF U n' t c' SI' BT NF' NL CH); reflexivity.
Qed.
Print Assumptions C76_link.
Ltac town_place := apply town_cap; cbn; tauto.
Example C76_systemwide_ex : (over_nodes town (fun n => amount town "flow_cap" (cap_at n "plant" "power")) <= Q2Qc 20)%Qc /\ (Q2Qc 10 <= over_nodes town (fun n => amount town "flow_cap" (cap_at n "plant" "power")))%Qc.
Proof.
  assert (H : (over_nodes town (fun n => amount town "flow_cap" (cap_at n "plant" "power")) <= amount town "flow_cap_max_systemwide" [("techs", "plant"); ("carriers", "power")])%Qc /\
    (amount town "flow_cap_min_systemwide" [("techs", "plant"); ("carriers", "power")] <= over_nodes town (fun n => amount town "flow_cap" (cap_at n "plant" "power")))%Qc); [|exact H].
  split.
  - refine (proj1 (C76_systemwide as_listed base_math town "here" "plant" "power" as_listed_set base_shared _ _) _ _); [town_place|is_over|is_given|town_rule].
  - refine (proj2 (C76_systemwide as_listed base_math town "here" "plant" "power" as_listed_set base_shared _ _) base_plain _ _); [town_place|is_over|is_given|town_rule].
Qed.
Example C76_area_ex : (amount town "area_use" (asset "here" "plant") = Q2Qc 16 * quarter)%Qc /\ (over_techs town (fun t => amount town "area_use" [("techs", t); ("nodes", "here")]) <= Q2Qc 7)%Qc.
Proof.
  split.
  - refine (proj1 (C76_area as_listed base_math town "here" "plant" "power" as_listed_set base_shared _ _) _ _ _); [town_place|is_given|is_given|is_num|town_rule].
  - refine (proj2 (C76_area as_listed base_math town "here" "plant" "power" as_listed_set base_shared _ _) _ _ _); [town_place|is_given|is_given|is_over|town_rule].
Qed.
Example C76_storage_ex : (Q2Qc 8 * quarter <= amount town "flow_cap" (cap_at "here" "battery" "power"))%Qc /\ (amount town "flow_cap" (cap_at "here" "battery" "power") <= Q2Qc 8 * half)%Qc.
Proof.
  split.
  - refine (proj1 (C76_storage as_listed base_math town "here" "battery" "power" as_listed_set base_shared _ _ _) _ _); [town_place|is_given|is_num|is_given|town_rule].
  - refine (proj2 (C76_storage as_listed base_math town "here" "battery" "power" as_listed_set base_shared _ _ _) _ _); [town_place|is_given|is_num|is_given|town_rule].
Qed.
Example C76_source_ex : amount town "source_cap" (asset "here" "plant") = amount town "flow_cap" (cap_at "here" "plant" "power").
Proof. refine (C76_source as_listed base_math town "here" "plant" "power" as_listed_set base_shared _ _ _ _ _); [town_place|is_given|is_as|is_num|town_rule]. Qed.
Example C76_link_ex : over_carriers cable (fun c => amount cable "flow_cap" (("carriers", c) :: asset "north" "line")) = over_carriers cable (fun c => amount cable "flow_cap" (("carriers", c) :: asset "south" "line")).
Proof. refine (C76_link as_listed base_math cable "north" "south" "line" "power" "power" as_listed_set base_shared _ _ _ _ _ _ cable_holds); [apply cable_ends; cbn; tauto|apply cable_ends; cbn; tauto|is_as|is_num|is_over|is_over]. Qed.

(** * C77: export and depth of discharge *)

(** No more is exported than put out; a storage keeps the share that must not be discharged. *)
Theorem C77_export order files U n t c k :
  lists_set order -> In files shipped -> sited U (flow_at n t c k) -> given U "flow_export" (flow_at n t c k) -> numeric U "flow_out" (flow_at n t c k) -> constraint_holds order (layered files) U "export_balance" ->
  (amount U "flow_export" (flow_at n t c k) <= amount U "flow_out" (flow_at n t c k))%Qc.
Proof. intros OR IF SI GE NO CH; exact (export_within order OR files IF U n t c k SI GE NO CH). Qed.
Print Assumptions C77_export.
Theorem C77_depth order files U n t c k :
  lists_set order -> In files shipped -> sited U (flow_at n t c k) -> given U "storage" (use_at n t k) -> given U "storage_discharge_depth" (asset n t) -> numeric U "storage_cap" (asset n t) ->
  constraint_holds order (layered files) U "storage_discharge_depth_limit" ->
  (amount U "storage_discharge_depth" (asset n t) * amount U "storage_cap" (asset n t) <= amount U "storage" (use_at n t k))%Qc.
Proof. intros OR IF SI GS GD NC CH; exact (depth_kept order OR files IF U n t c k SI GS GD NC CH). Qed.
Print Assumptions C77_depth.
Example C77_export_ex : (Q2Qc 3 <= amount town "flow_out" (flow_at "here" "plant" "power" "t0"))%Qc.
Proof. refine (C77_export as_listed base_math town "here" "plant" "power" "t0" as_listed_set base_shared _ _ _ _); [town_site|is_given|is_num|town_rule]. Qed.
Example C77_depth_ex : (half * Q2Qc 8 <= amount town "storage" (use_at "here" "battery" "t0"))%Qc.
Proof. refine (C77_depth as_listed base_math town "here" "battery" "power" "t0" as_listed_set base_shared _ _ _ _ _); [town_site|is_given|is_given|is_num|town_rule]. Qed.
