(** Properties of capacity limits and integer units in the math that comes with the package. *)
From Coq Require Import QArith Qcanon Lia.
From Verif Require Import Base BaseProofs LangModel MathText EvalModel EvalSpec BuildModel BuildSpec HelperModel HelperSpec ShipModel ShipSpec ShipNumbers ShipExample NetSpec NetProofs NetExample
  PlaceSpec ShipPlace RuleText BoundSpec RuleProofs MilpProofs ShipFast RuleExample MilpExample.
Local Open Scope nat_scope.
Local Open Scope string_scope.
Local Open Scope list_scope.
Local Arguments Qcplus : simpl never.
Local Arguments Qcmult : simpl never.
Local Arguments Qcminus : simpl never.

(** * C71: flows stay within the installed capacity *)

(** For technologies whose number of running units is not decided. *)
Theorem C71_continuous order files U n t c k :
  lists_set order -> In files plain_lists \/ In files milp_lists /\ absent U "operating_units" (use_at n t k) ->
  sited U (flow_at n t c k) -> numeric U "flow_cap" (cap_at n t c) -> numeric U "timestep_resolution" [("timesteps", k)] ->
  (switched_on U "carrier_out" (cap_at n t c) -> numeric U "flow_out" (flow_at n t c k) -> numeric U "flow_out_parasitic_eff" (flow_at n t c k) -> constraint_holds order (layered files) U "flow_out_max" ->
    (amount U "flow_out" (flow_at n t c k) <= amount U "flow_cap" (cap_at n t c) * amount U "timestep_resolution" [("timesteps", k)] * amount U "flow_out_parasitic_eff" (flow_at n t c k))%Qc) /\
  (switched_on U "carrier_in" (cap_at n t c) -> numeric U "flow_in" (flow_at n t c k) -> constraint_holds order (layered files) U "flow_in_max" ->
    (amount U "flow_in" (flow_at n t c k) <= amount U "flow_cap" (cap_at n t c) * amount U "timestep_resolution" [("timesteps", k)])%Qc) /\
  (given U "flow_out_min_relative" (flow_at n t c k) -> numeric U "flow_out" (flow_at n t c k) -> constraint_holds order (layered files) U "flow_out_min" ->
    (amount U "flow_cap" (cap_at n t c) * amount U "timestep_resolution" [("timesteps", k)] * amount U "flow_out_min_relative" (flow_at n t c k) <= amount U "flow_out" (flow_at n t c k))%Qc).
Proof.
  intros OR IL SI NF NT; repeat split.
  - intros CO NO NP CH; exact (out_below order OR files U n t c k SI IL NT NF CO NO NP CH).
  - intros CO NO CH; exact (in_below order OR files U n t c k SI IL NT NF CO NO CH).
  - intros GM NO CH; exact (out_above order OR files U n t c k SI IL NT NF GM NO CH).
Qed.
Print Assumptions C71_continuous.
Lemma Qcmult_le_l (a b c : Qc) : (0 <= c)%Qc -> (a <= b)%Qc -> (c * a <= c * b)%Qc.
Proof. intros C H; rewrite (Qcmult_comm c a), (Qcmult_comm c b); apply Qcmult_le_compat_r; assumption. Qed.
(** For technologies bought in units of a given size: no more than the running units give, and so no more than the capacity. *)
Theorem C71_units order files U n t c k :
  lists_set order -> In files milp_lists -> sited U (flow_at n t c k) -> sited U (cap_at n t c) ->
  given U "operating_units" (use_at n t k) -> given U "purchased_units" (asset n t) -> given U "flow_cap_per_unit" (cap_at n t c) -> numeric U "flow_cap" (cap_at n t c) ->
  numeric U "timestep_resolution" [("timesteps", k)] -> (0 <= amount U "timestep_resolution" [("timesteps", k)])%Qc -> (0 <= amount U "flow_cap_per_unit" (cap_at n t c))%Qc ->
  constraint_holds order (layered files) U "unit_commitment_milp" -> constraint_holds order (layered files) U "flow_capacity_units_milp" ->
  (given U "flow_out" (flow_at n t c k) -> numeric U "flow_out_parasitic_eff" (flow_at n t c k) -> (0 <= amount U "flow_out_parasitic_eff" (flow_at n t c k))%Qc -> constraint_holds order (layered files) U "flow_out_max_milp" ->
    (amount U "flow_out" (flow_at n t c k) <= amount U "operating_units" (use_at n t k) * amount U "timestep_resolution" [("timesteps", k)] * amount U "flow_cap_per_unit" (cap_at n t c) * amount U "flow_out_parasitic_eff" (flow_at n t c k))%Qc /\
    (amount U "flow_out" (flow_at n t c k) <= amount U "flow_cap" (cap_at n t c) * amount U "timestep_resolution" [("timesteps", k)] * amount U "flow_out_parasitic_eff" (flow_at n t c k))%Qc) /\
  (given U "flow_in" (flow_at n t c k) -> constraint_holds order (layered files) U "flow_in_max_milp" ->
    (amount U "flow_in" (flow_at n t c k) <= amount U "operating_units" (use_at n t k) * amount U "timestep_resolution" [("timesteps", k)] * amount U "flow_cap_per_unit" (cap_at n t c))%Qc /\
    (amount U "flow_in" (flow_at n t c k) <= amount U "flow_cap" (cap_at n t c) * amount U "timestep_resolution" [("timesteps", k)])%Qc) /\
  (given U "flow_out" (flow_at n t c k) -> given U "flow_out_min_relative" (flow_at n t c k) -> constraint_holds order (layered files) U "flow_out_min_milp" ->
    (amount U "operating_units" (use_at n t k) * amount U "timestep_resolution" [("timesteps", k)] * amount U "flow_cap_per_unit" (cap_at n t c) * amount U "flow_out_min_relative" (flow_at n t c k) <= amount U "flow_out" (flow_at n t c k))%Qc).
Proof.
  intros OR IM SI SC GO GP GU NF NT PT PU CU CC.
  pose proof (units_running order OR files U n t c k SI IM GO GP CU) as LE; pose proof (units_capacity order OR files U n t c SC IM GP GU NF CC) as EC.
  set (o := amount U "operating_units" (use_at n t k)) in *; set (p := amount U "purchased_units" (asset n t)) in *; set (u := amount U "flow_cap_per_unit" (cap_at n t c)) in *;
    set (h := amount U "timestep_resolution" [("timesteps", k)]) in *; set (f := amount U "flow_cap" (cap_at n t c)) in *.
  assert (B : (o * h * u <= f * h)%Qc).
  { rewrite EC; replace (o * h * u)%Qc with (h * (u * o))%Qc by ring; replace (p * u * h)%Qc with (h * (u * p))%Qc by ring; apply Qcmult_le_l; [exact PT|]; apply Qcmult_le_l; assumption. }
  split; [|split].
  - intros GF NP PP CH; pose proof (out_below_units order OR files U n t c k SI IM NT GF GO GU NP CH) as H; split; [exact H|]; eapply Qcle_trans; [exact H|]; apply Qcmult_le_compat_r; [exact B|exact PP].
  - intros GF CH; pose proof (in_below_units order OR files U n t c k SI IM NT GF GO GU CH) as H; split; [exact H|]; eapply Qcle_trans; [exact H|exact B].
  - intros GF GM CH; exact (out_above_units order OR files U n t c k SI IM NT GF GO GU GM CH).
Qed.
Print Assumptions C71_units.
(** With MILP math a technology of any size whose units can be off has no limit at all: a solution of all constraints with five times the outflow the capacity allows. *)
Theorem C71_refuted : exists files U n t c k, In files milp_lists /\ solution as_listed files U /\ sited U (flow_at n t c k) /\
  switched_on U "carrier_out" (cap_at n t c) /\ given U "operating_units" (use_at n t k) /\ given U "available_flow_cap" (flow_at n t c k) /\
  (amount U "flow_cap" (cap_at n t c) * amount U "timestep_resolution" [("timesteps", k)] * amount U "flow_out_parasitic_eff" (flow_at n t c k) < amount U "flow_out" (flow_at n t c k))%Qc.
Proof.
  exists unit_math, runaway, "here", "plant", "power", "t0"; split; [exact unit_listed|split; [exact (runaway_solution)|split; [exact runaway_flow|split; [is_as|split; [is_given|split; [is_given|vm_compute; reflexivity]]]]]].
Qed.
Print Assumptions C71_refuted.
Ltac works_rule := apply works_rules; cbn; tauto.
Ltac works_site := first [apply works_flow; cbn; tauto|apply works_cap; cbn; tauto].
Example C71_continuous_ex : (amount town "flow_out" (flow_at "here" "plant" "power" "t0") <= Q2Qc 16 * Q2Qc 2 * 1)%Qc /\ (amount town "flow_in" (flow_at "here" "load" "power" "t0") <= Q2Qc 4 * Q2Qc 2)%Qc /\
  (Q2Qc 16 * Q2Qc 2 * quarter <= amount town "flow_out" (flow_at "here" "plant" "power" "t0"))%Qc.
Proof.
  split; [|split].
  - refine (proj1 (C71_continuous as_listed base_math town "here" "plant" "power" "t0" as_listed_set (or_introl base_plain) _ _ _) _ _ _ _); [apply town_flow; cbn; tauto|is_num|is_num|is_as|is_num|is_num|apply town_plain; cbn; tauto].
  - refine (proj1 (proj2 (C71_continuous as_listed base_math town "here" "load" "power" "t0" as_listed_set (or_introl base_plain) _ _ _)) _ _ _); [apply town_flow; cbn; tauto|is_num|is_num|is_as|is_num|apply town_plain; cbn; tauto].
  - refine (proj2 (proj2 (C71_continuous as_listed base_math town "here" "plant" "power" "t0" as_listed_set (or_introl base_plain) _ _ _)) _ _ _); [apply town_flow; cbn; tauto|is_num|is_num|is_given|is_num|apply town_plain; cbn; tauto].
Qed.
Example C71_units_ex : (amount works "flow_out" (flow_at "here" "engine" "power" "t0") <= Q2Qc 15 * Q2Qc 2 * 1)%Qc /\ (amount works "flow_in" (flow_at "here" "engine" "power" "t0") <= Q2Qc 2 * Q2Qc 2 * Q2Qc 5)%Qc /\
  (Q2Qc 2 * Q2Qc 2 * Q2Qc 5 * half <= amount works "flow_out" (flow_at "here" "engine" "power" "t0"))%Qc.
Proof.
  split; [|split].
  - refine (proj2 (proj1 (C71_units as_listed unit_math works "here" "engine" "power" "t0" as_listed_set unit_listed _ _ _ _ _ _ _ _ _ _ _) _ _ _ _)); [works_site|works_site|is_given|is_given|is_given|is_num|is_num|vm_compute; discriminate|vm_compute; discriminate|works_rule|works_rule|is_given|is_num|vm_compute; discriminate|works_rule].
  - refine (proj1 (proj1 (proj2 (C71_units as_listed unit_math works "here" "engine" "power" "t0" as_listed_set unit_listed _ _ _ _ _ _ _ _ _ _ _)) _ _)); [works_site|works_site|is_given|is_given|is_given|is_num|is_num|vm_compute; discriminate|vm_compute; discriminate|works_rule|works_rule|is_given|works_rule].
  - refine (proj2 (proj2 (C71_units as_listed unit_math works "here" "engine" "power" "t0" as_listed_set unit_listed _ _ _ _ _ _ _ _ _ _ _)) _ _ _); [works_site|works_site|is_given|is_given|is_given|is_num|is_num|vm_compute; discriminate|vm_compute; discriminate|works_rule|works_rule|is_given|is_given|works_rule].
Qed.

(** * C53: numbers of units in the whole system *)

(** Partial: the largest number always binds, the smallest one only if a largest number is given too. *)
Theorem C53_partial order files U n t c :
  lists_set order -> In files milp_lists -> sited U (cap_at n t c) -> given U "purchased_units" (asset n t) -> numeric_over U "purchased_units" "nodes" (tech_at t) ->
  given U "purchased_units_max_systemwide" (tech_at t) ->
  (constraint_holds order (layered files) U "unit_capacity_max_systemwide_milp" ->
    (over_nodes U (fun n => amount U "purchased_units" (asset n t)) <= amount U "purchased_units_max_systemwide" (tech_at t))%Qc) /\
  (numeric U "purchased_units_min_systemwide" (tech_at t) -> constraint_holds order (layered files) U "unit_capacity_min_systemwide_milp" ->
    (amount U "purchased_units_min_systemwide" (tech_at t) <= over_nodes U (fun n => amount U "purchased_units" (asset n t)))%Qc).
Proof.
  intros OR IM SI GP NO GM; split.
  - intros CH; exact (units_below order OR files U n t c SI IM GP GM NO CH).
  - intros NM CH; exact (units_above order OR files U n t c SI IM GP GM NM NO CH).
Qed.
Print Assumptions C53_partial.
(** Without a largest number the smallest one is not enforced: a solution of all constraints with one unit where two are asked for. *)
Theorem C53_refuted : exists files U n t c, In files milp_lists /\ solution as_listed files U /\ sited U (cap_at n t c) /\ given U "purchased_units" (asset n t) /\
  given U "purchased_units_min_systemwide" (tech_at t) /\ absent U "purchased_units_max_systemwide" (tech_at t) /\
  (over_nodes U (fun n => amount U "purchased_units" (asset n t)) < amount U "purchased_units_min_systemwide" (tech_at t))%Qc.
Proof.
  exists unit_math, runaway, "here", "plant", "power"; split; [exact unit_listed|split; [exact (runaway_solution)|split; [exact runaway_cap|split; [is_given|split; [is_given|split; [is_as|vm_compute; reflexivity]]]]]].
Qed.
Print Assumptions C53_refuted.
Example C53_partial_ex : (over_nodes works (fun n => amount works "purchased_units" (asset n "engine")) <= Q2Qc 4)%Qc /\ (Q2Qc 2 <= over_nodes works (fun n => amount works "purchased_units" (asset n "engine")))%Qc.
Proof.
  assert (H : (over_nodes works (fun n => amount works "purchased_units" (asset n "engine")) <= amount works "purchased_units_max_systemwide" (tech_at "engine"))%Qc /\
    (amount works "purchased_units_min_systemwide" (tech_at "engine") <= over_nodes works (fun n => amount works "purchased_units" (asset n "engine")))%Qc); [|exact H].
  split.
  - refine (proj1 (C53_partial as_listed unit_math works "here" "engine" "power" as_listed_set unit_listed _ _ _ _) _); [works_site|is_given|is_over|is_given|works_rule].
  - refine (proj2 (C53_partial as_listed unit_math works "here" "engine" "power" as_listed_set unit_listed _ _ _ _) _ _); [works_site|is_given|is_over|is_given|is_num|works_rule].
Qed.

(** * C79: asynchronous flows *)

Lemma sum_zero ls (f : string -> Qc) : (forall x, In x ls -> (0 <= f x)%Qc) -> (sum_over ls f <= 0)%Qc -> forall x, In x ls -> f x = 0%Qc.
Proof.
  induction ls as [|y ls IH]; intros P S x IX; [destruct IX|]; change (sum_over (y :: ls) f) with (f y + sum_over ls f)%Qc in S.
  assert (P1 : (0 <= f y)%Qc) by (apply P; left; reflexivity).
  assert (P2 : (0 <= sum_over ls f)%Qc).
  { clear -P; induction ls as [|z ls IH]; [apply Qcle_refl|]; change (sum_over (z :: ls) f) with (f z + sum_over ls f)%Qc; rewrite <- (Qcplus_0_l 0); apply Qcplus_le_compat; [apply P; right; left; reflexivity|].
    apply IH; intros x [->|IX]; apply P; [left; reflexivity|right; right; exact IX]. }
  assert (Z : f y = 0%Qc /\ (sum_over ls f <= 0)%Qc).
  { split; [apply Qcle_antisym; [|exact P1]|]; (eapply Qcle_trans; [|exact S]).
    - rewrite <- (Qcplus_0_r (f y)) at 1; apply Qcplus_le_compat; [apply Qcle_refl|exact P2].
    - rewrite <- (Qcplus_0_l (sum_over ls f)) at 1; apply Qcplus_le_compat; [exact P1|apply Qcle_refl]. }
  destruct IX as [<- |IX]; [apply Z|]; apply IH; [intros z IZ; apply P; right; exact IZ|apply Z|exact IX].
Qed.
(** With the switch at 0 or 1, a technology never takes in and puts out at the same time. *)
Theorem C79_not_both order files U n t c k :
  lists_set order -> In files milp_lists -> sited U (flow_at n t c k) -> given U "async_flow_switch" (use_at n t k) ->
  amount U "async_flow_switch" (use_at n t k) = 0%Qc \/ amount U "async_flow_switch" (use_at n t k) = 1%Qc -> numeric U "bigM" [] ->
  numeric_over U "flow_in" "carriers" (use_at n t k) -> numeric_over U "flow_out" "carriers" (use_at n t k) ->
  (forall c, In c (labels U "carriers") -> (0 <= amount U "flow_in" (("carriers", c) :: use_at n t k))%Qc /\ (0 <= amount U "flow_out" (("carriers", c) :: use_at n t k))%Qc) ->
  constraint_holds order (layered files) U "async_flow_in_milp" -> constraint_holds order (layered files) U "async_flow_out_milp" ->
  (forall c, In c (labels U "carriers") -> amount U "flow_in" (("carriers", c) :: use_at n t k) = 0%Qc) \/ (forall c, In c (labels U "carriers") -> amount U "flow_out" (("carriers", c) :: use_at n t k) = 0%Qc).
Proof.
  intros OR IM SI GS SW NB NI NO P CI CO; pose proof (async_in order OR files U n t c k SI IM GS NI NB CI) as A; pose proof (async_out order OR files U n t c k SI IM GS NO NB CO) as B.
  destruct SW as [E|E]; rewrite E in A, B; [right|left].
  - apply sum_zero; [intros c' IC; apply P, IC|]; replace (0 * amount U "bigM" [])%Qc with 0%Qc in B by ring; exact B.
  - apply sum_zero; [intros c' IC; apply P, IC|]; replace ((1 - 1) * amount U "bigM" [])%Qc with 0%Qc in A by ring; exact A.
Qed.
Print Assumptions C79_not_both.
Example C79_not_both_ex : (forall c, In c (labels works "carriers") -> amount works "flow_in" (("carriers", c) :: use_at "here" "battery" "t0") = 0%Qc) \/
  (forall c, In c (labels works "carriers") -> amount works "flow_out" (("carriers", c) :: use_at "here" "battery" "t0") = 0%Qc).
Proof.
  refine (C79_not_both as_listed unit_math works "here" "battery" "power" "t0" as_listed_set unit_listed _ _ _ _ _ _ _ _ _); [works_site|is_given|left; vm_compute; reflexivity|is_num|is_over|is_over|..|works_rule|works_rule].
  intros c [<- |[]]; split; vm_compute; discriminate.
Qed.

(** * C80: capacity of technologies bought in units *)

(** The capacity is that of the units bought. *)
Theorem C80_units order files U n t c :
  lists_set order -> In files milp_lists -> sited U (cap_at n t c) -> given U "purchased_units" (asset n t) ->
  (given U "flow_cap_per_unit" (cap_at n t c) -> numeric U "flow_cap" (cap_at n t c) -> constraint_holds order (layered files) U "flow_capacity_units_milp" ->
    amount U "flow_cap" (cap_at n t c) = (amount U "purchased_units" (asset n t) * amount U "flow_cap_per_unit" (cap_at n t c))%Qc) /\
  (given U "storage_cap_per_unit" (asset n t) -> (exists k, In k (labels U "timesteps") /\ In "timesteps" (u_dims U) /\ given U "storage" (use_at n t k)) -> numeric U "storage_cap" (asset n t) ->
    constraint_holds order (layered files) U "storage_capacity_units_milp" ->
    amount U "storage_cap" (asset n t) = (amount U "purchased_units" (asset n t) * amount U "storage_cap_per_unit" (asset n t))%Qc).
Proof.
  intros OR IM SI GP; split.
  - intros GU NF CH; exact (units_capacity order OR files U n t c SI IM GP GU NF CH).
  - intros GU EK NS CH; exact (storage_units order OR files U n t c SI IM GP GU EK NS CH).
Qed.
Print Assumptions C80_units.
(** Without units bought there is no capacity; otherwise it lies between the limits times the units. *)
Theorem C80_limits order files U n t c :
  lists_set order -> In files milp_lists -> sited U (cap_at n t c) -> given U "purchased_units" (asset n t) -> numeric U "flow_cap" (cap_at n t c) ->
  given U "flow_cap_max" (cap_at n t c) \/ absent U "flow_cap_max" (cap_at n t c) /\ numeric U "bigM" [] -> constraint_holds order (layered files) U "flow_capacity_max_purchase_milp" ->
  (amount U "purchased_units" (asset n t) = 0%Qc -> (amount U "flow_cap" (cap_at n t c) <= 0)%Qc) /\
  (given U "flow_cap_max" (cap_at n t c) -> (amount U "flow_cap" (cap_at n t c) <= amount U "flow_cap_max" (cap_at n t c) * amount U "purchased_units" (asset n t))%Qc) /\
  (given U "flow_cap_min" (cap_at n t c) -> constraint_holds order (layered files) U "flow_capacity_minimum" ->
    (amount U "flow_cap_min" (cap_at n t c) * amount U "purchased_units" (asset n t) <= amount U "flow_cap" (cap_at n t c))%Qc) /\
  (given U "storage_cap_max" (asset n t) -> numeric U "storage_cap" (asset n t) -> constraint_holds order (layered files) U "storage_capacity_max_purchase_milp" ->
    (amount U "storage_cap" (asset n t) <= amount U "storage_cap_max" (asset n t) * amount U "purchased_units" (asset n t))%Qc).
Proof.
  intros OR IM SI GP NF MX CH; split; [|split; [|split]].
  - intros Z; destruct MX as [GM|(AM & NB)].
    + pose proof (cap_below_bought order OR files U n t c SI IM GP GM NF CH) as H; rewrite Z, Qcmult_0_r in H; exact H.
    + pose proof (cap_below_big order OR files U n t c SI IM GP AM NB NF CH) as H; rewrite Z, Qcmult_0_r in H; exact H.
  - intros GM; exact (cap_below_bought order OR files U n t c SI IM GP GM NF CH).
  - intros GM CM; exact (cap_above_bought order OR files U n t c SI IM GP GM NF CM).
  - intros GM NS CS; exact (storage_below_bought order OR files U n t c SI IM GP GM NS CS).
Qed.
Print Assumptions C80_limits.
Example C80_units_ex : (amount works "flow_cap" (cap_at "here" "engine" "power") = Q2Qc 3 * Q2Qc 5)%Qc /\ (amount works "storage_cap" (asset "here" "battery") = Q2Qc 2 * Q2Qc 4)%Qc.
Proof.
  split.
  - refine (proj1 (C80_units as_listed unit_math works "here" "engine" "power" as_listed_set unit_listed _ _) _ _ _); [works_site|is_given|is_given|is_num|works_rule].
  - refine (proj2 (C80_units as_listed unit_math works "here" "battery" "power" as_listed_set unit_listed _ _) _ _ _ _); [works_site|is_given|is_given|exists "t0"; split; [left; reflexivity|split; [cbn; tauto|is_given]]|is_num|works_rule].
Qed.
Example C80_limits_ex : (amount works "flow_cap" (cap_at "here" "turbine" "power") <= Q2Qc 20 * 1)%Qc /\ (Q2Qc 10 * 1 <= amount works "flow_cap" (cap_at "here" "turbine" "power"))%Qc /\
  (amount works "storage_cap" (asset "here" "battery") <= Q2Qc 10 * Q2Qc 2)%Qc.
Proof.
  split; [|split].
  - refine (proj1 (proj2 (C80_limits as_listed unit_math works "here" "turbine" "power" as_listed_set unit_listed _ _ _ _ _)) _); [works_site|is_given|is_num|left; is_given|works_rule|is_given].
  - refine (proj1 (proj2 (proj2 (C80_limits as_listed unit_math works "here" "turbine" "power" as_listed_set unit_listed _ _ _ _ _))) _ _); [works_site|is_given|is_num|left; is_given|works_rule|is_given|works_rule].
  - refine (proj2 (proj2 (proj2 (C80_limits as_listed unit_math works "here" "battery" "power" as_listed_set unit_listed _ _ _ _ _))) _ _ _); [works_site|is_given|is_num|right; split; [is_as|is_num]|works_rule|is_given|is_num|works_rule].
Qed.

(** * C81: available capacity *)

(** When all units bought run, the whole capacity is available; when none runs, nothing is. *)
Theorem C81_available order files U n t c k :
  lists_set order -> In files milp_lists -> sited U (flow_at n t c k) -> given U "available_flow_cap" (flow_at n t c k) -> numeric U "flow_cap" (cap_at n t c) -> numeric U "flow_cap_max" (cap_at n t c) ->
  numeric U "operating_units" (use_at n t k) -> numeric U "purchased_units" (asset n t) ->
  constraint_holds order (layered files) U "available_flow_cap_continuous" -> constraint_holds order (layered files) U "available_flow_cap_binary" -> constraint_holds order (layered files) U "available_flow_cap_max_binary_continuous_switch" ->
  (amount U "operating_units" (use_at n t k) = amount U "purchased_units" (asset n t) -> amount U "available_flow_cap" (flow_at n t c k) = amount U "flow_cap" (cap_at n t c)) /\
  (amount U "operating_units" (use_at n t k) = 0%Qc -> (amount U "available_flow_cap" (flow_at n t c k) <= 0)%Qc).
Proof.
  intros OR IM SI GA NF NM NO NP C1 C2 C3; split.
  - intros E; apply Qcle_antisym; [exact (available_below order OR files U n t c k SI IM GA NF C1)|].
    pose proof (available_above order OR files U n t c k SI IM GA NF NM NO NP C3) as H; rewrite E in H.
    match type of H with (?x <= _)%Qc => replace x with (amount U "flow_cap" (cap_at n t c)) in H by ring end; exact H.
  - intros E; pose proof (available_switch order OR files U n t c k SI IM GA NM NO C2) as H; rewrite E, Qcmult_0_r in H; exact H.
Qed.
Print Assumptions C81_available.
Example C81_available_ex : amount works "available_flow_cap" (flow_at "here" "turbine" "power" "t0") = amount works "flow_cap" (cap_at "here" "turbine" "power").
Proof.
  refine (proj1 (C81_available as_listed unit_math works "here" "turbine" "power" "t0" as_listed_set unit_listed _ _ _ _ _ _ _ _ _) _); [works_site|is_given|is_num|is_num|is_num|is_num|works_rule|works_rule|works_rule|vm_compute; reflexivity].
Qed.
