(** Properties of results calculated after solving and of what links cost every year, in the math that comes with the package. *)
From Coq Require Import QArith Qcanon Lia Field.
From Verif Require Import Base BaseProofs LangModel MathText EvalModel EvalSpec BuildModel BuildSpec HelperModel HelperSpec ShipModel ShipSpec ShipNumbers ShipExample NetSpec NetProofs NetExample
  PlaceSpec ShipPlace RuleText BoundSpec RuleProofs MilpProofs ShipFast RuleExample MilpExample CostSpec CostText CostProofs CostTotals CostYear CostGoal CostObj CostPost CostAny CostExample RuleProps MilpProps CostProps.
Local Open Scope nat_scope.
Local Open Scope string_scope.
Local Open Scope list_scope.
Local Arguments Qcplus : simpl never.
Local Arguments Qcmult : simpl never.
Local Arguments Qcminus : simpl never.
Local Arguments Qcdiv : simpl never.
Local Arguments Qcinv : simpl never.

(** * C54: total generation *)

Lemma sum_same (ls : list string) (f g : string -> Qc) : (forall x, In x ls -> f x = g x) -> sum_over ls f = sum_over ls g.
Proof.
  induction ls as [|x ls IH]; intros E; [reflexivity|]; change (sum_over (x :: ls) f) with (f x + sum_over ls f)%Qc; change (sum_over (x :: ls) g) with (g x + sum_over ls g)%Qc; rewrite E, IH; [reflexivity|intros y IY; apply E; right; exact IY|left; reflexivity].
Qed.
Lemma sum_plus (ls : list string) (f g : string -> Qc) : sum_over ls (fun x => f x + g x)%Qc = (sum_over ls f + sum_over ls g)%Qc.
Proof.
  induction ls as [|x ls IH]; [vm_compute; apply Qc_is_canon; reflexivity|].
  change (sum_over (x :: ls) (fun x => f x + g x)%Qc) with (f x + g x + sum_over ls (fun x => f x + g x))%Qc; change (sum_over (x :: ls) f) with (f x + sum_over ls f)%Qc; change (sum_over (x :: ls) g) with (g x + sum_over ls g)%Qc; rewrite IH; ring.
Qed.
(** Outflow is counted without the weight of the timestep, export with it. *)
Theorem C54_partial order files U n t b c k :
  lists_set order -> In files shipped -> sited U (flow_at n t c k) -> given U "flow_out" (flow_at n t c k) -> In b makers -> reads_as U "base_tech" (tech_at t) (Txt b) ->
  everywhere U "flow_out" t c -> (forall n k, In n (labels U "nodes") -> In k (labels U "timesteps") -> numeric U "flow_export" (flow_at n t c k)) ->
  (forall k, In k (labels U "timesteps") -> numeric U "timestep_weights" (step_at k)) -> post_built order (layered files) U "total_generation" ->
  post_is order (layered files) U "total_generation" (carrier_of t c)
    (sum_over (labels U "nodes") (fun n => sum_over (labels U "timesteps") (fun k => amount U "flow_out" (flow_at n t c k) + amount U "flow_export" (flow_at n t c k) * amount U "timestep_weights" (step_at k))))%Qc /\
  ((forall k, In k (labels U "timesteps") -> amount U "timestep_weights" (step_at k) = 1%Qc) ->
   post_is order (layered files) U "total_generation" (carrier_of t c)
    (generated U t c + sum_over (labels U "nodes") (fun n => sum_over (labels U "timesteps") (fun k => amount U "flow_export" (flow_at n t c k) * amount U "timestep_weights" (step_at k))))%Qc).
Proof.
  intros OR IF SI GF IB BT EV NE NW PB; assert (H := total_is order OR files IF U n t b c k SI GF IB BT EV NE NW PB); split; [exact H|].
  intros ONE; unfold generated; rewrite <- sum_plus; erewrite (sum_same (labels U "nodes")); [exact H|]; intros n' IN; cbv beta; rewrite <- sum_plus; apply sum_same; intros k' IK; cbv beta; rewrite (ONE k' IK); ring.
Qed.
Print Assumptions C54_partial.
(** With timesteps that stand for more than themselves the total is not what capacity factor and capacity amount to. *)
Theorem C54_refuted : exists files U n t c k g f, In files planning /\ solution as_listed files U /\ sited U (flow_at n t c k) /\ everywhere U "flow_out" t c /\
  (forall n k, In n (labels U "nodes") -> In k (labels U "timesteps") -> amount U "flow_export" (flow_at n t c k) = 0%Qc) /\
  post_is as_listed (layered files) U "total_generation" (carrier_of t c) g /\ post_is as_listed (layered files) U "systemwide_capacity_factor" (carrier_of t c) f /\
  (f * capacity_of U t c * represented U)%Qc = generated U t c /\ (g * Q2Qc 4380)%Qc = generated U t c /\ g <> generated U t c.
Proof.
  exists base_math, isle, "north", "plant", "power", "t0", (Q2Qc 9), (Q2Qc (9 # 20)); split; [exact base_planning|split; [exact (isle_solution)|split; [apply isle_site; cbn; tauto|]]].
  split; [split; [vm_compute; tauto|intros n k IN IK; vm_compute in IN, IK; destruct IN as [<- |[<- |[]]], IK as [<- |[<- |[]]]; is_num]|].
  split; [intros n k IN IK; vm_compute in IN, IK; destruct IN as [<- |[<- |[]]], IK as [<- |[<- |[]]]; isle_sum|].
  split; [apply post_sound; vm_compute; reflexivity|split; [apply post_sound; vm_compute; reflexivity|split; [isle_sum|split; [isle_sum|intros H; vm_compute in H; discriminate H]]]].
Qed.
Print Assumptions C54_refuted.
Lemma isle_made n t : In (n, t) [("north", "plant"); ("south", "engine")] -> everywhere isle "flow_out" t "power".
Proof.
  intros H; repeat (destruct H as [E|H]; [injection E as <- <-; split; [vm_compute; tauto|intros n k IN IK; vm_compute in IN, IK; destruct IN as [<- |[<- |[]]], IK as [<- |[<- |[]]]; is_num]|]); destruct H.
Qed.
Lemma isle_total : post_is as_listed (layered base_math) isle "total_generation" (carrier_of "plant" "power") (Q2Qc 9).
Proof. apply post_sound; vm_compute; reflexivity. Qed.
Example C54_partial_ex : post_is as_listed (layered base_math) isle "total_generation" (carrier_of "plant" "power")
  (sum_over (labels isle "nodes") (fun n => sum_over (labels isle "timesteps") (fun k => amount isle "flow_out" (flow_at n "plant" "power" k) + amount isle "flow_export" (flow_at n "plant" "power" k) * amount isle "timestep_weights" (step_at k))))%Qc.
Proof.
  refine (proj1 (C54_partial as_listed base_math isle "north" "plant" "supply" "power" "t0" as_listed_set base_shipped _ _ _ _ _ _ _ (post_there _ _ _ _ _ _ isle_total))).
  - apply isle_site; cbn; tauto.
  - is_given.
  - cbn; tauto.
  - is_as.
  - apply (isle_made "north"); cbn; tauto.
  - intros n k IN IK; vm_compute in IN, IK; destruct IN as [<- |[<- |[]]], IK as [<- |[<- |[]]]; is_num.
  - apply isle_weighed.
Qed.

(** * C84: levelised costs *)

(** The costs at all nodes are divided by the total generation: what a unit of energy costs if every timestep stands for itself and nothing is exported. *)
Theorem C84_partial order files U n t b c o k :
  lists_set order -> In files shipped -> sited U (class_cap n t c o) -> given U "cost" (class_at n t o) -> In "nodes" (a_dims (n_array (u_env U) "cost")) ->
  (forall n, In n (labels U "nodes") -> numeric U "cost" (class_at n t o)) -> given U "total_generation" (carrier_of t c) -> (0 < amount U "total_generation" (carrier_of t c))%Qc ->
  post_built order (layered files) U "systemwide_levelised_cost" ->
  post_is order (layered files) U "systemwide_levelised_cost" [("techs", t); ("carriers", c); ("costs", o)]
    (sum_over (labels U "nodes") (fun n => amount U "cost" (class_at n t o)) / amount U "total_generation" (carrier_of t c))%Qc /\
  (sited U (flow_at n t c k) -> given U "flow_out" (flow_at n t c k) -> In b makers -> reads_as U "base_tech" (tech_at t) (Txt b) -> everywhere U "flow_out" t c ->
   (forall n k, In n (labels U "nodes") -> In k (labels U "timesteps") -> numeric U "flow_export" (flow_at n t c k) /\ amount U "flow_export" (flow_at n t c k) = 0%Qc) ->
   (forall k, In k (labels U "timesteps") -> numeric U "timestep_weights" (step_at k) /\ amount U "timestep_weights" (step_at k) = 1%Qc) -> post_built order (layered files) U "total_generation" ->
   (forall g, post_is order (layered files) U "total_generation" (carrier_of t c) g -> amount U "total_generation" (carrier_of t c) = g) ->
   post_is order (layered files) U "systemwide_levelised_cost" [("techs", t); ("carriers", c); ("costs", o)]
    (sum_over (labels U "nodes") (fun n => amount U "cost" (class_at n t o)) / generated U t c)%Qc).
Proof.
  intros OR IF SI GC DN NC GT PT PB; pose proof (level_is order OR files IF U n t c o SI GT PT GC DN NC PB) as L; split; [exact L|].
  intros SF GF IB BT EV NE NW PG AG; pose proof (C54_partial order files U n t b c k OR IF SF GF IB BT EV (fun n k IN IK => proj1 (NE n k IN IK)) (fun k IK => proj1 (NW k IK)) PG) as (_ & T).
  specialize (T (fun k IK => proj2 (NW k IK))); rewrite (AG _ T) in L; rewrite <- (Qcplus_0_r (generated U t c)).
  assert (Z : forall ls : list string, sum_over ls (fun _ => 0%Qc) = 0%Qc) by (induction ls as [|x ls IH]; [reflexivity|]; change (sum_over (x :: ls) (fun _ => 0%Qc)) with (0 + sum_over ls (fun _ => 0%Qc))%Qc; rewrite IH; reflexivity).
  match type of L with context [(generated U t c + ?s)%Qc] => replace s with 0%Qc in L; [exact L|] end.
  symmetry; transitivity (sum_over (labels U "nodes") (fun _ => 0%Qc)); [|apply Z]; apply sum_same; intros n' IN; transitivity (sum_over (labels U "timesteps") (fun _ => 0%Qc)); [|apply Z]; apply sum_same; intros k' IK; rewrite (proj2 (NE n' k' IN IK)); ring.
Qed.
Print Assumptions C84_partial.
Lemma isle_level : post_is as_listed (layered base_math) isle "systemwide_levelised_cost" [("techs", "engine"); ("carriers", "power"); ("costs", "monetary")] (Q2Qc 4380).
Proof. apply post_sound; vm_compute; reflexivity. Qed.
Example C84_partial_ex : post_is as_listed (layered base_math) isle "systemwide_levelised_cost" [("techs", "engine"); ("carriers", "power"); ("costs", "monetary")]
  (sum_over (labels isle "nodes") (fun n => amount isle "cost" (class_at n "engine" "monetary")) / amount isle "total_generation" (carrier_of "engine" "power"))%Qc.
Proof.
  refine (proj1 (C84_partial as_listed base_math isle "south" "engine" "supply" "power" "monetary" "t0" as_listed_set base_shipped _ _ _ _ _ _ (post_there _ _ _ _ _ _ isle_level))).
  - apply isle_cap; cbn; tauto.
  - is_given.
  - vm_compute; tauto.
  - intros n IN; vm_compute in IN; destruct IN as [<- |[<- |[]]]; is_num.
  - is_given.
  - vm_compute; reflexivity.
Qed.
(** They are too high by the weight of the timesteps: an engine that costs 1 for each unit of energy is reported with 4380. *)
Theorem C84_refuted : exists files U n t c o k x, In files planning /\ solution as_listed files U /\ sited U (flow_at n t c k) /\ generated U t c <> 0%Qc /\
  (sum_over (labels U "nodes") (fun n => amount U "cost" (class_at n t o)) / generated U t c)%Qc = 1%Qc /\
  (exists g, post_is as_listed (layered files) U "total_generation" (carrier_of t c) g /\ amount U "total_generation" (carrier_of t c) = g) /\
  post_is as_listed (layered files) U "systemwide_levelised_cost" [("techs", t); ("carriers", c); ("costs", o)] x /\ x = Q2Qc 4380.
Proof.
  exists base_math, isle, "south", "engine", "power", "monetary", "t0", (Q2Qc 4380); split; [exact base_planning|split; [exact (isle_solution)|split; [apply isle_site; cbn; tauto|]]].
  split; [intros H; vm_compute in H; discriminate H|split; [isle_sum|split; [exists (Q2Qc 2); split; [apply post_sound; vm_compute; reflexivity|isle_sum]|split; [apply post_sound; vm_compute; reflexivity|reflexivity]]]].
Qed.
Print Assumptions C84_refuted.

(** * C82: annual costs of a link *)

(** Annual costs per capacity are charged at both ends, unlike the investment, half of which is: a solution in which a link costs twice its annual price every year. *)
Theorem C82_refuted : exists files U n n' t c o, In files planning /\ solution as_listed files U /\ n <> n' /\ sited U (class_cap n t c o) /\ sited U (class_cap n' t c o) /\ kind U t "transmission" /\
  (forall m, m = n \/ m = n' -> absent U "cost_om_annual_investment_fraction" (class_at m t o) /\ given U "flow_cap" (cap_at m t c) /\ amount U "flow_cap" (cap_at m t c) = amount U "link_flow_cap" (tech_at t)) /\
  given U "cost_om_annual" [("techs", t); ("costs", o)] /\ years U = 1%Qc /\ (0 < amount U "cost_om_annual" [("techs", t); ("costs", o)] * amount U "link_flow_cap" (tech_at t))%Qc /\
  (amount U "cost_operation_fixed" (class_at n t o) + amount U "cost_operation_fixed" (class_at n' t o) = Q2Qc 2 * (amount U "cost_om_annual" [("techs", t); ("costs", o)] * amount U "link_flow_cap" (tech_at t)))%Qc.
Proof.
  exists base_math, isle, "north", "south", "line", "power", "monetary"; split; [exact base_planning|split; [exact (isle_solution)|split; [discriminate|split; [isle_price|split; [isle_price|split; [isle_price|]]]]]].
  split; [intros m [-> | ->]; (split; [is_as|split; [is_given|isle_sum]])|split; [is_given|split; [isle_sum|split; [vm_compute; reflexivity|isle_sum]]]].
Qed.
Print Assumptions C82_refuted.

(** * C83: fractions stay between zero and one *)

Definition fraction (q : Qc) : Prop := (0 <= q)%Qc /\ (q <= 1)%Qc.
Lemma ratio a b : (0 <= a)%Qc -> (a <= b)%Qc -> (0 < b)%Qc -> fraction (a / b)%Qc.
Proof.
  intros A B P; assert (NZ : b <> 0%Qc) by (intros ->; exact (Qclt_not_eq _ _ P eq_refl)).
  assert (IP : (0 <= / b)%Qc).
  { destruct (Qclt_le_dec (/ b) 0) as [N|G]; [exfalso|exact G].
    assert (H : (/ b * b <= 0 * b)%Qc) by (apply Qcmult_le_compat_r; apply Qclt_le_weak; assumption); rewrite Qcmult_0_l, Qcmult_comm, Qcmult_inv_r in H by exact NZ; vm_compute in H; apply H; reflexivity. }
  unfold Qcdiv; split.
  - rewrite <- (Qcmult_0_l (/ b)); apply Qcmult_le_compat_r; assumption.
  - rewrite <- (Qcmult_inv_r b NZ); apply Qcmult_le_compat_r; assumption.
Qed.
Lemma Qclt_nonzero b : (0 < b)%Qc -> b <> 0%Qc.
Proof. intros P ->; exact (Qclt_not_eq _ _ P eq_refl). Qed.
Lemma Qcmult_pos a b : (0 < a)%Qc -> (0 < b)%Qc -> (0 < a * b)%Qc.
Proof. intros A B; rewrite <- (Qcmult_0_l b); apply Qcmult_lt_compat_r; assumption. Qed.
(** The capacity factor of a technology in a timestep. *)
Theorem C83_factor order files U n t c k :
  lists_set order -> In files plain_lists \/ In files milp_lists /\ absent U "operating_units" (use_at n t k) -> In files shipped ->
  sited U (flow_at n t c k) -> given U "flow_out" (flow_at n t c k) -> given U "flow_cap" (cap_at n t c) -> (0 < amount U "flow_cap" (cap_at n t c))%Qc ->
  numeric U "timestep_resolution" (step_at k) -> (0 < amount U "timestep_resolution" (step_at k))%Qc -> switched_on U "carrier_out" (cap_at n t c) ->
  numeric U "flow_out_parasitic_eff" (flow_at n t c k) -> (amount U "flow_out_parasitic_eff" (flow_at n t c k) <= 1)%Qc -> (0 <= amount U "flow_out" (flow_at n t c k))%Qc ->
  constraint_holds order (layered files) U "flow_out_max" -> post_built order (layered files) U "capacity_factor" ->
  exists q, post_is order (layered files) U "capacity_factor" (flow_at n t c k) q /\ fraction q.
Proof.
  intros OR IL IF SI GF GC PC NT PT CO NP LP PF CH PB; eexists; split; [apply (factor_is order OR files IF U n t c k SI GF GC PC NT (Qclt_nonzero _ PT) PB)|].
  assert (NU : forall s l, given U s l -> numeric U s l) by (intros s l (W & _ & q & E); split; [exact W|]; exists q; unfold value_at; rewrite E; reflexivity).
  apply ratio; [exact PF| |apply Qcmult_pos; assumption].
  eapply Qcle_trans; [apply (proj1 (C71_continuous order files U n t c k OR IL SI (NU _ _ GC) NT) CO (NU _ _ GF) NP CH)|].
  fold (step_at k); match goal with |- (?x * _ <= _)%Qc => rewrite <- (Qcmult_1_r x) at 2; apply Qcmult_le_l; [apply Qclt_le_weak, Qcmult_pos; assumption|exact LP] end.
Qed.
Print Assumptions C83_factor.
Lemma sum_le (ls : list string) (f g : string -> Qc) : (forall x, In x ls -> (f x <= g x)%Qc) -> (sum_over ls f <= sum_over ls g)%Qc.
Proof.
  induction ls as [|x ls IH]; intros H; [apply Qcle_refl|]; change (sum_over (x :: ls) f) with (f x + sum_over ls f)%Qc; change (sum_over (x :: ls) g) with (g x + sum_over ls g)%Qc.
  apply Qcplus_le_compat; [apply H; left; reflexivity|apply IH; intros y IY; apply H; right; exact IY].
Qed.
Lemma sum_nonneg (ls : list string) (f : string -> Qc) : (forall x, In x ls -> (0 <= f x)%Qc) -> (0 <= sum_over ls f)%Qc.
Proof.
  induction ls as [|x ls IH]; intros H; [apply Qcle_refl|]; change (sum_over (x :: ls) f) with (f x + sum_over ls f)%Qc; rewrite <- (Qcplus_0_l 0).
  apply Qcplus_le_compat; [apply H; left; reflexivity|apply IH; intros y IY; apply H; right; exact IY].
Qed.
Lemma sum_scale (ls : list string) (a : Qc) (f : string -> Qc) : sum_over ls (fun x => a * f x)%Qc = (a * sum_over ls f)%Qc.
Proof.
  induction ls as [|x ls IH]; [change (0%Qc = (a * 0)%Qc); ring|]; change (sum_over (x :: ls) (fun x => a * f x)%Qc) with (a * f x + sum_over ls (fun x => a * f x))%Qc; change (sum_over (x :: ls) f) with (f x + sum_over ls f)%Qc; rewrite IH; ring.
Qed.
(** The average over nodes and timesteps, if no node gives more than it can. *)
Theorem C83_systemwide order files U n t c k :
  lists_set order -> In files shipped -> sited U (flow_at n t c k) -> given U "flow_out" (flow_at n t c k) -> given U "flow_cap" (cap_at n t c) -> (0 < amount U "flow_cap" (cap_at n t c))%Qc ->
  everywhere U "flow_out" t c -> capacities U t c -> weighed U -> (0 < capacity_of U t c * represented U)%Qc -> post_built order (layered files) U "systemwide_capacity_factor" ->
  (forall n k, In n (labels U "nodes") -> In k (labels U "timesteps") ->
    (0 <= amount U "timestep_weights" (step_at k))%Qc /\ (0 <= amount U "flow_out" (flow_at n t c k))%Qc /\ (amount U "flow_out" (flow_at n t c k) <= amount U "flow_cap" (cap_at n t c) * amount U "timestep_resolution" (step_at k))%Qc) ->
  post_is order (layered files) U "systemwide_capacity_factor" (carrier_of t c) (generated U t c / (capacity_of U t c * represented U))%Qc /\
  fraction (generated U t c / (capacity_of U t c * represented U))%Qc.
Proof.
  intros OR IF SI GF GC PC EV CA WE PR PB LE; split; [exact (average_is order OR files IF U n t c k SI GF GC PC EV CA WE (Qclt_nonzero _ PR) PB)|].
  apply ratio; [| |exact PR].
  - apply sum_nonneg; intros n' IN; apply sum_nonneg; intros k' IK; destruct (LE n' k' IN IK) as (W & P & _); rewrite <- (Qcmult_0_l (amount U "timestep_weights" (step_at k'))); apply Qcmult_le_compat_r; assumption.
  - unfold generated; apply (Qcle_trans _ (sum_over (labels U "nodes") (fun n => amount U "flow_cap" (cap_at n t c) * represented U)%Qc)).
    + apply sum_le; intros n' IN; unfold represented; rewrite <- sum_scale; apply sum_le; intros k' IK; destruct (LE n' k' IN IK) as (W & _ & L); rewrite Qcmult_assoc; apply Qcmult_le_compat_r; assumption.
    + unfold capacity_of; rewrite (Qcmult_comm _ (represented U)), <- sum_scale; apply sum_le; intros n' _; rewrite Qcmult_comm; apply Qcle_refl.
Qed.
Print Assumptions C83_systemwide.
(** The part of a source that is not used. *)
Theorem C83_curtailment order files U n t c k f :
  lists_set order -> In files shipped -> sited U (flow_at n t c k) -> reads_as U "base_tech" (tech_at t) (Txt "supply") ->
  given U "source_use_max" (use_at n t k) -> (0 < amount U "source_use_max" (use_at n t k))%Qc -> given U "source_cap" (asset n t) -> (0 < amount U "source_cap" (asset n t))%Qc ->
  per_unit U "source_unit" n t f \/ per_capacity U "source_unit" n t f -> (0 < f)%Qc -> given U "source_use" (use_at n t k) -> (0 <= amount U "source_use" (use_at n t k))%Qc -> absent U "source_use_equals" (use_at n t k) ->
  constraint_holds order (layered files) U "source_availability_supply" -> constraint_holds order (layered files) U "balance_supply_min_use" -> post_built order (layered files) U "curtailment" ->
  post_is order (layered files) U "curtailment" (use_at n t k) (1 - amount U "source_use" (use_at n t k) / (amount U "source_use_max" (use_at n t k) * f))%Qc /\
  fraction (1 - amount U "source_use" (use_at n t k) / (amount U "source_use_max" (use_at n t k) * f))%Qc.
Proof.
  intros OR IF SI BT GM PM GC PC SC PF GU PU AE C1 C2 PB.
  assert (NU : numeric U "source_use" (use_at n t k)) by (destruct GU as (W & _ & q & E); split; [exact W|]; exists q; unfold value_at; rewrite E; reflexivity).
  split; [exact (curtailed_is order OR files IF U n t c k f SI BT GM PM GC PC SC (Qclt_nonzero _ PF) NU PB)|].
  destruct (ratio (amount U "source_use" (use_at n t k)) (amount U "source_use_max" (use_at n t k) * f)%Qc PU (proj1 (proj2 (C72_limits order files U n t c k f OR IF SI GU SC C1 C2)) AE GM) (Qcmult_pos _ _ PM PF)) as (A & B).
  set (x := (_ / _)%Qc) in *; split.
  - apply Qcle_minus_iff; replace (1 - x + - 0)%Qc with (1 + - x)%Qc by ring; apply (proj1 (Qcle_minus_iff _ _)), B.
  - apply Qcle_minus_iff; replace (1 + - (1 - x))%Qc with (x + - 0)%Qc by ring; apply (proj1 (Qcle_minus_iff _ _)), A.
Qed.
Print Assumptions C83_curtailment.
Lemma isle_rule s : In s (active_names (h_constraints (layered base_math)) (layered base_math)) -> smem s (h_off (layered base_math)) = false -> constraint_holds as_listed (layered base_math) isle s.
Proof. intros A B; apply feasible_constraint; [exact isle_feasible|exact A|exact B]. Qed.
Ltac isle_holds := apply isle_rule; [vm_compute; tauto|reflexivity].
Lemma isle_factor : post_is as_listed (layered base_math) isle "capacity_factor" (flow_at "north" "plant" "power" "t1") (Q2Qc (3 # 5)).
Proof. apply post_sound; vm_compute; reflexivity. Qed.
Lemma isle_average : post_is as_listed (layered base_math) isle "systemwide_capacity_factor" (carrier_of "plant" "power") (Q2Qc (9 # 20)).
Proof. apply post_sound; vm_compute; reflexivity. Qed.
Lemma isle_curtailed : post_is as_listed (layered base_math) isle "curtailment" (use_at "north" "plant" "t0") (Q2Qc (1 # 2)).
Proof. apply post_sound; vm_compute; reflexivity. Qed.
Ltac positive := vm_compute; first [reflexivity | discriminate].
Example C83_factor_ex : exists q, post_is as_listed (layered base_math) isle "capacity_factor" (flow_at "north" "plant" "power" "t1") q /\ fraction q.
Proof.
  refine (C83_factor as_listed base_math isle "north" "plant" "power" "t1" as_listed_set (or_introl base_plain) base_shipped _ _ _ _ _ _ _ _ _ _ _ (post_there _ _ _ _ _ _ isle_factor));
    [apply isle_site; cbn; tauto|is_given|is_given|positive|is_num|positive|is_as|is_num|positive|positive|isle_holds].
Qed.
Example C83_systemwide_ex : fraction (generated isle "plant" "power" / (capacity_of isle "plant" "power" * represented isle))%Qc.
Proof.
  refine (proj2 (C83_systemwide as_listed base_math isle "north" "plant" "power" "t0" as_listed_set base_shipped _ _ _ _ _ _ isle_weighed _ (post_there _ _ _ _ _ _ isle_average) _));
    [apply isle_site; cbn; tauto|is_given|is_given|positive|apply (isle_made "north"); cbn; tauto| |positive|].
  - split; [vm_compute; tauto|]; intros n IN; vm_compute in IN; destruct IN as [<- |[<- |[]]]; is_num.
  - intros n k IN IK; vm_compute in IN, IK; destruct IN as [<- |[<- |[]]], IK as [<- |[<- |[]]]; (split; [positive|split; positive]).
Qed.
Example C83_curtailment_ex : fraction (1 - amount isle "source_use" (use_at "north" "plant" "t0") / (amount isle "source_use_max" (use_at "north" "plant" "t0") * 1))%Qc.
Proof.
  refine (proj2 (C83_curtailment as_listed base_math isle "north" "plant" "power" "t0" 1%Qc as_listed_set base_shipped _ _ _ _ _ _ _ _ _ _ _ _ _ (post_there _ _ _ _ _ _ isle_curtailed)));
    [apply isle_site; cbn; tauto|is_as|is_given|positive|is_given|positive|left; left; split; [is_as|reflexivity]|positive|is_given|positive|is_as|isle_holds|isle_holds].
Qed.
