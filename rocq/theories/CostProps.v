(** Properties of costs, objectives and results calculated after solving in the math that comes with the package. *)
From Coq Require Import QArith Qcanon Lia Field.
From Verif Require Import Base BaseProofs LangModel MathText EvalModel EvalSpec BuildModel BuildSpec HelperModel HelperSpec ShipModel ShipSpec ShipNumbers ShipExample NetSpec NetProofs NetExample
  PlaceSpec ShipPlace RuleText BoundSpec RuleProofs MilpProofs ShipFast RuleExample MilpExample CostSpec CostText CostProofs CostTotals CostYear CostGoal CostObj CostPost CostExample RuleProps MilpProps.
Local Open Scope nat_scope.
Local Open Scope string_scope.
Local Open Scope list_scope.
Local Arguments Qcplus : simpl never.
Local Arguments Qcmult : simpl never.
Local Arguments Qcminus : simpl never.
Local Arguments Qcdiv : simpl never.
Local Arguments Qcinv : simpl never.

(** * C73: costs follow prices and use *)

(** Costs of operation in one timestep: export, outflow, and inflow or, for supply, use of the source, times the weight of the timestep. *)
Theorem C73_running order files U n t b c o k :
  lists_set order -> In files shipped -> sited U (class_flow n t c o k) -> kind U t b ->
  (exists s, In s running_prices /\ given U s (class_flow n t c o k)) -> metered U n t b o k ->
  expression_is order (layered files) U "cost_operation_variable" ->
  numeric U "cost_operation_variable" (class_step n t o k) /\ amount U "cost_operation_variable" (class_step n t o k) = running_cost U n t b o k.
Proof. intros OR IF; exact (running_is order OR files IF U n t b c o k). Qed.
Print Assumptions C73_running.
(** The investment: prices times capacities. *)
Theorem C73_capacity order files U n t b c o q qs qx qa :
  lists_set order -> In files planning -> sited U (class_cap n t c o) -> kind U t b ->
  (forall s, In s ("cost_investment_flow_cap" :: investment_parts) -> expression_is order (layered files) U s /\ ledger U s) ->
  (capacity_charge U n t b c o q -> amount U "cost_investment_flow_cap" (class_cap n t c o) = q) /\
  (charged U "cost_storage_cap" "storage_cap" (class_at n t o) qs -> amount U "cost_investment_storage_cap" (class_at n t o) = qs) /\
  (charged U "cost_source_cap" "source_cap" (class_at n t o) qx -> amount U "cost_investment_source_cap" (class_at n t o) = qx) /\
  (charged U "cost_area_use" "area_use" (class_at n t o) qa -> amount U "cost_investment_area_use" (class_at n t o) = qa).
Proof.
  intros OR IP SI KI AL; split; [|split; [|split]]; intros CH.
  - apply (proj2 (capacity_part order OR files IP U n t b c o q SI KI CH (proj1 (AL "cost_investment_flow_cap" ltac:(cbn; tauto))) (proj2 (AL "cost_investment_flow_cap" ltac:(cbn; tauto))))).
  - apply (proj2 (storage_part order OR files IP U n t c o qs SI CH (proj1 (AL "cost_investment_storage_cap" ltac:(cbn; tauto))) (proj2 (AL "cost_investment_storage_cap" ltac:(cbn; tauto))))).
  - apply (proj2 (source_part order OR files IP U n t c o qx SI CH (proj1 (AL "cost_investment_source_cap" ltac:(cbn; tauto))) (proj2 (AL "cost_investment_source_cap" ltac:(cbn; tauto))))).
  - apply (proj2 (area_part order OR files IP U n t c o qa SI CH (proj1 (AL "cost_investment_area_use" ltac:(cbn; tauto))) (proj2 (AL "cost_investment_area_use" ltac:(cbn; tauto))))).
Qed.
Print Assumptions C73_capacity.
(** All parts together, with the units bought where there are such. *)
Theorem C73_investment order files U n t b c o q :
  lists_set order -> In files planning -> sited U (class_cap n t c o) -> kind U t b ->
  (forall s, In s ("cost_investment" :: "cost_investment_flow_cap" :: investment_parts) -> expression_is order (layered files) U s /\ ledger U s) ->
  (In files planning_plain /\ q = 0%Qc \/
   In files planning_milp /\ unit_charge U n t b o q /\ expression_is order (layered files) U "cost_investment_purchase" /\ ledger U "cost_investment_purchase") ->
  numeric U "cost_investment" (class_at n t o) /\
  amount U "cost_investment" (class_at n t o) =
    (sum_over (labels U "carriers") (fun c => amount U "cost_investment_flow_cap" (class_cap n t c o)) + amount U "cost_investment_storage_cap" (class_at n t o) +
     amount U "cost_investment_source_cap" (class_at n t o) + amount U "cost_investment_area_use" (class_at n t o) + q)%Qc.
Proof.
  intros OR IP SI KI AL [(IF & ->)|(IF & UC & EX & LE)].
  - rewrite Qcplus_0_r; exact (investment_plain order OR files IP U n t c o IF SI AL).
  - destruct (unit_part order OR files IP U n t b c o q IF SI KI UC EX LE) as (_ & <-); apply (investment_milp order OR files IP U n t c o IF SI).
    intros s [<- |[<- |IS]]; [apply AL; cbn; tauto|apply AL; cbn; tauto|]; unfold bought_parts in IS; apply in_app_or in IS as [IS|[<- |[]]]; [apply AL; right; right; exact IS|split; assumption].
Qed.
Print Assumptions C73_investment.
(** A link is paid for once: the two halves make up the whole. *)
Theorem C73_link order files U n n' t c o :
  lists_set order -> In files planning -> sited U (class_cap n t c o) -> sited U (class_cap n' t c o) -> kind U t "transmission" ->
  expression_is order (layered files) U "cost_investment_flow_cap" -> ledger U "cost_investment_flow_cap" ->
  (forall m, m = n \/ m = n' -> given U "flow_cap" (class_cap m t c o) /\ given U "cost_flow_cap" (class_cap m t c o) /\ numeric U "cost_flow_cap_per_distance" (class_cap m t c o)) ->
  numeric U "distance" (tech_at t) ->
  (forall s, In s ["flow_cap"; "cost_flow_cap"; "cost_flow_cap_per_distance"] -> amount U s (class_cap n t c o) = amount U s (class_cap n' t c o)) ->
  (amount U "cost_investment_flow_cap" (class_cap n t c o) + amount U "cost_investment_flow_cap" (class_cap n' t c o) =
    (amount U "cost_flow_cap" (class_cap n t c o) + amount U "cost_flow_cap_per_distance" (class_cap n t c o) * amount U "distance" (tech_at t)) * amount U "flow_cap" (class_cap n t c o))%Qc.
Proof.
  intros OR IP SI SI' KI EX LE GI ND EQ.
  assert (NU : forall s m, given U s (class_cap m t c o) -> numeric U s (class_cap m t c o)).
  { intros s m (W & _ & q & E); split; [exact W|]; exists q; unfold value_at; rewrite E; reflexivity. }
  assert (PAY : forall m, m = n \/ m = n' -> sited U (class_cap m t c o) -> amount U "cost_investment_flow_cap" (class_cap m t c o) =
    ((amount U "cost_flow_cap" (class_cap m t c o) + amount U "cost_flow_cap_per_distance" (class_cap m t c o) * amount U "distance" (tech_at t)) * Q2Qc (1 # 2) * amount U "flow_cap" (class_cap m t c o))%Qc).
  { intros m IM SM; destruct (GI m IM) as (G1 & G2 & G3); refine (proj2 (capacity_part order OR files IP U m t "transmission" c o _ SM KI _ EX LE)); left; split; [exact G1|split; [left; exact G2|split; [apply NU, G2|split; [intros _; split; assumption|reflexivity]]]]. }
  rewrite (PAY n), (PAY n'), (EQ "flow_cap"), (EQ "cost_flow_cap"), (EQ "cost_flow_cap_per_distance") by (cbn; tauto || assumption).
  assert (ONE : (Q2Qc (1 # 2) + Q2Qc (1 # 2))%Qc = 1%Qc) by (apply Qc_is_canon; reflexivity).
  match goal with |- (?x * _ * ?y + _)%Qc = _ => transitivity (x * y * (Q2Qc (1 # 2) + Q2Qc (1 # 2)))%Qc; [ring|rewrite ONE; ring] end.
Qed.
Print Assumptions C73_link.
(** Annual costs: per capacity and per investment. *)
Theorem C73_fixed order files U n t c o :
  lists_set order -> In files planning -> sited U (class_cap n t c o) -> expression_is order (layered files) U "cost_operation_fixed" ->
  (weighed U -> labels U "timesteps" <> [] ->
   (given U "cost_om_annual" (class_cap n t c o) /\ given U "flow_cap" (class_cap n t c o)) \/ (given U "cost_investment" (class_cap n t c o) /\ given U "cost_om_annual_investment_fraction" (class_cap n t c o)) ->
   billed U "cost_om_annual" "flow_cap" "carriers" (class_at n t o) -> numeric U "cost_investment" (class_at n t o) -> numeric U "cost_om_annual_investment_fraction" (class_at n t o) ->
   amount U "cost_operation_fixed" (class_at n t o) =
     (years U * (bill U "cost_om_annual" "flow_cap" "carriers" (class_at n t o) + amount U "cost_investment" (class_at n t o) * amount U "cost_om_annual_investment_fraction" (class_at n t o)))%Qc) /\
  (ledger U "cost_operation_fixed" ->
   (forall c, In c (labels U "carriers") -> absent U "cost_om_annual" (class_cap n t c o) \/ absent U "flow_cap" (class_cap n t c o)) ->
   absent U "cost_investment" (class_at n t o) \/ absent U "cost_om_annual_investment_fraction" (class_at n t o) -> amount U "cost_operation_fixed" (class_at n t o) = 0%Qc).
Proof.
  intros OR IP SI EX; split.
  - intros WE NE GI BI NI NF; exact (proj2 (fixed_is order OR files IP U n t c o SI WE NE GI BI NI NF EX)).
  - intros LE AB AI; exact (proj2 (fixed_free order OR files IP U n t c o SI AB AI EX LE)).
Qed.
Print Assumptions C73_fixed.
(** The total of a technology at a node. *)
Theorem C73_total order files U n t c o :
  lists_set order -> on_duty U n t c o ->
  (In files planning -> (forall s, In s ("cost" :: "cost_operation_variable" :: yearly_parts) -> expression_is order (layered files) U s /\ ledger U s) ->
    numeric U "cost" (class_at n t o) /\
    amount U "cost" (class_at n t o) = (amount U "cost_investment_annualised" (class_at n t o) +
      sum_over (labels U "timesteps") (fun k => amount U "cost_operation_variable" (class_step n t o k)) + amount U "cost_operation_fixed" (class_at n t o))%Qc) /\
  (In files operating -> (forall s, In s ["cost"; "cost_operation_variable"] -> expression_is order (layered files) U s /\ ledger U s) ->
    numeric U "cost" (class_at n t o) /\
    amount U "cost" (class_at n t o) = sum_over (labels U "timesteps") (fun k => amount U "cost_operation_variable" (class_step n t o k))).
Proof.
  intros OR OD; split; intros IN AL.
  - exact (plan_total order OR files (planning_shipped files IN) U n t c o IN OD AL).
  - exact (run_total order OR files (operating_shipped files IN) U n t c o IN OD AL).
Qed.
Print Assumptions C73_total.
(** The objective: the costs of all technologies weighed by class, and unmet demand times [bigM]. *)
Theorem C73_objective order files U n t c :
  lists_set order -> In files shipped -> sited U (cap_at n t c) -> labels U "timesteps" <> [] -> labels U "costs" <> [] ->
  objective_built order (layered files) U "min_cost_optimisation" -> has_dims U "cost" ["nodes"; "techs"; "costs"] ->
  (forall n t o, In n (labels U "nodes") -> In t (labels U "techs") -> In o (labels U "costs") -> numeric U "cost" (class_at n t o)) ->
  (forall o, In o (labels U "costs") -> numeric U "objective_cost_weights" [("costs", o)]) -> slack_fits U -> numeric_over U "timestep_weights" "timesteps" [] -> numeric U "bigM" [] ->
  objective_is order (layered files) U "min_cost_optimisation" (cost_total U + unmet_total U * amount U "bigM" [])%Qc.
Proof.
  intros OR IF SI NT NC (co & r & FC & BU) DC NU NW SL TW BM; exists co, r; split; [exact FC|split; [exact BU|]].
  exact (min_cost_is order OR files IF U co r n t c SI NT NC FC BU DC NU NW SL TW BM).
Qed.
Print Assumptions C73_objective.

Ltac is_billed := split; [intros v IV; vm_compute in IV; repeat (destruct IV as [<- |IV]; [split; is_num|]); destruct IV|].
Ltac isle_sum := apply Qc_is_canon; vm_compute; reflexivity.
Lemma base_planning : In base_math planning. Proof. cbn; tauto. Qed.
Lemma base_shipped : In base_math shipped. Proof. cbn; tauto. Qed.
Lemma base_planning_plain : In base_math planning_plain. Proof. cbn; tauto. Qed.
Lemma isle_weighed : weighed isle.
Proof. split; [is_over|]; intros k IK; vm_compute in IK; repeat (destruct IK as [<- |IK]; [is_num|]); destruct IK. Qed.
Lemma isle_duty n t : In (n, t) [("north", "plant"); ("north", "line"); ("south", "line"); ("south", "engine")] -> on_duty isle n t "power" "monetary".
Proof. intros H; split; [discriminate|]; intros k IK; apply isle_site; [exact H|exact IK]. Qed.
Lemma isle_kind t b : In (t, b) [("plant", "supply"); ("line", "transmission"); ("engine", "supply")] -> kind isle t b.
Proof. intros H; repeat (destruct H as [E|H]; [injection E as <- <-; split; [cbn; tauto|is_as]|]); destruct H. Qed.
Example C73_running_ex : amount isle "cost_operation_variable" (class_step "north" "plant" "monetary" "t1") = (Q2Qc 4380 * (1 * Q2Qc 6 + Q2Qc 2 * Q2Qc 6))%Qc.
Proof.
  destruct (C73_running as_listed base_math isle "north" "plant" "supply" "power" "monetary" "t1") as (_ & ->).
  - exact as_listed_set.
  - exact base_shipped.
  - apply isle_site; cbn; tauto.
  - apply isle_kind; cbn; tauto.
  - exists "cost_flow_out"; split; [cbn; tauto|is_given].
  - split; [is_num|split; [is_billed; right; right; intros v IV; vm_compute in IV; destruct IV as [<- |[]]; vm_compute; reflexivity|split; [is_billed; right; left; vm_compute; tauto|cbn [String.eqb Ascii.eqb Bool.eqb]; split; is_num]]].
  - apply isle_costs; cbn; tauto.
  - isle_sum.
Qed.
Ltac isle_price := first [apply isle_costs; cbn; tauto | apply isle_cap; cbn; tauto | apply isle_kind; cbn; tauto].
Example C73_capacity_ex : amount isle "cost_investment_flow_cap" (class_cap "north" "plant" "power" "monetary") = (Q2Qc 21 * Q2Qc 10)%Qc /\ amount isle "cost_investment_area_use" (class_at "north" "plant" "monetary") = 0%Qc.
Proof.
  pose proof (C73_capacity as_listed base_math isle "north" "plant" "supply" "power" "monetary" (Q2Qc 21 * Q2Qc 10)%Qc 0%Qc 0%Qc 0%Qc as_listed_set base_planning ltac:(isle_price) ltac:(isle_price)) as H; split.
  - apply H; [intros s IS; apply isle_costs; cbn in IS |- *; tauto|]; left; split; [is_given|split; [left; is_given|split; [is_num|split; [discriminate|isle_sum]]]].
  - apply H; [intros s IS; apply isle_costs; cbn in IS |- *; tauto|]; right; split; [left; is_as|reflexivity].
Qed.
Example C73_investment_ex : amount isle "cost_investment" (class_at "north" "plant" "monetary") = Q2Qc 210.
Proof.
  destruct (C73_investment as_listed base_math isle "north" "plant" "supply" "power" "monetary" 0%Qc as_listed_set base_planning ltac:(isle_price) ltac:(isle_price)) as (_ & ->);
    [intros s IS; apply isle_costs; cbn in IS |- *; tauto|left; split; [exact base_planning_plain|reflexivity]|isle_sum].
Qed.
Example C73_link_ex : (amount isle "cost_investment_flow_cap" (class_cap "north" "line" "power" "monetary") + amount isle "cost_investment_flow_cap" (class_cap "south" "line" "power" "monetary") = (Q2Qc 4 + 1 * Q2Qc 2) * Q2Qc 6)%Qc.
Proof.
  rewrite (C73_link as_listed base_math isle "north" "south" "line" "power" "monetary" as_listed_set base_planning ltac:(isle_price) ltac:(isle_price) ltac:(isle_price) ltac:(isle_price) ltac:(isle_price));
    [isle_sum|intros m [-> | ->]; split; [is_given|split; [is_given|is_num]|is_given|split; [is_given|is_num]]|is_num|].
  intros s IS; repeat (destruct IS as [<- |IS]; [isle_sum|]); destruct IS.
Qed.
Example C73_fixed_ex : amount isle "cost_operation_fixed" (class_at "north" "plant" "monetary") = Q2Qc 71 /\ amount isle "cost_operation_fixed" (class_at "south" "engine" "monetary") = 0%Qc.
Proof.
  split.
  - refine (eq_trans (proj1 (C73_fixed as_listed base_math isle "north" "plant" "power" "monetary" as_listed_set base_planning ltac:(isle_price) ltac:(isle_price)) isle_weighed _ _ _ _ _) _); [discriminate|left; split; is_given|is_billed; right; left; vm_compute; tauto|is_num|is_num|isle_sum].
  - refine (proj2 (C73_fixed as_listed base_math isle "south" "engine" "power" "monetary" as_listed_set base_planning ltac:(isle_price) ltac:(isle_price)) _ _ _); [isle_price|intros c IC; vm_compute in IC; destruct IC as [<- |[]]; left; is_as|left; is_as].
Qed.
Example C73_total_ex : amount isle "cost" (class_at "north" "plant" "monetary") = (Q2Qc 121 + (Q2Qc 39420 + Q2Qc 78840) + Q2Qc 71)%Qc.
Proof.
  refine (eq_trans (proj2 (proj1 (C73_total as_listed base_math isle "north" "plant" "power" "monetary" as_listed_set (isle_duty _ _ ltac:(cbn; tauto))) base_planning _)) _); [intros s IS; apply isle_costs; cbn in IS |- *; tauto|isle_sum].
Qed.
Lemma isle_goal : objective_is as_listed (layered base_math) isle "min_cost_optimisation" (Q2Qc 127308).
Proof. apply goal_sound; vm_compute; reflexivity. Qed.
Example C73_objective_ex : objective_is as_listed (layered base_math) isle "min_cost_optimisation" (cost_total isle + unmet_total isle * amount isle "bigM" [])%Qc /\ cost_total isle = Q2Qc 127308.
Proof.
  split; [|isle_sum]; refine (C73_objective as_listed base_math isle "north" "plant" "power" as_listed_set base_shipped _ _ _ (goal_there _ _ _ _ _ isle_goal) _ _ _ _ _ _); try discriminate.
  - isle_price.
  - split; vm_compute; tauto.
  - intros n t o IN IT IO; vm_compute in IN, IT, IO; destruct IN as [<- |[<- |[]]], IT as [<- |[<- |[<- |[<- |[]]]]], IO as [<- |[]]; is_num.
  - intros o IO; vm_compute in IO; destruct IO as [<- |[]]; is_num.
  - right; split; split; [reflexivity|intros l; reflexivity|reflexivity|intros l; reflexivity].
  - is_over.
  - is_num.
Qed.
Example C73_operating_ex : amount day_isle "cost" (class_at "north" "plant" "monetary") = (Q2Qc 39420 + Q2Qc 78840)%Qc.
Proof.
  assert (OD : on_duty day_isle "north" "plant" "power" "monetary") by (split; [discriminate|]; intros k IK; vm_compute in IK; destruct IK as [<- |[<- |[]]]; sited_by day_proper).
  refine (eq_trans (proj2 (proj2 (C73_total as_listed [operate_file] day_isle "north" "plant" "power" "monetary" as_listed_set OD) _ _)) _); [cbn; tauto| |isle_sum].
  intros s IS; split; [apply expression_sound; pose proof day_checked as H; rewrite forallb_forall in H; apply H, IS|]; destruct IS as [<- |[<- |[]]]; (split; [reflexivity|split; [reflexivity|apply rows_number; reflexivity]]).
Qed.
Example C73_units_ex : amount bought_isle "cost_investment" (class_at "north" "line" "monetary") = (Q2Qc 18 + (Q2Qc 5 + 1 * Q2Qc 2) * Q2Qc 2 * Q2Qc (1 # 2))%Qc.
Proof.
  assert (OK : forall s, In s ("cost_investment" :: "cost_investment_flow_cap" :: bought_parts) -> expression_is as_listed (layered [milp_file]) bought_isle s /\ ledger bought_isle s).
  { intros s IS; split; [apply expression_sound; pose proof bought_checked as H; rewrite forallb_forall in H; apply H, IS|].
    cbn in IS; repeat (destruct IS as [<- |IS]; [split; [reflexivity|split; [reflexivity|apply rows_number; reflexivity]]|]); destruct IS. }
  refine (eq_trans (proj2 (C73_investment as_listed [milp_file] bought_isle "north" "line" "transmission" "power" "monetary" ((Q2Qc 5 + 1 * Q2Qc 2) * Q2Qc 2 * Q2Qc (1 # 2))%Qc as_listed_set _ _ _ _ _)) _).
  - cbn; tauto.
  - sited_by bought_proper.
  - split; [cbn; tauto|is_as].
  - intros s IS; apply OK; cbn in IS |- *; tauto.
  - right; split; [cbn; tauto|split; [|apply OK; cbn; tauto]]; left; split; [is_given|split; [is_given|split; [intros _; split; is_num|isle_sum]]].
  - isle_sum.
Qed.

(** * C55: annual payments recover the investment *)

(** The rule: what is paid for the years that the timesteps stand for. *)
Theorem C55_rule order files U n t c o r :
  lists_set order -> In files planning -> sited U (class_cap n t c o) -> weighed U -> labels U "timesteps" <> [] -> yearly_share U n t o r ->
  given U "cost_investment" (class_at n t o) -> expression_is order (layered files) U "cost_investment_annualised" ->
  numeric U "cost_investment_annualised" (class_at n t o) /\
  amount U "cost_investment_annualised" (class_at n t o) = (years U * r * amount U "cost_investment" (class_at n t o))%Qc.
Proof. intros OR IP; exact (annual_is order OR files IP U n t c o r). Qed.
Print Assumptions C55_rule.
Lemma whole_inj a b : Q2Qc (inject_Z (Z.of_nat a)) = Q2Qc (inject_Z (Z.of_nat b)) -> a = b.
Proof.
  intros E; apply (f_equal this) in E; cbn [this Q2Qc] in E; assert (Q : Qeq (inject_Z (Z.of_nat a)) (inject_Z (Z.of_nat b))) by (rewrite <- (Qred_correct (inject_Z (Z.of_nat a))), E; apply Qred_correct).
  unfold Qeq, inject_Z in Q; cbn [Qnum Qden] in Q; lia.
Qed.
Lemma remains_one U a h x y : remains U a h x -> remains U a h y -> x = y.
Proof.
  intros [(m & E & ->)|(N & E)] [(m' & E' & ->)|(N' & E')]; [|destruct (N' m E)|destruct (N m' E')|congruence].
  rewrite E in E'; apply whole_inj in E'; subst; reflexivity.
Qed.
(** One rule at most applies. *)
Theorem C55_one_rule U n t o r r' : yearly_share U n t o r -> yearly_share U n t o r' -> r = r'.
Proof.
  assert (EX : forall s, given U s (class_at n t o) -> absent U s (class_at n t o) -> False) by (intros s (_ & _ & q & E) (_ & E'); rewrite E in E'; discriminate E').
  assert (NZ : (0 < 0)%Qc -> False) by (intros H; vm_compute in H; discriminate H).
  intros [(G & ->)|[(A & _ & _ & J & ->)|(A & _ & G & P & x & R & X & ->)]] [(G' & ->)|[(A' & _ & _ & J' & ->)|(A' & _ & G' & P' & x' & R' & X' & ->)]]; try reflexivity;
    try (exfalso; match goal with H : given U ?s _, H' : absent U ?s _ |- _ => exact (EX s H H') end).
  - exfalso; destruct J as [J|(_ & J)]; [exact (EX _ G' J)|rewrite J in P'; exact (NZ P')].
  - exfalso; destruct J' as [J|(_ & J)]; [exact (EX _ G J)|rewrite J in P; exact (NZ P)].
  - rewrite (remains_one _ _ _ _ _ R R'); reflexivity.
Qed.
Print Assumptions C55_one_rule.
(** Over a lifetime of whole years the payments are worth the investment. *)
Theorem C55_recovers order files U n t c o r y i :
  lists_set order -> In files planning -> sited U (class_cap n t c o) -> weighed U -> labels U "timesteps" <> [] -> yearly_share U n t o r ->
  given U "cost_investment" (class_at n t o) -> expression_is order (layered files) U "cost_investment_annualised" ->
  absent U "cost_depreciation_rate" (class_at n t o) -> amount U "lifetime" (class_at n t o) = Q2Qc (inject_Z (Z.of_nat y)) -> years U <> 0%Qc ->
  (absent U "cost_interest_rate" (class_at n t o) /\ i = 0%Qc \/ given U "cost_interest_rate" (class_at n t o) /\ i = amount U "cost_interest_rate" (class_at n t o)) ->
  present_value i (amount U "cost_investment_annualised" (class_at n t o) / years U) y = amount U "cost_investment" (class_at n t o).
Proof.
  intros OR IP SI WE NE YS GI EX AD LY NY II; destruct (annual_is order OR files IP U n t c o r SI WE NE YS GI EX) as (_ & ->).
  replace (years U * r * amount U "cost_investment" (class_at n t o) / years U)%Qc with (amount U "cost_investment" (class_at n t o) * r)%Qc by (field; exact NY).
  assert (XX : forall s, given U s (class_at n t o) -> absent U s (class_at n t o) -> False) by (intros s (_ & _ & q & E) (_ & E'); rewrite E in E'; discriminate E').
  destruct YS as [(G & _)|[(_ & _ & NZ & J & ->)|(_ & _ & G & P & x & R & X & ->)]]; [destruct (XX _ G AD)|..].
  - rewrite LY in NZ |- *; replace i with 0%Qc.
    + apply equal_pays; intros ->; apply NZ; apply Qc_is_canon; reflexivity.
    + destruct II as [(_ & ->)|(G & ->)]; [reflexivity|]; destruct J as [A|(_ & Z)]; [destruct (XX _ G A)|symmetry; exact Z].
  - destruct II as [(A & _)|(_ & ->)]; [destruct (XX _ G A)|]; rewrite LY in R; destruct R as [(m & E & ->)|(N & _)]; [|destruct (N y eq_refl)].
    apply whole_inj in E; subst m; apply annuity_pays; [exact P|exact X].
Qed.
Print Assumptions C55_recovers.
(** No rule applies to a negative interest rate: a solution in which the investment of a technology with a lifetime is not paid for at all. *)
Theorem C55_refuted : exists files U n t c o, In files planning /\ solution as_listed files U /\ sited U (class_cap n t c o) /\
  given U "cost_investment" (class_at n t o) /\ given U "lifetime" (class_at n t o) /\ given U "cost_interest_rate" (class_at n t o) /\ (amount U "cost_interest_rate" (class_at n t o) < 0)%Qc /\
  (0 < amount U "cost_investment" (class_at n t o))%Qc /\ absent U "cost_investment_annualised" (class_at n t o) /\
  amount U "cost" (class_at n t o) = (sum_over (labels U "timesteps") (fun k => amount U "cost_operation_variable" (class_step n t o k)) + amount U "cost_operation_fixed" (class_at n t o))%Qc.
Proof.
  exists base_math, odd_isle, "north", "plant", "power", "monetary"; split; [exact base_planning|split; [exact (odd_isle_solution)|split; [sited_by (isle_proper (Val (Q2Qc (-1 # 10))) Miss (num 118331))|]]].
  split; [is_given|split; [is_given|split; [is_given|split; [vm_compute; reflexivity|split; [vm_compute; reflexivity|split; [is_as|isle_sum]]]]]].
Qed.
Print Assumptions C55_refuted.
Lemma isle_share : yearly_share isle "north" "plant" "monetary" (Q2Qc (121 # 210)).
Proof.
  right; right; split; [is_as|split; [is_num|split; [is_given|split; [vm_compute; reflexivity|]]]]; exists (Q2Qc (121 # 100)); split; [|split; [discriminate|isle_sum]].
  left; exists 2; split; isle_sum.
Qed.
Lemma line_share : yearly_share isle "north" "line" "monetary" (Q2Qc (1 # 3)).
Proof. right; left; split; [is_as|split; [is_num|split; [discriminate|split; [left; is_as|isle_sum]]]]. Qed.
Example C55_rule_ex : amount isle "cost_investment_annualised" (class_at "north" "plant" "monetary") = (years isle * Q2Qc (121 # 210) * Q2Qc 210)%Qc /\ years isle = 1%Qc.
Proof.
  split; [|isle_sum]; refine (eq_trans (proj2 (C55_rule as_listed base_math isle "north" "plant" "power" "monetary" _ as_listed_set base_planning _ isle_weighed _ isle_share _ _)) _);
    [isle_price|discriminate|is_given|isle_price|isle_sum].
Qed.
Example C55_one_rule_ex : forall r, yearly_share isle "north" "line" "monetary" r -> r = Q2Qc (1 # 3).
Proof. intros r H; exact (C55_one_rule isle "north" "line" "monetary" r _ H line_share). Qed.
Example C55_recovers_ex : present_value (Q2Qc (1 # 10)) (amount isle "cost_investment_annualised" (class_at "north" "plant" "monetary") / years isle) 2 = Q2Qc 210 /\
  present_value 0 (amount isle "cost_investment_annualised" (class_at "north" "line" "monetary") / years isle) 3 = Q2Qc 18.
Proof.
  split.
  - refine (eq_trans (C55_recovers as_listed base_math isle "north" "plant" "power" "monetary" _ 2 _ as_listed_set base_planning _ isle_weighed _ isle_share _ _ _ _ _ _) _); [isle_price|discriminate|is_given|isle_price|is_as|isle_sum|intros H; vm_compute in H; discriminate H|right; split; [is_given|isle_sum]|isle_sum].
  - refine (eq_trans (C55_recovers as_listed base_math isle "north" "line" "power" "monetary" _ 3 _ as_listed_set base_planning _ isle_weighed _ line_share _ _ _ _ _ _) _); [isle_price|discriminate|is_given|isle_price|is_as|isle_sum|intros H; vm_compute in H; discriminate H|left; split; [is_as|reflexivity]|isle_sum].
Qed.
