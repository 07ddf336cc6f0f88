(** Properties of the math for alternatives near the optimum (SPORES). *)
From Coq Require Import QArith Qcanon Lia.
From Verif Require Import Base BaseProofs LangModel MathText EvalModel EvalSpec BuildModel BuildSpec HelperModel HelperSpec ShipModel ShipSpec ShipNumbers ShipExample NetSpec NetProofs NetExample
  PlaceSpec ShipPlace RuleText RuleProofs MilpProofs ShipFast RuleExample MilpExample CostSpec CostText CostProofs CostTotals CostYear CostGoal CostObj CostPost CostAny CostExample RuleProps MilpProps CostProps.
Local Open Scope nat_scope.
Local Open Scope string_scope.
Local Open Scope list_scope.

(** * C78: alternatives stay within the cost allowed *)

(** A solution of the SPORES math costs at most the baseline with the slack: the value that the least-cost objective would have. *)
Theorem C78_slack order files U n t c :
  lists_set order -> In files exploring -> sited U (cap_at n t c) -> labels U "timesteps" <> [] -> labels U "costs" <> [] -> has_dims U "cost" ["nodes"; "techs"; "costs"] ->
  (forall n t o, In n (labels U "nodes") -> In t (labels U "techs") -> In o (labels U "costs") -> numeric U "cost" (class_at n t o)) ->
  (exists n t o, In n (labels U "nodes") /\ In t (labels U "techs") /\ In o (labels U "costs") /\ given U "cost" (class_at n t o)) ->
  (forall o, In o (labels U "costs") -> numeric U "objective_cost_weights" [("costs", o)]) -> slack_fits U -> numeric_over U "timestep_weights" "timesteps" [] -> numeric U "bigM" [] ->
  numeric U "spores_baseline_cost" [] -> numeric U "spores_slack" [] -> objective_built order (layered files) U "min_cost_optimisation" ->
  constraint_holds order (layered files) U "total_system_cost_max" ->
  exists q, objective_is order (layered files) U "min_cost_optimisation" q /\ q = (cost_total U + unmet_total U * amount U "bigM" [])%Qc /\
    (q <= amount U "spores_baseline_cost" [] * (1 + amount U "spores_slack" []))%Qc.
Proof.
  intros OR IX SI LT LO HD NC (n' & t' & o' & IN & IT & IO & GC) NO SL NW NB NQ NS OB CH; eexists; split; [|split; [reflexivity|]].
  - apply (C73_objective order files U n t c OR (planning_shipped _ (exploring_planning _ IX)) SI LT LO OB HD NC NO SL NW NB).
  - exact (limit_with order OR files IX U n t c SI LT LO HD NO SL NW NB NQ NS (proj1 (proj2 GC)) n' t' o' IN IT IO GC NC CH).
Qed.
Print Assumptions C78_slack.
(** Without any costs the penalty for unmet demand is limited. *)
Theorem C78_no_costs order files U n t c :
  lists_set order -> In files exploring -> sited U (cap_at n t c) -> labels U "timesteps" <> [] -> u_bool U "cost" = false -> (forall p, a_at (n_array (u_env U) "cost") p = Miss) ->
  slack_fits U -> numeric_over U "timestep_weights" "timesteps" [] -> numeric U "bigM" [] -> numeric U "spores_baseline_cost" [] -> numeric U "spores_slack" [] ->
  constraint_holds order (layered files) U "total_system_cost_max" ->
  (unmet_total U * amount U "bigM" [] <= amount U "spores_baseline_cost" [] * (1 + amount U "spores_slack" []))%Qc.
Proof. intros OR IX SI LT BO NC SL NW NB NQ NS CH; exact (limit_without order OR files IX U n t c SI LT SL NW NB NQ NS BO NC CH). Qed.
Print Assumptions C78_no_costs.
(** What is minimised: capacities weighed with the scores of earlier alternatives, and unmet demand. *)
Theorem C78_objective order files U n t c :
  lists_set order -> In files exploring -> sited U (cap_at n t c) -> labels U "timesteps" <> [] -> has_dims U "flow_cap" ["nodes"; "techs"; "carriers"] ->
  (forall n t c, In n (labels U "nodes") -> In t (labels U "techs") -> In c (labels U "carriers") -> numeric U "flow_cap" (cap_at n t c) /\ numeric U "spores_score" (cap_at n t c)) ->
  slack_fits U -> numeric_over U "timestep_weights" "timesteps" [] -> numeric U "bigM" [] -> objective_built order (layered files) U "min_spores" ->
  objective_is order (layered files) U "min_spores" (score_total U + unmet_total U * amount U "bigM" [])%Qc.
Proof.
  intros OR IX SI LT HD NU SL NW NB (co & r & FC & HB); exists co, r; split; [exact FC|split; [exact HB|]].
  exact (min_spores_is order OR files U co r n t c IX SI LT FC HB HD NU SL NW NB).
Qed.
Print Assumptions C78_objective.

(** The island with scores for what was built before. *)
Definition spore_isle : world := isle_with
  [("spores_baseline_cost", rows_of [] [([], num 120000)]); ("spores_slack", rows_of [] [([], Val (Q2Qc (1 # 10)))]);
   ("spores_score", rows_of three [(["north"; "plant"; "power"], num 3); (["north"; "line"; "power"], num 0); (["south"; "line"; "power"], num 0); (["south"; "engine"; "power"], num 5); (["south"; "load"; "power"], num 0);
     (["north"; "load"; "power"], num 0); (["north"; "engine"; "power"], num 0); (["south"; "plant"; "power"], num 0)])].
Definition spores_math : list math_file := [spores_file].
Lemma spore_proper : proper spore_isle. Proof. proper_system. Qed.
Lemma spore_checked : feasible_check as_listed (layered spores_math) spore_isle = true.
Proof. vm_compute; reflexivity. Qed.
Lemma spore_feasible : feasible as_listed (layered spores_math) spore_isle.
Proof. apply feasible_sound, spore_checked. Qed.
Lemma spores_exploring : In spores_math exploring. Proof. cbn; tauto. Qed.
Lemma spore_goal : objective_is as_listed (layered spores_math) spore_isle "min_cost_optimisation" (Q2Qc 127308).
Proof. apply goal_sound; vm_compute; reflexivity. Qed.
Lemma spore_aim : objective_is as_listed (layered spores_math) spore_isle "min_spores" (Q2Qc 35).
Proof. apply goal_sound; vm_compute; reflexivity. Qed.
Example C78_slack_ex : exists q, objective_is as_listed (layered spores_math) spore_isle "min_cost_optimisation" q /\ q = (cost_total spore_isle + unmet_total spore_isle * amount spore_isle "bigM" [])%Qc /\
  (q <= amount spore_isle "spores_baseline_cost" [] * (1 + amount spore_isle "spores_slack" []))%Qc.
Proof.
  refine (C78_slack as_listed spores_math spore_isle "north" "plant" "power" as_listed_set spores_exploring _ _ _ _ _ _ _ _ _ _ _ _ (goal_there _ _ _ _ _ spore_goal) _); try discriminate.
  - sited_by spore_proper.
  - split; vm_compute; tauto.
  - intros n t o IN IT IO; vm_compute in IN, IT, IO; destruct IN as [<- |[<- |[]]], IT as [<- |[<- |[<- |[<- |[]]]]], IO as [<- |[]]; is_num.
  - exists "north", "plant", "monetary"; split; [vm_compute; tauto|split; [vm_compute; tauto|split; [vm_compute; tauto|is_given]]].
  - intros o IO; vm_compute in IO; destruct IO as [<- |[]]; is_num.
  - right; split; split; [reflexivity|intros l; reflexivity|reflexivity|intros l; reflexivity].
  - is_over.
  - is_num.
  - is_num.
  - is_num.
  - apply feasible_constraint; [exact spore_feasible|vm_compute; tauto|reflexivity].
Qed.
Example C78_objective_ex : objective_is as_listed (layered spores_math) spore_isle "min_spores" (score_total spore_isle + unmet_total spore_isle * amount spore_isle "bigM" [])%Qc.
Proof.
  refine (C78_objective as_listed spores_math spore_isle "north" "plant" "power" as_listed_set spores_exploring _ _ _ _ _ _ _ (goal_there _ _ _ _ _ spore_aim)); try discriminate.
  - sited_by spore_proper.
  - split; vm_compute; tauto.
  - intros n t o IN IT IO; vm_compute in IN, IT, IO; destruct IN as [<- |[<- |[]]], IT as [<- |[<- |[<- |[<- |[]]]]], IO as [<- |[]]; split; is_num.
  - right; split; split; [reflexivity|intros l; reflexivity|reflexivity|intros l; reflexivity].
  - is_over.
  - is_num.
Qed.
(** A system that nobody has priced. *)
Definition free_isle : world := isle_with [("spores_baseline_cost", rows_of [] [([], num 0)]); ("spores_slack", rows_of [] [([], num 0)]); ("cost", rows_of cost_site [])].
Lemma free_proper : proper free_isle. Proof. proper_system. Qed.
Lemma free_rule : constraint_holds as_listed (layered spores_math) free_isle "total_system_cost_max".
Proof.
  apply check_constraint_sound; vm_compute; reflexivity.
Qed.
Example C78_no_costs_ex : (unmet_total free_isle * amount free_isle "bigM" [] <= amount free_isle "spores_baseline_cost" [] * (1 + amount free_isle "spores_slack" []))%Qc.
Proof.
  refine (C78_no_costs as_listed spores_math free_isle "north" "plant" "power" as_listed_set spores_exploring _ _ _ _ _ _ _ _ _ free_rule); try discriminate; try reflexivity.
  - sited_by free_proper.
  - right; split; split; [reflexivity|intros l; reflexivity|reflexivity|intros l; reflexivity].
  - is_over.
  - is_num.
  - is_num.
  - is_num.
Qed.
