(** Lemmas on capacity limits, with and without integer units. *)
From Coq Require Import QArith Qcanon Lia.
From Verif Require Import Base BaseProofs LangModel MathText EvalModel EvalSpec BuildModel BuildSpec BuildProofs BuildEqs
  HelperModel HelperSpec ShipModel ShipSpec ShipProofs ShipEntry ShipStorage ShipNumbers NetSpec NetProofs PlaceSpec ShipPlace RuleText RuleProofs.
Local Open Scope nat_scope.
Local Open Scope string_scope.
Local Open Scope list_scope.
Local Arguments String.eqb : simpl never.

Definition plain_text (i : nat) : text := nth i plain_texts no_text.
Definition milp_text (i : nat) : text := nth i milp_texts no_text.
Section Limits.
Variable order : list string -> list string.
Hypothesis OR : lists_set order.
Variable files : list math_file.
Variable U : world.
Lemma plain_told i s c : In files plain_lists -> nth_error plain_names i = Some s -> find_in (h_constraints (layered files)) s = Some c ->
  told order (layered files) "constraints" c (fe_of (plain_text i)) (where_of (plain_text i)) (eqs_of (plain_text i)).
Proof. intros IF; exact (listed_told order OR files "constraints" plain_names plain_texts plain_lists 6 i s c plain_read eq_refl IF). Qed.
Lemma milp_told i s c : In files milp_lists -> nth_error milp_names i = Some s -> find_in (h_constraints (layered files)) s = Some c ->
  told order (layered files) "constraints" c (fe_of (milp_text i)) (where_of (milp_text i)) (eqs_of (milp_text i)).
Proof. intros IF; exact (listed_told order OR files "constraints" milp_names milp_texts milp_lists 9 i s c milp_read eq_refl IF). Qed.

Section Flow.
Variables (n t c k : string).
Hypothesis SI : sited U (flow_at n t c k).
Let SD := proj1 (proj1 SI).
Let NC : labels U "carriers" <> [] := site_labels U "carriers" _ SI (or_intror (or_intror (or_introl eq_refl))).
Section Continuous.
Hypothesis IL : In files plain_lists \/ In files milp_lists /\ absent U "operating_units" (use_at n t k).
Hypothesis NT : numeric U "timestep_resolution" [("timesteps", k)].
Hypothesis NF : numeric U "flow_cap" (cap_at n t c).
Lemma out_below : switched_on U "carrier_out" (cap_at n t c) -> numeric U "flow_out" (flow_at n t c k) -> numeric U "flow_out_parasitic_eff" (flow_at n t c k) ->
  constraint_holds order (layered files) U "flow_out_max" ->
  (amount U "flow_out" (flow_at n t c k) <= amount U "flow_cap" (cap_at n t c) * amount U "timestep_resolution" [("timesteps", k)] * amount U "flow_out_parasitic_eff" (flow_at n t c k))%Qc.
Proof.
  intros CO NO NP (co & FC & HO); destruct IL as [IP|(IM & AB)].
  - pose proof (plain_shipped _ IP) as IF; pose proof (plain_told 0 _ _ IP eq_refl FC) as TO.
    says SI SD IF [("carrier_out", On)] TO HO (plain_text 0) 0 x FX R; exact R.
  - pose proof (milp_shipped _ IM) as IF; pose proof (milp_told 0 _ _ IM eq_refl FC) as TO.
    says SI SD IF [("carrier_out", On); ("operating_units", Absent)] TO HO (milp_text 0) 0 x FX R; exact R.
Qed.
Lemma out_above : given U "flow_out_min_relative" (flow_at n t c k) -> numeric U "flow_out" (flow_at n t c k) ->
  constraint_holds order (layered files) U "flow_out_min" ->
  (amount U "flow_cap" (cap_at n t c) * amount U "timestep_resolution" [("timesteps", k)] * amount U "flow_out_min_relative" (flow_at n t c k) <= amount U "flow_out" (flow_at n t c k))%Qc.
Proof.
  intros GM NO (co & FC & HO); pose proof (given_numeric _ _ _ GM) as GN; destruct IL as [IP|(IM & AB)].
  - pose proof (plain_shipped _ IP) as IF; pose proof (plain_told 1 _ _ IP eq_refl FC) as TO.
    says SI SD IF [("flow_out_min_relative", Given)] TO HO (plain_text 1) 0 x FX R; exact R.
  - pose proof (milp_shipped _ IM) as IF; pose proof (milp_told 1 _ _ IM eq_refl FC) as TO.
    says SI SD IF [("flow_out_min_relative", Given); ("operating_units", Absent)] TO HO (milp_text 1) 0 x FX R; exact R.
Qed.
Lemma in_below : switched_on U "carrier_in" (cap_at n t c) -> numeric U "flow_in" (flow_at n t c k) ->
  constraint_holds order (layered files) U "flow_in_max" ->
  (amount U "flow_in" (flow_at n t c k) <= amount U "flow_cap" (cap_at n t c) * amount U "timestep_resolution" [("timesteps", k)])%Qc.
Proof.
  intros CO NO (co & FC & HO); destruct IL as [IP|(IM & AB)].
  - pose proof (plain_shipped _ IP) as IF; pose proof (plain_told 2 _ _ IP eq_refl FC) as TO.
    says SI SD IF [("carrier_in", On)] TO HO (plain_text 2) 0 x FX R; exact R.
  - pose proof (milp_shipped _ IM) as IF; pose proof (milp_told 2 _ _ IM eq_refl FC) as TO.
    says SI SD IF [("carrier_in", On); ("operating_units", Absent)] TO HO (milp_text 2) 0 x FX R; exact R.
Qed.
End Continuous.
Section Units.
Hypothesis IM : In files milp_lists.
Let IF := milp_shipped _ IM.
Hypothesis NT : numeric U "timestep_resolution" [("timesteps", k)].
Lemma units_running : given U "operating_units" (use_at n t k) -> given U "purchased_units" (asset n t) -> constraint_holds order (layered files) U "unit_commitment_milp" ->
  (amount U "operating_units" (use_at n t k) <= amount U "purchased_units" (asset n t))%Qc.
Proof.
  intros GO GP (co & FC & HO); pose proof (milp_told 3 _ _ IM eq_refl FC) as TO; pose proof (given_numeric _ _ _ GO) as GN; pose proof (given_numeric _ _ _ GP) as GN'.
  says SI SD IF [("operating_units", Given); ("purchased_units", Given)] TO HO (milp_text 3) 0 x FX R; exact R.
Qed.
Lemma out_below_units : given U "flow_out" (flow_at n t c k) -> given U "operating_units" (use_at n t k) -> given U "flow_cap_per_unit" (cap_at n t c) -> numeric U "flow_out_parasitic_eff" (flow_at n t c k) ->
  constraint_holds order (layered files) U "flow_out_max_milp" ->
  (amount U "flow_out" (flow_at n t c k) <= amount U "operating_units" (use_at n t k) * amount U "timestep_resolution" [("timesteps", k)] * amount U "flow_cap_per_unit" (cap_at n t c) * amount U "flow_out_parasitic_eff" (flow_at n t c k))%Qc.
Proof.
  intros GF GO GU NP (co & FC & HO); pose proof (milp_told 4 _ _ IM eq_refl FC) as TO; pose proof (given_numeric _ _ _ GF) as GN; pose proof (given_numeric _ _ _ GO) as GN'; pose proof (given_numeric _ _ _ GU) as GN2.
  says SI SD IF [("flow_out", Given); ("operating_units", Given); ("flow_cap_per_unit", Given)] TO HO (milp_text 4) 0 x FX R; exact R.
Qed.
Lemma in_below_units : given U "flow_in" (flow_at n t c k) -> given U "operating_units" (use_at n t k) -> given U "flow_cap_per_unit" (cap_at n t c) ->
  constraint_holds order (layered files) U "flow_in_max_milp" ->
  (amount U "flow_in" (flow_at n t c k) <= amount U "operating_units" (use_at n t k) * amount U "timestep_resolution" [("timesteps", k)] * amount U "flow_cap_per_unit" (cap_at n t c))%Qc.
Proof.
  intros GF GO GU (co & FC & HO); pose proof (milp_told 5 _ _ IM eq_refl FC) as TO; pose proof (given_numeric _ _ _ GF) as GN; pose proof (given_numeric _ _ _ GO) as GN'; pose proof (given_numeric _ _ _ GU) as GN2.
  says SI SD IF [("flow_in", Given); ("operating_units", Given); ("flow_cap_per_unit", Given)] TO HO (milp_text 5) 0 x FX R; exact R.
Qed.
Lemma out_above_units : given U "flow_out" (flow_at n t c k) -> given U "operating_units" (use_at n t k) -> given U "flow_cap_per_unit" (cap_at n t c) -> given U "flow_out_min_relative" (flow_at n t c k) ->
  constraint_holds order (layered files) U "flow_out_min_milp" ->
  (amount U "operating_units" (use_at n t k) * amount U "timestep_resolution" [("timesteps", k)] * amount U "flow_cap_per_unit" (cap_at n t c) * amount U "flow_out_min_relative" (flow_at n t c k) <= amount U "flow_out" (flow_at n t c k))%Qc.
Proof.
  intros GF GO GU GM (co & FC & HO); pose proof (milp_told 6 _ _ IM eq_refl FC) as TO; pose proof (given_numeric _ _ _ GF) as GN; pose proof (given_numeric _ _ _ GO) as GN'; pose proof (given_numeric _ _ _ GU) as GN2; pose proof (given_numeric _ _ _ GM) as GN3.
  says SI SD IF [("flow_out", Given); ("operating_units", Given); ("flow_cap_per_unit", Given); ("flow_out_min_relative", Given)] TO HO (milp_text 6) 0 x FX R; exact R.
Qed.
Lemma out_above_available : given U "flow_out" (flow_at n t c k) -> given U "operating_units" (use_at n t k) -> given U "available_flow_cap" (flow_at n t c k) -> given U "flow_out_min_relative" (flow_at n t c k) ->
  constraint_holds order (layered files) U "flow_out_min_milp" ->
  (amount U "available_flow_cap" (flow_at n t c k) * amount U "timestep_resolution" [("timesteps", k)] * amount U "flow_out_min_relative" (flow_at n t c k) <= amount U "flow_out" (flow_at n t c k))%Qc.
Proof.
  intros GF GO GU GM (co & FC & HO); pose proof (milp_told 6 _ _ IM eq_refl FC) as TO; pose proof (given_numeric _ _ _ GF) as GN; pose proof (given_numeric _ _ _ GO) as GN'; pose proof (given_numeric _ _ _ GU) as GN2; pose proof (given_numeric _ _ _ GM) as GN3.
  says SI SD IF [("flow_out", Given); ("operating_units", Given); ("available_flow_cap", Given); ("flow_out_min_relative", Given)] TO HO (milp_text 6) 1 x FX R; exact R.
Qed.
Lemma async_in : given U "async_flow_switch" (use_at n t k) -> numeric_over U "flow_in" "carriers" (use_at n t k) -> numeric U "bigM" [] -> constraint_holds order (layered files) U "async_flow_in_milp" ->
  (sum_over (labels U "carriers") (fun c => amount U "flow_in" (("carriers", c) :: use_at n t k)) <= (1 - amount U "async_flow_switch" (use_at n t k)) * amount U "bigM" [])%Qc.
Proof.
  intros GS NO NB (co & FC & HO); pose proof (milp_told 13 _ _ IM eq_refl FC) as TO; pose proof (given_numeric _ _ _ GS) as GN.
  says SI SD IF [("async_flow_switch", Given)] TO HO (milp_text 13) 0 x FX R; exact R.
Qed.
Lemma async_out : given U "async_flow_switch" (use_at n t k) -> numeric_over U "flow_out" "carriers" (use_at n t k) -> numeric U "bigM" [] -> constraint_holds order (layered files) U "async_flow_out_milp" ->
  (sum_over (labels U "carriers") (fun c => amount U "flow_out" (("carriers", c) :: use_at n t k)) <= amount U "async_flow_switch" (use_at n t k) * amount U "bigM" [])%Qc.
Proof.
  intros GS NO NB (co & FC & HO); pose proof (milp_told 14 _ _ IM eq_refl FC) as TO; pose proof (given_numeric _ _ _ GS) as GN.
  says SI SD IF [("async_flow_switch", Given)] TO HO (milp_text 14) 0 x FX R; exact R.
Qed.
Section Available.
Hypothesis GA : given U "available_flow_cap" (flow_at n t c k).
Hypothesis NF : numeric U "flow_cap" (cap_at n t c).
Hypothesis NM : numeric U "flow_cap_max" (cap_at n t c).
Hypothesis NO : numeric U "operating_units" (use_at n t k).
Hypothesis NP : numeric U "purchased_units" (asset n t).
Let GN := given_numeric _ _ _ GA.
Lemma available_below : constraint_holds order (layered files) U "available_flow_cap_continuous" -> (amount U "available_flow_cap" (flow_at n t c k) <= amount U "flow_cap" (cap_at n t c))%Qc.
Proof. intros (co & FC & HO); pose proof (milp_told 15 _ _ IM eq_refl FC) as TO; says SI SD IF [("available_flow_cap", Given)] TO HO (milp_text 15) 0 x FX R; exact R. Qed.
Lemma available_switch : constraint_holds order (layered files) U "available_flow_cap_binary" ->
  (amount U "available_flow_cap" (flow_at n t c k) <= amount U "flow_cap_max" (cap_at n t c) * amount U "operating_units" (use_at n t k))%Qc.
Proof. intros (co & FC & HO); pose proof (milp_told 16 _ _ IM eq_refl FC) as TO; says SI SD IF [("available_flow_cap", Given)] TO HO (milp_text 16) 0 x FX R; exact R. Qed.
Lemma available_above : constraint_holds order (layered files) U "available_flow_cap_max_binary_continuous_switch" ->
  (amount U "flow_cap" (cap_at n t c) + (amount U "operating_units" (use_at n t k) - amount U "purchased_units" (asset n t)) * amount U "flow_cap_max" (cap_at n t c) <= amount U "available_flow_cap" (flow_at n t c k))%Qc.
Proof. intros (co & FC & HO); pose proof (milp_told 17 _ _ IM eq_refl FC) as TO; says SI SD IF [("available_flow_cap", Given)] TO HO (milp_text 17) 0 x FX R; exact R. Qed.
End Available.
End Units.
End Flow.

Section Caps.
Variables (n t c : string).
Hypothesis SI : sited U (cap_at n t c).
Let SD := proj1 (proj1 SI).
Let NN : labels U "nodes" <> [] := site_labels U "nodes" _ SI (or_introl eq_refl).
Lemma systemwide_above : In files plain_lists -> given U "flow_cap_min_systemwide" [("techs", t); ("carriers", c)] -> numeric_over U "flow_cap" "nodes" [("techs", t); ("carriers", c)] ->
  constraint_holds order (layered files) U "flow_capacity_systemwide_min" ->
  (amount U "flow_cap_min_systemwide" [("techs", t); ("carriers", c)] <= sum_over (labels U "nodes") (fun n => amount U "flow_cap" (cap_at n t c)))%Qc.
Proof.
  intros IP GM NO (co & FC & HO); pose proof (plain_shipped _ IP) as IF; pose proof (plain_told 3 _ _ IP eq_refl FC) as TO; pose proof (given_numeric _ _ _ GM) as GN.
  says SI SD IF [("flow_cap_min_systemwide", Given)] TO HO (plain_text 3) 0 x FX R; exact R.
Qed.
Hypothesis IM : In files milp_lists.
Let IF := milp_shipped _ IM.
Section Bought.
Hypothesis GP : given U "purchased_units" (asset n t).
Let GN := given_numeric _ _ _ GP.
Lemma units_capacity : given U "flow_cap_per_unit" (cap_at n t c) -> numeric U "flow_cap" (cap_at n t c) -> constraint_holds order (layered files) U "flow_capacity_units_milp" ->
  amount U "flow_cap" (cap_at n t c) = (amount U "purchased_units" (asset n t) * amount U "flow_cap_per_unit" (cap_at n t c))%Qc.
Proof.
  intros GU NF (co & FC & HO); pose proof (milp_told 8 _ _ IM eq_refl FC) as TO; pose proof (given_numeric _ _ _ GU) as GN'.
  says SI SD IF [("purchased_units", Given); ("flow_cap_per_unit", Given)] TO HO (milp_text 8) 0 x FX R; exact R.
Qed.
Lemma cap_below_bought : given U "flow_cap_max" (cap_at n t c) -> numeric U "flow_cap" (cap_at n t c) -> constraint_holds order (layered files) U "flow_capacity_max_purchase_milp" ->
  (amount U "flow_cap" (cap_at n t c) <= amount U "flow_cap_max" (cap_at n t c) * amount U "purchased_units" (asset n t))%Qc.
Proof.
  intros GU NF (co & FC & HO); pose proof (milp_told 9 _ _ IM eq_refl FC) as TO; pose proof (given_numeric _ _ _ GU) as GN'.
  says SI SD IF [("purchased_units", Given); ("flow_cap_max", Given)] TO HO (milp_text 9) 0 x FX R; exact R.
Qed.
Lemma cap_below_big : absent U "flow_cap_max" (cap_at n t c) -> numeric U "bigM" [] -> numeric U "flow_cap" (cap_at n t c) -> constraint_holds order (layered files) U "flow_capacity_max_purchase_milp" ->
  (amount U "flow_cap" (cap_at n t c) <= amount U "bigM" [] * amount U "purchased_units" (asset n t))%Qc.
Proof.
  intros GU NB NF (co & FC & HO); pose proof (milp_told 9 _ _ IM eq_refl FC) as TO.
  says SI SD IF [("purchased_units", Given); ("flow_cap_max", Absent)] TO HO (milp_text 9) 1 x FX R; exact R.
Qed.
Lemma cap_above_bought : given U "flow_cap_min" (cap_at n t c) -> numeric U "flow_cap" (cap_at n t c) -> constraint_holds order (layered files) U "flow_capacity_minimum" ->
  (amount U "flow_cap_min" (cap_at n t c) * amount U "purchased_units" (asset n t) <= amount U "flow_cap" (cap_at n t c))%Qc.
Proof.
  intros GU NF (co & FC & HO); pose proof (milp_told 18 _ _ IM eq_refl FC) as TO; pose proof (given_numeric _ _ _ GU) as GN'.
  says SI SD IF [("purchased_units", Given); ("flow_cap_min", Given)] TO HO (milp_text 18) 1 x FX R; exact R.
Qed.
Lemma storage_units : given U "storage_cap_per_unit" (asset n t) -> (exists k, In k (labels U "timesteps") /\ In "timesteps" (u_dims U) /\ given U "storage" (use_at n t k)) -> numeric U "storage_cap" (asset n t) ->
  constraint_holds order (layered files) U "storage_capacity_units_milp" ->
  amount U "storage_cap" (asset n t) = (amount U "purchased_units" (asset n t) * amount U "storage_cap_per_unit" (asset n t))%Qc.
Proof.
  intros GU (k & IK & ID & GS) NF (co & FC & HO); pose proof (milp_told 7 _ _ IM eq_refl FC) as TO; pose proof (given_numeric _ _ _ GU) as GN'.
  assert (SK : sited U (flow_at n t c k)).
  { pose proof SI as SJ; destruct SJ as (P1 & P2 & (P3 & P3') & P4 & P5); split; [exact P1|split; [exact P2|split; [split; [apart|]|split]]].
    - intros d v IN; cbn in IN; destruct IN as [E|[E|[E|[E|[]]]]]; injection E as <- <-; [apply P3'; cbn; auto..|split; assumption].
    - intros d IN; pose proof (P4 d IN) as Q4; cbn in Q4 |- *; tauto.
    - rewrite <- P5; f_equal; destruct (proj1 P1) as (_ & _ & _ & _ & _ & LM); apply LM; intros d IN; pose proof (P4 d IN) as Q4; cbn in Q4; destruct Q4 as [<- |[<- |[<- |[]]]]; reflexivity. }
  says SK SD IF [("storage", Given); ("purchased_units", Given); ("storage_cap_per_unit", Given)] TO HO (milp_text 7) 0 x FX R; exact R.
Qed.
Lemma storage_below_bought : given U "storage_cap_max" (asset n t) -> numeric U "storage_cap" (asset n t) -> constraint_holds order (layered files) U "storage_capacity_max_purchase_milp" ->
  (amount U "storage_cap" (asset n t) <= amount U "storage_cap_max" (asset n t) * amount U "purchased_units" (asset n t))%Qc.
Proof.
  intros GU NF (co & FC & HO); pose proof (milp_told 10 _ _ IM eq_refl FC) as TO; pose proof (given_numeric _ _ _ GU) as GN'.
  says SI SD IF [("purchased_units", Given); ("storage_cap_max", Given)] TO HO (milp_text 10) 0 x FX R; exact R.
Qed.
Lemma units_below : given U "purchased_units_max_systemwide" (tech_at t) -> numeric_over U "purchased_units" "nodes" (tech_at t) -> constraint_holds order (layered files) U "unit_capacity_max_systemwide_milp" ->
  (sum_over (labels U "nodes") (fun n => amount U "purchased_units" (asset n t)) <= amount U "purchased_units_max_systemwide" (tech_at t))%Qc.
Proof.
  intros GU NO (co & FC & HO); pose proof (milp_told 11 _ _ IM eq_refl FC) as TO; pose proof (given_numeric _ _ _ GU) as GN'.
  says SI SD IF [("purchased_units", Given); ("purchased_units_max_systemwide", Given)] TO HO (milp_text 11) 0 x FX R; exact R.
Qed.
Lemma units_above : given U "purchased_units_max_systemwide" (tech_at t) -> numeric U "purchased_units_min_systemwide" (tech_at t) -> numeric_over U "purchased_units" "nodes" (tech_at t) ->
  constraint_holds order (layered files) U "unit_capacity_min_systemwide_milp" ->
  (amount U "purchased_units_min_systemwide" (tech_at t) <= sum_over (labels U "nodes") (fun n => amount U "purchased_units" (asset n t)))%Qc.
Proof.
  intros GU NU NO (co & FC & HO); pose proof (milp_told 12 _ _ IM eq_refl FC) as TO.
  says SI SD IF [("purchased_units", Given); ("purchased_units_max_systemwide", Given)] TO HO (milp_text 12) 0 x FX R; exact R.
Qed.
End Bought.
Lemma cap_above : absent U "purchased_units" (asset n t) -> given U "flow_cap_min" (cap_at n t c) -> numeric U "flow_cap" (cap_at n t c) -> constraint_holds order (layered files) U "flow_capacity_minimum" ->
  (amount U "flow_cap_min" (cap_at n t c) <= amount U "flow_cap" (cap_at n t c))%Qc.
Proof.
  intros AP GU NF (co & FC & HO); pose proof (milp_told 18 _ _ IM eq_refl FC) as TO; pose proof (given_numeric _ _ _ GU) as GN'.
  says SI SD IF [("purchased_units", Absent); ("flow_cap_min", Given)] TO HO (milp_text 18) 0 x FX R; exact R.
Qed.
End Caps.
End Limits.
