(** A small system with costs for the examples.  It is not code of the package; it only provides data. *)
From Coq Require Import QArith Qcanon.
From Verif Require Import Base BaseProofs LangModel MathText EvalModel EvalSpec BuildModel BuildSpec HelperModel HelperSpec ShipModel ShipSpec ShipExample NetSpec NetExample PlaceSpec ShipPlace RuleText RuleProofs ShipFast BoundSpec BoundFast RuleExample MilpExample CostSpec CostText.
Local Open Scope nat_scope.
Local Open Scope string_scope.
Local Open Scope list_scope.

(** A plant in the north, a line to a load and a small engine in the south; two timesteps of an hour
    that stand for half a year each. *)
Definition isle_labels : list (string * list string) :=
  [("nodes", ["north"; "south"]); ("techs", ["plant"; "line"; "engine"; "load"]); ("carriers", ["power"]); ("timesteps", ["t0"; "t1"]); ("costs", ["monetary"])].
Definition isle_placed : list (list string * cell) := map (fun k => (k, Boo true)) [["north"; "plant"; "power"]; ["north"; "line"; "power"]; ["south"; "line"; "power"]; ["south"; "engine"; "power"]; ["south"; "load"; "power"]].
Definition both (n t : string) (a b : cell) : list (list string * cell) := [([n; t; "power"; "t0"], a); ([n; t; "power"; "t1"], b)].
Definition uses (n t : string) (a b : cell) : list (list string * cell) := [([n; t; "t0"], a); ([n; t; "t1"], b)].
Definition runs (n t : string) (a b : cell) : list (list string * cell) := [([n; t; "monetary"; "t0"], a); ([n; t; "monetary"; "t1"], b)].
Definition tech_costs : list string := ["techs"; "costs"].
Definition four_costs : list string := ["nodes"; "techs"; "carriers"; "costs"].
Definition isle_arrays (i pays total : cell) : list (string * darr) :=
  [("base_tech", rows_of ["techs"] [(["plant"], Txt "supply"); (["engine"], Txt "supply"); (["line"], Txt "transmission"); (["load"], Txt "demand")]);
   ("carrier_in", rows_of three (map (fun k => (k, Boo true)) [["north"; "line"; "power"]; ["south"; "line"; "power"]; ["south"; "load"; "power"]]));
   ("carrier_out", rows_of three (map (fun k => (k, Boo true)) [["north"; "plant"; "power"]; ["north"; "line"; "power"]; ["south"; "line"; "power"]; ["south"; "engine"; "power"]]));
   ("timestep_resolution", rows_of ["timesteps"] [(["t0"], num 1); (["t1"], num 1)]);
   ("timestep_weights", rows_of ["timesteps"] [(["t0"], num 4380); (["t1"], num 4380)]);
   ("distance", rows_of ["techs"] [(["line"], num 2)]);
   ("lifetime", rows_of ["techs"] [(["plant"], num 2); (["line"], num 3)]);
   ("flow_cap", rows_of three [(["north"; "plant"; "power"], num 10); (["north"; "line"; "power"], num 6); (["south"; "line"; "power"], num 6); (["south"; "engine"; "power"], num 1); (["south"; "load"; "power"], num 7)]);
   ("link_flow_cap", rows_of ["techs"] [(["line"], num 6)]);
   ("source_cap", rows_of site_dims [(["north"; "plant"], num 10); (["south"; "engine"], num 1)]);
   ("source_use_max", rows_of use_dims (uses "north" "plant" (num 6) (num 8)));
   ("sink_use_equals", rows_of use_dims (uses "south" "load" (num 4) (num 7)));
   ("source_use", rows_of use_dims (uses "north" "plant" (num 3) (num 6) ++ uses "south" "engine" (num 1) (num 1)));
   ("flow_out", rows_of four (both "north" "plant" (num 3) (num 6) ++ both "north" "line" (num 0) (num 0) ++ both "south" "line" (num 3) (num 6) ++ both "south" "engine" (num 1) (num 1)));
   ("flow_in", rows_of four (both "north" "line" (num 3) (num 6) ++ both "south" "line" (num 0) (num 0) ++ both "south" "load" (num 4) (num 7)));
   ("flow_out_inc_eff", rows_of four (both "north" "plant" (num 3) (num 6) ++ both "north" "line" (num 0) (num 0) ++ both "south" "line" (num 3) (num 6) ++ both "south" "engine" (num 1) (num 1)));
   ("flow_in_inc_eff", rows_of four (both "north" "line" (num 3) (num 6) ++ both "south" "line" (num 0) (num 0) ++ both "south" "load" (num 4) (num 7)));
   ("objective_cost_weights", rows_of ["costs"] [(["monetary"], num 1)]);
   ("cost_flow_cap", rows_of tech_costs [(["plant"; "monetary"], num 21); (["line"; "monetary"], num 4)]);
   ("cost_flow_cap_per_distance", rows_of tech_costs [(["line"; "monetary"], num 1)]);
   ("cost_interest_rate", rows_of tech_costs [(["plant"; "monetary"], i)]);
   ("cost_depreciation_rate", rows_of tech_costs []);
   ("cost_om_annual", rows_of tech_costs [(["plant"; "monetary"], num 5); (["line"; "monetary"], num 7)]);
   ("cost_om_annual_investment_fraction", rows_of tech_costs [(["plant"; "monetary"], Val (Q2Qc (1 # 10)))]);
   ("cost_flow_out", rows_of tech_costs [(["plant"; "monetary"], num 1); (["engine"; "monetary"], num 1)]);
   ("cost_source_use", rows_of tech_costs [(["plant"; "monetary"], num 2)]);
   ("cost_operation_variable", rows_of ["nodes"; "techs"; "costs"; "timesteps"] (runs "north" "plant" (num 39420) (num 78840) ++ runs "south" "engine" (num 4380) (num 4380)));
   ("cost_investment_flow_cap", rows_of four_costs [(["north"; "plant"; "power"; "monetary"], num 210); (["north"; "line"; "power"; "monetary"], num 18); (["south"; "line"; "power"; "monetary"], num 18)]);
   ("cost_investment_storage_cap", rows_of cost_site []);
   ("cost_investment_source_cap", rows_of cost_site []);
   ("cost_investment_area_use", rows_of cost_site []);
   ("cost_investment", rows_of cost_site [(["north"; "plant"; "monetary"], num 210); (["north"; "line"; "monetary"], num 18); (["south"; "line"; "monetary"], num 18)]);
   ("cost_investment_annualised", rows_of cost_site [(["north"; "plant"; "monetary"], pays); (["north"; "line"; "monetary"], num 6); (["south"; "line"; "monetary"], num 6)]);
   ("cost_operation_fixed", rows_of cost_site [(["north"; "plant"; "monetary"], num 71); (["north"; "line"; "monetary"], num 42); (["south"; "line"; "monetary"], num 42)]);
   ("cost", rows_of cost_site [(["north"; "plant"; "monetary"], total); (["north"; "line"; "monetary"], num 48); (["south"; "line"; "monetary"], num 48); (["south"; "engine"; "monetary"], num 8760)]);
   ("total_generation", rows_of ["techs"; "carriers"] [(["plant"; "power"], num 9); (["line"; "power"], num 9); (["engine"; "power"], num 2)])].
Definition isle_defaults : list (string * cell) :=
  map (fun s => (s, num 0)) (flows ++ slacks ++ ["flow_out_inc_eff"; "flow_in_inc_eff"; "flow_cap"; "area_use"; "source_use"; "storage"; "storage_cap"; "source_cap"; "purchased_units"]) ++
  map (fun s => (s, num 0)) ["cost_flow_cap"; "cost_flow_cap_per_distance"; "cost_storage_cap"; "cost_source_cap"; "cost_area_use"; "cost_interest_rate"; "cost_om_annual"; "cost_om_annual_investment_fraction"; "cost_flow_out"; "cost_flow_in"; "cost_export"; "cost_source_use"] ++
  map (fun s => (s, num 0)) ["cost_operation_variable"; "cost_investment_flow_cap"; "cost_investment_storage_cap"; "cost_investment_source_cap"; "cost_investment_area_use"; "cost_investment"; "cost_investment_purchase"; "cost_investment_annualised"; "cost_operation_fixed"; "cost"] ++
  map (fun s => (s, num 1)) ["flow_out_eff"; "flow_out_parasitic_eff"; "flow_out_eff_per_distance"; "distance"; "flow_in_eff"; "flow_in_eff_per_distance"; "source_eff"; "timestep_weights"; "timestep_resolution"] ++
  [("sink_unit", Txt "absolute"); ("source_unit", Txt "absolute"); ("include_storage", Boo false); ("source_cap_equals_flow_cap", Boo false); ("cyclic_storage", Boo true); ("bigM", num 1000)].
Definition isle_at (i pays total : cell) : world := system isle_labels (isle_arrays i pays total) isle_defaults (rows_of three isle_placed).
(** Interest of ten percent. *)
Definition isle : world := isle_at (Val (Q2Qc (1 # 10))) (num 121) (num 118452).
(** A negative interest rate. *)
Definition odd_isle : world := isle_at (Val (Q2Qc (-1 # 10))) Miss (num 118331).
Lemma isle_proper i pays total : proper (isle_at i pays total).
Proof. proper_system. Qed.
Lemma isle_checked : feasible_check as_listed (layered base_math) isle = true.
Proof. vm_compute; reflexivity. Qed.
Lemma odd_isle_checked : feasible_check as_listed (layered base_math) odd_isle = true.
Proof. vm_compute; reflexivity. Qed.
Lemma isle_feasible : feasible as_listed (layered base_math) isle.
Proof. apply feasible_sound, isle_checked. Qed.
Lemma odd_isle_feasible : feasible as_listed (layered base_math) odd_isle.
Proof. apply feasible_sound, odd_isle_checked. Qed.
Lemma isle_solution : solution as_listed base_math isle.
Proof. apply solution_sound; [exact isle_feasible|vm_compute; reflexivity]. Qed.
Lemma odd_isle_solution : solution as_listed base_math odd_isle.
Proof. apply solution_sound; [exact odd_isle_feasible|vm_compute; reflexivity]. Qed.
(** Active expressions and constraints, by name. *)
Definition active_names (l : list component) (m : math_file) : list string := map c_name (active m l).
Lemma feasible_expression order m U s : feasible order m U -> In s (active_names (h_expressions m) m) -> smem s (h_off m) = false -> expression_is order m U s.
Proof.
  intros (FE & _) IN OFF; apply in_map_iff in IN as (c0 & <- & IC); destruct (find_in (h_expressions m) (c_name c0)) as [c|] eqn:FC.
  - exists c; split; [exact FC|]; apply FE; apply find_some in FC as (I1 & E); apply String.eqb_eq in E; unfold active; apply filter_In; split; [exact I1|rewrite E, OFF; reflexivity].
  - exfalso; apply filter_In in IC as (IC & _); apply (find_none _ _ FC) in IC; rewrite String.eqb_refl in IC; discriminate.
Qed.
Lemma feasible_constraint order m U s : feasible order m U -> In s (active_names (h_constraints m) m) -> smem s (h_off m) = false -> constraint_holds order m U s.
Proof.
  intros (_ & FE) IN OFF; apply in_map_iff in IN as (c0 & <- & IC); destruct (find_in (h_constraints m) (c_name c0)) as [c|] eqn:FC.
  - exists c; split; [exact FC|]; apply FE; apply find_some in FC as (I1 & E); apply String.eqb_eq in E; unfold active; apply filter_In; split; [exact I1|rewrite E, OFF; reflexivity].
  - exfalso; apply filter_In in IC as (IC & _); apply (find_none _ _ FC) in IC; rewrite String.eqb_refl in IC; discriminate.
Qed.
(** Values of results calculated after solving and of objectives, by computation. *)
Definition post_check (order : list string -> list string) (m : math_file) (U : world) (s : string) (i : index) (q : Qc) : bool :=
  match find_in (h_post m) s with
  | Some c => match parsed_text order (post_view m) "postprocessed" c with
    | Some t => match build_text (math_names (post_view m)) U t with Built r => match r i with VCell (Val x) => if Qc_eq_dec x q then true else false | _ => false end | Broken _ => false end
    | None => false end
  | None => false end.
Lemma post_sound order m U s l q : post_check order m U s (map snd l) q = true -> post_is order m U s l q.
Proof.
  unfold post_check; destruct (find_in _ _) as [c|] eqn:FC; [|discriminate]; destruct (parsed_text _ _ _ _) as [t|] eqn:PT; [|discriminate].
  pose proof (text_alike _ _ U _ _ _ (parsed_told _ _ _ _ _ PT)) as A; destruct (build_text _ _ _) as [r|]; [|discriminate]; fold (build_post order m U c) in A; destruct (build_post order m U c) as [r'|] eqn:BP; [|contradiction].
  intros H; exists c, r'; split; [exact FC|split; [exact BP|]]; rewrite <- A; destruct (r _) as [[| x | | |]|]; try discriminate H; destruct (Qc_eq_dec x q) as [->|]; [reflexivity|discriminate H].
Qed.
Definition goal_check (order : list string -> list string) (m : math_file) (U : world) (s : string) (q : Qc) : bool :=
  match find_in (h_objectives m) s with
  | Some c => match parsed_text order m "objectives" c with
    | Some t => match build_text (math_names m) U t with Built r => match r [] with VCell (Val x) => if Qc_eq_dec x q then true else false | _ => false end | Broken _ => false end
    | None => false end
  | None => false end.
Lemma goal_sound order m U s q : goal_check order m U s q = true -> objective_is order m U s q.
Proof.
  unfold goal_check; destruct (find_in _ _) as [c|] eqn:FC; [|discriminate]; destruct (parsed_text _ _ _ _) as [t|] eqn:PT; [|discriminate].
  pose proof (text_alike _ _ U _ _ _ (parsed_told _ _ _ _ _ PT)) as A; destruct (build_text _ _ _) as [r|]; [|discriminate]; destruct (build_all order m U "objectives" c) as [r'|] eqn:BP; [|contradiction].
  intros H; exists c, r'; split; [exact FC|split; [exact BP|]]; rewrite <- A; destruct (r _) as [[| x | | |]|]; try discriminate H; destruct (Qc_eq_dec x q) as [->|]; [reflexivity|discriminate H].
Qed.
Lemma post_there order m U s l q : post_is order m U s l q -> post_built order m U s.
Proof. intros (c & r & A & B & _); exists c, r; auto. Qed.
Lemma goal_there order m U s q : objective_is order m U s q -> objective_built order m U s.
Proof. intros (c & r & A & B & _); exists c, r; auto. Qed.
Definition cost_names_used : list string :=
  ["cost"; "cost_operation_variable"; "cost_investment_annualised"; "cost_operation_fixed"; "cost_investment"; "cost_investment_flow_cap"; "cost_investment_storage_cap"; "cost_investment_source_cap"; "cost_investment_area_use"].
Lemma isle_costs s : In s cost_names_used -> expression_is as_listed (layered base_math) isle s /\ ledger isle s.
Proof.
  intros IS; split; [apply feasible_expression; [exact isle_feasible|..]; repeat (destruct IS as [<- |IS]; [vm_compute; intuition|]); destruct IS|].
  repeat (destruct IS as [<- |IS]; [split; [reflexivity|split; [reflexivity|apply (rows_number); reflexivity]]|]); destruct IS.
Qed.
Lemma isle_site n t k : In (n, t) [("north", "plant"); ("north", "line"); ("south", "line"); ("south", "engine")] -> In k ["t0"; "t1"] -> sited isle (class_flow n t "power" "monetary" k) /\ sited isle (flow_at n t "power" k).
Proof. intros H IK; repeat (destruct H as [E|H]; [injection E as <- <-; destruct IK as [<- |[<- |[]]]; split; sited_by (isle_proper (Val (Q2Qc (1 # 10))) (num 121) (num 118452))|]); destruct H. Qed.
Lemma isle_cap n t : In (n, t) [("north", "plant"); ("north", "line"); ("south", "line"); ("south", "engine")] -> sited isle (class_cap n t "power" "monetary") /\ sited isle (cap_at n t "power").
Proof. intros H; repeat (destruct H as [E|H]; [injection E as <- <-; split; sited_by (isle_proper (Val (Q2Qc (1 # 10))) (num 121) (num 118452))|]); destruct H. Qed.
(** Single expressions. *)
Definition expression_check (order : list string -> list string) (m : math_file) (U : world) (s : string) : bool :=
  match find_in (h_expressions m) s with Some c => match parsed_text order m "global_expressions" c with Some t => value_text (math_names m) U s t | None => false end | None => false end.
Lemma expression_sound order m U s : expression_check order m U s = true -> expression_is order m U s.
Proof.
  unfold expression_check; destruct (find_in _ s) as [c|] eqn:FC; [|discriminate]; destruct (parsed_text _ _ _ c) as [t|] eqn:PT; [|discriminate]; intros H; exists c; split; [exact FC|].
  apply (value_text_sound _ _ _ _ _ (parsed_told _ _ _ _ _ PT)); apply find_some in FC as (_ & E); apply String.eqb_eq in E; rewrite E; exact H.
Qed.
(** The same system in operation, and with the line bought in units. *)
Definition isle_with (extra : list (string * darr)) : world :=
  system isle_labels (extra ++ isle_arrays (Val (Q2Qc (1 # 10))) (num 121) (num 118452)) isle_defaults (rows_of three isle_placed).
Definition day_isle : world := isle_with [("cost", rows_of cost_site [(["north"; "plant"; "monetary"], num 118260); (["south"; "engine"; "monetary"], num 8760)])].
Definition bought_isle : world := isle_with
  [("purchased_units", rows_of site_dims [(["north"; "line"], num 2); (["south"; "line"], num 2)]);
   ("cost_purchase", rows_of tech_costs [(["line"; "monetary"], num 5)]); ("cost_purchase_per_distance", rows_of tech_costs [(["line"; "monetary"], num 1)]);
   ("cost_investment_purchase", rows_of cost_site [(["north"; "line"; "monetary"], num 7); (["south"; "line"; "monetary"], num 7)]);
   ("cost_investment", rows_of cost_site [(["north"; "plant"; "monetary"], num 210); (["north"; "line"; "monetary"], num 25); (["south"; "line"; "monetary"], num 25)])].
Lemma day_proper : proper day_isle. Proof. proper_system. Qed.
Lemma bought_proper : proper bought_isle. Proof. proper_system. Qed.
Lemma day_checked : forallb (expression_check as_listed (layered [operate_file]) day_isle) ["cost"; "cost_operation_variable"] = true.
Proof. vm_compute; reflexivity. Qed.
Lemma bought_checked : forallb (expression_check as_listed (layered [milp_file]) bought_isle) ("cost_investment" :: "cost_investment_flow_cap" :: bought_parts) = true.
Proof. vm_compute; reflexivity. Qed.
