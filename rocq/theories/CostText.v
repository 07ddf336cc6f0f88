(** What the texts of costs, objectives and postprocessed results say; texts with several references
    to alternatives, whose order calliope does not fix. *)
From Coq Require Import QArith Qcanon Lia Permutation.
From Verif Require Import Base BaseProofs LangModel MathText EvalModel EvalSpec BuildModel BuildSpec BuildProofs BuildEqs
  HelperModel HelperSpec ShipModel ShipSpec ShipProofs ShipEntry ShipStorage ShipNumbers NetSpec NetProofs PlaceSpec ShipPlace RuleText RuleProofs.
Local Open Scope nat_scope.
Local Open Scope string_scope.
Local Open Scope list_scope.
Local Arguments String.eqb : simpl never.

(** * Several references *)
Fixpoint insertions (x : string) (l : list string) : list (list string) :=
  match l with [] => [[x]] | y :: r => (x :: l) :: map (cons y) (insertions x r) end.
Fixpoint arrangements (l : list string) : list (list string) :=
  match l with [] => [[]] | x :: r => flat_map (insertions x) (arrangements r) end.
Lemma insertions_all x a b : In (a ++ x :: b) (insertions x (a ++ b)).
Proof.
  induction a as [|y a IH]; cbn [app insertions]; [destruct b; left; reflexivity|]; right; apply in_map, IH.
Qed.
Lemma arrangements_all l : forall k, Permutation l k -> In k (arrangements l).
Proof.
  induction l as [|x l IH]; intros k P; cbn [arrangements].
  - apply Permutation_nil in P; subst; left; reflexivity.
  - assert (IX : In x k) by (apply (Permutation_in x P); left; reflexivity); apply in_split in IX as (a & b & ->); apply Permutation_cons_app_inv in P.
    apply in_flat_map; exists (a ++ b); split; [apply IH, P|apply insertions_all].
Qed.
Lemma order_arranged order l : lists_set order -> In (order l) (arrangements (nodup string_dec l)).
Proof.
  intros OR; destruct (OR l) as (ND & IN); apply arrangements_all, NoDup_Permutation; [apply NoDup_nodup|exact ND|]; intros s; rewrite nodup_In, IN; reflexivity.
Qed.
Definition same_list (a b : list string) : bool := if list_eq_dec string_dec a b then true else false.
(** The order [k] for the references [L], the only choice for others. *)
Definition picks (L k l : list string) : list string := if same_list l L then k else nodup string_dec l.
Definition known_refs (L : list string) (qs : list peq) : bool := forallb (fun q => few (find_subs q) || same_list (find_subs q) L) qs.
Lemma extend_picks order L alts qs : lists_set order -> known_refs L qs = true -> extend_all order false alts qs = extend_all (picks L (order L)) false alts qs.
Proof.
  intros OR; induction qs as [|q qs IH]; intros F; [reflexivity|]; cbn [known_refs forallb] in F; apply andb_true_iff in F as (F1 & F2).
  cbn [extend_all]; rewrite (IH F2); unfold extend; cbv iota; assert (E : order (find_subs q) = picks L (order L) (find_subs q)).
  { unfold picks, same_list in *; destruct (list_eq_dec string_dec (find_subs q) L) as [->|NE]; [reflexivity|]; rewrite orb_false_r in F1; apply order_few; assumption. }
  rewrite E; reflexivity.
Qed.
Definition read_each (m : math_file) (group : string) (L : list string) (c : component) : list (option text) :=
  let N := math_names m in
  let valid := math_valid m in
  let pe := if String.eqb group "constraints" then equation_parser valid else arith_parser valid true in
  match parse_where_text N (MathText.c_where c), expression_list N pe (String.append group (String ":" (c_name c))) (c_equations c),
        expression_dict N (arith_parser valid false) (c_subs c), expression_dict N (slice_parser valid) (c_slices c) with
  | Some w, Some eqs, Some subs, Some slices =>
      if known_refs L eqs then
        map (fun k =>
          match extend_all (picks L k) false subs eqs with
          | Done mid => if few_refs true mid then match extend_all (nodup string_dec) true slices mid with Done qs => Some (c_foreach c, w, qs) | Fail _ => None end else None
          | Fail _ => None
          end) (arrangements (nodup string_dec L))
      else []
  | _, _, _, _ => []
  end.
Lemma each_told order m group L c texts : lists_set order -> read_each m group L c = map Some texts -> texts <> [] ->
  exists t, In t texts /\ told order m group c (fe_of t) (where_of t) (eqs_of t).
Proof.
  intros OR H NE; unfold read_each in H; unfold told, parse_equations; destruct (parse_where_text _ _) as [w|]; [|destruct texts; [congruence|discriminate]].
  destruct (expression_list _ _ _ _) as [eqs|]; [|destruct texts; [congruence|discriminate]]; destruct (expression_dict _ (arith_parser _ false) _) as [subs|]; [|destruct texts; [congruence|discriminate]].
  destruct (expression_dict _ (slice_parser _) _) as [slices|]; [|destruct texts; [congruence|discriminate]]; destruct (known_refs L eqs) eqn:KR; [|destruct texts; [congruence|discriminate]].
  pose proof (order_arranged order L OR) as IA; rewrite (extend_picks order L subs eqs OR KR).
  apply (in_map (fun k => match extend_all (picks L k) false subs eqs with
    | Done mid => if few_refs true mid then match extend_all (nodup string_dec) true slices mid with Done qs => Some (c_foreach c, w, qs) | Fail _ => None end else None
    | Fail _ => None end)) in IA; rewrite H in IA; apply in_map_iff in IA as (t & ET & IT).
  destruct (extend_all (picks L (order L)) false subs eqs) as [mid|]; [|discriminate]; destruct (few_refs true mid) eqn:F2; [|discriminate].
  destruct (extend_all (nodup string_dec) true slices mid) as [qs|] eqn:ES; [|discriminate]; injection ET as ->.
  exists (c_foreach c, w, qs); split; [exact IT|]; cbn [fe_of where_of eqs_of fst snd next]; rewrite (extend_few order true slices mid OR F2); auto.
Qed.
Definition each_in (m : math_file) (group : string) (L : list string) (s : string) : list (option text) :=
  match find_in (rules_of m group) s with Some c => read_each m group L c | None => [] end.
Definition variable_refs : list string := ["cost_export"; "cost_flow_out"; "cost_flow_in"].
Definition annual_refs : list string := ["annualisation_weight"; "depreciation_rate"].

(** * Formulations *)
(** Plan and SPORES mode; operate mode. *)
Definition planning : list (list math_file) := flat_map (fun mode => map (app mode) [[]; [milp_file]; [inter_file]; [milp_file; inter_file]; [inter_file; milp_file]]) [[]; [spores_file]].
Definition operating : list (list math_file) := map (cons operate_file) [[]; [milp_file]; [inter_file]; [milp_file; inter_file]; [inter_file; milp_file]].
Definition planning_plain : list (list math_file) := flat_map (fun mode => map (app mode) [[]; [inter_file]]) [[]; [spores_file]].
Definition planning_milp : list (list math_file) := flat_map (fun mode => map (app mode) [[milp_file]; [milp_file; inter_file]; [inter_file; milp_file]]) [[]; [spores_file]].
Definition exploring : list (list math_file) := map (cons spores_file) [[]; [milp_file]; [inter_file]; [milp_file; inter_file]; [inter_file; milp_file]].
Ltac among := let H := fresh in intros H; repeat (destruct H as [<- |H]; [cbn; tauto|]); destruct H.
Lemma planning_shipped files : In files planning -> In files shipped. Proof. among. Qed.
Lemma operating_shipped files : In files operating -> In files shipped. Proof. among. Qed.
Lemma plain_planning files : In files planning_plain -> In files planning. Proof. among. Qed.
Lemma milp_planning files : In files planning_milp -> In files planning. Proof. among. Qed.
Lemma exploring_planning files : In files exploring -> In files planning. Proof. among. Qed.

(** * Texts *)
Definition variable_texts : list text := Eval vm_compute in map or_none (each_in (layered []) "global_expressions" variable_refs "cost_operation_variable").
Lemma variable_read : map (fun files => each_in (layered files) "global_expressions" variable_refs "cost_operation_variable") shipped = repeat (map Some variable_texts) 15.
Proof. vm_compute; reflexivity. Qed.
Definition annual_texts : list text := Eval vm_compute in map or_none (each_in (layered []) "global_expressions" annual_refs "cost_investment_annualised").
Lemma annual_read : map (fun files => each_in (layered files) "global_expressions" annual_refs "cost_investment_annualised") planning = repeat (map Some annual_texts) 10.
Proof. vm_compute; reflexivity. Qed.
Lemma each_read order group L s texts lists n files c : lists_set order -> map (fun files => each_in (layered files) group L s) lists = repeat (map Some texts) n -> texts <> [] ->
  In files lists -> find_in (rules_of (layered files) group) s = Some c -> exists t, In t texts /\ told order (layered files) group c (fe_of t) (where_of t) (eqs_of t).
Proof.
  intros OR E NE IL FC; apply (in_map (fun files => each_in (layered files) group L s)) in IL; rewrite E in IL; apply repeat_spec in IL; unfold each_in in IL; rewrite FC in IL.
  exact (each_told order (layered files) group L c texts OR IL NE).
Qed.
Definition cost_names : list string := ["cost_investment_flow_cap"; "cost_investment_storage_cap"; "cost_investment_source_cap"; "cost_investment_area_use"; "cost_operation_fixed"; "cost"].
Definition cost_texts : list text := Eval vm_compute in map or_none (texts_in (layered []) "global_expressions" cost_names).
Lemma cost_read : map (fun files => texts_in (layered files) "global_expressions" cost_names) planning = repeat (map Some cost_texts) 10.
Proof. vm_compute; reflexivity. Qed.
Definition plain_cost_texts : list text := Eval vm_compute in map or_none (texts_in (layered []) "global_expressions" ["cost_investment"]).
Lemma plain_cost_read : map (fun files => texts_in (layered files) "global_expressions" ["cost_investment"]) planning_plain = repeat (map Some plain_cost_texts) 4.
Proof. vm_compute; reflexivity. Qed.
Definition milp_cost_texts : list text := Eval vm_compute in map or_none (texts_in (layered [milp_file]) "global_expressions" ["cost_investment"; "cost_investment_purchase"]).
Lemma milp_cost_read : map (fun files => texts_in (layered files) "global_expressions" ["cost_investment"; "cost_investment_purchase"]) planning_milp = repeat (map Some milp_cost_texts) 6.
Proof. vm_compute; reflexivity. Qed.
Definition run_cost_texts : list text := Eval vm_compute in map or_none (texts_in (layered [operate_file]) "global_expressions" ["cost"]).
Lemma run_cost_read : map (fun files => texts_in (layered files) "global_expressions" ["cost"]) operating = repeat (map Some run_cost_texts) 5.
Proof. vm_compute; reflexivity. Qed.
Definition goal_texts : list text := Eval vm_compute in map or_none (texts_in (layered []) "objectives" ["min_cost_optimisation"]).
Lemma goal_read : map (fun files => texts_in (layered files) "objectives" ["min_cost_optimisation"]) shipped = repeat (map Some goal_texts) 15.
Proof. vm_compute; reflexivity. Qed.
Definition spores_goal_texts : list text := Eval vm_compute in map or_none (texts_in (layered [spores_file]) "objectives" ["min_spores"]).
Lemma spores_goal_read : map (fun files => texts_in (layered files) "objectives" ["min_spores"]) exploring = repeat (map Some spores_goal_texts) 5.
Proof. vm_compute; reflexivity. Qed.
Definition post_names : list string := ["capacity_factor"; "systemwide_capacity_factor"; "total_generation"; "systemwide_levelised_cost"; "total_levelised_cost"; "unmet_sum"; "curtailment"; "total_curtailment"].
Definition post_texts : list text := Eval vm_compute in map or_none (texts_in (post_view (layered [])) "postprocessed" post_names).
Lemma post_read : map (fun files => texts_in (post_view (layered files)) "postprocessed" post_names) shipped = repeat (map Some post_texts) 15.
Proof. vm_compute; reflexivity. Qed.
Definition slack_texts : list text := Eval vm_compute in map or_none (texts_in (layered [spores_file]) "constraints" ["total_system_cost_max"]).
Lemma slack_read : map (fun files => texts_in (layered files) "constraints" ["total_system_cost_max"]) exploring = repeat (map Some slack_texts) 5.
Proof. vm_compute; reflexivity. Qed.
