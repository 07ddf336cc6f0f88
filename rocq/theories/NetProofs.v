(** Lemmas on flows between technologies, nodes and links in the shipped math. *)
From Coq Require Import QArith Qcanon Lia Permutation.
From Verif Require Import Base BaseProofs LangModel MathText EvalModel EvalSpec BuildModel BuildSpec BuildProofs BuildEqs
  HelperModel HelperSpec HelperProofs HelperLocal HelperLaws ShipModel ShipSpec ShipProofs ShipEntry ShipStorage ShipNumbers NetSpec.
From Verif Require CliModel CliProofs.
Local Open Scope nat_scope.
Local Open Scope string_scope.
Local Open Scope list_scope.
Local Arguments String.eqb : simpl never.

(** * What the texts say, in all formulations *)
Definition over_dim (s d : string) : expr := EFun "sum" [EName s] [("over", EName d)].
Definition over_dims (s d d' : string) : expr := EFun "sum" [EName s] [("over", EList [EName d; EName d'])].
Definition whatever : wexpr := WBool true.
Definition plain_eq (name : string) (l : expr) (o : cmp) (r : expr) : peq := {| q_name := name; q_where := [WBool true]; q_expr := PEq l o r; q_subs := []; q_slices := [] |}.
Definition bus_side : expr :=
  EChain (over_dim "flow_out" "techs") [(OSub, over_dim "flow_in" "techs"); (OSub, over_dim "flow_export" "techs"); (OAdd, EChain (EName "unmet_demand") [(OAdd, EName "unused_supply")])].
Definition bus_eq : peq := plain_eq "constraints:system_balance:0" bus_side CEq (ENum false "0").
Definition link_eq : peq := plain_eq "constraints:balance_transmission:0" (over_dims "flow_out_inc_eff" "nodes" "carriers") CEq (over_dims "flow_in_inc_eff" "nodes" "carriers").
Definition distance_power (s : string) : expr := EChain (EName s) [(OPow, EName "distance")].
Definition case_eq (name : string) (w : wexpr) (e : expr) : peq := {| q_name := name; q_where := [w]; q_expr := PArith e; q_subs := []; q_slices := [] |}.
Definition out_link : expr :=
  EChain (EName "flow_out") [(ODiv, EChain (EName "flow_out_eff") [(OMul, EName "flow_out_parasitic_eff"); (OMul, distance_power "flow_out_eff_per_distance")])].
Definition out_plant : expr := EChain (EName "flow_out") [(ODiv, EChain (EName "flow_out_eff") [(OMul, EName "flow_out_parasitic_eff")])].
Definition out_eqs : list peq :=
  [case_eq "global_expressions:flow_out_inc_eff:0" (tech_is "transmission") out_link; case_eq "global_expressions:flow_out_inc_eff:1" (WNot (tech_is "transmission")) out_plant].
Definition in_link : expr := EChain (EName "flow_in") [(OMul, EName "flow_in_eff"); (OMul, distance_power "flow_in_eff_per_distance")].
Definition in_plant : expr := EChain (EName "flow_in") [(OMul, EName "flow_in_eff")].
Definition in_eqs : list peq :=
  [case_eq "global_expressions:flow_in_inc_eff:0" (tech_is "transmission") in_link; case_eq "global_expressions:flow_in_inc_eff:1" (WNot (tech_is "transmission")) in_plant].
Definition four : list string := ["nodes"; "techs"; "carriers"; "timesteps"].
Definition read_in (m : math_file) (l : list component) (group s : string) : option (list string * wexpr * list peq) :=
  match find_in l s with Some c => read_of m group c | None => None end.
Definition net_texts (files : list math_file) : list (option (list string * wexpr * list peq)) * bool :=
  let m := layered files in
  ([read_in m (h_constraints m) "constraints" "system_balance"; read_in m (h_constraints m) "constraints" "balance_transmission";
    read_in m (h_expressions m) "global_expressions" "flow_out_inc_eff"; read_in m (h_expressions m) "global_expressions" "flow_in_inc_eff"],
   inputs_known m ["base_tech"] && negb (smem "flow_out" (n_inputs (math_names m))) && negb (smem "flow_in" (n_inputs (math_names m)))).
Lemma net_read : map net_texts shipped = repeat
  ([Some (["nodes"; "carriers"; "timesteps"], whatever, [bus_eq]); Some (["techs"; "timesteps"], tech_is "transmission", [link_eq]);
    Some (four, WName "flow_out", out_eqs); Some (four, WName "flow_in", in_eqs)],
   true) 15.
Proof. vm_compute; reflexivity. Qed.
Lemma net_text files : In files shipped -> net_texts files =
  ([Some (["nodes"; "carriers"; "timesteps"], whatever, [bus_eq]); Some (["techs"; "timesteps"], tech_is "transmission", [link_eq]);
    Some (four, WName "flow_out", out_eqs); Some (four, WName "flow_in", in_eqs)],
   true).
Proof. intros H; apply (in_map net_texts) in H; rewrite net_read in H; apply repeat_spec in H; exact H. Qed.
Definition text_of (i : nat) (x : list (option (list string * wexpr * list peq)) * bool) := nth i (fst x) None.
Lemma bus_text files : In files shipped -> read_in (layered files) (h_constraints (layered files)) "constraints" "system_balance" = Some (["nodes"; "carriers"; "timesteps"], whatever, [bus_eq]).
Proof. intros H; exact (f_equal (text_of 0) (net_text files H)). Qed.
Lemma link_text files : In files shipped -> read_in (layered files) (h_constraints (layered files)) "constraints" "balance_transmission" = Some (["techs"; "timesteps"], tech_is "transmission", [link_eq]).
Proof. intros H; exact (f_equal (text_of 1) (net_text files H)). Qed.
Lemma out_text files : In files shipped -> read_in (layered files) (h_expressions (layered files)) "global_expressions" "flow_out_inc_eff" = Some (four, WName "flow_out", out_eqs).
Proof. intros H; exact (f_equal (text_of 2) (net_text files H)). Qed.
Lemma in_text files : In files shipped -> read_in (layered files) (h_expressions (layered files)) "global_expressions" "flow_in_inc_eff" = Some (four, WName "flow_in", in_eqs).
Proof. intros H; exact (f_equal (text_of 3) (net_text files H)). Qed.
Definition known (files : list math_file) : bool :=
  inputs_known (layered files) ["base_tech"] && negb (smem "flow_out" (n_inputs (math_names (layered files)))) && negb (smem "flow_in" (n_inputs (math_names (layered files)))).
Lemma known_text files : In files shipped -> known files = true.
Proof. intros H; exact (f_equal snd (net_text files H)). Qed.
Lemma find_name l s c : find_in l s = Some c -> c_name c = s.
Proof. unfold find_in; intros H; apply find_some in H as (_ & H); apply String.eqb_eq, H. Qed.
Lemma base_known files : In files shipped -> smem "base_tech" (LangModel.n_dims (math_names (layered files))) = false /\ smem "base_tech" (n_inputs (math_names (layered files))) = true.
Proof.
  intros H; apply known_text in H; unfold known, inputs_known in H; rewrite !andb_true_iff, !negb_true_iff in H; destruct H as (((_ & H) & _) & _); cbn [forallb] in H; rewrite !andb_true_iff, negb_true_iff in H; tauto.
Qed.
Lemma flows_known files s : In files shipped -> s = "flow_out" \/ s = "flow_in" -> smem s (n_inputs (math_names (layered files))) = false.
Proof. intros H IS; apply known_text in H; unfold known in H; rewrite !andb_true_iff, !negb_true_iff in H; destruct IS as [-> | ->]; tauto. Qed.
Lemma read_found m l group s c x : find_in l s = Some c -> read_in m l group s = Some x -> read_of m group c = Some x.
Proof. intros FC; unfold read_in; rewrite FC; auto. Qed.

(** * Values *)
Lemma one_number : number_cell false "1" = Val 1%Qc. Proof. vm_compute; f_equal; apply Qc_is_canon; reflexivity. Qed.
Lemma zero_number : number_cell false "0" = Val 0%Qc. Proof. vm_compute; f_equal; apply Qc_is_canon; reflexivity. Qed.
Lemma fits_sub (l l' : list (string * string)) x : fits l x -> incl l' l -> fits l' x.
Proof. intros FX I d v IN; apply FX, I, IN. Qed.
Lemma nodup_four : NoDup four. Proof. repeat constructor; cbn; intuition discriminate. Qed.
Lemma flow_keys n t c k : map fst (flow_at n t c k) = four. Proof. reflexivity. Qed.
Lemma fits_of fe p x l : same_on fe x p -> fits l p -> incl (map fst l) fe -> fits l x.
Proof. intros S FP I d v IN; rewrite S; [apply FP, IN|apply I; exact (in_map fst _ _ IN)]. Qed.
Lemma spot_fits l : NoDup (map fst l) -> fits l (spot l).
Proof. intros ND d v IN; apply spot_get; assumption. Qed.

Section Net.
Variable U : world.
Hypothesis NE : network U.
Let SD := proj1 (ne_proper U NE).
Let ND := proj2 (ne_proper U NE).

Lemma net_labels d : In d four -> labels U d <> [].
Proof. intros ID; apply (ne_populated U NE), (ne_dims U NE), ID. Qed.
Lemma flow_whole n t c k : In n (labels U "nodes") -> In t (labels U "techs") -> In c (labels U "carriers") -> In k (labels U "timesteps") ->
  exists p, whole U p /\ fits (flow_at n t c k) p.
Proof.
  intros I1 I2 I3 I4; destruct (whole_at U (flow_at n t c k) ND (ne_populated U NE)) as (p & WP & HP); [|exists p; split; assumption].
  split; [apply nodup_four|]; intros d x IN; split; [apply (ne_dims U NE); exact (in_map fst _ _ IN)|].
  destruct IN as [E|[E|[E|[E|[]]]]]; injection E as <- <-; assumption.
Qed.
Lemma matrix_at n t c p : p "nodes" = n -> p "techs" = t -> p "carriers" = c -> placed_at U n t c -> is_true (a_at (n_matrix (u_env U)) p) = true.
Proof.
  intros PN PT PC PL; unfold placed_at in PL; rewrite <- PL; f_equal; destruct SD as (_ & _ & _ & _ & _ & LM); apply LM.
  intros d ID; apply (ne_matrix U NE) in ID; destruct ID as [<- |[<- |[<- |[]]]]; [rewrite PN|rewrite PT|rewrite PC]; reflexivity.
Qed.
Lemma net_number s l : In s (flows ++ slacks) -> number U s l.
Proof.
  intros IS; unfold number, value_at; destruct (ne_number U NE s (spot l) IS) as [E|(q & E)]; rewrite E; [|exists q; reflexivity].
  rewrite (ne_default U NE); [exists 0%Qc; reflexivity|]; rewrite app_assoc; apply in_or_app; left; exact IS.
Qed.
Lemma flow_value s x n t c k : In s flows -> fits (flow_at n t c k) x -> entry_of (u_env U) (EName s) x = Val (flow U s n t c k).
Proof.
  intros IS FX; pose proof (net_number s (flow_at n t c k) (in_or_app _ _ _ (or_introl IS))) as NU.
  destruct (ne_flow U NE s IS) as [HD|NO].
  - apply name_number; [exact SD|exact FX|apply nodup_four| |exact NU]; intros d ID; apply HD, ID.
  - unfold flow; rewrite <- (number_amount _ _ _ NU); cbn [entry_of]; unfold value_at; rewrite !NO; reflexivity.
Qed.
Lemma slack_value s x n c k : In s slacks -> fits (bus_at n c k) x -> entry_of (u_env U) (EName s) x = Val (slack U s n c k).
Proof.
  intros IS FX; apply name_number; [exact SD|exact FX|repeat constructor; cbn; intuition discriminate|apply (ne_slack U NE s IS)|].
  apply net_number, in_or_app; right; exact IS.
Qed.
Lemma flow_missing s l : In s flows -> ~ is_there U s l -> amount U s l = 0%Qc.
Proof.
  intros IS NT; unfold amount, value_at; unfold is_there in NT; destruct (a_at _ _) eqn:E; try (exfalso; apply NT; discriminate).
  rewrite (ne_default U NE) by (apply in_or_app; left; exact IS); reflexivity.
Qed.
Lemma slack_missing s l : In s slacks -> ~ is_there U s l -> amount U s l = 0%Qc.
Proof.
  intros IS NT; unfold amount, value_at; unfold is_there in NT; destruct (a_at _ _) eqn:E; try (exfalso; apply NT; discriminate).
  rewrite (ne_default U NE) by (apply in_or_app; right; apply in_or_app; left; exact IS); reflexivity.
Qed.
Lemma techs_sum s x n c k : In s flows -> fits (bus_at n c k) x -> entry_of (u_env U) (over_dim s "techs") x = Val (over_techs U (fun t => flow U s n t c k)).
Proof.
  intros IS FX; destruct (in_dec string_dec "techs" (a_dims (n_array (u_env U) s))) as [IT|NT].
  - apply sum_one; [reflexivity|exact IT|apply net_labels; cbn; auto|]; intros t _; apply flow_value; [exact IS|].
    apply (fits_sub (("techs", t) :: bus_at n c k)); [|intros y IY; cbn in IY |- *; tauto]; apply fits_put; [exact FX|cbn; intuition discriminate].
  - destruct (ne_flow U NE s IS) as [HD|NO]; [exfalso; apply NT, HD; cbn; auto|].
    assert (D0 : n_default (u_env U) s = Val 0%Qc) by (apply (ne_default U NE); apply in_or_app; left; exact IS).
    assert (Z : over_techs U (fun t => flow U s n t c k) = 0%Qc).
    { unfold over_techs; rewrite (sum_over_ext _ _ (fun _ => 0%Qc)); [apply sum_over_zero|]; intros t _; apply flow_missing; [exact IS|]; unfold is_there; rewrite NO; auto. }
    rewrite Z; unfold over_dim; cbn [entry_of names_of name_of option_map dims_in]; rewrite shared_none by (intros d [<- |[]]; exact NT); unfold spread; cbn [map CliModel.product puts]; rewrite NO, D0; reflexivity.
Qed.

Variable files : list math_file.
Hypothesis IF : In files shipped.
Let m := layered files.
Variable order : list string -> list string.
Hypothesis OR : lists_set order.

Lemma bus_step n c k : constraint_holds order m U "system_balance" -> In n (labels U "nodes") -> In c (labels U "carriers") -> In k (labels U "timesteps") ->
  (over_techs U (fun t => flow U "flow_out" n t c k) - over_techs U (fun t => flow U "flow_in" n t c k) - over_techs U (fun t => flow U "flow_export" n t c k)
   + (slack U "unmet_demand" n c k + slack U "unused_supply" n c k) = 0)%Qc.
Proof.
  intros (co & FC & HO) I1 I3 I4.
  assert (DEC : (exists t, In t (labels U "techs") /\ placed_at U n t c) \/ forall t, In t (labels U "techs") -> ~ placed_at U n t c).
  { unfold placed_at; induction (labels U "techs") as [|t l IH]; [right; intros t []|].
    destruct (is_true (a_at (n_matrix (u_env U)) (spot [("nodes", n); ("techs", t); ("carriers", c)]))) eqn:E; [left; exists t; split; [left; reflexivity|exact E]|].
    destruct IH as [(t' & IT & H)|H]; [left; exists t'; split; [right; exact IT|exact H]|right; intros t' [<- |IT]; [rewrite E; discriminate|apply H, IT]]. }
  destruct DEC as [(t & I2 & PL)|NO].
  - pose proof (read_found _ _ _ _ _ _ FC (bus_text files IF)) as RD.
    destruct (flow_whole n t c k I1 I2 I3 I4) as (p & WP & FP).
    assert (SUB : forall s, In s ["nodes"; "carriers"; "timesteps"] -> In s (u_dims U)) by (intros s IS; apply (ne_dims U NE); cbn in IS |- *; tauto).
    assert (N3 : NoDup ["nodes"; "carriers"; "timesteps"]) by (repeat constructor; cbn; intuition discriminate).
    destruct (constraint_says order m U co _ whatever [bus_eq] p bus_eq bus_side CEq (ENum false "0") HO OR RD N3 SUB WP) as (x & SX & R); [|reflexivity|left; reflexivity|reflexivity..|].
    + apply (matrix_at n t c); [apply FP; cbn; auto..|exact PL].
    + assert (FX : fits (bus_at n c k) x) by (apply (fits_of _ p x _ SX); [apply (fits_sub _ _ _ FP); intros y IY; cbn in IY |- *; tauto|intros y IY; exact IY]).
      change (side U bus_eq (ENum false "0") x) with (number_cell false "0") in R; rewrite zero_number in R.
      assert (E : side U bus_eq bus_side x = Val (over_techs U (fun t => flow U "flow_out" n t c k) - over_techs U (fun t => flow U "flow_in" n t c k) - over_techs U (fun t => flow U "flow_export" n t c k)
        + (slack U "unmet_demand" n c k + slack U "unused_supply" n c k))%Qc).
      { change (side U bus_eq bus_side x) with (op_cell (u_env U) OAdd (op_cell (u_env U) OSub (op_cell (u_env U) OSub (entry_of (u_env U) (over_dim "flow_out" "techs") x) (entry_of (u_env U) (over_dim "flow_in" "techs") x)) (entry_of (u_env U) (over_dim "flow_export" "techs") x))
          (op_cell (u_env U) OAdd (entry_of (u_env U) (EName "unmet_demand") x) (entry_of (u_env U) (EName "unused_supply") x))).
        rewrite !(techs_sum _ x n c k) by (try exact FX; cbn; auto); rewrite !(slack_value _ x n c k) by (try exact FX; cbn; auto); reflexivity. }
      rewrite E in R; exact R.
  - assert (Z : forall s, In s flows -> over_techs U (fun t => flow U s n t c k) = 0%Qc).
    { intros s IS; unfold over_techs; rewrite (sum_over_ext _ _ (fun _ => 0%Qc)); [apply sum_over_zero|]; intros t IT; apply flow_missing; [exact IS|]; intros TH; exact (NO t IT (ne_where U NE s n t c k IS TH)). }
    assert (Y : forall s, In s slacks -> slack U s n c k = 0%Qc).
    { intros s IS; apply slack_missing; [exact IS|]; intros TH; destruct (ne_where_slack U NE s n c k IS TH) as (t & IT & PL); exact (NO t IT PL). }
    rewrite !Z, !Y by (cbn; auto); ring.
Qed.

(** * Links *)
Variables oshare ishare : string -> string -> string -> string -> Qc.
Hypothesis LI : links U oshare ishare.

Lemma base_value t p : p "techs" = t -> value_in U "base_tech" p = value_at U "base_tech" (tech_at t).
Proof.
  intros PT; apply value_spot; [exact SD| |repeat constructor; cbn; tauto|exact (li_base U _ _ LI)]; intros d v [E|[]]; injection E as <- <-; exact PT.
Qed.
Lemma link_here t p : p "techs" = t -> weval (world_where (math_names m) U) (tech_is "transmission") p = true <-> is_link U t.
Proof. intros PT; destruct (base_known files IF) as (B1 & B2); fold m in B1, B2; rewrite (tech_says _ U _ p B1 B2), (base_value t p PT); reflexivity. Qed.
Lemma share_value s x n t c k : In s ["flow_out_eff"; "flow_out_parasitic_eff"; "flow_out_eff_per_distance"; "distance"; "flow_in_eff"; "flow_in_eff_per_distance"] ->
  number U s (flow_at n t c k) -> fits (flow_at n t c k) x -> entry_of (u_env U) (EName s) x = Val (amount U s (flow_at n t c k)).
Proof. intros IS NU FX; apply name_number; [exact SD|exact FX|apply nodup_four|exact (li_dims U _ _ LI s IS)|exact NU]. Qed.

Section Eff.
Variables n t c k : string.
Hypothesis I1 : In n (labels U "nodes").
Hypothesis I2 : In t (labels U "techs").
Hypothesis I3 : In c (labels U "carriers").
Hypothesis I4 : In k (labels U "timesteps").
Hypothesis IL : is_link U t.
Lemma product_four : In [n; t; c; k] (CliModel.product (map (n_labels (u_env U)) four)).
Proof. apply CliProofs.product_in; repeat constructor; assumption. Qed.
Lemma four_at : at_index four [n; t; c; k] = spot (flow_at n t c k).
Proof. exact (spot_at (flow_at n t c k)). Qed.

(** An expression that is [e] for links where the variable [v] exists. *)
Lemma eff_value s v name name' e e' qs q : s = "flow_out_inc_eff" \/ s = "flow_in_inc_eff" -> v = "flow_out" \/ v = "flow_in" ->
  read_in m (h_expressions m) "global_expressions" s = Some (four, WName v, qs) -> qs = [case_eq name (tech_is "transmission") e; case_eq name' (WNot (tech_is "transmission")) e'] ->
  plain_side four (case_eq name (tech_is "transmission") e) e = true ->
  (is_there U v (flow_at n t c k) -> forall x, fits (flow_at n t c k) x -> entry_of (u_env U) e x = Val q) ->
  (~ is_there U v (flow_at n t c k) -> q = 0%Qc) -> plug [] e = e ->
  expression_is order m U s -> number U s (flow_at n t c k) /\ amount U s (flow_at n t c k) = q.
Proof.
  intros HS HV RI EQS PS HE HZ PG (co & FC & DE); pose proof (find_name _ _ _ FC) as EN; pose proof (read_found _ _ _ _ _ _ FC RI) as RD.
  assert (SUB : forall d, In d four -> In d (u_dims U)) by (exact (ne_dims U NE)).
  assert (D0 : n_default (u_env U) s = Val 0%Qc) by (apply (ne_default U NE); destruct HS as [-> | ->]; cbn; auto 10).
  assert (AD : a_dims (n_array (u_env U) s) = four).
  { destruct DE as (r & _ & AD & _); rewrite EN in AD; rewrite AD; apply read_of_reads in RD as (FE & _); exact FE. }
  assert (IV : In v flows) by (destruct HV as [-> | ->]; cbn; auto).
  unfold number, amount, value_at; destruct (a_at (n_array (u_env U) v) (spot (flow_at n t c k))) as [|v'|v'|v'|v'] eqn:EV.
  - assert (NT : ~ is_there U v (flow_at n t c k)) by (unfold is_there; rewrite EV; auto).
    pose proof (expression_absent order m U co four (WName v) qs [n; t; c; k] DE OR RD SUB product_four) as AB.
    rewrite EN, four_at in AB; rewrite AB, D0; [cbn [fill worth]; split; [exists 0%Qc; reflexivity|symmetry; apply HZ, NT]|].
    intros p WP EP; apply not_true_iff_false; rewrite (name_there (math_names m) U v p (flows_known files v IF HV)); intros H; apply H; rewrite <- EV.
    destruct (ne_flow U NE v IV) as [HD|NO]; [|rewrite !NO; reflexivity].
    apply there_local; [exact SD|]; intros d ID; apply HD in ID; injection EP as E1 E2 E3 E4; destruct ID as [<- |[<- |[<- |[<- |[]]]]]; assumption.
  - assert (TH : is_there U v (flow_at n t c k)) by (unfold is_there; rewrite EV; discriminate).
    destruct (flow_whole n t c k I1 I2 I3 I4) as (p & WP & FP).
    destruct (expression_says order m U co four (WName v) qs p (case_eq name (tech_is "transmission") e) e DE OR RD nodup_four SUB WP) as (x & SX & R).
    + apply (matrix_at n t c); [apply FP; cbn; auto..|exact (ne_where U NE v n t c k IV TH)].
    + rewrite (name_there (math_names m) U v p (flows_known files v IF HV)); rewrite (there_local U v p (spot (flow_at n t c k)) SD); [rewrite EV; discriminate|].
      intros d ID; destruct (ne_flow U NE v IV) as [HD|NO]; [|rewrite NO in EV; discriminate]; apply HD in ID.
      rewrite (spot_get (flow_at n t c k) d (p d)); [reflexivity|apply nodup_four|]; cbn [flow_at In]; destruct ID as [<- |[<- |[<- |[<- |[]]]]]; [rewrite (FP "nodes" n) by (cbn; auto)|rewrite (FP "techs" t) by (cbn; auto)|rewrite (FP "carriers" c) by (cbn; auto)|rewrite (FP "timesteps" k) by (cbn; auto)]; auto.
    + rewrite EQS; left; reflexivity.
    + unfold applies; cbn [case_eq q_where forallb]; rewrite (proj2 (link_here t p (FP "techs" t (or_intror (or_introl eq_refl)))) IL); reflexivity.
    + reflexivity.
    + exact PS.
    + assert (FX : fits (flow_at n t c k) x) by (apply (fits_of four p x _ SX FP); intros d ID; exact ID).
      unfold side in R; cbn [case_eq q_subs arith_of flat_map] in R; rewrite PG, (HE TH x FX), EN in R.
      rewrite (there_local U s (spot (flow_at n t c k)) x SD), R; [split; [exists q; reflexivity|reflexivity]|].
      intros d ID; rewrite AD in ID; destruct ID as [<- |[<- |[<- |[<- |[]]]]]; [rewrite (FX "nodes" n) by (cbn; auto)|rewrite (FX "techs" t) by (cbn; auto)|rewrite (FX "carriers" c) by (cbn; auto)|rewrite (FX "timesteps" k) by (cbn; auto)]; reflexivity.
  - exfalso; destruct (ne_number U NE v (spot (flow_at n t c k)) (in_or_app _ _ _ (or_introl IV))) as [E|(y & E)]; rewrite EV in E; discriminate.
  - exfalso; destruct (ne_number U NE v (spot (flow_at n t c k)) (in_or_app _ _ _ (or_introl IV))) as [E|(y & E)]; rewrite EV in E; discriminate.
  - exfalso; destruct (ne_number U NE v (spot (flow_at n t c k)) (in_or_app _ _ _ (or_introl IV))) as [E|(y & E)]; rewrite EV in E; discriminate.
Qed.
Lemma power_value s x f : number U s (flow_at n t c k) -> number U "distance" (flow_at n t c k) ->
  In s ["flow_out_eff_per_distance"; "flow_in_eff_per_distance"] -> remains U (amount U s (flow_at n t c k)) (amount U "distance" (flow_at n t c k)) f ->
  fits (flow_at n t c k) x -> entry_of (u_env U) (distance_power s) x = Val f.
Proof.
  intros N1 N2 IS RE FX; change (entry_of (u_env U) (distance_power s) x) with (op_cell (u_env U) OPow (entry_of (u_env U) (EName s) x) (entry_of (u_env U) (EName "distance") x)).
  rewrite (share_value s x n t c k), (share_value "distance" x n t c k); auto; [exact (remains_pow (u_env U) U _ _ f eq_refl RE)|cbn; auto 6|destruct IS as [<- |[<- |[]]]; cbn; auto 7].
Qed.
Lemma out_value : expression_is order m U "flow_out_inc_eff" -> number U "flow_out_inc_eff" (flow_at n t c k) /\
  amount U "flow_out_inc_eff" (flow_at n t c k) = (flow U "flow_out" n t c k / oshare n t c k)%Qc.
Proof.
  refine (eff_value "flow_out_inc_eff" "flow_out" _ _ out_link out_plant out_eqs _ (or_introl eq_refl) (or_introl eq_refl) (out_text files IF) eq_refl eq_refl _ _ eq_refl).
  - intros TH x FX; destruct (li_out U _ _ LI n t c k I1 I2 I3 I4 IL TH) as ((NU & f & RE & EF) & NZ).
    change (entry_of (u_env U) out_link x) with (op_cell (u_env U) ODiv (entry_of (u_env U) (EName "flow_out") x)
      (op_cell (u_env U) OMul (op_cell (u_env U) OMul (entry_of (u_env U) (EName "flow_out_eff") x) (entry_of (u_env U) (EName "flow_out_parasitic_eff") x)) (entry_of (u_env U) (distance_power "flow_out_eff_per_distance") x))).
    rewrite (flow_value "flow_out" x n t c k) by (try exact FX; cbn; auto); rewrite !(share_value _ x n t c k) by (try exact FX; try (apply NU; cbn; auto); cbn; auto).
    rewrite (power_value "flow_out_eff_per_distance" x f) by (try exact FX; try exact RE; try (apply NU; cbn; auto); cbn; auto).
    rewrite !op_mul, <- EF; apply op_div, NZ.
  - intros NT; unfold flow; rewrite (flow_missing "flow_out" _ (or_introl eq_refl) NT); unfold Qcdiv; ring.
Qed.
Lemma in_value : expression_is order m U "flow_in_inc_eff" -> number U "flow_in_inc_eff" (flow_at n t c k) /\
  amount U "flow_in_inc_eff" (flow_at n t c k) = (flow U "flow_in" n t c k * ishare n t c k)%Qc.
Proof.
  refine (eff_value "flow_in_inc_eff" "flow_in" _ _ in_link in_plant in_eqs _ (or_intror eq_refl) (or_intror eq_refl) (in_text files IF) eq_refl eq_refl _ _ eq_refl).
  - intros TH x FX; destruct (li_in U _ _ LI n t c k I1 I2 I3 I4 IL TH) as (NU & f & RE & EF).
    change (entry_of (u_env U) in_link x) with (op_cell (u_env U) OMul (op_cell (u_env U) OMul (entry_of (u_env U) (EName "flow_in") x)
      (entry_of (u_env U) (EName "flow_in_eff") x)) (entry_of (u_env U) (distance_power "flow_in_eff_per_distance") x)).
    rewrite (flow_value "flow_in" x n t c k) by (try exact FX; cbn; auto); rewrite !(share_value _ x n t c k) by (try exact FX; try (apply NU; cbn; auto); cbn; auto 10).
    rewrite (power_value "flow_in_eff_per_distance" x f) by (try exact FX; try exact RE; try (apply NU; cbn; auto); cbn; auto).
    rewrite !op_mul, EF; f_equal; ring.
  - intros NT; unfold flow; rewrite (flow_missing "flow_in" _ (or_intror (or_introl eq_refl)) NT); ring.
Qed.
End Eff.

Lemma link_step t k : constraint_holds order m U "balance_transmission" -> expression_is order m U "flow_out_inc_eff" -> expression_is order m U "flow_in_inc_eff" ->
  In t (labels U "techs") -> In k (labels U "timesteps") -> is_link U t ->
  over_nodes U (fun n => over_carriers U (fun c => flow U "flow_out" n t c k / oshare n t c k)%Qc) =
  over_nodes U (fun n => over_carriers U (fun c => flow U "flow_in" n t c k * ishare n t c k)%Qc).
Proof.
  intros (co & FC & HO) EO EI I2 I4 IL; pose proof (read_found _ _ _ _ _ _ FC (link_text files IF)) as RD.
  assert (DEC : (exists n c, In n (labels U "nodes") /\ In c (labels U "carriers") /\ placed_at U n t c) \/ forall n c, In n (labels U "nodes") -> In c (labels U "carriers") -> ~ placed_at U n t c).
  { unfold placed_at; induction (labels U "nodes") as [|n l IH]; [right; intros n c []|].
    assert (D1 : (exists c, In c (labels U "carriers") /\ is_true (a_at (n_matrix (u_env U)) (spot [("nodes", n); ("techs", t); ("carriers", c)])) = true) \/
                 forall c, In c (labels U "carriers") -> is_true (a_at (n_matrix (u_env U)) (spot [("nodes", n); ("techs", t); ("carriers", c)])) <> true).
    { clear; induction (labels U "carriers") as [|c l IH]; [right; intros c []|].
      destruct (is_true (a_at (n_matrix (u_env U)) (spot [("nodes", n); ("techs", t); ("carriers", c)]))) eqn:E; [left; exists c; split; [left; reflexivity|exact E]|].
      destruct IH as [(c' & IT & H)|H]; [left; exists c'; split; [right; exact IT|exact H]|right; intros c' [<- |IT]; [rewrite E; discriminate|apply H, IT]]. }
    destruct D1 as [(c & IC & H)|H]; [left; exists n, c; split; [left; reflexivity|split; assumption]|].
    destruct IH as [(n' & c & IN & IC & H')|H']; [left; exists n', c; split; [right; exact IN|split; assumption]|right; intros n' c [<- |IN] IC; [apply H, IC|apply H'; assumption]]. }
  destruct DEC as [(n & c & I1 & I3 & PL)|NO].
  - destruct (flow_whole n t c k I1 I2 I3 I4) as (p & WP & FP).
    assert (SUB : forall s, In s ["techs"; "timesteps"] -> In s (u_dims U)) by (intros s IS; apply (ne_dims U NE); cbn in IS |- *; tauto).
    assert (N2 : NoDup ["techs"; "timesteps"]) by (repeat constructor; cbn; intuition discriminate).
    destruct (constraint_says order m U co _ (tech_is "transmission") [link_eq] p link_eq (over_dims "flow_out_inc_eff" "nodes" "carriers") CEq (over_dims "flow_in_inc_eff" "nodes" "carriers") HO OR RD N2 SUB WP) as (x & SX & R); [| |left; reflexivity|reflexivity..|].
    + apply (matrix_at n t c); [apply FP; cbn; auto..|exact PL].
    + apply (link_here t p); [apply FP; cbn; auto|exact IL].
    + assert (FX : fits [("techs", t); ("timesteps", k)] x) by (apply (fits_of _ p x _ SX); [apply (fits_sub _ _ _ FP); intros y IY; cbn in IY |- *; tauto|intros y IY; exact IY]).
      change (side U link_eq ?e x) with (entry_of (u_env U) e x) in R.
      assert (ES : forall s g, (forall n c, In n (labels U "nodes") -> In c (labels U "carriers") -> number U s (flow_at n t c k) /\ amount U s (flow_at n t c k) = g n c) -> a_dims (n_array (u_env U) s) = four ->
        entry_of (u_env U) (over_dims s "nodes" "carriers") x = Val (over_nodes U (fun n => over_carriers U (g n)))).
      { intros s g H AD; apply sum_two; [reflexivity|discriminate|cbn [dims_in]; rewrite AD; cbn; auto|cbn [dims_in]; rewrite AD; cbn; auto|apply net_labels; cbn; auto|apply net_labels; cbn; auto|].
        intros n' c' I1' I3'; destruct (H n' c' I1' I3') as (NU & EA); rewrite <- EA; apply name_number; [exact SD| |apply nodup_four|intros d ID; rewrite AD in ID; exact ID|exact NU].
        apply (fits_sub (("carriers", c') :: ("nodes", n') :: [("techs", t); ("timesteps", k)])); [|intros y IY; cbn in IY |- *; tauto].
        apply fits_put; [apply fits_put; [exact FX|cbn; intuition discriminate]|cbn; intuition discriminate]. }
      assert (AD : forall s v qs, expression_is order m U s -> read_in m (h_expressions m) "global_expressions" s = Some (four, v, qs) -> a_dims (n_array (u_env U) s) = four).
      { intros s v qs (co' & FC' & (r & _ & AD & _)) RI; rewrite (find_name _ _ _ FC') in AD; rewrite AD; pose proof (read_found _ _ _ _ _ _ FC' RI) as RD'; apply read_of_reads in RD' as (FE & _); exact FE. }
      rewrite (ES "flow_out_inc_eff" (fun n c => flow U "flow_out" n t c k / oshare n t c k)%Qc) in R; [|intros n' c' I1' I3'; apply out_value; assumption|exact (AD _ _ _ EO (out_text files IF))].
      rewrite (ES "flow_in_inc_eff" (fun n c => flow U "flow_in" n t c k * ishare n t c k)%Qc) in R; [exact R|intros n' c' I1' I3'; apply in_value; assumption|exact (AD _ _ _ EI (in_text files IF))].
  - assert (Z : forall s n c, In s flows -> In n (labels U "nodes") -> In c (labels U "carriers") -> flow U s n t c k = 0%Qc).
    { intros s n c IS I1 I3; apply flow_missing; [exact IS|]; intros TH; exact (NO n c I1 I3 (ne_where U NE s n t c k IS TH)). }
    unfold over_nodes, over_carriers; apply sum_over_ext; intros n IN; apply sum_over_ext; intros c IC; rewrite !Z by (try assumption; cbn; auto); unfold Qcdiv; ring.
Qed.
End Net.
