(** Lemmas on costs. *)
From Coq Require Import QArith Qcanon Lia.
From Verif Require Import Base BaseProofs LangModel MathText EvalModel EvalSpec BuildModel BuildSpec BuildProofs BuildEqs
  HelperModel HelperSpec ShipModel ShipSpec ShipProofs ShipEntry ShipStorage ShipNumbers NetSpec NetProofs PlaceSpec ShipPlace RuleText RuleProofs CostSpec CostText.
From Verif Require CliModel.
Local Open Scope nat_scope.
Local Open Scope string_scope.
Local Open Scope list_scope.
Local Arguments String.eqb : simpl never.

(** * Values of expressions *)
Section Values.
Variable D : denv.
Lemma chain_one e o a x p q r : entry_of D e x = Val p -> entry_of D a x = Val q -> op_cell D o (Val p) (Val q) = Val r -> entry_of D (EChain e [(o, a)]) x = Val r.
Proof. intros E1 E2 E3; rewrite entry_chain, E1, E2; exact E3. Qed.
Lemma chain_more e o a o' b ops x p q r' r : entry_of D e x = Val p -> entry_of D a x = Val q -> op_cell D o (Val p) (Val q) = Val r' ->
  (forall e', entry_of D e' x = Val r' -> entry_of D (EChain e' ((o', b) :: ops)) x = Val r) -> entry_of D (EChain e ((o, a) :: (o', b) :: ops)) x = Val r.
Proof.
  intros E1 E2 E3 H; specialize (H (EChain e [(o, a)]) ltac:(rewrite entry_chain, E1, E2; exact E3)); rewrite <- H; cbn [entry_of fold_left fst snd]; rewrite ?E1, ?E2; reflexivity.
Qed.
Lemma sum_on e o d x g r : names_of o = Some [d] -> In d (dims_in D e) -> n_labels D d <> [] ->
  (forall v, In v (n_labels D d) -> entry_of D e (put x d v) = Val (g v)) -> sum_over (n_labels D d) g = r -> entry_of D (EFun "sum" [e] [("over", o)]) x = Val r.
Proof. intros NO ID NE H <-; apply sum_one; assumption. Qed.
Lemma sum_on2 e o d d' x g r : names_of o = Some [d; d'] -> d <> d' -> In d (dims_in D e) -> In d' (dims_in D e) -> n_labels D d <> [] -> n_labels D d' <> [] ->
  (forall v v', In v (n_labels D d) -> In v' (n_labels D d') -> entry_of D e (put (put x d v) d' v') = Val (g v v')) ->
  sum_over (n_labels D d) (fun v => sum_over (n_labels D d') (g v)) = r -> entry_of D (EFun "sum" [e] [("over", o)]) x = Val r.
Proof. intros NO ND I1 I2 N1 N2 H <-; apply sum_two; assumption. Qed.
Lemma sum_none e o ds x r : names_of o = Some ds -> (forall d, In d ds -> ~ In d (dims_in D e)) -> entry_of D e x = Val r -> entry_of D (EFun "sum" [e] [("over", o)]) x = Val r.
Proof.
  intros NO NI E; cbn [entry_of]; rewrite NO; assert (SH : shared ds (dims_in D e) = []).
  { destruct (shared ds (dims_in D e)) as [|d l] eqn:S; [reflexivity|]; exfalso; assert (ID : In d (shared ds (dims_in D e))) by (rewrite S; left; reflexivity).
    unfold shared in ID; apply filter_In in ID as (I1 & I2); apply nodup_In in I1; apply smem_in in I2; exact (NI d I1 I2). }
  rewrite SH; unfold spread; cbn [map CliModel.product puts]; pose proof (total_numbers D [""] (fun _ => entry_of D e x) (fun _ => r) ltac:(discriminate) (fun _ _ => E)) as T.
  cbn [map] in T; unfold sum_over in T; cbn [fold_right] in T; rewrite Qcplus_0_r in T; exact T.
Qed.
End Values.

Ltac op := first [apply op_mul | apply op_add | apply op_sub | apply op_div; assumption].
Ltac fitting FX :=
  let d := fresh "d" in let v := fresh "v" in let H := fresh "H" in intros d v H; cbn [In] in H;
  repeat (destruct H as [H|H]; [injection H as <- <-; unfold put;
    repeat (match goal with |- context [String.eqb ?a ?b] => let r := eval vm_compute in (String.eqb a b) in change (String.eqb a b) with r end); cbv iota;
    first [reflexivity | apply FX; cbn; tauto]|]); destruct H.
Lemma numeric_here U s l x : numeric U s l -> NoDup (map fst l) -> fits l x -> sound (u_env U) -> entry_of (u_env U) (EName s) x = Val (amount U s l).
Proof. intros NU ND FX SD; apply numeric_entry; assumption. Qed.
Ltac num :=
  first [eassumption
    | match goal with H : forall v, In v _ -> numeric _ ?s _ |- numeric _ ?s _ => eapply H; eassumption end
    | match goal with H : numeric_over _ ?s _ _ |- numeric _ ?s _ => eapply (proj2 H); eassumption end
    | match goal with H : forall v v', In v _ -> In v' _ -> numeric _ ?s _ |- numeric _ ?s _ => eapply H; eassumption end
    | match goal with H : forall v v' v2, In v _ -> In v' _ -> In v2 _ -> numeric _ ?s _ |- numeric _ ?s _ => eapply H; eassumption end ].
Ltac spans := cbn [dims_in flat_map app snd]; rewrite ?in_app_iff; match goal with H : numeric_over _ _ _ _ |- _ => pose proof (proj1 H); spans | _ => idtac end.
Ltac has := cbn [dims_in flat_map app snd]; rewrite ?in_app_iff; repeat match goal with H : numeric_over _ _ _ _ |- _ => apply proj1 in H end; tauto.
Lemma number_is neg s q c : number_cell neg s = Val c -> Qeq (this c) q -> number_cell neg s = Val (Q2Qc q).
Proof. intros -> E; f_equal; apply Qc_is_canon; rewrite E; symmetry; apply Qred_correct. Qed.
Lemma year_number : number_cell false "8760" = Val (Q2Qc 8760). Proof. vm_compute; f_equal; apply Qc_is_canon; reflexivity. Qed.
Lemma half_number : number_cell false "0.5" = Val (Q2Qc (1 # 2)). Proof. vm_compute; f_equal; apply Qc_is_canon; reflexivity. Qed.
Ltac vals SD FX :=
  lazymatch goal with
  | |- entry_of _ (EName _) _ = _ => eapply numeric_here; [num|apart|fitting FX|exact SD]
  | |- entry_of _ (ENum _ _) _ = _ => cbn [entry_of]; first [exact one_number | exact zero_number | exact year_number | exact half_number]
  | |- entry_of _ (EFun "sum" _ [("over", EName _)]) _ = _ =>
      eapply sum_on; [reflexivity|has|assumption|let v := fresh "v" in let IV := fresh "IV" in intros v IV; vals SD FX|reflexivity]
  | |- entry_of _ (EFun "sum" _ [("over", EList [_; _])]) _ = _ =>
      eapply sum_on2; [reflexivity|discriminate|has|has|assumption|assumption
        |let v := fresh "v" in let IV := fresh "IV" in let v' := fresh "v" in let IV' := fresh "IV" in intros v v' IV IV'; vals SD FX|reflexivity]
  | |- entry_of _ (EChain _ [_]) _ = _ => eapply chain_one; [vals SD FX|vals SD FX|op]
  | |- entry_of _ (EChain _ (_ :: _ :: _)) _ = _ => eapply chain_more; [vals SD FX|vals SD FX|op|let e := fresh "e" in let E := fresh "E" in intros e E; vals SD FX]
  | _ => eassumption
  end.

(** Prices times amounts. *)
Lemma bill_entry U price use d o l x : sound (u_env U) -> NoDup (map fst l) -> ~ In d (map fst l) -> fits l x -> names_of o = Some [d] -> labels U d <> [] -> billed U price use d l ->
  entry_of (u_env U) (EFun "sum" [EChain (EName price) [(OMul, EName use)]] [("over", o)]) x = Val (bill U price use d l).
Proof.
  intros SD ND NI FX NO NE (NB & DI).
  assert (AT : forall v, In v (labels U d) -> entry_of (u_env U) (EChain (EName price) [(OMul, EName use)]) (put x d v) = Val (amount U price ((d, v) :: l) * amount U use ((d, v) :: l))%Qc).
  { intros v IV; destruct (NB v IV) as (N1 & N2); eapply chain_one; [apply (numeric_here U price ((d, v) :: l))|apply (numeric_here U use ((d, v) :: l))|op];
      try assumption; try (constructor; assumption); apply fits_put; assumption. }
  destruct (in_dec string_dec d (dims_in (u_env U) (EChain (EName price) [(OMul, EName use)]))) as [ID|NID].
  - exact (sum_one (u_env U) _ o d x _ NO ID NE AT).
  - cbn [dims_in flat_map app snd] in NID; rewrite app_nil_r, in_app_iff in NID.
    assert (ZU : forall v, In v (labels U d) -> amount U use ((d, v) :: l) = 0%Qc) by (destruct DI as [DI|[DI|DI]]; [exfalso; tauto..|exact DI]).
    assert (EB : bill U price use d l = 0%Qc).
    { unfold bill; rewrite (sum_over_ext _ _ (fun _ => 0%Qc)); [apply sum_over_zero|]; intros v IV; rewrite (ZU v IV); ring. }
    rewrite EB; apply (sum_none (u_env U) _ o [d]); [exact NO| |].
    + intros d' [<-|[]]; cbn [dims_in flat_map app snd]; rewrite app_nil_r, in_app_iff; exact NID.
    + destruct (labels U d) as [|v r] eqn:EL; [congruence|]; assert (IV : In v (v :: r)) by (left; reflexivity); specialize (AT v IV); rewrite (ZU v IV), Qcmult_0_r in AT; rewrite <- AT.
      assert (NM : forall s, ~ In d (a_dims (n_array (u_env U) s)) -> entry_of (u_env U) (EName s) x = entry_of (u_env U) (EName s) (put x d v)).
      { intros s NS; cbn [entry_of]; f_equal; apply (proj1 (proj2 SD)); intros d' ID; unfold put; destruct (String.eqb d' d) eqn:E; [apply String.eqb_eq in E; subst; contradiction|reflexivity]. }
      rewrite !entry_chain, !NM by tauto; reflexivity.
Qed.

(** * Costs *)
Definition flow_keys : list string := ["nodes"; "techs"; "carriers"; "costs"; "timesteps"].
Definition value_text (F : list (string * fact)) (t : text) (keys : list string) (i : nat) : expr := match value_of F None t keys i with Some e => e | None => ENum false "" end.
Definition run_expr (b : string) : expr := value_text [("base_tech", Is (Txt b)); ("cost_export", Given)] (nth 0 variable_texts no_text) flow_keys (if String.eqb b "supply" then 0 else 1).
Lemma run_cases tx b s : In tx variable_texts -> In b base_kinds -> In s running_prices ->
  fe_of tx = ["nodes"; "techs"; "costs"; "timesteps"] /\ value_of [("base_tech", Is (Txt b)); (s, Given)] None tx flow_keys (if String.eqb b "supply" then 0 else 1) = Some (run_expr b).
Proof.
  pose (f := fun x : text * string * string => (fe_of (fst (fst x)), value_of [("base_tech", Is (Txt (snd (fst x)))); (snd x, Given)] None (fst (fst x)) flow_keys (if String.eqb (snd (fst x)) "supply" then 0 else 1))).
  pose (g := fun x : text * string * string => (["nodes"; "techs"; "costs"; "timesteps"], Some (run_expr (snd (fst x))))).
  assert (H : map f (list_prod (list_prod variable_texts base_kinds) running_prices) = map g (list_prod (list_prod variable_texts base_kinds) running_prices)) by (vm_compute; reflexivity).
  intros IT IB IS; pose proof (proj1 map_ext_in_iff H) as H0; clear H; rename H0 into H; specialize (H (tx, b, s) (in_prod _ _ _ _ (in_prod _ _ _ _ IT IB) IS)); unfold f, g in H; cbn [fst snd] in H; injection H as H1 H2; auto.
Qed.
Lemma fact_known_base files b : In files shipped -> fact_known (math_names (layered files)) ("base_tech", Is (Txt b)).
Proof. intros IF; refine (input_of _ _ IF _); cbn; tauto. Qed.
Section Costs.
Variable order : list string -> list string.
Hypothesis OR : lists_set order.
Variable files : list math_file.
Hypothesis IF : In files shipped.
Variable U : world.

Lemma rule_amount l l' F tx i co s e q : sited U l -> (forall p, fits l p -> Forall (fact_in U p) F) -> Forall (fact_known (math_names (layered files))) F ->
  told order (layered files) "global_expressions" co (fe_of tx) (where_of tx) (eqs_of tx) -> find_in (h_expressions (layered files)) s = Some co -> defined_in order (layered files) U co -> value_of F None tx (map fst l) i = Some e ->
  cut (fe_of tx) l = l' -> (forall x, fits l' x -> entry_of (u_env U) e x = Val q) ->
  numeric U s l' /\ a_at (n_array (u_env U) s) (spot l') = Val q /\ amount U s l' = q.
Proof.
  intros SI FI FK TO FC DE VO <- EV; destruct (rule_number order U (layered files) l F None tx i co s e q SI FI FK ltac:(no_start) TO DE (find_name _ _ _ FC) VO EV) as (WD & E).
  split; [split; [exact WD|exists q; unfold value_at; rewrite E; reflexivity]|split; [exact E|unfold amount, value_at; rewrite E; reflexivity]].
Qed.
Lemma bills n t o k price use x : sound (u_env U) -> labels U "carriers" <> [] -> fits (class_step n t o k) x -> billed U price use "carriers" (class_step n t o k) ->
  entry_of (u_env U) (EFun "sum" [EChain (EName price) [(OMul, EName use)]] [("over", EName "carriers")]) x = Val (bill U price use "carriers" (class_step n t o k)).
Proof. intros SD LC FX B; apply bill_entry; try assumption; [apart|cbn; intuition discriminate|reflexivity]. Qed.
Lemma running_is n t b c o k : sited U (class_flow n t c o k) -> kind U t b -> (exists s, In s running_prices /\ given U s (class_flow n t c o k)) -> metered U n t b o k ->
  expression_is order (layered files) U "cost_operation_variable" ->
  numeric U "cost_operation_variable" (class_step n t o k) /\ amount U "cost_operation_variable" (class_step n t o k) = running_cost U n t b o k.
Proof.
  intros SI (KB & BT) (s & IS & GS) (NW & B1 & B2 & B3) (co & FC & DE); pose proof (proj1 (proj1 SI)) as SD.
  assert (LC : labels U "carriers" <> []) by (apply (site_labels U _ _ SI); cbn; tauto).
  destruct (each_read order "global_expressions" variable_refs "cost_operation_variable" variable_texts shipped 15 files co OR variable_read ltac:(discriminate) IF FC) as (tx & IT & TO).
  destruct (run_cases tx b s IT KB IS) as (FE & VO).
  destruct (rule_amount (class_flow n t c o k) (class_step n t o k) [("base_tech", Is (Txt b)); (s, Given)] tx (if String.eqb b "supply" then 0 else 1) co "cost_operation_variable" (run_expr b) (running_cost U n t b o k) SI
    ltac:(facts SD) ltac:(knowns IF) TO FC DE VO ltac:(rewrite FE; reflexivity)) as (H1 & _ & H2).
  - intros x FX; unfold running_cost; pose proof (bills n t o k _ _ x SD LC FX B1) as E1; pose proof (bills n t o k _ _ x SD LC FX B2) as E2.
    destruct (String.eqb b "supply") eqn:SB.
    + apply String.eqb_eq in SB; subst b; let e := eval vm_compute in (run_expr "supply") in change (run_expr "supply") with e; destruct B3 as (N1 & N2).
      eapply chain_one; [vals SD FX| |op]; eapply chain_more; [exact E1|exact E2|op|]; intros e E; vals SD FX.
    + pose proof (bills n t o k _ _ x SD LC FX B3) as E3.
      assert (RE : run_expr b = run_expr "demand") by (repeat (destruct KB as [<-|KB]; [first [discriminate SB|reflexivity]|]); destruct KB).
      rewrite RE; let e := eval vm_compute in (run_expr "demand") in change (run_expr "demand") with e.
      eapply chain_one; [vals SD FX| |op]; eapply chain_more; [exact E1|exact E2|op|]; intros e E; eapply chain_one; [exact E|exact E3|op].
  - split; assumption.
Qed.

Lemma map_eq_in (p : pos) (l : list (string * string)) : map p (map fst l) = map snd l -> forall d x, In (d, x) l -> p d = x.
Proof. induction l as [|(d' & v) l IH]; intros H d x IX; [destruct IX|]; cbn [map fst snd] in H; injection H as H1 H2; destruct IX as [E|IX]; [injection E as <- <-; exact H1|apply IH; assumption]. Qed.
(** Where the condition never holds there is nothing. *)
Lemma rule_zero l tx co s : proper U -> placed U l -> NoDup (fe_of tx) -> map fst l = fe_of tx -> (forall x, In x (fe_of tx) -> In x (u_dims U)) ->
  told order (layered files) "global_expressions" co (fe_of tx) (where_of tx) (eqs_of tx) -> find_in (h_expressions (layered files)) s = Some co -> defined_in order (layered files) U co ->
  (forall p, whole U p -> fits l p -> weval (world_where (math_names (layered files)) U) (where_of tx) p = false) ->
  within_dims U s (map fst l) /\ a_at (n_array (u_env U) s) (spot l) = Miss.
Proof.
  intros PU PL ND KE SUB TO FC DE NO; pose proof (find_name _ _ _ FC) as EN; destruct TO as (FE & PW & PE); destruct DE as (r & B & AD & SAT); rewrite EN in AD, SAT.
  split; [intros d ID; rewrite AD, FE, <- KE in ID; exact ID|].
  pose (f := map snd l); assert (IN : In f (CliModel.product (map (n_labels (u_env U)) (c_foreach co)))).
  { rewrite FE, <- KE; unfold f; destruct PL as (_ & PL); clear -PL; induction l as [|(d & v) l IH]; [left; reflexivity|]; cbn [map CliModel.product fst snd]; apply in_flat_map; exists v.
    split; [exact (proj2 (PL d v (or_introl eq_refl)))|]; apply in_map, IH; intros d' x H; apply PL; right; exact H. }
  assert (CO : List.combine (map fst l) (map snd l) = l) by (clear; induction l as [|(d & v) l IH]; [reflexivity|]; cbn [map List.combine fst snd]; rewrite IH; reflexivity).
  assert (SAME : at_index (c_foreach co) f = spot l) by (unfold at_index, spot, f; rewrite FE, <- KE, CO; reflexivity).
  specialize (SAT f IN); rewrite SAME in SAT; rewrite <- FE in SUB.
  destruct (build_entries order (layered files) U "global_expressions" co r _ _ B SUB PW PE) as (_ & K).
  destruct (a_at (n_array (u_env U) s) (spot l)) as [|u|u|u|u] eqn:EA; [reflexivity|exfalso..].
  all: destruct (K f IN) as (i & q & wd & v & (II & MX & HW) & _ & EF & _); [rewrite SAT; reflexivity|]; rewrite (NO (at_index (u_dims U) i)) in HW; [discriminate|exists i; split; [exact II|reflexivity]|].
  all: intros d x IX; rewrite FE, <- KE in EF; unfold f in EF; apply (map_eq_in (at_index (u_dims U) i) l EF d x IX).
Qed.
End Costs.

(** * Investments *)
Definition cost_text (i : nat) : text := nth i cost_texts no_text.
Section Planning.
Variable order : list string -> list string.
Hypothesis OR : lists_set order.
Variable files : list math_file.
Hypothesis IP : In files planning.
Let IF : In files shipped := planning_shipped files IP.
Variable U : world.
Let m := layered files.

Lemma cost_told i s c : nth_error cost_names i = Some s -> find_in (h_expressions m) s = Some c ->
  told order m "global_expressions" c (fe_of (cost_text i)) (where_of (cost_text i)) (eqs_of (cost_text i)).
Proof. exact (listed_told order OR files "global_expressions" cost_names cost_texts planning 10 i s c cost_read eq_refl IP). Qed.
Lemma sited_placed l : sited U l -> proper U /\ placed U l /\ forall x, In x (map fst l) -> In x (u_dims U).
Proof. intros (H1 & _ & H2 & _); split; [exact H1|split; [exact H2|]]; intros x IX; apply in_map_iff in IX as ((d & v) & <- & IN); exact (proj1 (proj2 H2 d v IN)). Qed.
Lemma cut_nodup fe (l : list (string * string)) : NoDup (map fst l) -> NoDup (map fst (cut fe l)).
Proof.
  unfold cut; induction l as [|x l IH]; intros ND; [constructor|]; inversion ND as [|? ? NI ND']; subst; cbn [filter]; destruct (smem (fst x) fe); [|apply IH, ND'].
  cbn [map]; constructor; [|apply IH, ND']; intros H; apply NI; apply in_map_iff in H as (y & E & IY); apply filter_In in IY as (IY & _); rewrite <- E; apply in_map, IY.
Qed.
Lemma rule_free l l' F tx co s : sited U l -> (forall p, fits l' p -> Forall (fact_in U p) F) -> Forall (fact_known (math_names m)) F ->
  told order m "global_expressions" co (fe_of tx) (where_of tx) (eqs_of tx) -> find_in (h_expressions m) s = Some co -> defined_in order m U co -> cond3 F None (where_of tx) = Some false ->
  cut (fe_of tx) l = l' -> map fst l' = fe_of tx -> ledger U s ->
  numeric U s l' /\ amount U s l' = 0%Qc.
Proof.
  intros SI FI FK TO FC DE CW CU KE (DF & _ & _); destruct (sited_placed l SI) as (PU & PL & SUB); assert (INC : forall d v, In (d, v) l' -> In (d, v) l) by (intros d v IN; rewrite <- CU in IN; apply cut_in in IN; exact (proj1 IN)).
  assert (PL' : placed U l').
  { split; [rewrite <- CU; apply cut_nodup, (proj1 PL)|]; intros d v IN; apply (proj2 PL), (INC d v IN). }
  destruct (rule_zero order files U l' tx co s PU PL') as (WD & E); try assumption.
  - rewrite <- KE; exact (proj1 PL').
  - intros x IX; rewrite <- KE in IX; apply in_map_iff in IX as ((d & v) & <- & IN); exact (proj1 (proj2 PL' d v IN)).
  - intros p WP FP; exact (cond3_sound (math_names m) U F p (FI p FP) FK None ltac:(intros b H; discriminate) _ _ CW).
  - split; [split; [exact WD|exists 0%Qc; unfold value_at; rewrite E; exact DF]|unfold amount, value_at; rewrite E; cbn [fill]; rewrite DF; reflexivity].
Qed.

Ltac fact_absent_or H := first [exact (or_introl H)|exact (or_intror H)].
Ltac part_tac i price what :=
  let n := fresh "n" in let t := fresh "t" in let c := fresh "c" in let o := fresh "o" in let q := fresh "q" in
  intros n t c o q SI CH (co & FC & DE) LE; pose proof (proj1 (proj1 SI)) as SD; pose proof (cost_told i _ _ eq_refl FC) as TO;
  destruct CH as [(GP & GW & ->)|([AB|AB] & ->)];
  [ let e := eval vm_compute in (value_text [(price, Given); (what, Given)] (cost_text i) ["nodes"; "techs"; "carriers"; "costs"] 0) in
    pose proof (given_numeric _ _ _ GP) as N1; pose proof (given_numeric _ _ _ GW) as N2;
    destruct (rule_amount order files U (class_cap n t c o) (class_at n t o) [(price, Given); (what, Given)] (cost_text i) 0 co _ e
      (amount U price (class_at n t o) * amount U what (class_at n t o))%Qc SI ltac:(facts SD) ltac:(knowns IF) TO FC DE ltac:(vm_compute; reflexivity) ltac:(reflexivity)) as (H1 & _ & H2);
    [intros x FX; vals SD FX|split; assumption]
  | refine (rule_free (class_cap n t c o) (class_at n t o) [(price, Absent)] (cost_text i) co _ SI ltac:(facts SD) ltac:(knowns IF) TO FC DE ltac:(vm_compute; reflexivity) ltac:(reflexivity) ltac:(reflexivity) LE)
  | refine (rule_free (class_cap n t c o) (class_at n t o) [(what, Absent)] (cost_text i) co _ SI ltac:(facts SD) ltac:(knowns IF) TO FC DE ltac:(vm_compute; reflexivity) ltac:(reflexivity) ltac:(reflexivity) LE) ].
Lemma storage_part : forall n t c o q, sited U (class_cap n t c o) -> charged U "cost_storage_cap" "storage_cap" (class_at n t o) q ->
  expression_is order m U "cost_investment_storage_cap" -> ledger U "cost_investment_storage_cap" ->
  numeric U "cost_investment_storage_cap" (class_at n t o) /\ amount U "cost_investment_storage_cap" (class_at n t o) = q.
Proof. part_tac 1 "cost_storage_cap" "storage_cap". Qed.
Lemma source_part : forall n t c o q, sited U (class_cap n t c o) -> charged U "cost_source_cap" "source_cap" (class_at n t o) q ->
  expression_is order m U "cost_investment_source_cap" -> ledger U "cost_investment_source_cap" ->
  numeric U "cost_investment_source_cap" (class_at n t o) /\ amount U "cost_investment_source_cap" (class_at n t o) = q.
Proof. part_tac 2 "cost_source_cap" "source_cap". Qed.
Lemma area_part : forall n t c o q, sited U (class_cap n t c o) -> charged U "cost_area_use" "area_use" (class_at n t o) q ->
  expression_is order m U "cost_investment_area_use" -> ledger U "cost_investment_area_use" ->
  numeric U "cost_investment_area_use" (class_at n t o) /\ amount U "cost_investment_area_use" (class_at n t o) = q.
Proof. part_tac 3 "cost_area_use" "area_use". Qed.
Definition cap_keys : list string := ["nodes"; "techs"; "carriers"; "costs"].
Definition cap_expr (b : string) : expr := value_text [("base_tech", Is (Txt b)); ("flow_cap", Given); ("cost_flow_cap", Given)] (cost_text 0) cap_keys (if String.eqb b "transmission" then 0 else 1).
Lemma cap_cases b s : In b base_kinds -> In s ["cost_flow_cap"; "cost_flow_cap_per_distance"] ->
  value_of [("base_tech", Is (Txt b)); ("flow_cap", Given); (s, Given)] None (cost_text 0) cap_keys (if String.eqb b "transmission" then 0 else 1) = Some (cap_expr b).
Proof.
  pose (f := fun x : string * string => value_of [("base_tech", Is (Txt (fst x))); ("flow_cap", Given); (snd x, Given)] None (cost_text 0) cap_keys (if String.eqb (fst x) "transmission" then 0 else 1)).
  pose (g := fun x : string * string => Some (cap_expr (fst x))).
  assert (H : map f (list_prod base_kinds ["cost_flow_cap"; "cost_flow_cap_per_distance"]) = map g (list_prod base_kinds ["cost_flow_cap"; "cost_flow_cap_per_distance"])) by (vm_compute; reflexivity).
  intros IB IS; exact (proj1 map_ext_in_iff H (b, s) (in_prod _ _ _ _ IB IS)).
Qed.
Lemma capacity_part n t b c o q : sited U (class_cap n t c o) -> kind U t b -> capacity_charge U n t b c o q ->
  expression_is order m U "cost_investment_flow_cap" -> ledger U "cost_investment_flow_cap" ->
  numeric U "cost_investment_flow_cap" (class_cap n t c o) /\ amount U "cost_investment_flow_cap" (class_cap n t c o) = q.
Proof.
  intros SI (KB & BT) CH (co & FC & DE) LE; pose proof (proj1 (proj1 SI)) as SD; pose proof (cost_told 0 _ _ eq_refl FC) as TO.
  destruct CH as [(GC & GP & NP & NT & ->)|([AB|(AB & AB')] & ->)].
  - assert (GS : exists s, In s ["cost_flow_cap"; "cost_flow_cap_per_distance"] /\ given U s (class_cap n t c o)) by (destruct GP as [GP|GP]; eexists; (split; [|exact GP]); cbn; tauto).
    destruct GS as (s & IS & GS); pose proof (cap_cases b s KB IS) as VO; pose proof (given_numeric _ _ _ GC) as NC.
    match goal with |- _ /\ _ = ?q => destruct (rule_amount order files U (class_cap n t c o) (class_cap n t c o) [("base_tech", Is (Txt b)); ("flow_cap", Given); (s, Given)] (cost_text 0)
      (if String.eqb b "transmission" then 0 else 1) co "cost_investment_flow_cap" (cap_expr b) q SI ltac:(facts SD) ltac:(knowns IF) TO FC DE VO ltac:(reflexivity)) as (H1 & _ & H2) end; [|split; assumption].
    intros x FX; destruct (String.eqb b "transmission") eqn:SB.
    + apply String.eqb_eq in SB; subst b; destruct (NT eq_refl) as (N1 & N2); let e := eval vm_compute in (cap_expr "transmission") in change (cap_expr "transmission") with e; vals SD FX.
    + assert (RE : cap_expr b = cap_expr "demand") by (repeat (destruct KB as [<-|KB]; [first [discriminate SB|reflexivity]|]); destruct KB).
      rewrite RE; let e := eval vm_compute in (cap_expr "demand") in change (cap_expr "demand") with e; vals SD FX.
  - refine (rule_free (class_cap n t c o) (class_cap n t c o) [("flow_cap", Absent)] (cost_text 0) co _ SI ltac:(facts SD) ltac:(knowns IF) TO FC DE ltac:(vm_compute; reflexivity) ltac:(reflexivity) ltac:(reflexivity) LE).
  - refine (rule_free (class_cap n t c o) (class_cap n t c o) [("cost_flow_cap", Absent); ("cost_flow_cap_per_distance", Absent)] (cost_text 0) co _ SI ltac:(facts SD) ltac:(knowns IF) TO FC DE ltac:(vm_compute; reflexivity) ltac:(reflexivity) ltac:(reflexivity) LE).
Qed.
End Planning.
