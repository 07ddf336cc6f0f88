(** Lemmas on single components of the shipped math. *)
From Coq Require Import QArith Qcanon Lia.
From Verif Require Import Base BaseProofs LangModel MathText EvalModel EvalSpec BuildModel BuildSpec BuildProofs BuildEqs
  HelperModel HelperSpec ShipModel ShipSpec ShipProofs ShipEntry ShipStorage ShipNumbers NetSpec NetProofs PlaceSpec ShipPlace RuleText.
Local Open Scope nat_scope.
Local Open Scope string_scope.
Local Open Scope list_scope.
Local Arguments String.eqb : simpl never.

Ltac apart := repeat constructor; cbn; intuition discriminate.
Ltac inside := let x := fresh in let H := fresh in intros x H; cbn in H |- *; intuition.
(** Facts at positions of a place. *)
Ltac fact_step SD FP :=
  first
    [ eapply fact_given; [exact SD| | |eassumption]
    | eapply fact_on; [exact SD| | |eassumption]
    | eapply fact_off; [exact SD| | |eassumption]
    | eapply fact_absent; [exact SD| | |eassumption]
    | eapply fact_is; [exact SD| | |eassumption] ]; [apart|apply (fits_incl _ _ _ FP); inside].
Ltac facts SD := let p := fresh "p" in let FP := fresh "FP" in intros p FP; repeat (apply Forall_cons; [fact_step SD FP|]); apply Forall_nil.
Ltac knowns IF := repeat (apply Forall_cons; [first [exact I|refine (input_of _ _ IF _); cbn; tauto|refine (proj2 (input_of _ _ IF _)); cbn; tauto|reflexivity]|]); apply Forall_nil.
Ltac no_start := let p := fresh in let b := fresh in let H := fresh in intros p b _ H; discriminate H.

Fixpoint apartb (l : list string) : bool := match l with [] => true | x :: r => negb (smem x r) && apartb r end.
Lemma apartb_sound l : apartb l = true -> NoDup l.
Proof. induction l as [|x r IH]; [constructor|]; cbn [apartb]; rewrite andb_true_iff, negb_true_iff; intros (H1 & H2); constructor; [|auto]; intros IX; apply smem_in in IX; congruence. Qed.
(** An equation at a place: its sides, if the facts decide that it is the one that applies. *)
Definition ready (F : list (string * fact)) (st : option bool) (t : text) (keys : list string) (q : peq) : bool :=
  match cond3 F st (where_of t) with Some true => true | _ => false end && wheres_hold F st q && forallb (fun d => smem d keys) (fe_of t) &&
  apartb (fe_of t).
Definition sides_of (F : list (string * fact)) (st : option bool) (t : text) (keys : list string) (i : nat) : option (expr * cmp * expr) :=
  match nth_error (eqs_of t) i with
  | Some q => match q_expr q with
              | PEq a o b => if ready F st t keys q && plain_side (fe_of t) q a && plain_side (fe_of t) q b
                             then Some (plug (arith_of (q_subs q)) a, o, plug (arith_of (q_subs q)) b) else None
              | PArith _ => None
              end
  | None => None
  end.
Definition value_of (F : list (string * fact)) (st : option bool) (t : text) (keys : list string) (i : nat) : option expr :=
  match nth_error (eqs_of t) i with
  | Some q => match q_expr q with
              | PArith a => if ready F st t keys q && plain_side (fe_of t) q a then Some (plug (arith_of (q_subs q)) a) else None
              | PEq _ _ _ => None
              end
  | None => None
  end.
Section At.
Variable U : world.
Variable order : list string -> list string.
Variable m : math_file.
Variable l : list (string * string).
Hypothesis SI : sited U l.
Variable F : list (string * fact).
Variable st : option bool.
Hypothesis FI : forall p, fits l p -> Forall (fact_in U p) F.
Hypothesis FK : Forall (fact_known (math_names m)) F.
Hypothesis FS : forall p b, fits l p -> st = Some b -> weval (world_where (math_names m) U) first_step p = b.
Lemma ready_says t q : ready F st t (map fst l) q = true ->
  cond3 F st (where_of t) = Some true /\ wheres_hold F st q = true /\ (forall s, In s (fe_of t) -> In s (map fst l)) /\ NoDup (fe_of t).
Proof.
  unfold ready; rewrite !andb_true_iff; intros (((H1 & H2) & H3) & H4); split; [destruct (cond3 F st (where_of t)) as [[|]|]; try discriminate; reflexivity|].
  split; [exact H2|split; [|apply apartb_sound, H4]]; intros s IS; rewrite forallb_forall in H3; apply smem_in, H3, IS.
Qed.
Lemma rule_says t i co a o b : told order m "constraints" co (fe_of t) (where_of t) (eqs_of t) -> holds_in order m U co -> sides_of F st t (map fst l) i = Some (a, o, b) ->
  exists x, fits (cut (fe_of t) l) x /\ related o (entry_of (u_env U) a x) (entry_of (u_env U) b x).
Proof.
  intros TO HO; unfold sides_of; destruct (nth_error (eqs_of t) i) as [q|] eqn:NE; [|discriminate]; destruct (q_expr q) as [|a' o' b'] eqn:EQ; [discriminate|].
  destruct (ready F st t (map fst l) q) eqn:RE; [|discriminate]; destruct (plain_side (fe_of t) q a') eqn:P1; [|discriminate]; destruct (plain_side (fe_of t) q b') eqn:P2; [|discriminate].
  intros E; injection E as <- <- <-; apply ready_says in RE as (CW & WQ & SUB & ND).
  exact (place_says U order m l SI F st FI FK FS co (fe_of t) (where_of t) (eqs_of t) q a' o' b' HO TO ND SUB CW (nth_error_In _ _ NE) WQ EQ P1 P2).
Qed.
Lemma rule_value t i co a : told order m "global_expressions" co (fe_of t) (where_of t) (eqs_of t) -> defined_in order m U co -> value_of F st t (map fst l) i = Some a ->
  exists x, fits (cut (fe_of t) l) x /\ a_at (n_array (u_env U) (c_name co)) x = entry_of (u_env U) a x.
Proof.
  intros TO HO; unfold value_of; destruct (nth_error (eqs_of t) i) as [q|] eqn:NE; [|discriminate]; destruct (q_expr q) as [a'|] eqn:EQ; [|discriminate].
  destruct (ready F st t (map fst l) q) eqn:RE; [|discriminate]; destruct (plain_side (fe_of t) q a') eqn:P1; [|discriminate].
  intros E; injection E as <-; apply ready_says in RE as (CW & WQ & SUB & ND).
  exact (place_value U order m l SI F st FI FK FS co (fe_of t) (where_of t) (eqs_of t) q a' HO TO ND SUB CW (nth_error_In _ _ NE) WQ EQ P1).
Qed.
Lemma rule_built group t i co r a : told order m group co (fe_of t) (where_of t) (eqs_of t) -> build_all order m U group co = Built r -> value_of F st t (map fst l) i = Some a ->
  exists x f, fits (cut (fe_of t) l) x /\ x = at_index (fe_of t) f /\ In f (CliModel.product (map (n_labels (u_env U)) (fe_of t))) /\ r f = VCell (entry_of (u_env U) a x).
Proof.
  intros TO HO; unfold value_of; destruct (nth_error (eqs_of t) i) as [q|] eqn:NE; [|discriminate]; destruct (q_expr q) as [a'|] eqn:EQ; [|discriminate].
  destruct (ready F st t (map fst l) q) eqn:RE; [|discriminate]; destruct (plain_side (fe_of t) q a') eqn:P1; [|discriminate].
  intros E; injection E as <-; apply ready_says in RE as (CW & WQ & SUB & ND).
  exact (built_value U order m l SI F st FI FK FS group co r (fe_of t) (where_of t) (eqs_of t) q a' HO TO ND SUB CW (nth_error_In _ _ NE) WQ EQ P1).
Qed.
End At.
Ltac place_of FX := match type of FX with fits ?c ?x => let c' := eval vm_compute in c in change (fits c' x) in FX end.
Lemma given_numeric U s l : given U s l -> numeric U s l.
Proof. intros (WD & _ & q & E); split; [exact WD|]; exists q; unfold value_at; rewrite E; reflexivity. Qed.
Ltac numbers SD FX R :=
  repeat match goal with H : numeric ?V ?s ?l |- _ =>
    match type of R with context [entry_of (u_env V) (EName s) ?x] => rewrite (numeric_entry V s l x SD ltac:(apart) ltac:(apply (fits_incl _ _ _ FX); inside) H) in R end end;
  repeat match goal with H : numeric_over ?V ?s ?d ?l |- _ =>
    match type of R with context [entry_of (u_env V) (EFun "sum" [EName s] [("over", ?o)]) ?x] =>
      rewrite (numeric_sum V s d o l x SD ltac:(apart) ltac:(apply (fits_incl _ _ _ FX); inside) ltac:(cbn; intuition discriminate) ltac:(assumption) eq_refl H) in R end end;
  repeat match type of R with
  | context [entry_of ?D (ENum false "1") ?x] => change (entry_of D (ENum false "1") x) with (number_cell false "1") in R; rewrite one_number in R
  | context [entry_of ?D (ENum false "0") ?x] => change (entry_of D (ENum false "0") x) with (number_cell false "0") in R; rewrite zero_number in R
  end;
  rewrite ?op_mul, ?op_add, ?op_sub, ?op_mul, ?op_add, ?op_sub in R.
Ltac says SI SD IF F TO HO t i x FX R :=
  match type of SI with sited ?V ?l =>
    match type of TO with told ?order ?m _ ?co _ _ _ =>
      let s := eval vm_compute in (sides_of F None t (map fst l) i) in
      match s with Some (?a, ?o, ?b) =>
        destruct (rule_says V order m l SI F None ltac:(facts SD) ltac:(knowns IF) ltac:(no_start) t i co a o b TO HO ltac:(vm_compute; reflexivity)) as (x & FX & R)
      end
    end
  end; rewrite ?entry_chain3, ?entry_chain2, ?entry_chain in R; place_of FX; numbers SD FX R.
Lemma site_labels U d l : sited U l -> In d (map fst l) -> labels U d <> [].
Proof. intros (_ & PO & (_ & PL) & _) ID; apply in_map_iff in ID as ((d' & v) & <- & IN); apply PO, (PL _ _ IN). Qed.
Section Rules.
Variable order : list string -> list string.
Hypothesis OR : lists_set order.
Variable files : list math_file.
Hypothesis IF : In files shipped.
Variable U : world.

Lemma listed_told group names (texts : list text) lists k i s c : map (fun files => texts_in (layered files) group names) lists = repeat (map Some texts) k -> List.length texts = List.length names ->
  In files lists -> nth_error names i = Some s -> find_in (rules_of (layered files) group) s = Some c ->
  told order (layered files) group c (fe_of (nth i texts no_text)) (where_of (nth i texts no_text)) (eqs_of (nth i texts no_text)).
Proof.
  intros E LE IL EN FC; apply (read_told order OR); apply (read_found _ (rules_of (layered files) group) _ s); [exact FC|].
  assert (ET : nth_error texts i = Some (nth i texts no_text)).
  { apply nth_error_nth'; rewrite LE; assert (H : nth_error names i <> None) by (rewrite EN; discriminate); apply nth_error_Some in H; exact H. }
  pose proof (rule_read _ _ _ _ _ _ _ _ _ E IL EN ET) as R; destruct (nth i texts no_text) as [[fe w] qs]; exact R.
Qed.
Definition shared_text (i : nat) : text := nth i shared_texts no_text.
Lemma shared_told i s c : nth_error shared_names i = Some s -> find_in (h_constraints (layered files)) s = Some c ->
  told order (layered files) "constraints" c (fe_of (shared_text i)) (where_of (shared_text i)) (eqs_of (shared_text i)).
Proof. exact (listed_told "constraints" shared_names shared_texts shipped 15 i s c shared_read eq_refl IF). Qed.
(** Demand *)
Section Demand.
Variables (n t c k : string) (f : Qc).
Hypothesis SI : sited U (flow_at n t c k).
Hypothesis BT : reads_as U "base_tech" (tech_at t) (Txt "demand").
Hypothesis SC : per_unit U "sink_unit" n t f \/ per_capacity U "sink_unit" n t f.
Let NC : labels U "carriers" <> [] := site_labels U "carriers" _ SI (or_intror (or_intror (or_introl eq_refl))).
Hypothesis NF : numeric U "flow_in_inc_eff" (flow_at n t c k).
Let SD := proj1 (proj1 SI).
Lemma demand_equals : given U "sink_use_equals" (flow_at n t c k) -> constraint_holds order (layered files) U "balance_demand" ->
  amount U "flow_in_inc_eff" (flow_at n t c k) = (amount U "sink_use_equals" (flow_at n t c k) * f)%Qc.
Proof.
  intros GE (co & FC & HO); pose proof (shared_told 0 _ _ eq_refl FC) as TO; pose proof (given_numeric _ _ _ GE) as GN.
  destruct SC as [[(SU & ->)|(SU & NA & ->)]|(SU & NA & ->)].
  - says SI SD IF [("base_tech", Is (Txt "demand")); ("sink_use_equals", Given); ("sink_unit", Is (Txt "absolute"))] TO HO (shared_text 0) 2 x FX R; exact R.
  - says SI SD IF [("base_tech", Is (Txt "demand")); ("sink_use_equals", Given); ("sink_unit", Is (Txt "per_area"))] TO HO (shared_text 0) 0 x FX R; exact R.
  - says SI SD IF [("base_tech", Is (Txt "demand")); ("sink_use_equals", Given); ("sink_unit", Is (Txt "per_cap"))] TO HO (shared_text 0) 1 x FX R; exact R.
Qed.
Lemma demand_below : absent U "sink_use_equals" (flow_at n t c k) -> given U "sink_use_max" (flow_at n t c k) -> constraint_holds order (layered files) U "balance_demand" ->
  (amount U "flow_in_inc_eff" (flow_at n t c k) <= amount U "sink_use_max" (flow_at n t c k) * f)%Qc.
Proof.
  intros AE GE (co & FC & HO); pose proof (shared_told 0 _ _ eq_refl FC) as TO; pose proof (given_numeric _ _ _ GE) as GN.
  destruct SC as [[(SU & ->)|(SU & NA & ->)]|(SU & NA & ->)].
  - says SI SD IF [("base_tech", Is (Txt "demand")); ("sink_use_equals", Absent); ("sink_use_max", Given); ("sink_unit", Is (Txt "absolute"))] TO HO (shared_text 0) 5 x FX R; exact R.
  - says SI SD IF [("base_tech", Is (Txt "demand")); ("sink_use_equals", Absent); ("sink_use_max", Given); ("sink_unit", Is (Txt "per_area"))] TO HO (shared_text 0) 3 x FX R; exact R.
  - says SI SD IF [("base_tech", Is (Txt "demand")); ("sink_use_equals", Absent); ("sink_use_max", Given); ("sink_unit", Is (Txt "per_cap"))] TO HO (shared_text 0) 4 x FX R; exact R.
Qed.
Lemma demand_above : absent U "sink_use_equals" (flow_at n t c k) -> given U "sink_use_min" (flow_at n t c k) -> constraint_holds order (layered files) U "balance_demand_min_use" ->
  (amount U "sink_use_min" (flow_at n t c k) * f <= amount U "flow_in_inc_eff" (flow_at n t c k))%Qc.
Proof.
  intros AE GE (co & FC & HO); pose proof (shared_told 1 _ _ eq_refl FC) as TO; pose proof (given_numeric _ _ _ GE) as GN.
  destruct SC as [[(SU & ->)|(SU & NA & ->)]|(SU & NA & ->)].
  - says SI SD IF [("base_tech", Is (Txt "demand")); ("sink_use_equals", Absent); ("sink_use_min", Given); ("sink_unit", Is (Txt "absolute"))] TO HO (shared_text 1) 2 x FX R; exact R.
  - says SI SD IF [("base_tech", Is (Txt "demand")); ("sink_use_equals", Absent); ("sink_use_min", Given); ("sink_unit", Is (Txt "per_area"))] TO HO (shared_text 1) 0 x FX R; exact R.
  - says SI SD IF [("base_tech", Is (Txt "demand")); ("sink_use_equals", Absent); ("sink_use_min", Given); ("sink_unit", Is (Txt "per_cap"))] TO HO (shared_text 1) 1 x FX R; exact R.
Qed.
End Demand.

(** Values of expressions. *)
Lemma rule_number m l F st t i co s e q : sited U l -> (forall p, fits l p -> Forall (fact_in U p) F) -> Forall (fact_known (math_names m)) F ->
  (forall p b, fits l p -> st = Some b -> weval (world_where (math_names m) U) first_step p = b) ->
  told order m "global_expressions" co (fe_of t) (where_of t) (eqs_of t) -> defined_in order m U co -> c_name co = s -> value_of F st t (map fst l) i = Some e ->
  (forall x, fits (cut (fe_of t) l) x -> entry_of (u_env U) e x = Val q) ->
  within_dims U s (map fst (cut (fe_of t) l)) /\ a_at (n_array (u_env U) s) (spot (cut (fe_of t) l)) = Val q.
Proof.
  intros SI FI FK FS TO DE EN VO HV; destruct (rule_value U order m l SI F st FI FK FS t i co e TO DE VO) as (x & FX & E); subst s.
  assert (KEYS : forall d, In d (fe_of t) -> In d (map fst (cut (fe_of t) l))).
  { unfold value_of in VO; destruct (nth_error (eqs_of t) i) as [y|]; [|discriminate]; destruct (q_expr y) as [a'|]; [|discriminate]; destruct (ready F st t (map fst l) y) eqn:RE; [|discriminate].
    apply ready_says in RE as (_ & _ & SUB & _); intros d ID; specialize (SUB d ID); apply in_map_iff in SUB as (z & <- & IZ); apply in_map, cut_in; auto. }
  assert (WD : within_dims U (c_name co) (map fst (cut (fe_of t) l))).
  { intros d ID; destruct DE as (r & _ & AD & _); rewrite AD, (proj1 TO) in ID; apply KEYS, ID. }
  assert (ND : NoDup (map fst (cut (fe_of t) l))).
  { destruct SI as (_ & _ & (ND & _) & _); clear -ND; unfold cut; induction l as [|z r IH]; [constructor|]; cbn [map filter] in *; inversion ND as [|? ? NI ND']; subst; destruct (smem (fst z) (fe_of t)); [|auto].
    cbn [map]; constructor; [|auto]; intros H; apply NI; apply in_map_iff in H as (y & EY & IY); apply filter_In in IY as (IY & _); rewrite <- EY; apply in_map, IY. }
  split; [exact WD|]; rewrite <- (raw_at U (cut (fe_of t) l) x (c_name co) (proj1 (proj1 SI)) ND FX WD), E; apply HV, FX.
Qed.
Definition kinds : list string := ["demand"; "supply"; "conversion"; "storage"].
Definition in_text_of : text := (four, WName "flow_in", in_eqs).
Definition out_text_of : text := (four, WName "flow_out", out_eqs).
Lemma raw_numeric s l q : within_dims U s (map fst l) -> a_at (n_array (u_env U) s) (spot l) = Val q -> numeric U s l /\ amount U s l = q.
Proof. intros WD E; unfold numeric, number, amount, value_at; rewrite E; cbn [fill worth]; repeat split; [exact WD|exists q; reflexivity]. Qed.
Lemma inflow_is n t c k b : sited U (flow_at n t c k) -> reads_as U "base_tech" (tech_at t) (Txt b) -> In b kinds -> given U "flow_in" (flow_at n t c k) ->
  numeric U "flow_in_eff" (flow_at n t c k) -> expression_is order (layered files) U "flow_in_inc_eff" ->
  numeric U "flow_in_inc_eff" (flow_at n t c k) /\
  amount U "flow_in_inc_eff" (flow_at n t c k) = (amount U "flow_in" (flow_at n t c k) * amount U "flow_in_eff" (flow_at n t c k))%Qc.
Proof.
  intros SI BT KB GF NE (co & FC & DE); pose proof (proj1 (proj1 SI)) as SD; pose proof (given_numeric _ _ _ GF) as GN.
  pose proof (read_told order OR _ _ _ _ _ _ (read_found _ _ _ _ _ _ FC (in_text files IF))) as TO.
  destruct (rule_number (layered files) (flow_at n t c k) [("base_tech", Is (Txt b)); ("flow_in", Given)] None in_text_of 1 co "flow_in_inc_eff" in_plant
    (amount U "flow_in" (flow_at n t c k) * amount U "flow_in_eff" (flow_at n t c k))%Qc SI ltac:(facts SD) ltac:(knowns IF) ltac:(no_start) TO DE (find_name _ _ _ FC)) as (WD & E).
  - repeat (destruct KB as [<- |KB]; [reflexivity|]); destruct KB.
  - intros x FX; place_of FX; assert (R : entry_of (u_env U) in_plant x = entry_of (u_env U) in_plant x) by reflexivity; revert R; unfold in_plant at 2; rewrite entry_chain; intros R; numbers SD FX R; exact R.
  - apply raw_numeric; assumption.
Qed.
Lemma outflow_is n t c k b : sited U (flow_at n t c k) -> reads_as U "base_tech" (tech_at t) (Txt b) -> In b kinds -> given U "flow_out" (flow_at n t c k) ->
  numeric U "flow_out_eff" (flow_at n t c k) -> numeric U "flow_out_parasitic_eff" (flow_at n t c k) ->
  (amount U "flow_out_eff" (flow_at n t c k) * amount U "flow_out_parasitic_eff" (flow_at n t c k))%Qc <> 0%Qc -> expression_is order (layered files) U "flow_out_inc_eff" ->
  numeric U "flow_out_inc_eff" (flow_at n t c k) /\
  amount U "flow_out_inc_eff" (flow_at n t c k) = (amount U "flow_out" (flow_at n t c k) / (amount U "flow_out_eff" (flow_at n t c k) * amount U "flow_out_parasitic_eff" (flow_at n t c k)))%Qc.
Proof.
  intros SI BT KB GF NE NP NZ (co & FC & DE); pose proof (proj1 (proj1 SI)) as SD; pose proof (given_numeric _ _ _ GF) as GN.
  pose proof (read_told order OR _ _ _ _ _ _ (read_found _ _ _ _ _ _ FC (out_text files IF))) as TO.
  destruct (rule_number (layered files) (flow_at n t c k) [("base_tech", Is (Txt b)); ("flow_out", Given)] None out_text_of 1 co "flow_out_inc_eff" out_plant
    (amount U "flow_out" (flow_at n t c k) / (amount U "flow_out_eff" (flow_at n t c k) * amount U "flow_out_parasitic_eff" (flow_at n t c k)))%Qc SI ltac:(facts SD) ltac:(knowns IF) ltac:(no_start) TO DE (find_name _ _ _ FC)) as (WD & E).
  - repeat (destruct KB as [<- |KB]; [reflexivity|]); destruct KB.
  - intros x FX; place_of FX; assert (R : entry_of (u_env U) out_plant x = entry_of (u_env U) out_plant x) by reflexivity; revert R; unfold out_plant at 2; rewrite !entry_chain; intros R; numbers SD FX R.
    rewrite R; apply op_div, NZ.
  - apply raw_numeric; assumption.
Qed.

(** Sources *)
Section Source.
Variables (n t c k : string).
Hypothesis SI : sited U (flow_at n t c k).
Let SD := proj1 (proj1 SI).
Hypothesis GU : given U "source_use" (use_at n t k).
Variable f : Qc.
Hypothesis SC : per_unit U "source_unit" n t f \/ per_capacity U "source_unit" n t f.
Let NC : labels U "carriers" <> [] := site_labels U "carriers" _ SI (or_intror (or_intror (or_introl eq_refl))).
Let GUN := given_numeric _ _ _ GU.
Lemma source_equals : given U "source_use_equals" (use_at n t k) -> constraint_holds order (layered files) U "source_availability_supply" ->
  amount U "source_use" (use_at n t k) = (amount U "source_use_equals" (use_at n t k) * f)%Qc.
Proof.
  intros GE (co & FC & HO); pose proof (shared_told 3 _ _ eq_refl FC) as TO; pose proof (given_numeric _ _ _ GE) as GN.
  destruct SC as [[(SU & ->)|(SU & NA & ->)]|(SU & NA & ->)].
  - says SI SD IF [("source_use", Given); ("source_use_equals", Given); ("source_unit", Is (Txt "absolute"))] TO HO (shared_text 3) 2 x FX R; exact R.
  - says SI SD IF [("source_use", Given); ("source_use_equals", Given); ("source_unit", Is (Txt "per_area"))] TO HO (shared_text 3) 0 x FX R; exact R.
  - says SI SD IF [("source_use", Given); ("source_use_equals", Given); ("source_unit", Is (Txt "per_cap"))] TO HO (shared_text 3) 1 x FX R; exact R.
Qed.
Lemma source_below : absent U "source_use_equals" (use_at n t k) -> given U "source_use_max" (use_at n t k) -> constraint_holds order (layered files) U "source_availability_supply" ->
  (amount U "source_use" (use_at n t k) <= amount U "source_use_max" (use_at n t k) * f)%Qc.
Proof.
  intros AE GE (co & FC & HO); pose proof (shared_told 3 _ _ eq_refl FC) as TO; pose proof (given_numeric _ _ _ GE) as GN.
  destruct SC as [[(SU & ->)|(SU & NA & ->)]|(SU & NA & ->)].
  - says SI SD IF [("source_use", Given); ("source_use_equals", Absent); ("source_use_max", Given); ("source_unit", Is (Txt "absolute"))] TO HO (shared_text 3) 5 x FX R; exact R.
  - says SI SD IF [("source_use", Given); ("source_use_equals", Absent); ("source_use_max", Given); ("source_unit", Is (Txt "per_area"))] TO HO (shared_text 3) 3 x FX R; exact R.
  - says SI SD IF [("source_use", Given); ("source_use_equals", Absent); ("source_use_max", Given); ("source_unit", Is (Txt "per_cap"))] TO HO (shared_text 3) 4 x FX R; exact R.
Qed.
Lemma source_above : reads_as U "base_tech" (tech_at t) (Txt "supply") -> absent U "source_use_equals" (use_at n t k) -> given U "source_use_min" (use_at n t k) -> constraint_holds order (layered files) U "balance_supply_min_use" ->
  (amount U "source_use_min" (use_at n t k) * f <= amount U "source_use" (use_at n t k))%Qc.
Proof.
  intros BT AE GE (co & FC & HO); pose proof (shared_told 4 _ _ eq_refl FC) as TO; pose proof (given_numeric _ _ _ GE) as GN.
  destruct SC as [[(SU & ->)|(SU & NA & ->)]|(SU & NA & ->)].
  - says SI SD IF [("base_tech", Is (Txt "supply")); ("source_use_equals", Absent); ("source_use_min", Given); ("source_unit", Is (Txt "absolute"))] TO HO (shared_text 4) 2 x FX R; exact R.
  - says SI SD IF [("base_tech", Is (Txt "supply")); ("source_use_equals", Absent); ("source_use_min", Given); ("source_unit", Is (Txt "per_area"))] TO HO (shared_text 4) 0 x FX R; exact R.
  - says SI SD IF [("base_tech", Is (Txt "supply")); ("source_use_equals", Absent); ("source_use_min", Given); ("source_unit", Is (Txt "per_cap"))] TO HO (shared_text 4) 1 x FX R; exact R.
Qed.
End Source.
Section One.
Variables (n t c k : string).
Hypothesis SI : sited U (flow_at n t c k).
Let SD := proj1 (proj1 SI).
Let NC : labels U "carriers" <> [] := site_labels U "carriers" _ SI (or_intror (or_intror (or_introl eq_refl))).
Lemma source_capped : given U "source_cap" (asset n t) -> numeric U "source_use" (use_at n t k) -> numeric U "timestep_resolution" [("timesteps", k)] -> constraint_holds order (layered files) U "source_max" ->
  (amount U "source_use" (use_at n t k) <= amount U "timestep_resolution" [("timesteps", k)] * amount U "source_cap" (asset n t))%Qc.
Proof.
  intros GC NU NT (co & FC & HO); pose proof (shared_told 5 _ _ eq_refl FC) as TO; pose proof (given_numeric _ _ _ GC) as GN.
  says SI SD IF [("source_cap", Given)] TO HO (shared_text 5) 0 x FX R; exact R.
Qed.
Lemma supply_gives : reads_as U "base_tech" (tech_at t) (Txt "supply") -> reads_as U "include_storage" (asset n t) (Boo false) ->
  numeric U "source_use" (use_at n t k) -> numeric U "source_eff" (flow_at n t c k) -> numeric U "flow_out_inc_eff" (flow_at n t c k) ->
  constraint_holds order (layered files) U "balance_supply_no_storage" ->
  amount U "flow_out_inc_eff" (flow_at n t c k) = (amount U "source_use" (use_at n t k) * amount U "source_eff" (flow_at n t c k))%Qc.
Proof.
  intros BT ST NU NE NF (co & FC & HO); pose proof (shared_told 2 _ _ eq_refl FC) as TO.
  says SI SD IF [("base_tech", Is (Txt "supply")); ("include_storage", Is (Boo false))] TO HO (shared_text 2) 0 x FX R; exact R.
Qed.
Lemma conversion_balances : reads_as U "base_tech" (tech_at t) (Txt "conversion") -> reads_as U "include_storage" (asset n t) (Boo false) ->
  numeric_over U "flow_out_inc_eff" "carriers" (use_at n t k) -> numeric_over U "flow_in_inc_eff" "carriers" (use_at n t k) ->
  constraint_holds order (layered files) U "balance_conversion" ->
  sum_over (labels U "carriers") (fun c => amount U "flow_out_inc_eff" (("carriers", c) :: use_at n t k)) =
  sum_over (labels U "carriers") (fun c => amount U "flow_in_inc_eff" (("carriers", c) :: use_at n t k)).
Proof.
  intros BT ST NO NI (co & FC & HO); pose proof (shared_told 6 _ _ eq_refl FC) as TO.
  says SI SD IF [("base_tech", Is (Txt "conversion")); ("include_storage", Is (Boo false))] TO HO (shared_text 6) 0 x FX R; exact R.
Qed.
Lemma export_within : given U "flow_export" (flow_at n t c k) -> numeric U "flow_out" (flow_at n t c k) -> constraint_holds order (layered files) U "export_balance" ->
  (amount U "flow_export" (flow_at n t c k) <= amount U "flow_out" (flow_at n t c k))%Qc.
Proof.
  intros GE NO (co & FC & HO); pose proof (shared_told 7 _ _ eq_refl FC) as TO; pose proof (given_numeric _ _ _ GE) as GN.
  says SI SD IF [("flow_export", Given)] TO HO (shared_text 7) 0 x FX R; exact R.
Qed.
Lemma depth_kept : given U "storage" (use_at n t k) -> given U "storage_discharge_depth" (asset n t) -> numeric U "storage_cap" (asset n t) -> constraint_holds order (layered files) U "storage_discharge_depth_limit" ->
  (amount U "storage_discharge_depth" (asset n t) * amount U "storage_cap" (asset n t) <= amount U "storage" (use_at n t k))%Qc.
Proof.
  intros GS GD NS (co & FC & HO); pose proof (shared_told 8 _ _ eq_refl FC) as TO; pose proof (given_numeric _ _ _ GS) as GN; pose proof (given_numeric _ _ _ GD) as GN'.
  says SI SD IF [("storage", Given); ("storage_discharge_depth", Given)] TO HO (shared_text 8) 0 x FX R.
  apply Qcle_minus_iff; exact R.
Qed.
End One.
Section Caps.
Variables (n t c : string).
Hypothesis SI : sited U (cap_at n t c).
Let SD := proj1 (proj1 SI).
Let NC : labels U "carriers" <> [] := site_labels U "carriers" _ SI (or_intror (or_intror (or_introl eq_refl))).
Let NN : labels U "nodes" <> [] := site_labels U "nodes" _ SI (or_introl eq_refl).
Let NT : labels U "techs" <> [] := site_labels U "techs" _ SI (or_intror (or_introl eq_refl)).
Lemma systemwide_below : given U "flow_cap_max_systemwide" [("techs", t); ("carriers", c)] -> numeric_over U "flow_cap" "nodes" [("techs", t); ("carriers", c)] ->
  constraint_holds order (layered files) U "flow_capacity_systemwide_max" ->
  (sum_over (labels U "nodes") (fun n => amount U "flow_cap" (cap_at n t c)) <= amount U "flow_cap_max_systemwide" [("techs", t); ("carriers", c)])%Qc.
Proof.
  intros GM NO (co & FC & HO); pose proof (shared_told 9 _ _ eq_refl FC) as TO; pose proof (given_numeric _ _ _ GM) as GN.
  says SI SD IF [("flow_cap_max_systemwide", Given)] TO HO (shared_text 9) 0 x FX R; exact R.
Qed.
Lemma area_bound_to_cap : given U "area_use" (asset n t) -> given U "area_use_per_flow_cap" (asset n t) -> numeric U "flow_cap" (cap_at n t c) ->
  constraint_holds order (layered files) U "area_use_per_flow_capacity" ->
  amount U "area_use" (asset n t) = (amount U "flow_cap" (cap_at n t c) * amount U "area_use_per_flow_cap" (asset n t))%Qc.
Proof.
  intros GA GP NF (co & FC & HO); pose proof (shared_told 10 _ _ eq_refl FC) as TO; pose proof (given_numeric _ _ _ GA) as GN; pose proof (given_numeric _ _ _ GP) as GN'.
  says SI SD IF [("area_use", Given); ("area_use_per_flow_cap", Given)] TO HO (shared_text 10) 0 x FX R; exact R.
Qed.
Lemma area_within : given U "area_use" (asset n t) -> given U "available_area" [("nodes", n)] -> numeric_over U "area_use" "techs" [("nodes", n)] ->
  constraint_holds order (layered files) U "area_use_capacity_per_loc" ->
  (sum_over (labels U "techs") (fun t => amount U "area_use" [("techs", t); ("nodes", n)]) <= amount U "available_area" [("nodes", n)])%Qc.
Proof.
  intros GA GV NO (co & FC & HO); pose proof (shared_told 11 _ _ eq_refl FC) as TO; pose proof (given_numeric _ _ _ GV) as GN.
  says SI SD IF [("area_use", Given); ("available_area", Given)] TO HO (shared_text 11) 0 x FX R; exact R.
Qed.
Lemma storage_ratio_above : given U "storage_cap" (asset n t) -> given U "flow_cap_per_storage_cap_min" (asset n t) -> numeric U "flow_cap" (cap_at n t c) ->
  constraint_holds order (layered files) U "flow_capacity_per_storage_capacity_min" ->
  (amount U "storage_cap" (asset n t) * amount U "flow_cap_per_storage_cap_min" (asset n t) <= amount U "flow_cap" (cap_at n t c))%Qc.
Proof.
  intros GS GR NF (co & FC & HO); pose proof (shared_told 12 _ _ eq_refl FC) as TO; pose proof (given_numeric _ _ _ GS) as GN; pose proof (given_numeric _ _ _ GR) as GN'.
  says SI SD IF [("storage_cap", Given); ("flow_cap_per_storage_cap_min", Given)] TO HO (shared_text 12) 0 x FX R; exact R.
Qed.
Lemma storage_ratio_below : given U "storage_cap" (asset n t) -> given U "flow_cap_per_storage_cap_max" (asset n t) -> numeric U "flow_cap" (cap_at n t c) ->
  constraint_holds order (layered files) U "flow_capacity_per_storage_capacity_max" ->
  (amount U "flow_cap" (cap_at n t c) <= amount U "storage_cap" (asset n t) * amount U "flow_cap_per_storage_cap_max" (asset n t))%Qc.
Proof.
  intros GS GR NF (co & FC & HO); pose proof (shared_told 13 _ _ eq_refl FC) as TO; pose proof (given_numeric _ _ _ GS) as GN; pose proof (given_numeric _ _ _ GR) as GN'.
  says SI SD IF [("storage_cap", Given); ("flow_cap_per_storage_cap_max", Given)] TO HO (shared_text 13) 0 x FX R; exact R.
Qed.
Lemma source_as_flow : given U "source_cap" (asset n t) -> reads_as U "source_cap_equals_flow_cap" (asset n t) (Boo true) -> numeric U "flow_cap" (cap_at n t c) ->
  constraint_holds order (layered files) U "source_capacity_equals_flow_capacity" ->
  amount U "source_cap" (asset n t) = amount U "flow_cap" (cap_at n t c).
Proof.
  intros GS RB NF (co & FC & HO); pose proof (shared_told 14 _ _ eq_refl FC) as TO; pose proof (given_numeric _ _ _ GS) as GN.
  says SI SD IF [("source_cap", Given); ("source_cap_equals_flow_cap", Is (Boo true))] TO HO (shared_text 14) 0 x FX R; exact R.
Qed.
Lemma link_end : reads_as U "base_tech" (tech_at t) (Txt "transmission") -> numeric_over U "flow_cap" "carriers" (asset n t) -> numeric U "link_flow_cap" (tech_at t) ->
  constraint_holds order (layered files) U "symmetric_transmission" ->
  sum_over (labels U "carriers") (fun c => amount U "flow_cap" (("carriers", c) :: asset n t)) = amount U "link_flow_cap" (tech_at t).
Proof.
  intros BT NO NL (co & FC & HO); pose proof (shared_told 15 _ _ eq_refl FC) as TO.
  says SI SD IF [("base_tech", Is (Txt "transmission"))] TO HO (shared_text 15) 0 x FX R; exact R.
Qed.
End Caps.
End Rules.
