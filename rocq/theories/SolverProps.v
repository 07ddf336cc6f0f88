(** Objectives, bounds and fixed variables: C45, C46, C67, C68. *)
From Coq Require Import QArith Qcanon Sorted Lia.
From Verif Require Import Base BaseProofs EvalModel HelperModel HelperSpec UpdateModel UpdateSpec UpdateProofs UpdateProps
  SolverModel SolverSpec SolverProofs SolverVars.
Local Open Scope nat_scope.
Local Open Scope string_scope.
Local Open Scope list_scope.

(** * C45 *)
(** Missing for the full C45: failing calls (refuted below). *)
Theorem C45_partial : forall named l o calls, NoDup (map fst l) -> build_objectives named l = Some o ->
  (exists e, In (named, Some e) l) -> all_allowed calls o ->
  settled (switch_all calls o) /\ o_named (switch_all calls o) = last_choice calls named.
Proof.
  intros named l o calls ND B E A. destruct (build_settled named l o ND B E) as [S1 N1].
  rewrite <- N1. apply switches_settled; auto. apply add_keys in B. cbn in B. rewrite B. exact ND.
Qed.
Print Assumptions C45_partial.
Definition cost := INode "cost" [].
Definition emissions := INode "emissions" [].
Definition ex_o : objectives :=
  {| o_named := "min_cost"; o_built := [("min_cost", Some cost); ("min_co2", Some emissions); ("min_other", None)]; o_on := ["min_cost"] |}.
Example ex_o_built : build_objectives "min_cost" [("min_cost", Some cost); ("min_co2", Some emissions); ("min_other", None)] = Some ex_o.
Proof. reflexivity. Qed.
Example C45_partial_ex : settled (switch_all [Choose "min_co2"; Renew "min_co2" (Some cost); Renew "min_cost" None; Choose "min_co2"] ex_o) /\
  o_named (switch_all [Choose "min_co2"; Renew "min_co2" (Some cost); Renew "min_cost" None; Choose "min_co2"] ex_o) = "min_co2".
Proof.
  refine (C45_partial "min_cost" _ _ _ _ ex_o_built _ _).
  - repeat constructor; cbn; intuition discriminate.
  - exists cost. cbn. auto.
  - cbn. repeat split; eauto; intros; discriminate.
Qed.

(** Choosing an objective that does not exist, or whose condition does not hold, raises an
    exception and leaves no objective active. *)
Theorem C45_failed_choice_refuted : exists named l o n, build_objectives named l = Some o /\ settled o /\
  snd (set_objective n o) = false /\ o_on (fst (set_objective n o)) = [] /\ o_named (fst (set_objective n o)) = named.
Proof.
  exists "min_cost", [("min_cost", Some cost); ("min_co2", Some emissions); ("min_other", None)], ex_o, "min_costs".
  split; [reflexivity|]. split; [split; [reflexivity|exists cost; reflexivity]|]. repeat split.
Qed.
Print Assumptions C45_failed_choice_refuted.
(** A configured name that is no objective is not refused: none is active, and every later choice fails. *)
Theorem C45_unknown_name : forall named l o names, build_objectives named l = Some o -> ~ In named (map fst l) ->
  o_on (switch_all (map Choose names) o) = [] /\ forall n, snd (set_objective n o) = false.
Proof.
  intros named l o names B N. unfold build_objectives in B. destruct (add_settled_not l _ _ B N) as (H1 & H2 & H3). cbn in *.
  assert (F : forall n, set_objective n o = (o, false)) by (intros n; unfold set_objective; now rewrite H1, H3).
  split; [|intros n; now rewrite F]. induction names as [|n names IH]; [exact H2|]. cbn. rewrite F. exact IH.
Qed.
Print Assumptions C45_unknown_name.
Theorem C45_unknown_name_refuted : exists named l o, build_objectives named l = Some o /\ l <> [] /\
  forall names, o_on (switch_all (map Choose names) o) = [].
Proof.
  exists "min_costs", [("min_cost", Some cost)], {| o_named := "min_costs"; o_built := [("min_cost", Some cost)]; o_on := [] |}.
  split; [reflexivity|]. split; [discriminate|]. intros names.
  apply (proj1 (C45_unknown_name "min_costs" [("min_cost", Some cost)] _ names eq_refl ltac:(cbn; intuition discriminate))).
Qed.
Print Assumptions C45_unknown_name_refuted.
(** An update after which the condition of the current objective no longer holds. *)
Theorem C45_condition_refuted : exists named l o, build_objectives named l = Some o /\ settled o /\
  snd (rebuild_objective named None o) = true /\ o_on (fst (rebuild_objective named None o)) = [].
Proof.
  exists "min_cost", [("min_cost", Some cost); ("min_co2", Some emissions); ("min_other", None)], ex_o.
  split; [reflexivity|]. split; [split; [reflexivity|exists cost; reflexivity]|]. repeat split.
Qed.
Print Assumptions C45_condition_refuted.

(** Gurobi: whatever calls are made, failing ones included. *)
Theorem C45_gurobi : forall named l g calls, NoDup (map fst l) -> g_build named l = Some g ->
  (exists e, In (named, Some e) l) -> keeps_current calls g -> g_settled (g_all calls g).
Proof.
  intros named l g calls ND B E A. destruct (g_build_settled named l g ND B E) as [S1 N1].
  apply g_all_settled; auto. apply g_add_keys in B. cbn in B. rewrite B. exact ND.
Qed.
Print Assumptions C45_gurobi.
Definition ex_g : gurobi :=
  {| g_named := "min_cost"; g_built := [("min_cost", Some cost); ("min_co2", Some emissions)]; g_inst := Some cost |}.
Example C45_gurobi_ex : g_settled (g_all [Choose "min_costs"; Choose "min_co2"; Renew "min_co2" (Some cost); Choose "other"] ex_g).
Proof.
  refine (C45_gurobi "min_cost" [("min_cost", Some cost); ("min_co2", Some emissions)] ex_g _ _ eq_refl _ _).
  - repeat constructor; cbn; intuition discriminate.
  - exists cost. cbn. auto.
  - cbn. repeat split. intros _ H. discriminate H.
Qed.
Example C45_gurobi_ex2 : g_inst (g_all [Choose "min_costs"; Choose "min_co2"] ex_g) = Some emissions.
Proof. reflexivity. Qed.

(** * C46 *)
Definition tech_labels (d : string) : list string := if String.eqb d "techs" then ["ccgt"; "csp"; "pv"] else [].
Definition at_tech (t : string) : pos := put (fun _ => "") "techs" t.
Definition n_ (z : Z) : Qc := Q2Qc (inject_Z z).
Definition cap_def (min max : given) : vdef :=
  {| f_dims := ["techs"]; f_labels := tech_labels; f_exists := fun p => negb (String.eqb (p "techs") "ccgt"); f_min := min; f_max := max |}.
Definition free (lb ub : Z) (q : option Z) : vstate :=
  {| v_lb := BNum (Val (n_ lb)); v_ub := BNum (Val (n_ ub)); v_value := option_map n_ q; v_fixed := false |}.
Definition caps (p : pos) : vstate := if String.eqb (p "techs") "csp" then free 0 10 (Some 7%Z) else free 0 20 (Some 9%Z).
Definition by_tech (labels : list string) (f : string -> cell) : larr :=
  {| r_dims := ["techs"]; r_labels := fun _ => labels; r_at := fun p => f (p "techs") |}.
Definition bounds_ex : larr := by_tech ["pv"] (fun _ => Val (n_ 5)).
Lemma nodup_tech d : NoDup (tech_labels d).
Proof. unfold tech_labels. destruct (String.eqb d "techs"); repeat constructor; cbn; intuition discriminate. Qed.
Lemma caps_variables min max : variables (cap_def min max) caps.
Proof.
  split; [repeat constructor; intros []|]. split; [apply nodup_tech|]. intros p q A.
  unfold caps. cbn. rewrite (A "techs" (or_introl eq_refl)). auto.
Qed.
Lemma by_tech_for min max labels f : for_variable (cap_def min max) (by_tech labels f).
Proof. split; [cbn; auto|]. intros p q A. cbn. now rewrite (A "techs" (or_introl eq_refl)). Qed.
Lemma tech_ascending min max : ascending (cap_def min max).
Proof.
  intros d. cbn. unfold tech_labels. destruct (String.eqb d "techs"); repeat constructor.
Qed.

Theorem C46_bounds : forall params v min max x, variables v x -> usable v min -> usable v max ->
  (min <> None -> changeable params (f_min v)) -> (max <> None -> changeable params (f_max v)) ->
  snd (update_bounds params v min max x) = true /\
  forall p, one_of v p ->
    let z := fst (update_bounds params v min max x) p in
    v_lb z = match given_at min p with Miss => v_lb (x p) | c => BNum c end /\
    v_ub z = match given_at max p with Miss => v_ub (x p) | c => BNum c end /\
    v_value z = v_value (x p) /\ v_fixed z = v_fixed (x p).
Proof.
  intros params v min max x V U1 U2 C1 C2.
  assert (A1 : exists z, update_bound params v Lower min x = (z, true) /\ variables v z /\
    forall p, one_of v p -> z p = match given_at min p with Miss => x p | c => set_bound Lower c (x p) end).
  { destruct min as [y|]; [|exists x; cbn; auto]. apply changed_bound; auto. apply C1. discriminate. }
  destruct A1 as (z1 & E1 & V1 & Z1).
  assert (A2 : exists z, update_bound params v Upper max z1 = (z, true) /\ variables v z /\
    forall p, one_of v p -> z p = match given_at max p with Miss => z1 p | c => set_bound Upper c (z1 p) end).
  { destruct max as [y|]; [|exists z1; cbn; auto]. apply changed_bound; auto. apply C2. discriminate. }
  destruct A2 as (z2 & E2 & V2 & Z2).
  unfold update_bounds. rewrite E1. cbn [fst snd]. rewrite E2. split; [reflexivity|]. intros p O1. cbn [fst].
  rewrite (Z2 p O1), (Z1 p O1). destruct (given_at min p), (given_at max p); cbn; auto.
Qed.
Print Assumptions C46_bounds.
Example C46_bounds_ex : v_ub (fst (update_bounds ["cap_max"] (cap_def (ByNumber (Val 0)) (ByNumber (Inf false))) None (Some bounds_ex) caps) (at_tech "pv")) = BNum (Val (n_ 5)) /\
  v_ub (fst (update_bounds ["cap_max"] (cap_def (ByNumber (Val 0)) (ByNumber (Inf false))) None (Some bounds_ex) caps) (at_tech "csp")) = BNum (Val (n_ 10)).
Proof.
  destruct (C46_bounds ["cap_max"] (cap_def (ByNumber (Val 0)) (ByNumber (Inf false))) None (Some bounds_ex) caps (caps_variables _ _) I
    (conj (by_tech_for _ _ _ _) (or_intror (tech_ascending _ _))) ltac:(congruence) ltac:(intros _ s H; discriminate)) as [_ H].
  split.
  - destruct (H (at_tech "pv")) as (_ & -> & _); [|reflexivity]. split; [|reflexivity]. intros d [<-|[]]. vm_compute. auto.
  - destruct (H (at_tech "csp")) as (_ & -> & _); [|reflexivity]. split; [|reflexivity]. intros d [<-|[]]. vm_compute. auto.
Qed.

(** Refused at once: the lower bound is a parameter, or only one bound is given. *)
Theorem C46_refused_partial : forall params v min max x s, variables v x ->
  (exists y, min = Some y) /\ f_min v = ByName s /\ In s params \/ min = None /\ (exists y, max = Some y) /\ f_max v = ByName s /\ In s params ->
  update_bounds params v min max x = (x, false).
Proof.
  intros params v min max x s V [([y ->] & E & I1)|(-> & [y ->] & E & I1)]; unfold update_bounds; cbn [update_bound bound_of];
    rewrite E; apply smem_in in I1; rewrite I1; reflexivity.
Qed.
Print Assumptions C46_refused_partial.
Example C46_refused_partial_ex : update_bounds ["cap_max"] (cap_def (ByName "cap_max") (ByNumber (Inf false))) (Some bounds_ex) (Some bounds_ex) caps = (caps, false).
Proof. apply (C46_refused_partial _ _ _ _ _ "cap_max" (caps_variables _ _)). left. cbn. eauto 6. Qed.
(** A refused update of both bounds changes the lower ones. *)
Theorem C46_refused_refuted : exists params v min max x p, variables v x /\ one_of v p /\
  usable v min /\ usable v max /\ snd (update_bounds params v min max x) = false /\ fst (update_bounds params v min max x) p <> x p.
Proof.
  exists ["cap_max"], (cap_def (ByNumber (Val 0)) (ByName "cap_max")), (Some bounds_ex), (Some bounds_ex), caps, (at_tech "pv").
  split; [apply caps_variables|]. split; [split; [intros d [<-|[]]; vm_compute; auto|reflexivity]|].
  split; [exact (conj (by_tech_for _ _ _ _) (or_intror (tech_ascending _ _)))|].
  split; [exact (conj (by_tech_for _ _ _ _) (or_intror (tech_ascending _ _)))|].
  split; [vm_compute; reflexivity|]. intros H. apply (f_equal v_lb) in H. vm_compute in H. discriminate H.
Qed.
Print Assumptions C46_refused_refuted.
(** Labels of the variable that are not in ascending order and an array without some of them: the
    entry for one label is taken as absent because that of another label is. *)
Definition unsorted : vdef :=
  {| f_dims := ["techs"]; f_labels := fun _ => ["pv"; "csp"; "wind"]; f_exists := fun _ => true; f_min := ByNumber (Val 0); f_max := ByNumber (Inf false) |}.
Theorem C46_labels_refuted : exists v y x p, variables v x /\ one_of v p /\ for_variable v y /\
  snd (update_bounds [] v (Some y) None x) = true /\ entry_at y p = Val (n_ 5) /\
  v_lb (fst (update_bounds [] v (Some y) None x) p) = v_lb (x p) /\ v_lb (x p) = BNum (Val (n_ 0)).
Proof.
  exists unsorted, (by_tech ["pv"; "csp"] (fun t => if String.eqb t "pv" then Val (n_ 5) else Miss)), (fun _ => free 0 10 None), (at_tech "pv").
  split.
  { split; [repeat constructor; intros []|]. split; [intros d; repeat constructor; cbn; intuition discriminate|]. auto. }
  split; [split; [intros d [<-|[]]; cbn; auto|reflexivity]|].
  split; [split; [cbn; auto|]; intros p q A; cbn; now rewrite (A "techs" (or_introl eq_refl))|].
  repeat split; vm_compute; reflexivity.
Qed.
Print Assumptions C46_labels_refuted.

(** Fixing succeeds if every variable chosen has a value, and changes nothing else. *)
Theorem C46_fix : forall v y x, variables v x -> full_where v y ->
  (snd (fix_variable v y x) = true <-> forall p, one_of v p -> chosen y p -> v_value (x p) <> None) /\
  (snd (fix_variable v y x) = true -> forall p, one_of v p -> chosen y p -> fixed_as true (x p) (fst (fix_variable v y x) p)) /\
  forall p, ~ (one_of v p /\ chosen y p) -> fst (fix_variable v y x) p = x p.
Proof.
  intros v y x V F.
  assert (OK : (forall p, one_of v p -> chosen y p -> v_value (x p) <> None) -> forall p, one_of v p -> chosen y p -> fix_one (x p) <> None).
  { intros H p H1 H2. specialize (H p H1 H2). unfold fix_one. destruct (v_value (x p)); [discriminate|tauto]. }
  assert (BK : snd (fix_variable v y x) = true -> forall p, one_of v p -> chosen y p -> v_value (x p) <> None).
  { intros H p H1 H2 H3. unfold fix_variable in H. rewrite (fix_fails v x y V F fix_one) in H; [discriminate|].
    exists p. repeat split; auto; try apply H1. unfold fix_one. now rewrite H3. }
  split; [split; [exact BK|]|split].
  - intros H. destruct (fix_ok v x y V F fix_one (OK H)) as (z & E & _). unfold fix_variable. now rewrite E.
  - intros H p H1 H2. destruct (fix_ok v x y V F fix_one (OK (BK H))) as (z & E & _ & Z). unfold fix_variable. rewrite E. cbn.
    destruct (Z p) as [Z1 _]. specialize (Z1 H1 H2). unfold fix_one in Z1. destruct (v_value (x p)) eqn:Ev; [|discriminate].
    injection Z1 as <-. now rewrite <- Ev.
  - intros p. apply (proj2 (fix_only v x y V F fix_one p)).
Qed.
Print Assumptions C46_fix.
Definition only_pv : larr := by_tech ["ccgt"; "csp"; "pv"] (fun t => if String.eqb t "pv" then Boo true else Miss).
Definition cap_v : vdef := cap_def (ByNumber (Val 0)) (ByNumber (Inf false)).
Lemma only_pv_full : full_where cap_v (Some only_pv).
Proof. split; [apply by_tech_for|]. intros d [<-|[]] l Hl. exact Hl. Qed.
Example C46_fix_ex : fixed_as true (caps (at_tech "pv")) (fst (fix_variable cap_v (Some only_pv) caps) (at_tech "pv")) /\
  fst (fix_variable cap_v (Some only_pv) caps) (at_tech "csp") = caps (at_tech "csp").
Proof.
  destruct (C46_fix cap_v (Some only_pv) caps (caps_variables _ _) only_pv_full) as (H1 & H2 & H3). split.
  - apply H2; [apply H1|split; [intros d [<-|[]]; vm_compute; auto|reflexivity]|reflexivity].
    intros p _ _. unfold caps. destruct (String.eqb (p "techs") "csp"); discriminate.
  - apply H3. intros [_ H]. vm_compute in H. discriminate H.
Qed.
(** Refused fixing may have fixed some of the variables chosen ... *)
Theorem C46_fix_refused_partial : forall v y x p, variables v x -> full_where v y -> one_of v p -> chosen y p ->
  fixed_as true (x p) (fst (fix_variable v y x) p) \/ fst (fix_variable v y x) p = x p.
Proof.
  intros v y x p V F O1 C. destruct (proj1 (fix_only v x y V F fix_one p) O1 C) as [H|H]; [left|now right].
  unfold fix_one in H at 1. destruct (v_value (x p)) eqn:Ev; [|discriminate]. unfold fix_variable. injection H as <-.
  unfold fixed_as. cbn. auto.
Qed.
Print Assumptions C46_fix_refused_partial.
Example C46_fix_refused_partial_ex : fixed_as true (caps (at_tech "pv")) (fst (fix_variable cap_v (Some only_pv) caps) (at_tech "pv")) \/
  fst (fix_variable cap_v (Some only_pv) caps) (at_tech "pv") = caps (at_tech "pv").
Proof.
  apply C46_fix_refused_partial; [apply caps_variables|apply only_pv_full| |reflexivity].
  split; [intros d [<-|[]]; vm_compute; auto|reflexivity].
Qed.
(** ... and does so if a later one has no value. *)
Definition half_solved (p : pos) : vstate := if String.eqb (p "techs") "csp" then free 0 10 (Some 7%Z) else free 0 20 None.
Theorem C46_fix_refused_refuted : exists v x p, variables v x /\ one_of v p /\ snd (fix_variable v None x) = false /\
  fst (fix_variable v None x) p <> x p.
Proof.
  exists cap_v, half_solved, (at_tech "csp").
  split.
  { split; [repeat constructor; intros []|]. split; [apply nodup_tech|]. intros p q A.
    unfold half_solved. cbn. rewrite (A "techs" (or_introl eq_refl)). auto. }
  split; [split; [intros d [<-|[]]; vm_compute; auto|reflexivity]|]. split; [vm_compute; reflexivity|].
  intros H. apply (f_equal v_fixed) in H. vm_compute in H. discriminate H.
Qed.
Print Assumptions C46_fix_refused_refuted.
(** Unfixing restores what was before. *)
Theorem C46_unfix : forall v y x, variables v x -> full_where v y ->
  (forall p, one_of v p -> chosen y p -> v_value (x p) <> None /\ v_fixed (x p) = false) ->
  snd (unfix_variable v y (fst (fix_variable v y x))) = true /\
  forall p, fst (unfix_variable v y (fst (fix_variable v y x))) p = x p.
Proof.
  intros v y x V F H.
  destruct (fix_ok v x y V F fix_one) as (z & E & Vz & Z).
  { intros p H1 H2. destruct (H p H1 H2) as [H3 _]. unfold fix_one. destruct (v_value (x p)); [discriminate|tauto]. }
  destruct (fix_ok v z y Vz F unfix_one) as (u & Eu & Vu & U); [discriminate|].
  unfold unfix_variable, fix_variable. rewrite E. cbn [fst]. rewrite Eu. split; [reflexivity|]. intros p. cbn [fst].
  destruct (Z p) as [Z1 Z2], (U p) as [U1 U2].
  assert (D : {one_of v p /\ chosen y p} + {~ (one_of v p /\ chosen y p)}).
  { destruct (forallb (fun d => smem (p d) (f_labels v d)) (f_dims v)) eqn:E1, (f_exists v p) eqn:E2.
    - assert (O1 : one_of v p) by (split; [intros d Hd; apply smem_in; apply (proj1 (forallb_forall _ _) E1 d Hd)|exact E2]).
      destruct (holds (r_at (where_of y) p)) eqn:E3.
      + left. split; [exact O1|]. now apply (holds_chosen v y p F O1).
      + right. intros [_ C]. apply (holds_chosen v y p F O1) in C. congruence.
    - right. intros [[_ C] _]. congruence.
    - right. intros [[C _] _]. rewrite (proj2 (forallb_forall _ _)) in E1; [discriminate|]. intros d Hd. apply smem_in. auto.
    - right. intros [[_ C] _]. congruence. }
  destruct D as [[O1 C]|N].
  - destruct (H p O1 C) as [H3 H4]. specialize (Z1 O1 C). specialize (U1 O1 C). unfold fix_one in Z1. unfold unfix_one in U1.
    destruct (v_value (x p)) as [q|] eqn:Ev; [|tauto]. injection Z1 as Z1. rewrite <- Z1 in U1. cbn in U1. injection U1 as <-.
    destruct (x p) as [a b c d]. cbn in *. now subst.
  - rewrite U2, Z2; auto.
Qed.
Print Assumptions C46_unfix.
Example C46_unfix_ex : fst (unfix_variable cap_v (Some only_pv) (fst (fix_variable cap_v (Some only_pv) caps))) (at_tech "pv") = caps (at_tech "pv").
Proof.
  apply C46_unfix; [apply caps_variables|apply only_pv_full|]. intros p _ _. unfold caps.
  destruct (String.eqb (p "techs") "csp"); split; cbn; congruence.
Qed.

(** * C68: fixing under a condition *)
(** Missing for the full C68: conditions without some of the labels (refuted below). *)
Theorem C68_partial : forall v y x, variables v x -> full_where v (Some y) ->
  (forall p, one_of v p -> chosen (Some y) p -> v_value (x p) <> None) ->
  forall p, one_of v p -> fixed_as (match entry_at y p with Boo true => true | _ => v_fixed (x p) end) (x p) (fst (fix_variable v (Some y) x) p).
Proof.
  intros v y x V F H p O1. destruct (C46_fix v (Some y) x V F) as (H1 & H2 & H3).
  destruct (entry_at y p) as [| | |[]|] eqn:E; try (rewrite H3; [unfold fixed_as; auto|intros [_ C]; cbn in C; congruence]).
  apply H2; [now apply H1|exact O1|exact E].
Qed.
Print Assumptions C68_partial.
Example C68_partial_ex : fixed_as true (caps (at_tech "pv")) (fst (fix_variable cap_v (Some only_pv) caps) (at_tech "pv")).
Proof.
  refine (C68_partial cap_v only_pv caps (caps_variables _ _) only_pv_full _ (at_tech "pv") _).
  - intros p _ _. unfold caps. destruct (String.eqb (p "techs") "csp"); discriminate.
  - split; [intros d [<-|[]]; vm_compute; auto|reflexivity].
Qed.
(** A condition given for one label only fixes the variables of all labels. *)
Theorem C68_one_label_refuted : exists v y x p, variables v x /\ for_variable v y /\ one_of v p /\ entry_at y p = Miss /\
  snd (fix_variable v (Some y) x) = true /\ v_fixed (x p) = false /\ v_fixed (fst (fix_variable v (Some y) x) p) = true.
Proof.
  exists {| f_dims := ["techs"]; f_labels := tech_labels; f_exists := fun _ => true; f_min := ByNumber (Val 0); f_max := ByNumber (Inf false) |},
    (by_tech ["pv"] (fun _ => Boo true)), caps, (at_tech "csp").
  split.
  { split; [repeat constructor; intros []|]. split; [apply nodup_tech|]. intros p q A.
    unfold caps. cbn. rewrite (A "techs" (or_introl eq_refl)). auto. }
  split; [split; [cbn; auto|reflexivity]|].
  split; [split; [intros d [<-|[]]; vm_compute; auto|reflexivity]|]. repeat split; vm_compute; reflexivity.
Qed.
Print Assumptions C68_one_label_refuted.
(** Gurobi fixes exactly the entries chosen, whatever labels the condition has. *)
Theorem C68_gurobi : forall v y x, variables v x -> for_variable v y ->
  (forall p, one_of v p -> chosen (Some y) p -> v_value (x p) <> None) ->
  snd (g_fix_variable true v (Some y) x) = true /\
  forall p, one_of v p ->
    (entry_at y p = Boo true -> exists q, v_value (x p) = Some q /\ let z := fst (g_fix_variable true v (Some y) x) p in
       v_lb z = BNum (Val q) /\ v_ub z = BNum (Val q) /\ v_value z = Some q) /\
    (entry_at y p <> Boo true -> fst (g_fix_variable true v (Some y) x) p = x p).
Proof.
  intros v y x V F H. destruct (g_fix_ok v x (Some y) V F H) as (z & E & Z). rewrite E. split; [reflexivity|]. intros p O1. cbn [fst].
  destruct (Z p) as [Z1 Z2]. split.
  - intros C. specialize (H p O1 C). specialize (Z1 O1 C). unfold g_fix_one in Z1. destruct (v_value (x p)) as [q|]; [|tauto].
    exists q. injection Z1 as <-. auto.
  - intros N. apply Z2. intros [_ C]. contradiction.
Qed.
Print Assumptions C68_gurobi.
(** Before the problem is solved nothing can be fixed: the call fails and changes no variable. *)
Theorem C68_gurobi_unsolved : forall v y x, g_fix_variable false v y x = (x, false).
Proof. reflexivity. Qed.
Print Assumptions C68_gurobi_unsolved.
Example C68_gurobi_ex : fst (g_fix_variable true cap_v (Some (by_tech ["pv"] (fun _ => Boo true))) caps) (at_tech "csp") = caps (at_tech "csp").
Proof.
  destruct (C68_gurobi cap_v (by_tech ["pv"] (fun _ => Boo true)) caps (caps_variables _ _) (by_tech_for _ _ _ _)) as [_ H].
  - intros p _ _. unfold caps. destruct (String.eqb (p "techs") "csp"); discriminate.
  - destruct (H (at_tech "csp")) as [_ H2]; [split; [intros d [<-|[]]; vm_compute; auto|reflexivity]|]. apply H2. vm_compute. discriminate.
Qed.

(** * C67 *)
(** Missing for the full C67: variables that are built again (refuted below). *)
Theorem C67_partial : forall L M bounds default s new st x st' z n p e, NoDup (d_keys (s_data st)) ->
  d_get s (s_data st) = Some e -> ~ uses (s_data st) s n \/ only_values e new ->
  update_with_variables L true M bounds default s new st x = Some (st', z) -> z n p = x n p.
Proof.
  intros L M bounds default s new st x st' z n p e ND G C H. unfold update_with_variables in H.
  destruct (update_input L true M s new st) as [st1|]; [|discriminate]. injection H as <- <-.
  destruct (smem n (renewed L true M s new st)) eqn:E; [|reflexivity]. exfalso. apply smem_in in E.
  unfold renewed in E. destruct (d_get s (m_inputs M)) as [lookup|]; [|destruct E]. rewrite G in E.
  destruct (needs_rebuild L true e new) eqn:NR; [|destruct E].
  destruct C as [C|C].
  - apply C. match type of E with context [find_all ?a ?b ?c] => destruct (find_all a b c) as [refs|] eqn:FA end; [|destruct E].
    apply filter_In in E as [_ E]. apply smem_in in E. refine (find_uses (s_data st) _ s e _ refs G _ _ FA n E); cbn [add_input delete s_data].
    + intros m N. rewrite get_app_other by exact N. now apply d_get_del_other.
    + intros e' G'. rewrite get_none_app in G'; [injection G' as <-; unfold input_entry; now destruct (all_missing _ _)|].
      clear -ND. induction (s_data st) as [|[y v] D IH]; cbn in *; [reflexivity|]. rewrite NoDup_cons_iff in ND. destruct ND as [N ND].
      destruct (String.eqb_spec s y) as [->|NE]; cbn.
      * destruct (d_get y D) eqn:E; [|reflexivity]. exfalso. apply N. clear -E. induction D as [|[w u] D IH]; cbn in *; [discriminate|].
        destruct (String.eqb_spec y w); [auto|]. right. apply IH. exact E.
      * destruct (String.eqb_spec s y); [congruence|]. auto.
  - destruct C as (C1 & C2 & C3). unfold needs_rebuild in NR. rewrite C1 in NR. cbn [kind_eqb negb] in NR.
    rewrite !orb_false_r in NR. apply orb_prop in NR as [NR|NR]; [apply orb_prop in NR as [NR|NR]|].
    + destruct (t_dims e); [|discriminate]. destruct (a_dims new) as [|d ds]; [discriminate|]. apply (C2 d). cbn; auto.
    + apply negb_true_iff in NR. rewrite (proj2 (HelperProofs.all_in_spec _ _) C2) in NR. discriminate.
    + apply existsb_exists in NR as (q & _ & NR). apply andb_prop in NR as [N1 N2].
      apply (C3 q); [destruct (a_at new q); discriminate|]. destruct (t_at e q); [reflexivity|discriminate..].
Qed.
Print Assumptions C67_partial.
Definition flow_bounds (n : string) : given * given := (ByNumber (Val 0), ByName "cap").
Definition flow_x (n : string) (p : pos) : vstate :=
  if String.eqb n "flow" then {| v_lb := BNum (Val (n_ 2)); v_ub := BPar "cap" p; v_value := Some (n_ 3); v_fixed := true |} else free 0 1 None.
Example C67_partial_ex : match update_with_variables ex_L true ex_M flow_bounds (fun _ => Miss) "cap" (nodes (num 5) Miss) (ex_fresh true (nodes (num 3) Miss)) flow_x with
  | Some (_, z) => v_fixed (z "flow" n1) = true
  | None => False
  end.
Proof.
  destruct (update_with_variables _ _ _ _ _ _ _ _ _) as [[st' z]|] eqn:E; [|vm_compute in E; discriminate].
  destruct (d_get "cap" (s_data (ex_fresh true (nodes (num 3) Miss)))) as [e|] eqn:G; [|vm_compute in G; discriminate].
  rewrite (fun A B => C67_partial _ _ _ _ _ _ _ _ _ _ "flow" n1 e A G B E); [reflexivity| |].
  - vm_compute. repeat constructor; cbn; intuition discriminate.
  - right. vm_compute in G. injection G as <-. split; [reflexivity|]. split; [cbn; auto|]. intros p. cbn [t_at].
    unfold nodes, a_at at 1. destruct (String.eqb_spec (p "nodes") "n1") as [->|_]; [discriminate|].
    destruct (String.eqb (p "nodes") "n2"); intros H; congruence.
Qed.
Lemma flow_built_again : match update_with_variables ex_L true ex_M flow_bounds (fun _ => Miss) "cap" (nodes Miss (num 7)) (ex_fresh true (nodes (num 3) Miss)) flow_x with
  | Some (_, z) => negb (v_fixed (z "flow" n1)) && match v_lb (z "flow" n1) with BNum (Val q) => Qc_eq_bool q 0 | _ => false end
  | None => false
  end = true.
Proof. vm_compute. reflexivity. Qed.
(** A value for one more node builds the variables again: a fixed variable with a changed bound at
    another node is free again and has the bound of the definition. *)
Theorem C67_refuted : exists L M bounds default s new st x st' z n p,
  well_formed M /\ update_with_variables L true M bounds default s new st x = Some (st', z) /\
  v_fixed (x n p) = true /\ v_fixed (z n p) = false /\ v_lb (z n p) <> v_lb (x n p) /\ a_at new p = Miss.
Proof.
  exists ex_L, ex_M, flow_bounds, (fun _ => Miss), "cap", (nodes Miss (num 7)), (ex_fresh true (nodes (num 3) Miss)), flow_x.
  pose proof flow_built_again as F.
  destruct (update_with_variables ex_L true ex_M flow_bounds (fun _ => Miss) "cap" (nodes Miss (num 7)) (ex_fresh true (nodes (num 3) Miss)) flow_x) as [[st' z]|]; [|discriminate F].
  exists st', z, "flow", n1. split; [exact ex_wf|]. split; [reflexivity|]. split; [reflexivity|].
  apply andb_prop in F as [F1 F2]. apply negb_true_iff in F1. split; [exact F1|]. split; [|reflexivity].
  intros H. rewrite H in F2. vm_compute in F2. discriminate F2.
Qed.
Print Assumptions C67_refuted.
