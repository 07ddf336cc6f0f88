(** C80: lower limits of capacities.  C76: no area without capacity.  C93: curtailment over all timesteps.
    C94: levelised costs of carriers.  C95: reported unmet demand. *)
From Coq Require Import QArith Qcanon Lia Field.
From Verif Require Import Base BaseProofs LangModel MathText EvalModel EvalSpec BuildModel BuildSpec HelperModel HelperSpec ShipModel ShipSpec ShipNumbers ShipExample NetSpec NetProofs NetExample
  PlaceSpec ShipPlace RuleText BoundSpec RuleProofs MilpProofs ShipFast RuleExample MilpExample CostSpec CostText CostProofs CostPost CostExample StepExample RestSpec RestProofs RestExample NetProps RuleProps MilpProps PostProps.
Local Open Scope nat_scope.
Local Open Scope string_scope.
Local Open Scope list_scope.
Local Arguments Qcplus : simpl never.
Local Arguments Qcmult : simpl never.
Local Arguments Qcminus : simpl never.
Local Arguments Qcdiv : simpl never.
Local Arguments Qcinv : simpl never.

(** * C80 *)
(** Lower limits hold for each unit bought, and once for technologies that are not bought in units. *)
Theorem C80_least order files U n t c b :
  lists_set order -> In files milp_lists -> sited U (cap_at n t c) ->
  given U "purchased_units" (asset n t) /\ b = amount U "purchased_units" (asset n t) \/ absent U "purchased_units" (asset n t) /\ b = 1%Qc ->
  (given U "storage_cap_min" (asset n t) -> numeric U "storage_cap" (asset n t) -> constraint_holds order (layered files) U "storage_capacity_minimum" ->
    (amount U "storage_cap_min" (asset n t) * b <= amount U "storage_cap" (asset n t))%Qc) /\
  (given U "area_use_min" (asset n t) -> numeric U "area_use" (asset n t) -> constraint_holds order (layered files) U "area_use_minimum" ->
    (amount U "area_use_min" (asset n t) * b <= amount U "area_use" (asset n t))%Qc) /\
  (reads_as U "base_tech" (tech_at t) (Txt "supply") -> given U "source_cap_min" (asset n t) -> numeric U "source_cap" (asset n t) -> constraint_holds order (layered files) U "source_capacity_minimum" ->
    (amount U "source_cap_min" (asset n t) * b <= amount U "source_cap" (asset n t))%Qc).
Proof.
  intros OR IM SI [(GP & ->)|(AP & ->)]; (split; [|split]); [|  | |rewrite Qcmult_1_r..].
  - intros GM NS CH; exact (store_above_bought order OR files U n t c SI IM GP GM NS CH).
  - intros GM NS CH; exact (area_above_bought order OR files U n t c SI IM GP GM NS CH).
  - intros BT GM NS CH; exact (source_above_bought order OR files U n t c SI IM GP BT GM NS CH).
  - intros GM NS CH; exact (store_above order OR files U n t c SI IM AP GM NS CH).
  - intros GM NS CH; exact (area_above order OR files U n t c SI IM AP GM NS CH).
  - intros BT GM NS CH; exact (RestProofs.source_above order OR files U n t c SI IM AP BT GM NS CH).
Qed.
Print Assumptions C80_least.
Ltac yard_rule := apply yard_rules; cbn; tauto.
Ltac yard_site := apply yard_cap; cbn; tauto.
Example C80_least_ex : (Q2Qc 10 * Q2Qc 3 <= amount yard "storage_cap" (asset "here" "silo"))%Qc /\ (Q2Qc 7 * 1 <= amount yard "storage_cap" (asset "here" "shed"))%Qc /\
  (1 * Q2Qc 2 <= amount yard "area_use" (asset "here" "mill"))%Qc /\ (Q2Qc 4 * Q2Qc 2 <= amount yard "source_cap" (asset "here" "mill"))%Qc /\ (Q2Qc 5 * 1 <= amount yard "source_cap" (asset "here" "kiln"))%Qc.
Proof.
  repeat split.
  - refine (proj1 (C80_least as_listed unit_math yard "here" "silo" "power" (Q2Qc 3) as_listed_set unit_listed _ (or_introl _)) _ _ _); [yard_site|split; [is_given|is_equal]|is_given|is_num|yard_rule].
  - refine (proj1 (C80_least as_listed unit_math yard "here" "shed" "power" 1%Qc as_listed_set unit_listed _ (or_intror _)) _ _ _); [yard_site|split; [is_as|reflexivity]|is_given|is_num|yard_rule].
  - refine (proj1 (proj2 (C80_least as_listed unit_math yard "here" "mill" "power" (Q2Qc 2) as_listed_set unit_listed _ (or_introl _))) _ _ _); [yard_site|split; [is_given|is_equal]|is_given|is_num|yard_rule].
  - refine (proj2 (proj2 (C80_least as_listed unit_math yard "here" "mill" "power" (Q2Qc 2) as_listed_set unit_listed _ (or_introl _))) _ _ _ _); [yard_site|split; [is_given|is_equal]|is_as|is_given|is_num|yard_rule].
  - refine (proj2 (proj2 (C80_least as_listed unit_math yard "here" "kiln" "power" 1%Qc as_listed_set unit_listed _ (or_intror _))) _ _ _ _); [yard_site|split; [is_as|reflexivity]|is_as|is_given|is_num|yard_rule].
Qed.

(** * C76 *)
Theorem C76_no_area order files U n t c :
  lists_set order -> In files shipped -> sited U (cap_at n t c) -> given U "area_use" (asset n t) -> given U "flow_cap_max" (cap_at n t c) -> amount U "flow_cap_max" (cap_at n t c) = 0%Qc ->
  constraint_holds order (layered files) U "force_zero_area_use" -> amount U "area_use" (asset n t) = 0%Qc.
Proof. intros OR IF SI GA GM EZ CH; exact (area_none order OR files U n t c SI IF GA GM EZ CH). Qed.
Print Assumptions C76_no_area.
Lemma base_listed : In base_math shipped. Proof. left; reflexivity. Qed.
Lemma farm_rule steady s : In s (active_names (h_constraints (layered base_math)) (layered base_math)) -> smem s (h_off (layered base_math)) = false -> constraint_holds as_listed (layered base_math) (farm steady) s.
Proof. intros A B; apply feasible_constraint; [exact (farm_feasible steady)|exact A|exact B]. Qed.
Ltac farm_holds := apply farm_rule; [vm_compute; tauto|reflexivity].
Example C76_no_area_ex : amount (farm true) "area_use" (asset "here" "field") = 0%Qc.
Proof.
  refine (C76_no_area as_listed base_math (farm true) "here" "field" "power" as_listed_set base_listed _ _ _ _ _); [|is_given|is_given|is_equal|farm_holds].
  pose proof (farm_proper true) as FP; sited_by FP.
Qed.

(** * C93 *)
Lemma left_over x : (0 <= x)%Qc -> (x <= 1)%Qc -> fraction (1 - x)%Qc.
Proof.
  intros L H; split; apply Qcle_minus_iff.
  - replace (1 - x + - 0)%Qc with (1 + - x)%Qc by ring; apply (proj1 (Qcle_minus_iff _ _)), H.
  - replace (1 + - (1 - x))%Qc with (x + - 0)%Qc by ring; apply (proj1 (Qcle_minus_iff _ _)), L.
Qed.
Lemma weighed_by U n t f w : (forall k, In k (labels U "timesteps") -> weight U k = w) ->
  taken U n t (weight U) = (w * taken U n t (fun _ => 1%Qc))%Qc /\ available U n t f (weight U) = (w * available U n t f (fun _ => 1%Qc))%Qc.
Proof.
  intros E; split; unfold taken, available; rewrite <- sum_scale; apply sum_same; intros k IK; rewrite (E k IK); ring.
Qed.
(** Partial: with limits that are given for each timestep, and timesteps of the same weight, the
    result is the fraction of what could have been taken over the whole time that was not taken, and it
    lies between zero and one. *)
Theorem C93_partial order files U n t c k f w :
  lists_set order -> In files shipped -> (forall k, In k (labels U "timesteps") -> sited U (flow_at n t c k)) -> In k (labels U "timesteps") -> reads_as U "base_tech" (tech_at t) (Txt "supply") ->
  given U "source_cap" (asset n t) -> (0 < amount U "source_cap" (asset n t))%Qc -> per_unit U "source_unit" n t f \/ per_capacity U "source_unit" n t f ->
  In "timesteps" (a_dims (n_array (u_env U) "source_use")) -> In "timesteps" (a_dims (n_array (u_env U) "source_use_max")) ->
  (forall k, In k (labels U "timesteps") -> given U "source_use" (use_at n t k) /\ (0 <= amount U "source_use" (use_at n t k))%Qc /\ given U "source_use_max" (use_at n t k) /\ absent U "source_use_equals" (use_at n t k)) ->
  (0 < available U n t f (fun _ => 1%Qc))%Qc -> w <> 0%Qc -> (forall k, In k (labels U "timesteps") -> weight U k = w) ->
  constraint_holds order (layered files) U "source_availability_supply" -> constraint_holds order (layered files) U "balance_supply_min_use" -> post_built order (layered files) U "total_curtailment" ->
  let q := (1 - taken U n t (weight U) / available U n t f (weight U))%Qc in post_is order (layered files) U "total_curtailment" (asset n t) q /\ fraction q.
Proof.
  intros OR IF SI IK BT GC PC PF D1 D2 HK PA WZ WK C1 C2 PB q.
  assert (EQ : q = (1 - taken U n t (fun _ => 1%Qc) / available U n t f (fun _ => 1%Qc))%Qc).
  { unfold q; destruct (weighed_by U n t f w WK) as (-> & ->); field; split; [exact (Qclt_nonzero _ PA)|exact WZ]. }
  assert (NU : forall s l, given U s l -> numeric U s l) by (intros s l (W & _ & v & E); split; [exact W|]; exists v; unfold value_at; rewrite E; reflexivity).
  assert (T1 : taken U n t (fun _ => 1%Qc) = sum_over (labels U "timesteps") (fun k => amount U "source_use" (use_at n t k))) by (apply sum_same; intros; ring).
  assert (A1 : available U n t f (fun _ => 1%Qc) = sum_over (labels U "timesteps") (fun k => amount U "source_use_max" (use_at n t k) * f)%Qc) by (apply sum_same; intros; ring).
  rewrite EQ; split.
  - rewrite T1; refine (curbed_is order OR files IF U n t c k f _ (SI k IK) BT (proj1 (proj2 (proj2 (HK k IK)))) GC PC PF _ (or_introl (conj _ A1)) (Qclt_nonzero _ PA) PB).
    + split; [exact D1|intros k' IK'; apply NU, (HK k' IK')].
    + split; [exact D2|intros k' IK'; apply NU, (HK k' IK')].
  - destruct (ratio (taken U n t (fun _ => 1%Qc)) (available U n t f (fun _ => 1%Qc))) as (L & H); [| |exact PA|].
    + rewrite T1; apply sum_nonneg; intros k' IK'; apply (HK k' IK').
    + rewrite T1, A1; apply sum_le; intros k' IK'; destruct (HK k' IK') as (GU & _ & GM & AE).
      exact (proj1 (proj2 (C72_limits order files U n t c k' f OR IF (SI k' IK') GU PF C1 C2)) AE GM).
    + exact (left_over _ L H).
Qed.
Print Assumptions C93_partial.
Lemma park_rule s : In s (active_names (h_constraints (layered base_math)) (layered base_math)) -> smem s (h_off (layered base_math)) = false -> constraint_holds as_listed (layered base_math) park s.
Proof. intros A B; apply feasible_constraint; [exact park_feasible|exact A|exact B]. Qed.
Ltac park_holds := apply park_rule; [vm_compute; tauto|reflexivity].
Lemma park_curtailed : post_is as_listed (layered base_math) park "total_curtailment" (asset "here" "sun") (Q2Qc (2 # 5)).
Proof. apply post_sound; vm_compute; reflexivity. Qed.
Example C93_partial_ex : let q := (1 - taken park "here" "sun" (weight park) / available park "here" "sun" 1 (weight park))%Qc in
  post_is as_listed (layered base_math) park "total_curtailment" (asset "here" "sun") q /\ fraction q.
Proof.
  refine (C93_partial as_listed base_math park "here" "sun" "power" "t0" 1%Qc (Q2Qc 2) as_listed_set base_listed _ _ _ _ _ (or_introl _) _ _ _ _ _ _ _ _ (post_there _ _ _ _ _ _ park_curtailed)).
  - intros k IK; apply park_at; [cbn; tauto|exact IK].
  - vm_compute; tauto.
  - is_as.
  - is_given.
  - positive.
  - left; split; [is_as|reflexivity].
  - vm_compute; tauto.
  - vm_compute; tauto.
  - intros k IK; vm_compute in IK; destruct IK as [<- |[<- |[]]]; (split; [is_given|split; [vm_compute; discriminate|split; [is_given|is_as]]]).
  - positive.
  - intros H; vm_compute in H; discriminate H.
  - intros k IK; vm_compute in IK; destruct IK as [<- |[<- |[]]]; is_equal.
  - park_holds.
  - park_holds.
Qed.
(** Timesteps that stand for several hours count like others. *)
Theorem C93_weights_refuted : exists files U n t c k x, In files shipped /\ solution as_listed files U /\ sited U (flow_at n t c k) /\ reads_as U "source_unit" (asset n t) (Txt "absolute") /\
  (forall k, In k (labels U "timesteps") -> given U "source_use" (use_at n t k) /\ given U "source_use_max" (use_at n t k)) /\
  post_is as_listed (layered files) U "total_curtailment" (asset n t) x /\ x <> (1 - taken U n t (weight U) / available U n t 1 (weight U))%Qc.
Proof.
  exists base_math, (farm false), "here", "sun", "power", "t0", (Q2Qc (1 # 4)); split; [exact base_listed|split; [exact (farm_solution false)|split; [apply farm_at; cbn; tauto|split; [is_as|split]]]].
  - intros k IK; vm_compute in IK; destruct IK as [<- |[<- |[]]]; (split; is_given).
  - split; [apply post_sound; vm_compute; reflexivity|intros E; vm_compute in E; discriminate E].
Qed.
Print Assumptions C93_weights_refuted.
(** A limit that is the same at all times is counted once: a source that is never used more than it
    may has a negative curtailment. *)
Theorem C93_constant_refuted : exists files U n t c k x, In files shipped /\ solution as_listed files U /\ sited U (flow_at n t c k) /\ reads_as U "source_unit" (asset n t) (Txt "absolute") /\
  (forall k, In k (labels U "timesteps") -> given U "source_use" (use_at n t k) /\ given U "source_use_max" (use_at n t k) /\ (amount U "source_use" (use_at n t k) <= amount U "source_use_max" (use_at n t k))%Qc) /\
  post_is as_listed (layered files) U "total_curtailment" (asset n t) x /\ (x < 0)%Qc.
Proof.
  exists base_math, (farm true), "here", "sun", "power", "t0", (Q2Qc (- (1) # 2)); split; [exact base_listed|split; [exact (farm_solution true)|split; [apply farm_at; cbn; tauto|split; [is_as|split]]]].
  - intros k IK; vm_compute in IK; destruct IK as [<- |[<- |[]]]; (split; [is_given|split; [is_given|vm_compute; discriminate]]).
  - split; [apply post_sound; vm_compute; reflexivity|vm_compute; reflexivity].
Qed.
Print Assumptions C93_constant_refuted.

(** * C94 *)
(** Partial: the costs of all technologies are divided by what was generated of the carrier, so the
    result is right if there is only one carrier. *)
Theorem C94_partial order files U n t c o :
  lists_set order -> In files shipped -> sited U (class_cap n t c o) -> In "techs" (a_dims (n_array (u_env U) "total_generation")) -> (forall t, In t (labels U "techs") -> numeric U "total_generation" (carrier_of t c)) ->
  (0 < reported U c)%Qc -> In "nodes" (a_dims (n_array (u_env U) "cost")) -> In "techs" (a_dims (n_array (u_env U) "cost")) ->
  (forall n t, In n (labels U "nodes") -> In t (labels U "techs") -> numeric U "cost" (class_at n t o)) -> post_built order (layered files) U "total_levelised_cost" ->
  post_is order (layered files) U "total_levelised_cost" (paid_for c o) (costs_of U (labels U "techs") o / reported U c)%Qc /\
  (labels U "carriers" = [c] -> forall x, post_is order (layered files) U "total_levelised_cost" (paid_for c o) x -> sum_over (labels U "carriers") (fun c => x * reported U c)%Qc = costs_of U (labels U "techs") o).
Proof.
  intros OR IF SI DT NG PG DN DT' NC PB; pose proof (paid_is order OR files IF U n t c o SI DT NG PG DN DT' NC PB) as L; split; [exact L|].
  intros EC x (co & r & FC & HB & EX); destruct L as (co' & r' & FC' & HB' & EX'); rewrite FC in FC'; injection FC' as <-; rewrite HB in HB'; injection HB' as <-; rewrite EX in EX'; injection EX' as ->; rewrite EC.
  change (costs_of U (labels U "techs") o / reported U c * reported U c + 0 = costs_of U (labels U "techs") o)%Qc; field; exact (Qclt_nonzero _ PG).
Qed.
Print Assumptions C94_partial.
Lemma park_paid : post_is as_listed (layered base_math) park "total_levelised_cost" (paid_for "power" "monetary") (Q2Qc 2).
Proof. apply post_sound; vm_compute; reflexivity. Qed.
Example C94_partial_ex : post_is as_listed (layered base_math) park "total_levelised_cost" (paid_for "power" "monetary") (costs_of park (labels park "techs") "monetary" / reported park "power")%Qc.
Proof.
  refine (proj1 (C94_partial as_listed base_math park "here" "sun" "power" "monetary" as_listed_set base_listed park_class _ _ _ _ _ _ (post_there _ _ _ _ _ _ park_paid))).
  - vm_compute; tauto.
  - intros t IT; vm_compute in IT; destruct IT as [<- |[<- |[]]]; is_num.
  - positive.
  - vm_compute; tauto.
  - vm_compute; tauto.
  - intros n t I1 IT; vm_compute in I1, IT; destruct I1 as [<- |[]], IT as [<- |[<- |[]]]; is_num.
Qed.
(** With several carriers everyone pays for everything. *)
Theorem C94_refuted : exists files U c o x, In files shipped /\ solution as_listed files U /\ In c (labels U "carriers") /\
  (forall t, In t (labels U "techs") -> ~ In t (puts_out U c) -> amount U "total_generation" (carrier_of t c) = 0%Qc) /\
  (forall t, In t (labels U "techs") -> post_is as_listed (layered files) U "total_generation" (carrier_of t c) (amount U "total_generation" (carrier_of t c)) \/ amount U "total_generation" (carrier_of t c) = 0%Qc) /\
  post_is as_listed (layered files) U "total_levelised_cost" (paid_for c o) x /\ (0 < costs_of U (puts_out U c) o)%Qc /\ (Q2Qc 2 * (costs_of U (puts_out U c) o / reported U c) < x)%Qc.
Proof.
  exists base_math, (farm false), "power", "monetary", (Q2Qc (57 # 15)); split; [exact base_listed|split; [exact (farm_solution false)|split; [vm_compute; tauto|split; [|split]]]].
  - intros t IT NP; vm_compute in IT; repeat (destruct IT as [<- |IT]; [first [exfalso; apply NP; vm_compute; tauto|is_equal]|]); destruct IT.
  - intros t IT; vm_compute in IT; repeat (destruct IT as [<- |IT]; [first [right; is_equal; fail|left; apply post_sound; vm_compute; reflexivity]|]); destruct IT.
  - split; [apply post_sound; vm_compute; reflexivity|split; vm_compute; reflexivity].
Qed.
Print Assumptions C94_refuted.

(** * C95 *)
(** What is reported as unmet is what consumption and export exceed production by. *)
Theorem C95_unmet order files U n t c k :
  lists_set order -> In files shipped -> network U -> sited U (flow_at n t c k) -> n_config (u_env U) "ensure_feasibility" = Boo true ->
  constraint_holds order (layered files) U "system_balance" -> post_built order (layered files) U "unmet_sum" ->
  post_is order (layered files) U "unmet_sum" (bus_at n c k)
    (over_techs U (fun t => flow U "flow_in" n t c k) + over_techs U (fun t => flow U "flow_export" n t c k) - over_techs U (fun t => flow U "flow_out" n t c k))%Qc.
Proof.
  intros OR IF NE SI CF CH PB.
  assert (IN : forall d v, In (d, v) (flow_at n t c k) -> In v (labels U d)) by (intros d v I'; exact (proj2 (proj2 (proj1 (proj2 (proj2 SI))) d v I'))).
  assert (NS : forall s, In s slacks -> numeric U s (bus_at n c k)) by (intros s IS; split; [exact (ne_slack U NE s IS)|apply (net_number U NE), in_or_app; right; exact IS]).
  pose proof (bus_step U NE files IF order OR n c k CH (IN "nodes" n ltac:(cbn; tauto)) (IN "carriers" c ltac:(cbn; tauto)) (IN "timesteps" k ltac:(cbn; tauto))) as B.
  pose proof (unmet_is order OR files IF U n t c k SI CF (NS "unmet_demand" ltac:(cbn; tauto)) (NS "unused_supply" ltac:(cbn; tauto)) PB) as P.
  unfold slack in B; match type of P with post_is _ _ _ _ _ ?s => match goal with |- post_is _ _ _ _ _ ?g => replace g with s; [exact P|] end end.
  match type of B with (?o - ?i - ?e + ?s = 0)%Qc => replace s with (o - i - e + s - (o - i - e))%Qc by ring; rewrite B; ring end.
Qed.
Print Assumptions C95_unmet.
Lemma farm_curtailed : post_is as_listed (layered base_math) (farm false) "total_curtailment" (asset "here" "sun") (Q2Qc (1 # 4)).
Proof. apply post_sound; vm_compute; reflexivity. Qed.
Lemma farm_unmet : post_is as_listed (layered base_math) (farm false) "unmet_sum" (bus_at "here" "power" "t0") (Q2Qc 2).
Proof. apply post_sound; vm_compute; reflexivity. Qed.
Example C95_unmet_ex : post_is as_listed (layered base_math) (farm false) "unmet_sum" (bus_at "here" "power" "t0")
  (over_techs (farm false) (fun t => flow (farm false) "flow_in" "here" t "power" "t0") + over_techs (farm false) (fun t => flow (farm false) "flow_export" "here" t "power" "t0") -
   over_techs (farm false) (fun t => flow (farm false) "flow_out" "here" t "power" "t0"))%Qc.
Proof. refine (C95_unmet as_listed base_math (farm false) "here" "sun" "power" "t0" as_listed_set base_listed farm_network _ eq_refl _ (post_there _ _ _ _ _ _ farm_unmet)); [apply farm_at; cbn; tauto|farm_holds]. Qed.
