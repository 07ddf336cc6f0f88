(** Properties of carrier balances in the math that comes with the package. *)
From Coq Require Import QArith Qcanon Lia.
From Verif Require Import Base BaseProofs LangModel MathText EvalModel EvalSpec BuildModel BuildSpec
  HelperModel HelperSpec ShipModel ShipSpec ShipNumbers ShipExample NetSpec NetProofs NetExample.
From Verif Require CliModel.
Local Open Scope nat_scope.
Local Open Scope string_scope.
Local Open Scope list_scope.
Local Arguments Qcplus : simpl never.
Local Arguments Qcmult : simpl never.
Local Arguments Qcminus : simpl never.

(** * C52: balance of carriers *)

(** At every node inflows, export and outflows of a carrier balance in every timestep. *)
Theorem C52_node order files U n c k :
  lists_set order -> In files shipped -> network U -> constraint_holds order (layered files) U "system_balance" ->
  In n (labels U "nodes") -> In c (labels U "carriers") -> In k (labels U "timesteps") ->
  (over_techs U (fun t => flow U "flow_out" n t c k) + slack U "unmet_demand" n c k =
   over_techs U (fun t => flow U "flow_in" n t c k) + over_techs U (fun t => flow U "flow_export" n t c k) - slack U "unused_supply" n c k)%Qc.
Proof.
  intros OR IF NE CH I1 I3 I4; pose proof (bus_step U NE files IF order OR n c k CH I1 I3 I4) as H.
  set (a := over_techs U (fun t => flow U "flow_out" n t c k)) in *; set (b := over_techs U (fun t => flow U "flow_in" n t c k)) in *.
  set (e := over_techs U (fun t => flow U "flow_export" n t c k)) in *; set (u := slack U "unmet_demand" n c k) in *; set (v := slack U "unused_supply" n c k) in *.
  replace (a + u)%Qc with (a - b - e + (u + v) + (b + e - v))%Qc by ring; rewrite H; ring.
Qed.
Print Assumptions C52_node.
(** What leaves a link is what entered it, less the losses at both ends. *)
Theorem C52_link order files U oshare ishare t k :
  lists_set order -> In files shipped -> network U -> links U oshare ishare ->
  constraint_holds order (layered files) U "balance_transmission" -> expression_is order (layered files) U "flow_out_inc_eff" -> expression_is order (layered files) U "flow_in_inc_eff" ->
  In t (labels U "techs") -> In k (labels U "timesteps") -> is_link U t ->
  over_nodes U (fun n => over_carriers U (fun c => flow U "flow_out" n t c k / oshare n t c k)%Qc) =
  over_nodes U (fun n => over_carriers U (fun c => flow U "flow_in" n t c k * ishare n t c k)%Qc).
Proof. intros OR IF NE LI CH EO EI I2 I4 IL; exact (link_step U NE files IF order OR oshare ishare LI t k CH EO EI I2 I4 IL). Qed.
Print Assumptions C52_link.

Lemma sum_over_single ls c f : NoDup ls -> In c ls -> (forall x, In x ls -> x <> c -> f x = 0%Qc) -> sum_over ls f = f c.
Proof.
  induction ls as [|x ls IH]; intros ND IC Z; [destruct IC|]; inversion ND as [|? ? NI ND']; subst; change (sum_over (x :: ls) f) with (f x + sum_over ls f)%Qc.
  destruct IC as [->|IC].
  - rewrite (sum_over_ext ls f (fun _ => 0%Qc)), sum_over_zero; [ring|]; intros y IY; apply Z; [right; exact IY|]; intros ->; exact (NI IY).
  - rewrite IH by (auto; intros y IY; apply Z; right; exact IY); rewrite (Z x) by (first [left; reflexivity|intros ->; exact (NI IC)]); ring.
Qed.
Definition link_b (U : world) (t : string) : bool := negb (match value_at U "base_tech" (tech_at t) with Txt s => negb (String.eqb s "transmission") | _ => true end).
Lemma link_b_spec U t : link_b U t = true -> is_link U t.
Proof. unfold link_b, is_link; destruct (value_at U "base_tech" (tech_at t)) as [|q|b|b|s]; cbn; try discriminate; rewrite negb_involutive, String.eqb_eq; intros ->; reflexivity. Qed.
Definition lines (U : world) : list string := filter (link_b U) (labels U "techs").
Lemma split_techs U f : over_techs U f = (sum_over (plants U) f + sum_over (lines U) f)%Qc.
Proof. exact (sum_over_filter (labels U "techs") f _). Qed.
Lemma line_in U t : In t (lines U) -> In t (labels U "techs") /\ is_link U t.
Proof. intros H; apply filter_In in H as (H1 & H2); split; [exact H1|apply link_b_spec, H2]. Qed.

(** The system as a whole, for what the links lose of a carrier. *)
Lemma system_sum U order files c k : lists_set order -> In files shipped -> network U -> constraint_holds order (layered files) U "system_balance" ->
  In c (labels U "carriers") -> In k (labels U "timesteps") ->
  (over_nodes U (fun n => sum_over (plants U) (fun t => flow U "flow_out" n t c k)) + over_nodes U (fun n => slack U "unmet_demand" n c k) =
   over_nodes U (fun n => sum_over (plants U) (fun t => flow U "flow_in" n t c k)) + over_nodes U (fun n => over_techs U (fun t => flow U "flow_export" n t c k))
   - over_nodes U (fun n => slack U "unused_supply" n c k)
   + (sum_over (lines U) (fun t => over_nodes U (fun n => flow U "flow_in" n t c k)) - sum_over (lines U) (fun t => over_nodes U (fun n => flow U "flow_out" n t c k))))%Qc.
Proof.
  intros OR IF NE CH I3 I4.
  assert (S1 : over_nodes U (fun n => over_techs U (fun t => flow U "flow_out" n t c k) + slack U "unmet_demand" n c k)%Qc =
    over_nodes U (fun n => over_techs U (fun t => flow U "flow_in" n t c k) + over_techs U (fun t => flow U "flow_export" n t c k) - slack U "unused_supply" n c k)%Qc).
  { apply sum_over_ext; intros n I1; apply (C52_node order files); assumption. }
  unfold over_nodes in *; rewrite sum_over_plus, sum_over_minus, sum_over_plus in S1.
  assert (SP : forall s, sum_over (labels U "nodes") (fun n => over_techs U (fun t => flow U s n t c k)) =
    (sum_over (labels U "nodes") (fun n => sum_over (plants U) (fun t => flow U s n t c k)) + sum_over (lines U) (fun t => sum_over (labels U "nodes") (fun n => flow U s n t c k)))%Qc).
  { intros s; rewrite (sum_over_ext _ _ (fun n => sum_over (plants U) (fun t => flow U s n t c k) + sum_over (lines U) (fun t => flow U s n t c k))%Qc) by (intros n _; apply split_techs).
    rewrite sum_over_plus; f_equal; apply sum_over_swap. }
  rewrite (SP "flow_out"), (SP "flow_in") in S1.
  set (po := sum_over (labels U "nodes") (fun n => sum_over (plants U) (fun t => flow U "flow_out" n t c k))) in *.
  set (lo := sum_over (lines U) (fun t => sum_over (labels U "nodes") (fun n => flow U "flow_out" n t c k))) in *.
  set (um := sum_over (labels U "nodes") (fun n => slack U "unmet_demand" n c k)) in *.
  replace (po + um)%Qc with (po + lo + um - lo)%Qc by ring; rewrite S1; ring.
Qed.
(** Partial: for links that carry one carrier each (C52_refuted shows the rest).  With links that lose nothing, generation and unmet demand of a carrier are consumption, export and
    unused supply (a negative variable), over all nodes and all technologies except links. *)
Theorem C52_balance_partial order files U oshare ishare c k :
  lists_set order -> In files shipped -> network U -> links U oshare ishare -> single_carrier U c k ->
  (forall n t c, In t (labels U "techs") -> is_link U t -> oshare n t c k = 1%Qc /\ ishare n t c k = 1%Qc) ->
  constraint_holds order (layered files) U "system_balance" -> constraint_holds order (layered files) U "balance_transmission" ->
  expression_is order (layered files) U "flow_out_inc_eff" -> expression_is order (layered files) U "flow_in_inc_eff" ->
  In c (labels U "carriers") -> In k (labels U "timesteps") ->
  (over_nodes U (fun n => sum_over (plants U) (fun t => flow U "flow_out" n t c k)) + over_nodes U (fun n => slack U "unmet_demand" n c k) =
   over_nodes U (fun n => sum_over (plants U) (fun t => flow U "flow_in" n t c k)) + over_nodes U (fun n => over_techs U (fun t => flow U "flow_export" n t c k))
   - over_nodes U (fun n => slack U "unused_supply" n c k))%Qc.
Proof.
  intros OR IF NE LI SC L1 CB CL EO EI I3 I4; rewrite (system_sum U order files c k OR IF NE CB I3 I4).
  assert (Z : sum_over (lines U) (fun t => over_nodes U (fun n => flow U "flow_in" n t c k)) = sum_over (lines U) (fun t => over_nodes U (fun n => flow U "flow_out" n t c k))); [|rewrite Z; ring].
  apply sum_over_ext; intros t IT; apply line_in in IT as (I2 & IL); destruct (SC t I2 IL) as [Z|Z].
  - pose proof (C52_link order files U oshare ishare t k OR IF NE LI CL EO EI I2 I4 IL) as H.
    assert (NDC : NoDup (labels U "carriers")) by (apply (proj1 (proj1 (ne_proper U NE)))).
    assert (EQO : over_nodes U (fun n => over_carriers U (fun c => flow U "flow_out" n t c k / oshare n t c k)%Qc) = over_nodes U (fun n => flow U "flow_out" n t c k)).
    { apply sum_over_ext; intros n I1; unfold over_carriers; rewrite (sum_over_single _ c) by (auto; intros c' IC' NC; rewrite (Z n c') by auto; unfold Qcdiv; ring).
      destruct (L1 n t c I2 IL) as (E & _); rewrite E; unfold Qcdiv; replace (/ 1)%Qc with 1%Qc by (apply Qc_is_canon; reflexivity); ring. }
    assert (EQI : over_nodes U (fun n => over_carriers U (fun c => flow U "flow_in" n t c k * ishare n t c k)%Qc) = over_nodes U (fun n => flow U "flow_in" n t c k)).
    { apply sum_over_ext; intros n I1; unfold over_carriers; rewrite (sum_over_single _ c) by (auto; intros c' IC' NC; rewrite (Z n c') by auto; ring).
      destruct (L1 n t c I2 IL) as (_ & E); rewrite E; ring. }
    rewrite EQO, EQI in H; symmetry; exact H.
  - unfold over_nodes; apply sum_over_ext; intros n I1; rewrite !(Z n) by auto; reflexivity.
Qed.
Print Assumptions C52_balance_partial.
(** With losses at least as much is generated as used: links create nothing. *)
Theorem C52_losses order files U oshare ishare c k :
  lists_set order -> In files shipped -> network U -> links U oshare ishare -> single_carrier U c k ->
  (forall n t c, In t (labels U "techs") -> is_link U t -> ((0 < oshare n t c k)%Qc /\ (oshare n t c k <= 1)%Qc) /\ (ishare n t c k <= 1)%Qc) ->
  (forall n t s, s = "flow_out" \/ s = "flow_in" -> (0 <= flow U s n t c k)%Qc) ->
  constraint_holds order (layered files) U "system_balance" -> constraint_holds order (layered files) U "balance_transmission" ->
  expression_is order (layered files) U "flow_out_inc_eff" -> expression_is order (layered files) U "flow_in_inc_eff" ->
  In c (labels U "carriers") -> In k (labels U "timesteps") ->
  (over_nodes U (fun n => sum_over (plants U) (fun t => flow U "flow_in" n t c k)) + over_nodes U (fun n => over_techs U (fun t => flow U "flow_export" n t c k))
   - over_nodes U (fun n => slack U "unused_supply" n c k) <=
   over_nodes U (fun n => sum_over (plants U) (fun t => flow U "flow_out" n t c k)) + over_nodes U (fun n => slack U "unmet_demand" n c k))%Qc.
Proof.
  intros OR IF NE LI SC L1 NN CB CL EO EI I3 I4; rewrite (system_sum U order files c k OR IF NE CB I3 I4).
  assert (Z : (sum_over (lines U) (fun t => over_nodes U (fun n => flow U "flow_out" n t c k)) <= sum_over (lines U) (fun t => over_nodes U (fun n => flow U "flow_in" n t c k)))%Qc).
  { apply sum_over_le; intros t IT; apply line_in in IT as (I2 & IL); destruct (SC t I2 IL) as [Z|Z].
    - pose proof (C52_link order files U oshare ishare t k OR IF NE LI CL EO EI I2 I4 IL) as H.
      assert (NDC : NoDup (labels U "carriers")) by (apply (proj1 (proj1 (ne_proper U NE)))).
      assert (EQO : over_nodes U (fun n => over_carriers U (fun c => flow U "flow_out" n t c k / oshare n t c k)%Qc) = over_nodes U (fun n => flow U "flow_out" n t c k / oshare n t c k)%Qc).
      { apply sum_over_ext; intros n I1; unfold over_carriers; rewrite (sum_over_single _ c) by (auto; intros c' IC' NC; rewrite (Z n c') by auto; unfold Qcdiv; ring); reflexivity. }
      assert (EQI : over_nodes U (fun n => over_carriers U (fun c => flow U "flow_in" n t c k * ishare n t c k)%Qc) = over_nodes U (fun n => flow U "flow_in" n t c k * ishare n t c k)%Qc).
      { apply sum_over_ext; intros n I1; unfold over_carriers; rewrite (sum_over_single _ c) by (auto; intros c' IC' NC; rewrite (Z n c') by auto; ring); reflexivity. }
      rewrite EQO, EQI in H; apply Qcle_trans with (over_nodes U (fun n => flow U "flow_out" n t c k / oshare n t c k)%Qc); [|rewrite H]; apply sum_over_le; intros n I1; destruct (L1 n t c I2 IL) as ((P1 & P2) & P3).
      + assert (X : (flow U "flow_out" n t c k = (flow U "flow_out" n t c k / oshare n t c k) * oshare n t c k)%Qc) by (unfold Qcdiv; rewrite <- Qcmult_assoc, (Qcmult_comm (/ _)), Qcmult_inv_r by (intros E; rewrite E in P1; exact (Qclt_not_eq _ _ P1 eq_refl)); ring).
        rewrite X at 1; rewrite <- (Qcmult_1_r (flow U "flow_out" n t c k / oshare n t c k)) at 2; rewrite !(Qcmult_comm (flow U "flow_out" n t c k / oshare n t c k)).
        apply Qcmult_le_compat_r; [exact P2|]; unfold Qcdiv.
        rewrite <- (Qcmult_0_l (/ oshare n t c k)); apply Qcmult_le_compat_r; [apply NN; auto|].
        destruct (Qclt_le_dec (/ oshare n t c k) 0) as [LT|GE]; [|exact GE]; exfalso.
        assert (B : (/ oshare n t c k * oshare n t c k <= 0)%Qc) by (rewrite <- (Qcmult_0_l (oshare n t c k)); apply Qcmult_le_compat_r; [apply Qclt_le_weak, LT|apply Qclt_le_weak, P1]).
        rewrite Qcmult_inv_l in B by (intros E; rewrite E in P1; exact (Qclt_not_eq _ _ P1 eq_refl)); exact (Qcle_not_lt _ _ B eq_refl).
      + rewrite <- (Qcmult_1_r (flow U "flow_in" n t c k)) at 2; rewrite !(Qcmult_comm (flow U "flow_in" n t c k)); apply Qcmult_le_compat_r; [exact P3|apply NN; auto].
    - unfold over_nodes; rewrite (sum_over_ext _ _ (fun n => flow U "flow_in" n t c k)); [apply Qcle_refl|]; intros n I1; rewrite !(Z n) by auto; reflexivity. }
  set (a := sum_over (lines U) (fun t => over_nodes U (fun n => flow U "flow_out" n t c k))) in *; set (b := sum_over (lines U) (fun t => over_nodes U (fun n => flow U "flow_in" n t c k))) in *.
  match goal with |- (?x <= ?y)%Qc => set (X := x) end; rewrite <- (Qcplus_0_r X) at 1; apply Qcplus_le_compat; [apply Qcle_refl|]; apply Qcle_minus_iff in Z; exact Z.
Qed.
Print Assumptions C52_losses.

(** * Examples *)
Lemma base_shipped : In base_math shipped. Proof. left; reflexivity. Qed.
Lemma grid_all lossy : constraint_holds as_listed (layered base_math) (grid lossy) "system_balance" /\ constraint_holds as_listed (layered base_math) (grid lossy) "balance_transmission" /\
  expression_is as_listed (layered base_math) (grid lossy) "flow_out_inc_eff" /\ expression_is as_listed (layered base_math) (grid lossy) "flow_in_inc_eff".
Proof.
  pose proof (grid_holds lossy) as H; apply andb_prop in H as (H & H4); apply andb_prop in H as (H & H3); apply andb_prop in H as (H1 & H2).
  split; [apply check_constraint_sound, H1|split; [apply check_constraint_sound, H2|split; apply check_expression_sound; assumption]].
Qed.
Ltac amounts := apply Qc_is_canon; vm_compute; reflexivity.
Example C52_node_ex : (Q2Qc 2 + Q2Qc 1 = Q2Qc 3 + 0 - 0)%Qc /\ over_techs (grid true) (fun t => flow (grid true) "flow_out" "south" t "power" "t0") = Q2Qc 2.
Proof.
  split; [|amounts]; pose proof (C52_node as_listed base_math (grid true) "south" "power" "t0" as_listed_set base_shipped (grid_network _) (proj1 (grid_all _))) as H.
  assert (E : (Q2Qc 2 + Q2Qc 1 = over_techs (grid true) (fun t => flow (grid true) "flow_out" "south" t "power" "t0") + slack (grid true) "unmet_demand" "south" "power" "t0")%Qc) by amounts.
  rewrite E, H by (vm_compute; auto); amounts.
Qed.
Example C52_link_ex : (over_nodes (grid true) (fun n => over_carriers (grid true) (fun c => flow (grid true) "flow_out" n "line" c "t0" / quarter)) = Q2Qc 8)%Qc.
Proof.
  destruct (grid_all true) as (_ & H2 & H3 & H4).
  pose proof (C52_link as_listed base_math (grid true) (grid_oshare true) grid_ishare "line" "t0" as_listed_set base_shipped (grid_network _) (grid_links _) H2 H3 H4) as H.
  etransitivity; [apply H; [vm_compute; auto|vm_compute; auto|reflexivity]|amounts].
Qed.
Example C52_balance_partial_ex : (Q2Qc 8 + Q2Qc 1 = over_nodes (grid false) (fun n => sum_over (plants (grid false)) (fun t => flow (grid false) "flow_in" n t "power" "t0")))%Qc.
Proof.
  destruct (grid_all false) as (H1 & H2 & H3 & H4).
  pose proof (C52_balance_partial as_listed base_math (grid false) (grid_oshare false) grid_ishare "power" "t0" as_listed_set base_shipped (grid_network _) (grid_links _) (grid_single _)
    (fun n t c _ _ => conj eq_refl eq_refl) H1 H2 H3 H4 (or_introl eq_refl) (or_introl eq_refl)) as H.
  match type of H with ?x = _ => transitivity x end; [amounts|]; rewrite H; amounts.
Qed.
Lemma look_positive rows key : forallb (fun r => match snd r with Val q => match Qccompare 0 q with Datatypes.Gt => false | _ => true end | _ => false end) rows = true -> (0 <= worth (fill (num 0) (look rows key)))%Qc.
Proof.
  intros H; destruct (look rows key) as [|q|q|q|q] eqn:E; [vm_compute; discriminate|..].
  all: destruct (look_in rows key) as (v & IV & EV); [rewrite E; discriminate|]; rewrite E in EV; subst v; rewrite forallb_forall in H; specialize (H _ IV); cbn [snd] in H; try discriminate H.
  cbn; apply Qcle_alt; intros G; rewrite G in H; discriminate H.
Qed.
Example C52_losses_ex : (Q2Qc 3 <= Q2Qc 8 + Q2Qc 1)%Qc /\ over_nodes (grid true) (fun n => sum_over (plants (grid true)) (fun t => flow (grid true) "flow_in" n t "power" "t0")) = Q2Qc 3.
Proof.
  split; [|amounts]; destruct (grid_all true) as (H1 & H2 & H3 & H4).
  assert (H : (over_nodes (grid true) (fun n => sum_over (plants (grid true)) (fun t => flow (grid true) "flow_in" n t "power" "t0")) + over_nodes (grid true) (fun n => over_techs (grid true) (fun t => flow (grid true) "flow_export" n t "power" "t0"))
     - over_nodes (grid true) (fun n => slack (grid true) "unused_supply" n "power" "t0") <=
     over_nodes (grid true) (fun n => sum_over (plants (grid true)) (fun t => flow (grid true) "flow_out" n t "power" "t0")) + over_nodes (grid true) (fun n => slack (grid true) "unmet_demand" n "power" "t0"))%Qc).
  { apply (C52_losses as_listed base_math (grid true) (grid_oshare true) grid_ishare "power" "t0" as_listed_set base_shipped (grid_network _) (grid_links _) (grid_single _)); auto; try (left; reflexivity).
    - intros n t c _ _; split; [split|]; vm_compute; [reflexivity|discriminate|discriminate].
    - intros n t s [-> | ->]; [exact (look_positive (grid_out true) [n; t; "power"; "t0"] eq_refl)|exact (look_positive (grid_in true) [n; t; "power"; "t0"] eq_refl)]. }
  match type of H with (?x <= ?y)%Qc => assert (E1 : x = Q2Qc 3) by amounts; assert (E2 : y = (Q2Qc 8 + Q2Qc 1)%Qc) by amounts end; rewrite E1, E2 in H; exact H.
Qed.
