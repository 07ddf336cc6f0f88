(** What limits and conditions say about variables of a solution. *)
From Coq Require Import QArith Qcanon Lia.
From Verif Require Import Base BaseProofs LangModel MathText EvalModel EvalSpec BuildModel BuildSpec BuildProofs BuildEqs
  HelperModel HelperSpec ShipModel ShipSpec ShipProofs ShipEntry ShipStorage ShipNumbers NetSpec NetProofs PlaceSpec ShipPlace RuleText RuleProofs CostText BoundModel BoundSpec.
From Verif Require CliModel.
Local Open Scope nat_scope.
Local Open Scope string_scope.
Local Open Scope list_scope.
Local Arguments String.eqb : simpl never.

(** * One variable *)
Lemma all_in_says l m : all_in l m = true -> forall d, In d l -> In d m.
Proof. unfold all_in; rewrite forallb_forall; intros H d ID; apply smem_in, H, ID. Qed.
Lemma limit_spot U L l p : sound (u_env U) -> NoDup (map fst l) -> fits l p -> (forall d, In d (limit_dims U L) -> In d (map fst l)) -> limit_at U L p = limit_at U L (spot l).
Proof. intros SD ND FP WD; destruct L as [s|c]; [|reflexivity]; cbn [limit_at limit_dims] in *; rewrite (raw_at U l p s SD ND FP WD); reflexivity. Qed.
Lemma cut_keys fe l : (forall s, In s fe -> In s (map fst l)) -> forall s, In s fe -> In s (map fst (cut fe l)).
Proof. intros SUB s IS; pose proof (SUB s IS) as H; apply in_map_iff in H as (x & <- & IX); apply in_map, cut_in; auto. Qed.
Lemma cut_apart fe l : NoDup (map fst l) -> NoDup (map fst (cut fe l)).
Proof.
  induction l as [|x l IH]; intros ND; [constructor|]; cbn [cut filter]; inversion_clear ND as [|? ? NI ND']; destruct (smem _ _); [|exact (IH ND')]; cbn [map]; constructor; [|exact (IH ND')].
  intros IX; apply NI; apply in_map_iff in IX as (y & <- & IY); apply cut_in in IY as (IY & _); apply in_map, IY.
Qed.
Section Variable_.
Variable U : world.
Variable m : math_file.
Variable bs : list vbound.
Variable c : component.
Variable w : wexpr.
Hypothesis PW : parse_where_text (math_names m) (MathText.c_where c) = Some w.
Hypothesis VA : valued_in m bs U c.
Hypothesis ND : NoDup (c_foreach c).
Let fe := c_foreach c.
Let W := world_where (math_names m) U.
(** Where its condition holds. *)
Lemma variable_here l : sited U l -> (forall s, In s fe -> In s (map fst l)) -> (forall p, whole U p -> fits l p -> weval W w p = true) ->
  let b := bound_of bs (c_name c) in let v := amount U (c_name c) (cut fe l) in
  given U (c_name c) (cut fe l) /\ above (limit_at U (min_of b) (spot (cut fe l))) v /\ below v (limit_at U (max_of b) (spot (cut fe l))) /\ (is_whole_domain b = true -> integral v).
Proof.
  intros SI SUB CW b v; destruct VA as (r & B & WD & UB & AT); destruct (site_at U l SI) as (p & (i & IN & ->) & FP & MX); pose proof (proj1 (proj1 SI)) as SD; pose proof (proj1 (proj1 (proj2 (proj2 SI)))) as NL.
  pose proof (subdims_of U l SI fe SUB) as SUD; unfold add_variable in B; set (D := world_data (math_names m) U) in *.
  destruct (top_level_where_spec D (math_names m) c w PW) as (top & TL & TS); rewrite TL in B; cbn [lift then_] in B.
  set (f := map (at_index (u_dims U) i) fe).
  assert (TF : top f = true).
  { apply TS; split; [exact SUD|]; exists i; split; [exact IN|split; [reflexivity|split; [exact MX|]]]; intros w' [<- |[]]; apply CW; [exists i; auto|exact FP]. }
  assert (IF : In f (indices D fe)) by (apply (at_index_in D); [exact IN|exact SUD]).
  assert (EX : existsb top (indices D (c_foreach c)) = true) by (apply existsb_exists; exists f; auto).
  rewrite EX in B; destruct (all_in _ _ && all_in _ _)%bool eqn:AI; [|discriminate]; injection B as <-; apply andb_prop in AI as (A1 & A2).
  specialize (AT f IF); cbv beta in AT; rewrite TF in AT; destruct AT as (x & EQ & LO & UP & WH); cbn [e_lb e_ub e_whole] in *.
  assert (FX : fits (cut fe l) (at_index fe f)) by (apply (cut_fits fe l (at_index (u_dims U) i)); [exact FP|apply at_map, ND]).
  pose proof (cut_apart fe l NL) as NC; pose proof (cut_keys fe l SUB) as CK.
  assert (WC : within_dims U (c_name c) (map fst (cut fe l))) by (intros d ID; apply CK, WD, ID).
  pose proof (raw_at U (cut fe l) (at_index fe f) (c_name c) SD NC FX WC) as RA; fold fe in EQ; rewrite RA in EQ.
  assert (EV : v = x) by (unfold v, amount, value_at; rewrite EQ; reflexivity); rewrite EV.
  split; [split; [exact WC|split; [exact UB|exists x; exact EQ]]|].
  unfold fe in FX, NC, CK; fold b in LO, UP, WH.
  rewrite (limit_spot U _ (cut fe l) _ SD NC FX) in LO by (intros d ID; apply CK, (all_in_says _ _ A1), ID); rewrite (limit_spot U _ (cut fe l) _ SD NC FX) in UP by (intros d ID; apply CK, (all_in_says _ _ A2), ID).
  auto.
Qed.
(** Where it does not hold. *)
Lemma variable_gone l : sound (u_env U) -> placed U l -> (forall s, In s fe <-> In s (map fst l)) -> (forall p, whole U p -> fits l p -> weval W w p = false) -> absent U (c_name c) l.
Proof.
  intros SD (NL & PL) SUB CW; destruct VA as (r & B & WD & UB & AT); unfold add_variable in B; set (D := world_data (math_names m) U) in *.
  destruct (top_level_where_spec D (math_names m) c w PW) as (top & TL & TS); rewrite TL in B; cbn [lift then_] in B.
  set (f := map (spot l) fe).
  assert (LA : forall s, In s fe -> In s (u_dims U) /\ In (spot l s) (labels U s)).
  { intros s IS; apply SUB in IS; apply in_map_iff in IS as ((d & v) & <- & IN); cbn [fst]; rewrite (spot_get l d v NL IN); apply PL, IN. }
  assert (IF : In f (indices D fe)) by (unfold f, indices; clear - LA; induction fe as [|s r IH]; [left; reflexivity|]; cbn [map]; apply in_flat_map; exists (spot l s); split; [apply (LA s); left; reflexivity|]; apply in_map, IH; intros s' IS; apply LA; right; exact IS).
  assert (TF : top f = false).
  { destruct (top f) eqn:T; [|reflexivity]; apply TS in T as (SUD & i & IN & EF & MX & WH); exfalso; specialize (WH w (or_introl eq_refl)).
    assert (FP : fits l (at_index (u_dims U) i)).
    { intros d v IV; assert (ID : In d fe) by (apply SUB, in_map_iff; exists (d, v); auto); rewrite <- (spot_get l d v NL IV); unfold f in EF; clear - EF ID; fold fe in EF.
      induction fe as [|s r IH]; [destruct ID|]; cbn [map] in EF; injection EF as E1 E2; destruct ID as [<- |ID]; [exact E1|exact (IH E2 ID)]. }
    change (weval W w (at_index (u_dims U) i) = true) in WH; rewrite CW in WH; [discriminate|exists i; auto|exact FP]. }
  assert (RF : r f = None) by (destruct (existsb top _); [destruct (_ && _)%bool; [|discriminate]; injection B as <-; rewrite TF; reflexivity|injection B as <-; reflexivity]).
  specialize (AT f IF); rewrite RF in AT; split; [intros d ID; apply SUB, WD, ID|]; rewrite <- AT; symmetry.
  apply (raw_at U l); [exact SD|exact NL| |intros d ID; apply SUB, WD, ID].
  intros d v IV; transitivity (spot l d); [apply (at_map fe (spot l) ND d), SUB, in_map_iff; exists (d, v); auto|exact (spot_get l d v NL IV)].
Qed.
(** Anywhere. *)
Lemma variable_any l : sound (u_env U) -> placed U l -> (forall s, In s fe <-> In s (map fst l)) -> let b := bound_of bs (c_name c) in let v := amount U (c_name c) l in
  absent U (c_name c) l \/ given U (c_name c) l /\ above (limit_at U (min_of b) (spot l)) v /\ below v (limit_at U (max_of b) (spot l)) /\ (is_whole_domain b = true -> integral v).
Proof.
  intros SD (NL & PL) SUB b v; destruct VA as (r & B & WD & UB & AT); unfold add_variable in B; set (D := world_data (math_names m) U) in *.
  destruct (top_level_where_spec D (math_names m) c w PW) as (top & TL & TS); rewrite TL in B; cbn [lift then_] in B.
  set (f := map (spot l) fe).
  assert (LA : forall s, In s fe -> In s (u_dims U) /\ In (spot l s) (labels U s)).
  { intros s IS; apply SUB in IS; apply in_map_iff in IS as ((d & y) & <- & IN); cbn [fst]; rewrite (spot_get l d y NL IN); apply PL, IN. }
  assert (IF : In f (indices D fe)) by (unfold f, indices; clear - LA; induction fe as [|s r IH]; [left; reflexivity|]; cbn [map]; apply in_flat_map; exists (spot l s); split; [apply (LA s); left; reflexivity|]; apply in_map, IH; intros s' IS; apply LA; right; exact IS).
  assert (WC : within_dims U (c_name c) (map fst l)) by (intros d ID; apply SUB, WD, ID).
  assert (FX : fits l (at_index fe f)) by (intros d y IV; transitivity (spot l d); [apply (at_map fe (spot l) ND d), SUB, in_map_iff; exists (d, y); auto|exact (spot_get l d y NL IV)]).
  specialize (AT f IF); pose proof (raw_at U l (at_index fe f) (c_name c) SD NL FX WC) as RA; unfold fe in RA; rewrite RA in AT; fold fe in AT.
  destruct (existsb top _); [destruct (_ && _)%bool eqn:AI; [|discriminate]|]; injection B as <-; [|left; split; assumption].
  destruct (top f); [right|left; split; assumption]; apply andb_prop in AI as (A1 & A2); destruct AT as (x & EQ & LO & UP & WH); cbn [e_lb e_ub e_whole] in *.
  assert (EV : v = x) by (unfold v, amount, value_at; rewrite EQ; reflexivity); rewrite EV.
  split; [split; [exact WC|split; [exact UB|exists x; exact EQ]]|]; fold fe b in LO, UP, WH.
  rewrite (limit_spot U _ l _ SD NL FX) in LO by (intros d ID; apply SUB, (all_in_says _ _ A1), ID); rewrite (limit_spot U _ l _ SD NL FX) in UP by (intros d ID; apply SUB, (all_in_says _ _ A2), ID).
  auto.
Qed.
End Variable_.

(** * The variables of the shipped files *)
Definition var_text (m : math_file) (s : string) : option (list string * wexpr) :=
  match find_in (h_variables m) s with
  | Some c => match parse_where_text (math_names m) (MathText.c_where c) with Some w => Some (c_foreach c, w) | None => None end
  | None => None
  end.
Definition base_vars : list string := Eval vm_compute in map c_name base_variables.
Definition milp_vars : list string := ["purchased_units"; "operating_units"; "async_flow_switch"; "available_flow_cap"].
Definition var_or_none (x : option (list string * wexpr)) : list string * wexpr := match x with Some t => t | None => ([], WBool false) end.
Definition base_var_texts : list (list string * wexpr) := Eval vm_compute in map (fun s => var_or_none (var_text (layered []) s)) base_vars.
Definition milp_var_texts : list (list string * wexpr) := Eval vm_compute in map (fun s => var_or_none (var_text (layered [milp_file]) s)) milp_vars.
Lemma base_vars_read : map (fun files => map (var_text (layered files)) base_vars) shipped = repeat (map Some base_var_texts) 15.
Proof. vm_compute; reflexivity. Qed.
Lemma milp_vars_read : map (fun files => map (var_text (layered files)) milp_vars) milp_lists = repeat (map Some milp_var_texts) 9.
Proof. vm_compute; reflexivity. Qed.
(** Limits, and whether the values are whole numbers. *)
Definition limits_of (files : list math_file) (s : string) : limit * limit * bool := let b := bound_of (bounds files) s in (min_of b, max_of b, is_whole_domain b).
Definition always_limits : list (string * (limit * limit * bool)) :=
  [("link_flow_cap", (zero, infinite, false)); ("flow_out", (zero, infinite, false)); ("flow_in", (zero, infinite, false)); ("flow_export", (LName "export_min", LName "export_max", false));
   ("source_use", (zero, infinite, false)); ("unmet_demand", (zero, infinite, false)); ("unused_supply", (minus_infinite, zero, false))].
Definition capacity_limits (units : bool) : list (string * (limit * limit * bool)) :=
  map (fun x => (fst (fst x), (if units then zero else LName (snd (fst x)), LName (snd x), false)))
    [("flow_cap", "flow_cap_min", "flow_cap_max"); ("area_use", "area_use_min", "area_use_max"); ("source_cap", "source_cap_min", "source_cap_max"); ("storage_cap", "storage_cap_min", "storage_cap_max")].
Definition unit_limits : list (string * (limit * limit * bool)) :=
  [("purchased_units", (LName "purchased_units_min", LName "purchased_units_max", true)); ("operating_units", (zero, infinite, true)); ("async_flow_switch", (zero, one, true)); ("available_flow_cap", (zero, infinite, false))].
Lemma always_read : map (fun files => map (limits_of files) (map fst always_limits)) shipped = repeat (map snd always_limits) 15. Proof. vm_compute; reflexivity. Qed.
Lemma plain_read_limits : map (fun files => map (limits_of files) (map fst (capacity_limits false))) planning_plain = repeat (map snd (capacity_limits false)) 4. Proof. vm_compute; reflexivity. Qed.
Lemma milp_read_limits : map (fun files => map (limits_of files) (map fst (capacity_limits true))) planning_milp = repeat (map snd (capacity_limits true)) 6. Proof. vm_compute; reflexivity. Qed.
Lemma unit_read : map (fun files => map (limits_of files) (map fst unit_limits)) milp_lists = repeat (map snd unit_limits) 9. Proof. vm_compute; reflexivity. Qed.
Lemma store_read : map (fun files => limits_of files "storage") chronological = repeat (zero, infinite, false) 6. Proof. vm_compute; reflexivity. Qed.
(** Variables that are decided in a formulation. *)
Definition decided (files : list math_file) (s : string) : bool := negb (smem s (h_off (layered files))) && smem s (map c_name (h_variables (layered files))).
Lemma always_decided : forallb (fun files => forallb (decided files) ["flow_out"; "flow_in"; "flow_export"; "source_use"; "storage"; "unmet_demand"; "unused_supply"]) shipped = true. Proof. vm_compute; reflexivity. Qed.
Lemma planning_decided : forallb (fun files => forallb (decided files) base_vars) planning = true. Proof. vm_compute; reflexivity. Qed.
Lemma milp_decided : forallb (fun files => forallb (decided files) ["operating_units"; "async_flow_switch"; "available_flow_cap"]) milp_lists = true. Proof. vm_compute; reflexivity. Qed.
Lemma units_decided : forallb (fun files => forallb (decided files) milp_vars) planning_milp = true. Proof. vm_compute; reflexivity. Qed.

Lemma in_repeat {A B} (f : A -> B) l b n x : map f l = repeat b n -> In x l -> f x = b.
Proof. intros E IX; apply (in_map f) in IX; rewrite E in IX; apply repeat_spec in IX; exact IX. Qed.
Lemma nth_same {A B} (f : A -> B) l r i x y : map f l = r -> nth_error l i = Some x -> nth_error r i = Some y -> f x = y.
Proof. intros E EX EY; apply (f_equal (fun l => nth_error l i)) in E; rewrite nth_error_map, EX, EY in E; injection E as E; exact E. Qed.
Section Shipped.
Variable order : list string -> list string.
Variable files : list math_file.
Variable U : world.
Hypothesis SO : solution order files U.
Lemma valued s fe w : decided files s = true -> var_text (layered files) s = Some (fe, w) ->
  exists c, c_name c = s /\ c_foreach c = fe /\ parse_where_text (math_names (layered files)) (MathText.c_where c) = Some w /\ valued_in (layered files) (bounds files) U c.
Proof.
  unfold decided, var_text; rewrite andb_true_iff, negb_true_iff; intros (NO & _) VT; destruct (find_in _ s) as [c|] eqn:FI; [|discriminate]; destruct (parse_where_text _ _) as [w'|] eqn:PW; [|discriminate].
  injection VT as <- <-; unfold find_in in FI; apply find_some in FI as (IC & EN); apply String.eqb_eq in EN; exists c; split; [exact EN|split; [reflexivity|split; [exact PW|]]].
  apply (proj2 SO); unfold active; apply filter_In; split; [exact IC|rewrite EN, NO; reflexivity].
Qed.
(** A variable that exists, by facts about the data or otherwise. *)
Lemma var_here s fe w lo hi wh l : decided files s = true -> var_text (layered files) s = Some (fe, w) -> limits_of files s = (lo, hi, wh) -> apartb fe = true ->
  forallb (fun d => smem d (map fst l)) fe = true -> sited U l -> (forall p, whole U p -> fits l p -> weval (world_where (math_names (layered files)) U) w p = true) ->
  let k := cut fe l in given U s k /\ above (limit_at U lo (spot k)) (amount U s k) /\ below (amount U s k) (limit_at U hi (spot k)) /\ (wh = true -> integral (amount U s k)).
Proof.
  intros DE VT LI AP SUB SI CW k; destruct (valued s fe w DE VT) as (c & <- & <- & PW & VA); unfold limits_of in LI; injection LI as <- <- <-.
  exact (variable_here U _ _ c w PW VA (apartb_sound _ AP) l SI (fun d ID => proj1 (smem_in _ _) (proj1 (forallb_forall _ _) SUB d ID)) CW).
Qed.
Lemma var_gone s fe w l : decided files s = true -> var_text (layered files) s = Some (fe, w) -> apartb fe = true -> forallb (fun d => smem d (map fst l)) fe = true -> forallb (fun d => smem d fe) (map fst l) = true ->
  sound (u_env U) -> placed U l -> (forall p, whole U p -> fits l p -> weval (world_where (math_names (layered files)) U) w p = false) -> absent U s l.
Proof.
  intros DE VT AP S1 S2 SD PL CW; destruct (valued s fe w DE VT) as (c & <- & <- & PW & VA).
  refine (variable_gone U _ _ c w PW VA (apartb_sound _ AP) l SD PL _ CW); intros d; rewrite forallb_forall in S1, S2; split; intros ID; [apply smem_in, S1, ID|apply smem_in, S2, ID].
Qed.
Lemma var_any s fe w lo hi wh l : decided files s = true -> var_text (layered files) s = Some (fe, w) -> limits_of files s = (lo, hi, wh) -> apartb fe = true ->
  forallb (fun d => smem d (map fst l)) fe = true -> forallb (fun d => smem d fe) (map fst l) = true -> sound (u_env U) -> placed U l ->
  absent U s l \/ given U s l /\ above (limit_at U lo (spot l)) (amount U s l) /\ below (amount U s l) (limit_at U hi (spot l)) /\ (wh = true -> integral (amount U s l)).
Proof.
  intros DE VT LI AP S1 S2 SD PL; destruct (valued s fe w DE VT) as (c & <- & <- & PW & VA); unfold limits_of in LI; injection LI as <- <- <-.
  refine (variable_any U _ _ c w PW VA (apartb_sound _ AP) l SD PL _); intros d; rewrite forallb_forall in S1, S2; split; intros ID; [apply smem_in, S1, ID|apply smem_in, S2, ID].
Qed.
End Shipped.
(** Conditions from facts about the data. *)
Lemma known_here files U l F w b : (forall p, fits l p -> Forall (fact_in U p) F) -> Forall (fact_known (math_names (layered files))) F -> cond3 F None w = Some b ->
  forall p, whole U p -> fits l p -> weval (world_where (math_names (layered files)) U) w p = b.
Proof. intros FI FK C p _ FP; refine (cond3_sound _ U F p (FI p FP) FK None _ w b C); intros b' E; discriminate E. Qed.
Definition unit_inputs : list string := ["cap_method"; "integer_dispatch"; "force_async_flow"; "flow_cap_per_unit"].
Lemma unit_inputs_known : forallb (fun files => inputs_known (layered files) unit_inputs) milp_lists = true.
Proof. vm_compute; reflexivity. Qed.
Lemma unit_input files s : In files milp_lists -> In s unit_inputs -> smem s (LangModel.n_dims (math_names (layered files))) = false /\ smem s (n_inputs (math_names (layered files))) = true.
Proof.
  intros IF IS; pose proof unit_inputs_known as H; rewrite forallb_forall in H; specialize (H files IF); unfold inputs_known in H; rewrite andb_true_iff in H; destruct H as (_ & H).
  rewrite forallb_forall in H; specialize (H s IS); apply andb_true_iff in H as (H1 & H2); rewrite negb_true_iff in H1; auto.
Qed.
Lemma export_known : forallb (fun files => smem "carrier_export" (n_inputs (math_names (layered files)))) shipped = true. Proof. vm_compute; reflexivity. Qed.
Lemma config_is files U s b b' p : n_config (u_env U) s = Boo b -> weval (world_where (math_names (layered files)) U) (WCmp (EConf s) CEq (EBool b')) p = Bool.eqb b b'.
Proof. intros E; change (same (n_config (u_env U) s) (Boo b') = Bool.eqb b b'); rewrite E; destruct b, b'; reflexivity. Qed.

(** Table look-ups. *)
Lemma base_var files i s fe w : In files shipped -> nth_error base_vars i = Some s -> nth_error base_var_texts i = Some (fe, w) -> var_text (layered files) s = Some (fe, w).
Proof. intros IF EN ET; pose proof (in_repeat _ _ _ _ _ base_vars_read IF) as H; exact (nth_same _ _ _ i s _ H EN (map_nth_error Some i _ ET)). Qed.
Lemma milp_var files i s fe w : In files milp_lists -> nth_error milp_vars i = Some s -> nth_error milp_var_texts i = Some (fe, w) -> var_text (layered files) s = Some (fe, w).
Proof. intros IF EN ET; pose proof (in_repeat _ _ _ _ _ milp_vars_read IF) as H; exact (nth_same _ _ _ i s _ H EN (map_nth_error Some i _ ET)). Qed.
Lemma limits_at (T : list (string * (limit * limit * bool))) lists n files i s x : map (fun files => map (limits_of files) (map fst T)) lists = repeat (map snd T) n -> In files lists ->
  nth_error (map fst T) i = Some s -> nth_error (map snd T) i = Some x -> limits_of files s = x.
Proof. intros E IF EN EX; pose proof (in_repeat _ _ _ _ _ E IF) as H; exact (nth_same _ _ _ i s x H EN EX). Qed.
Lemma decided_in names lists files s : forallb (fun files => forallb (decided files) names) lists = true -> In files lists -> In s names -> decided files s = true.
Proof. rewrite forallb_forall; intros H IF IS; specialize (H files IF); rewrite forallb_forall in H; exact (H s IS). Qed.
Lemma whole_bit x : integral x -> (0 <= x)%Qc -> (x <= 1)%Qc -> x = 0%Qc \/ x = 1%Qc.
Proof.
  intros (z & ->) L H; change (Qle (Qred 0) (Qred (inject_Z z))) in L; change (Qle (Qred (inject_Z z)) (Qred 1)) in H; rewrite !Qred_correct in L, H; change (inject_Z 0 <= inject_Z z)%Q in L; change (inject_Z z <= inject_Z 1)%Q in H; rewrite <- Zle_Qle in L, H.
  assert (D : (z = 0 \/ z = 1)%Z) by lia; destruct D as [-> | ->]; [left|right]; apply Qc_is_canon; reflexivity.
Qed.
