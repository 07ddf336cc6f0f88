(** Lemmas on building the shipped math and on the values of its expressions. *)
From Coq Require Import QArith Qcanon Lia Permutation.
From Verif Require Import Base BaseProofs LangModel MathText EvalModel EvalSpec BuildModel BuildSpec BuildProofs BuildEqs
  HelperModel HelperSpec HelperProofs HelperLocal HelperLaws ShipModel ShipSpec.
From Verif Require CliModel CliProofs.
Local Open Scope nat_scope.
Local Open Scope string_scope.
Local Open Scope list_scope.
Local Arguments String.eqb : simpl never.

(** * One equation after another *)
Section Loop.
Variable N : names.
Variable U : world.
Variable sets : list string.
Variable top : index -> bool.
Let D := world_data N U.

Lemma add_one_built da q da' : add_one N U sets top da q = Built da' ->
  (forall f, In f (indices D sets) -> null (da f) = false -> da' f = da f /\ ~ selected D sets top q f) /\
  (forall f, In f (indices D sets) -> ~ selected D sets top q f -> da' f = da f) /\
  (forall f, In f (indices D sets) -> selected D sets top q f ->
     keys_given q = true /\ exists v, evaluate_all U sets q (sel D sets top q) = Built v /\ da' f = v f /\ null (v f) = false).
Proof.
  unfold add_one; fold D; fold (sel D sets top q); destruct (any_full D _) eqn:A.
  - destruct (existsb _ _) eqn:O; [discriminate|]; destruct (keys_given q) eqn:K; [|discriminate].
    destruct (evaluate_all U sets q (sel D sets top q)) as [v|] eqn:EV; [|discriminate]; cbn [then_].
    destruct (existsb (fun f => sel D sets top q f && null (v f)) _) eqn:M; [discriminate|]; intros H; injection H as <-.
    rewrite existsb_false in O, M.
    assert (X : forall f, In f (indices D sets) -> null (da f) = false -> ~ selected D sets top q f).
    { intros f IN NF SE; specialize (O f IN); apply sel_spec in SE; rewrite SE, NF in O; discriminate. }
    split; [|split].
    + intros f IN NF; split; [rewrite NF; reflexivity|apply X; assumption].
    + intros f IN NS; destruct (null (da f)) eqn:NF; [|reflexivity].
      destruct (sel D sets top q f) eqn:E; [apply sel_spec in E; contradiction|]; symmetry; apply null_eq, NF.
    + intros f IN SE; split; [reflexivity|]; exists v; split; [reflexivity|].
      destruct (null (da f)) eqn:NF; [|exfalso; exact (X f IN NF SE)].
      specialize (M f IN); apply sel_spec in SE; rewrite SE in *; cbn [andb] in M; split; [reflexivity|exact M].
  - intros H; injection H as <-.
    assert (NO : forall f, ~ selected D sets top q f) by (intros f SE; assert (Y : exists f, selected D sets top q f) by eauto; apply any_sel in Y; congruence).
    split; [intros f _ _; split; [reflexivity|apply NO]|split; [reflexivity|intros f _ SE; exfalso; exact (NO f SE)]].
Qed.
Lemma add_ones_keep qs : forall da r f, add_ones N U sets top da qs = Built r -> In f (indices D sets) -> null (da f) = false ->
  r f = da f /\ forall q, In q qs -> ~ selected D sets top q f.
Proof.
  induction qs as [|q qs IH]; intros da r f H IN NF; cbn [add_ones] in H; [injection H as <-; split; [reflexivity|intros q []]|].
  destruct (add_one N U sets top da q) as [d1|] eqn:AE; [|discriminate]; cbn [then_] in H.
  destruct (add_one_built _ _ _ AE) as (K1 & _ & _); destruct (K1 f IN NF) as (E & NS).
  destruct (IH d1 r f H IN) as (E2 & NS2); [rewrite E; exact NF|]; split; [congruence|].
  intros q' [<- |IQ]; [exact NS|apply NS2, IQ].
Qed.
Lemma add_ones_built qs : forall da r f, add_ones N U sets top da qs = Built r -> In f (indices D sets) ->
  (forall q, In q qs -> selected D sets top q f ->
     keys_given q = true /\ exists v, evaluate_all U sets q (sel D sets top q) = Built v /\ r f = v f /\ null (v f) = false) /\
  ((forall q, In q qs -> ~ selected D sets top q f) -> r f = da f).
Proof.
  induction qs as [|q qs IH]; intros da r f H IN; cbn [add_ones] in H; [injection H as <-; split; [intros q []|reflexivity]|].
  destruct (add_one N U sets top da q) as [d1|] eqn:AE; [|discriminate]; cbn [then_] in H.
  destruct (add_one_built _ _ _ AE) as (_ & K2 & K3); destruct (IH d1 r f H IN) as (I1 & I2); split.
  - intros q' [<- |IQ] SE; [|apply I1; assumption].
    destruct (K3 f IN SE) as (KG & v & EV & E & NF); split; [exact KG|]; exists v; split; [exact EV|].
    destruct (add_ones_keep qs d1 r f H IN) as (E2 & _); [rewrite E; exact NF|]; split; [congruence|exact NF].
  - intros NS; rewrite I2 by (intros q' IQ; apply NS; right; exact IQ); apply K2; [exact IN|]; apply NS; left; reflexivity.
Qed.
End Loop.

(** * The array of a component *)
Definition applies_to (m : math_file) (U : world) (c : component) (w : wexpr) (i : index) : Prop :=
  In i (indices (world_data (math_names m) U) (u_dims U)) /\
  is_true (a_at (n_matrix (u_env U)) (at_index (u_dims U) i)) = true /\
  weval (world_where (math_names m) U) w (at_index (u_dims U) i) = true.

Lemma build_entries order m U group c r w qs :
  build_all order m U group c = Built r -> (forall s, In s (c_foreach c) -> In s (u_dims U)) ->
  parse_where_text (math_names m) (MathText.c_where c) = Some w ->
  parse_equations order (math_names m) (math_valid m) group c = Done qs ->
  (forall i q, applies_to m U c w i -> In q qs -> applies (world_where (math_names m) U) (at_index (u_dims U) i) q = true ->
     let f := map (at_index (u_dims U) i) (c_foreach c) in
     exists wd v, wd f = true /\ evaluate_all U (c_foreach c) q wd = Built v /\ r f = v f /\ null (v f) = false) /\
  (forall f, In f (indices (world_data (math_names m) U) (c_foreach c)) -> null (r f) = false ->
     exists i q wd v, applies_to m U c w i /\ In q qs /\ map (at_index (u_dims U) i) (c_foreach c) = f /\
       (exists j, In j (indices (world_data (math_names m) U) (u_dims U)) /\ map (at_index (u_dims U) j) (c_foreach c) = f /\
          applies (world_where (math_names m) U) (at_index (u_dims U) j) q = true) /\
       wd f = true /\ evaluate_all U (c_foreach c) q wd = Built v /\ r f = v f).
Proof.
  intros B SUB PW PE; unfold build_all in B; set (D := world_data (math_names m) U) in *.
  destruct (top_level_where_spec D (math_names m) c w PW) as (top & TL & TS); rewrite TL in B; cbn [lift then_] in B.
  assert (TOP : forall i, applies_to m U c w i -> top (map (at_index (u_dims U) i) (c_foreach c)) = true).
  { intros i (IN & MX & WH); apply TS; split; [exact SUB|]; exists i; split; [exact IN|split; [reflexivity|split; [exact MX|]]]; intros w' [<- |[]]; exact WH. }
  destruct (existsb top _) eqn:EX.
  - rewrite PE in B; cbn [lift then_] in B; split.
    + intros i q AI IQ AQ f.
      assert (IF : In f (indices D (c_foreach c))) by (apply at_index_in; [apply AI|exact SUB]).
      destruct (add_ones_built (math_names m) U (c_foreach c) top qs _ r f B IF) as (K & _).
      assert (SE : selected D (c_foreach c) top q f).
      { split; [apply TOP, AI|]; exists i; split; [apply AI|split; [reflexivity|]]; unfold applies in AQ; rewrite forallb_forall in AQ; exact AQ. }
      destruct (K q IQ SE) as (_ & v & EV & E & NF); exists (sel D (c_foreach c) top q), v; split; [apply sel_spec, SE|auto].
    + intros f IF NF; destruct (add_ones_built (math_names m) U (c_foreach c) top qs _ r f B IF) as (K1 & K2).
      assert (DEC : (exists q, In q qs /\ selected D (c_foreach c) top q f) \/ forall q, In q qs -> ~ selected D (c_foreach c) top q f).
      { clear; induction qs as [|q qs IH]; [right; intros q []|]; destruct (sel_dec D (c_foreach c) top q f) as [S1|S1]; [left; exists q; split; [left; reflexivity|exact S1]|].
        destruct IH as [(q' & I & S2)|IH]; [left; exists q'; split; [right; exact I|exact S2]|right; intros q' [<- |I]; [exact S1|apply IH, I]]. }
      destruct DEC as [(q & IQ & SE)|NO]; [|rewrite (K2 NO) in NF; discriminate].
      destruct (K1 q IQ SE) as (_ & v & EV & E & _); pose proof (proj1 SE) as TF; apply TS in TF as (_ & i & IN & EI & MX & WH).
      destruct (proj2 SE) as (j & JN & EJ & AJ).
      exists i, q, (sel D (c_foreach c) top q), v; split; [split; [exact IN|split; [exact MX|apply WH; left; reflexivity]]|].
      split; [exact IQ|split; [exact EI|split; [exists j; split; [exact JN|split; [exact EJ|unfold applies; apply forallb_forall, AJ]]|]]].
      split; [apply sel_spec, SE|auto].
  - injection B as <-; split.
    + intros i q AI _ _; exfalso; rewrite existsb_false in EX.
      assert (IF : In (map (at_index (u_dims U) i) (c_foreach c)) (indices D (c_foreach c))) by (apply at_index_in; [apply AI|exact SUB]).
      specialize (EX _ IF); rewrite (TOP i AI) in EX; discriminate.
    + intros f _ NF; discriminate.
Qed.

(** * Values of expressions, entry by entry *)
Section Values.
Variable D : denv.

(** The entry of an expression. *)
Definition cell_of (w : dmask) (e : expr) (p : pos) : cell :=
  match deval D w e with Some a => a_at a p | None => Miss end.
Definition op_cell (o : op) (a b : cell) : cell := operate (plain_env D) o a b.

Lemma chain_snoc w e ops o x : deval D w (EChain e (ops ++ [(o, x)])) =
  match deval D w (EChain e ops), deval D w x with Some v, Some b => Some (combine D o v (under w b)) | _, _ => None end.
Proof. cbn [deval]; rewrite fold_left_app; reflexivity. Qed.
Lemma chain_at w e ops : forall p, m_at w p = true -> deval D w (EChain e ops) <> None ->
  cell_of w (EChain e ops) p = fold_left (fun v x => op_cell (fst x) v (cell_of w (snd x) p)) ops (cell_of w e p) /\
  deval D w e <> None /\ forall x, In x ops -> deval D w (snd x) <> None.
Proof.
  induction ops as [|(o, x) ops IH] using rev_ind; intros p MP NN.
  - unfold cell_of; cbn [deval fold_left] in *; destruct (deval D w e) as [a|]; cbn [option_map] in *; [|congruence].
    split; [unfold under, mask; cbn [a_at]; rewrite MP; reflexivity|split; [congruence|intros x []]].
  - rewrite chain_snoc in NN; destruct (deval D w (EChain e ops)) as [v|] eqn:EV; [|congruence].
    destruct (deval D w x) as [b|] eqn:EX; [|congruence].
    destruct (IH p MP) as (E & NE & NX); [congruence|].
    split; [|split; [exact NE|intros y IY; apply in_app_or in IY as [IY|[<- |[]]]; [apply NX, IY|cbn [snd]; congruence]]].
    rewrite fold_left_app; cbn [fold_left fst snd]; rewrite <- E.
    unfold cell_of at 1; rewrite chain_snoc, EV, EX; unfold combine, under, mask; cbn [a_at]; rewrite MP.
    unfold op_cell, cell_of; rewrite EV, EX; reflexivity.
Qed.
Lemma cell_name w s p : cell_of w (EName s) p = fill (n_default D s) (a_at (n_array D s) p).
Proof. reflexivity. Qed.
Lemma cell_num w neg s p : cell_of w (ENum neg s) p = number_cell neg s.
Proof. reflexivity. Qed.
Lemma sum_named w e o ds : names_of o = Some ds ->
  deval D w (EFun "sum" [e] [("over", o)]) = option_map (h_sum D ds) (deval D w e).
Proof.
  intros NO; change (deval D w (EFun "sum" [e] [("over", o)])) with (opt2 (fun a o => Some (h_sum D o a)) (deval D w e) (names_of o)).
  rewrite NO; destruct (deval D w e); reflexivity.
Qed.
Lemma cell_sum w e o ds p a : names_of o = Some ds -> deval D w e = Some a ->
  cell_of w (EFun "sum" [e] [("over", o)]) p = total D (map (cell_of w e) (spread D (shared ds (a_dims a)) p)).
Proof. intros NO EA; unfold cell_of; rewrite (sum_named _ _ _ _ NO), EA; reflexivity. Qed.
End Values.

(** References. *)
Lemma subs_labels D sb : n_labels (subs_in D sb) = n_labels D. Proof. reflexivity. Qed.
Lemma cell_ref D sb w s e p : d_get s sb = Some e -> cell_of (subs_in D sb) w (ERef s) p = cell_of D w e p.
Proof. intros H; unfold cell_of; cbn [deval subs_in n_ref]; rewrite H; reflexivity. Qed.

(** The sides of an equation. *)
Lemma evaluate_sides U sets q w v f l c r : q_expr q = PEq l c r -> evaluate_all U sets q w = Built v -> w f = true ->
  deval (eq_denv (u_env U) q) (mask_of sets w) l <> None /\ deval (eq_denv (u_env U) q) (mask_of sets w) r <> None /\
  v f = VRel (cell_of (eq_denv (u_env U) q) (mask_of sets w) l (at_index sets f)) c
             (cell_of (eq_denv (u_env U) q) (mask_of sets w) r (at_index sets f)).
Proof.
  intros EQ H WF; unfold evaluate_all in H; rewrite EQ in H; unfold cell_of.
  destruct (deval _ _ l) as [a|]; [|discriminate]; destruct (deval _ _ r) as [b|]; [|discriminate].
  destruct (all_in (a_dims a) sets && all_in (a_dims b) sets); [|discriminate]; injection H as <-.
  rewrite WF; repeat split; congruence.
Qed.
Lemma evaluate_value U sets q w v f e : q_expr q = PArith e -> evaluate_all U sets q w = Built v ->
  deval (eq_denv (u_env U) q) (mask_of sets w) e <> None /\
  v f = VCell (cell_of (eq_denv (u_env U) q) (mask_of sets w) e (at_index sets f)).
Proof.
  intros EQ H; unfold evaluate_all in H; rewrite EQ in H; unfold cell_of.
  destruct (deval _ _ e) as [a|]; [|discriminate].
  destruct (all_in (a_dims a) sets); [|discriminate]; injection H as <-; split; congruence.
Qed.
Lemma mask_here sets w f : NoDup sets -> List.length f = List.length sets -> w f = true -> m_at (mask_of sets w) (at_index sets f) = true.
Proof. intros ND LE WF; cbn [mask_of m_at]; rewrite at_index_self; assumption. Qed.

(** * Positions *)
Lemma spot_get l d x : NoDup (map fst l) -> In (d, x) l -> spot l d = x.
Proof.
  unfold spot; induction l as [|(k & v) l IH]; intros ND IN; [destruct IN|]; inversion ND as [|? ? NI ND']; subst; cbn [d_get].
  destruct IN as [E|IN]; [injection E as -> ->; rewrite String.eqb_refl; reflexivity|].
  destruct (String.eqb d k) eqn:EK; [|apply IH; assumption]; apply String.eqb_eq in EK; subst; exfalso; apply (in_map fst) in IN; exact (NI IN).
Qed.
Lemma spot_at l : at_index (map fst l) (map snd l) = spot l.
Proof. unfold at_index, spot; assert (E : List.combine (map fst l) (map snd l) = l) by (induction l as [|(k & v) l IH]; cbn; congruence); rewrite E; reflexivity. Qed.
Lemma whole_at U l : NoDup (u_dims U) -> populated U -> placed U l -> exists p, whole U p /\ forall d x, In (d, x) l -> p d = x.
Proof.
  intros ND PO (NL & PL); set (pick := fun d => match d_get d l with Some x => x | None => hd "" (labels U d) end).
  exists (at_index (u_dims U) (map pick (u_dims U))); split.
  - exists (map pick (u_dims U)); split; [|reflexivity]; apply CliProofs.product_in.
    assert (H : forall d, In d (u_dims U) -> In (pick d) (labels U d)).
    { intros d ID; unfold pick; destruct (d_get d l) as [x|] eqn:G; [apply d_get_in in G; apply (PL d x G)|]; specialize (PO d ID); destruct (labels U d); [congruence|left; reflexivity]. }
    revert H; generalize (u_dims U); intros ds; induction ds as [|d ds IH]; intros H; cbn [map]; constructor; [apply H; left; reflexivity|apply IH; intros d' ID; apply H; right; exact ID].
  - intros d x IN; destruct (PL d x IN) as (ID & _).
    pose proof (at_index_self (u_dims U) ND (map pick (u_dims U)) (map_length _ _)) as E.
    assert (EP : at_index (u_dims U) (map pick (u_dims U)) d = pick d) by (revert E; generalize (at_index (u_dims U) (map pick (u_dims U))); intros g E; exact (proj1 map_ext_in_iff E d ID)).
    rewrite EP; unfold pick; pose proof (spot_get l d x NL IN) as S; unfold spot in S; destruct (d_get d l) as [y|] eqn:G; [exact S|].
    exfalso; apply (in_map fst) in IN; cbn [fst] in IN; change (map fst l) with (d_keys l) in IN; apply d_mem_keys in IN; unfold d_mem in IN; rewrite G in IN; discriminate.
Qed.
Lemma value_local U s p q : sound (u_env U) -> (forall d, In d (a_dims (n_array (u_env U) s)) -> p d = q d) -> value_in U s p = value_in U s q.
Proof. intros SD H; unfold value_in; f_equal; apply SD, H. Qed.
Lemma value_spot U s p l : sound (u_env U) -> (forall d x, In (d, x) l -> p d = x) -> NoDup (map fst l) -> within_dims U s (map fst l) -> value_in U s p = value_at U s l.
Proof.
  intros SD HP ND WD; apply value_local; [exact SD|]; intros d ID; apply WD in ID; apply in_map_iff in ID as ((k & x) & <- & IN); cbn [fst].
  rewrite (HP k x IN), (spot_get l k x ND IN); reflexivity.
Qed.
Lemma number_amount U s l : number U s l -> value_at U s l = Val (amount U s l).
Proof. intros (q & E); unfold amount; rewrite E; reflexivity. Qed.
Lemma there_local U s p q : sound (u_env U) -> (forall d, In d (a_dims (n_array (u_env U) s)) -> p d = q d) -> a_at (n_array (u_env U) s) p = a_at (n_array (u_env U) s) q.
Proof. intros SD H; apply SD, H. Qed.

(** * Conditions *)
Lemma cond_input N U s p : smem s (LangModel.n_dims N) = false -> smem s (n_inputs N) = true ->
  aeval (cmp_env (world_where N U)) everywhere (EName s) p = value_in U s p.
Proof. intros H1 H2; cbn [aeval cmp_env e_array e_default world_where w_dims w_inputs w_input w_default]; rewrite H1, H2; reflexivity. Qed.
Lemma cond_dim N U s p : smem s (LangModel.n_dims N) = true -> aeval (cmp_env (world_where N U)) everywhere (EName s) p = Txt (p s).
Proof. intros H; cbn [aeval cmp_env e_array e_default world_where w_dims]; rewrite H; reflexivity. Qed.
Lemma cond_first N U d p : labels U d <> [] ->
  aeval (cmp_env (world_where N U)) everywhere (EFun "get_val_at_index" [] [(d, ENum false "0")]) p = Txt (nth 0 (labels U d) "").
Proof.
  intros NE; cbn [aeval cmp_env e_helper e_ignore world_where w_helper_cmp map fst snd]; unfold where_call; cbn [map fst snd deval].
  unfold call; cbn [String.eqb Ascii.eqb Bool.eqb]; change (String.eqb "get_val_at_index" "get_val_at_index") with true.
  change (String.eqb "get_val_at_index" "sum") with false; change (String.eqb "get_val_at_index" "any") with false; change (String.eqb "get_val_at_index" "where") with false;
  change (String.eqb "get_val_at_index" "reduce_carrier_dim") with false; change (String.eqb "get_val_at_index" "roll") with false; change (String.eqb "get_val_at_index" "sum_next_n") with false;
  change (String.eqb "get_val_at_index" "group_sum") with false; change (String.eqb "get_val_at_index" "group_datetime") with false; change (String.eqb "get_val_at_index" "select_from_lookup_arrays") with false; cbv iota.
  unfold bind; cbn [bind_pos filter app smem existsb negb map fst snd all_in forallb andb orb].
  assert (EI : int_of (Some (scalar (number_cell false "0"))) = Some 0%Z) by (apply int_literal; vm_compute; f_equal; apply Qc_is_canon; reflexivity).
  rewrite EI; unfold h_val; fold (labels U d); cbn [Z.ltb Z.compare]; destruct (labels U d) as [|x l] eqn:EL; [congruence|]; cbn [List.length].
  assert (LT : Z.leb 0 0 && Z.ltb 0 (Z.of_nat (S (List.length l))) = true) by (apply andb_true_iff; split; [reflexivity|apply Z.ltb_lt; lia]); rewrite LT; reflexivity.
Qed.
