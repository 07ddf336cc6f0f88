(** Components of the shipped math at a place. *)
From Coq Require Import QArith Qcanon Lia Permutation.
From Verif Require Import Base BaseProofs LangModel MathText EvalModel EvalSpec BuildModel BuildSpec BuildProofs BuildEqs
  HelperModel HelperSpec HelperProofs HelperLocal HelperLaws ShipModel ShipSpec ShipProofs ShipEntry ShipStorage ShipNumbers PlaceSpec.
From Verif Require CliModel CliProofs.
Local Open Scope nat_scope.
Local Open Scope string_scope.
Local Open Scope list_scope.
Local Arguments String.eqb : simpl never.

(** * Conditions from facts *)
Inductive fact := Given | On | Off | Absent | Is (c : cell) | Has (c : cell).
Fixpoint exist_fact (F : list (string * fact)) (s : string) : option bool :=
  match F with
  | [] => None
  | (k, f) :: r => if String.eqb k s then match f with Given | On => Some true | Absent | Off => Some false | _ => exist_fact r s end else exist_fact r s
  end.
Fixpoint value_fact (F : list (string * fact)) (s : string) : option cell :=
  match F with
  | [] => None
  | (k, f) :: r => if String.eqb k s then match f with Is c | Has c => Some c | _ => value_fact r s end else value_fact r s
  end.
Definition const_of (e : expr) : option cell :=
  match e with EStr s => Some (Txt s) | EBool b => Some (Boo b) | ENum neg s => Some (number_cell neg s) | _ => None end.
Definition is_first (l r : expr) : bool :=
  match l, r with
  | EName a, EFun f [] [(k, ENum false z)] => String.eqb a "timesteps" && String.eqb f "get_val_at_index" && String.eqb k "timesteps" && String.eqb z "0"
  | _, _ => false
  end.
Definition and3 (a b : option bool) : option bool :=
  match a, b with Some false, _ | _, Some false => Some false | Some true, Some true => Some true | _, _ => None end.
Definition or3 (a b : option bool) : option bool :=
  match a, b with Some true, _ | _, Some true => Some true | Some false, Some false => Some false | _, _ => None end.
Definition more (v k : cell) : option bool :=
  match k, v with Val x, Val y => Some (match (x ?= y)%Qc with Datatypes.Lt => true | _ => false end) | Val _, Miss => Some false | _, _ => None end.
Fixpoint cond3 (F : list (string * fact)) (start : option bool) (w : wexpr) : option bool :=
  match w with
  | WBool b => Some b
  | WName s => exist_fact F s
  | WCmp l CEq r => if is_first l r then start else
      match l with EName s => match value_fact F s, const_of r with Some v, Some k => Some (same v k) | _, _ => None end | _ => None end
  | WCmp (EName s) CGt r => match value_fact F s, const_of r with Some v, Some k => more v k | _, _ => None end
  | WNot w => option_map negb (cond3 F start w)
  | WChain w ops => fold_left (fun v x => if fst x : bool then and3 v (cond3 F start (snd x)) else or3 v (cond3 F start (snd x))) ops (cond3 F start w)
  | _ => None
  end.
Definition fact_in (U : world) (p : pos) (x : string * fact) : Prop :=
  match snd x with
  | Given => u_bool U (fst x) = false /\ exists q, a_at (n_array (u_env U) (fst x)) p = Val q
  | On => a_at (n_array (u_env U) (fst x)) p = Boo true
  | Off => u_bool U (fst x) = true /\ a_at (n_array (u_env U) (fst x)) p = Boo false \/ a_at (n_array (u_env U) (fst x)) p = Miss
  | Absent => a_at (n_array (u_env U) (fst x)) p = Miss
  | Is c => value_in U (fst x) p = c
  | Has c => c <> Miss /\ a_at (n_array (u_env U) (fst x)) p = c
  end.
Definition fact_known (N : names) (x : string * fact) : Prop :=
  match snd x with
  | Is _ => smem (fst x) (LangModel.n_dims N) = false /\ smem (fst x) (n_inputs N) = true
  | Has _ => smem (fst x) (LangModel.n_dims N) = false
  | Off => smem (fst x) (n_inputs N) = true
  | _ => True
  end.
Lemma exist_fact_in F s b : exist_fact F s = Some b -> exists f, In (s, f) F /\ (b = true /\ (f = Given \/ f = On) \/ b = false /\ (f = Absent \/ f = Off)).
Proof.
  induction F as [|(k & f) r IH]; cbn [exist_fact]; [discriminate|]; destruct (String.eqb k s) eqn:E.
  - apply String.eqb_eq in E; subst; destruct f; intros H; try (injection H as <-); try (destruct (IH H) as (g & IG & K); exists g; split; [right; exact IG|exact K]); eexists; (split; [left; reflexivity|]); auto.
  - intros H; destruct (IH H) as (g & IG & K); exists g; split; [right; exact IG|exact K].
Qed.
Lemma value_fact_in F s c : value_fact F s = Some c -> In (s, Is c) F \/ In (s, Has c) F.
Proof.
  induction F as [|(k & f) r IH]; cbn [value_fact]; [discriminate|]; destruct (String.eqb k s) eqn:E.
  - apply String.eqb_eq in E; subst; destruct f; intros H; try (destruct (IH H); [left|right]; right; assumption); injection H as ->; [left|right]; left; reflexivity.
  - intros H; destruct (IH H); [left|right]; right; assumption.
Qed.
Definition wpart (x w : wexpr) : Prop := match w with WNot y => x = y | WChain y ops => x = y \/ In x (map snd ops) | _ => False end.
Lemma wexpr_parts (P : wexpr -> Prop) : (forall w, (forall x, wpart x w -> P x) -> P w) -> forall w, P w.
Proof.
  intros H; fix IH 1; intros w; apply H; destruct w as [| | | | |w|w ops]; cbn [wpart]; try (intros x []; fail).
  - intros x E; rewrite E; apply IH.
  - intros x [E|HO]; [rewrite E; apply IH|].
    revert x HO; induction ops as [|[d y] l IL]; intros x IN; [destruct IN|destruct IN as [E|IN]]; [rewrite <- E; change (P y); apply IH|apply IL, IN].
Qed.
Section Facts.
Variable N : names.
Variable U : world.
Variable F : list (string * fact).
Variable p : pos.
Hypothesis FI : Forall (fact_in U p) F.
Hypothesis FK : Forall (fact_known N) F.
Let W := world_where N U.
Lemma exist_sound s b : exist_fact F s = Some b -> weval W (WName s) p = b.
Proof.
  intros H; apply exist_fact_in in H as (f & IF & H); rewrite Forall_forall in FI; specialize (FI _ IF); cbn [weval]; unfold defined_at, W; cbn [world_where w_inputs w_input w_bool w_result].
  destruct H as [(-> & [-> | ->])|(-> & [-> | ->])]; cbn [fact_in fst snd] in FI.
  - destruct FI as (B & q & E); destruct (smem s (n_inputs N)); rewrite ?B, E; reflexivity.
  - destruct (smem s (n_inputs N)); rewrite FI; [destruct (u_bool U s)|]; reflexivity.
  - destruct (smem s (n_inputs N)); rewrite FI; [destruct (u_bool U s)|]; reflexivity.
  - rewrite Forall_forall in FK; pose proof (FK _ IF) as K; cbn [fact_known fst snd] in K; rewrite K; destruct FI as [(B & E)|E]; rewrite ?B, E; [reflexivity|]; destruct (u_bool U s); reflexivity.
Qed.
Lemma value_sound s c : value_fact F s = Some c -> aeval (cmp_env W) everywhere (EName s) p = c.
Proof.
  intros H; rewrite Forall_forall in FI, FK; apply value_fact_in in H as [H|H].
  - pose proof (FI _ H) as E; destruct (FK _ H) as (K1 & K2); cbn [fst snd fact_in] in *; rewrite <- E; apply cond_input; assumption.
  - destruct (FI _ H) as (NM & E); pose proof (FK _ H) as K1; cbn [fst snd fact_known] in *; unfold W; cbn [aeval cmp_env e_array e_default world_where w_dims w_inputs w_input w_result w_default]; rewrite K1.
    destruct (smem s (n_inputs N)); rewrite E; destruct c; try reflexivity; destruct (NM eq_refl).
Qed.
Lemma const_sound e c : const_of e = Some c -> aeval (cmp_env W) everywhere e p = c.
Proof. destruct e; cbn [const_of]; intros H; try discriminate; injection H as <-; reflexivity. Qed.
Lemma is_first_eq l r : is_first l r = true -> l = EName "timesteps" /\ r = EFun "get_val_at_index" [] [("timesteps", ENum false "0")].
Proof.
  unfold is_first; destruct l; try discriminate; destruct r as [| | | | | | | | |f args kws| |]; try discriminate; destruct args; try discriminate; destruct kws as [|(k & e) [|? ?]]; try discriminate;
    destruct e as [neg z| | | | | | | | | | |]; try discriminate; destruct neg; try discriminate; rewrite !andb_true_iff, !String.eqb_eq; intros (((-> & ->) & ->) & ->); auto.
Qed.
Variable start : option bool.
Hypothesis FS : forall b, start = Some b -> weval W first_step p = b.
Lemma cond3_sound w : forall b, cond3 F start w = Some b -> weval W w p = b.
Proof.
  induction w as [w IH] using wexpr_parts; intros b H; destruct w as [b'|l c r|e|items d|s|w|w ops]; cbn [cond3] in H; try discriminate.
  - injection H as <-; reflexivity.
  - destruct c; try (destruct l; discriminate).
    + destruct l as [|s| | | | | | | | | |]; try discriminate; destruct (value_fact F s) as [v|] eqn:V; [|discriminate]; destruct (const_of r) as [k|] eqn:K; [|discriminate].
      cbn [weval]; rewrite (value_sound s v V), (const_sound r k K); unfold more in H; cbn [compare]; unfold less; destruct k; try discriminate; destruct v; try discriminate; injection H as <-; reflexivity.
    + destruct (is_first l r) eqn:IS; [apply is_first_eq in IS as (-> & ->); apply FS, H|].
      destruct l as [|s| | | | | | | | | |]; try discriminate; destruct (value_fact F s) as [v|] eqn:V; [|discriminate]; destruct (const_of r) as [k|] eqn:K; [|discriminate].
      injection H as <-; cbn [weval]; rewrite (value_sound s v V), (const_sound r k K); reflexivity.
  - apply exist_sound, H.
  - destruct (cond3 F start w) as [v|] eqn:C; [|discriminate]; injection H as <-; cbn [weval]; rewrite (IH w) with (b := v) by (reflexivity || assumption); reflexivity.
  - cbn [weval].
    assert (G : forall ops v0 g, (forall x b, In x ops -> cond3 F start (snd x) = Some b -> weval W (snd x) p = b) -> (forall b, v0 = Some b -> g p = b) ->
      fold_left (fun v x => if fst x : bool then and3 v (cond3 F start (snd x)) else or3 v (cond3 F start (snd x))) ops v0 = Some b ->
      fold_left (fun v x => fun p => if fst x : bool then v p && weval W (snd x) p else v p || weval W (snd x) p) ops g p = b).
    { clear; intros ops; induction ops as [|x ops IO]; intros v0 g HX HG H; cbn [fold_left] in *; [apply HG, H|].
      refine (IO _ _ (fun y b IY => HX y b (or_intror IY)) _ H); intros b' E; pose proof (HX x) as HX1.
      destruct (fst x); [unfold and3 in E|unfold or3 in E]; destruct v0 as [[|]|]; destruct (cond3 F start (snd x)) as [[|]|] eqn:C; try discriminate; injection E as <-.
      all: try (rewrite (HG _ eq_refl)); try (rewrite (HX1 _ (or_introl eq_refl) eq_refl)); cbn; try reflexivity; rewrite ?andb_false_r, ?orb_true_r; reflexivity. }
    apply (G ops (cond3 F start w)); [|intros b' E; apply IH; [left; reflexivity|exact E]|exact H].
    intros x b' IX E; apply IH; [right; apply in_map, IX|exact E].
Qed.
End Facts.

(** * Facts at a place *)
Section Place.
Variable U : world.
Lemma fact_given l p s : sound (u_env U) -> NoDup (map fst l) -> fits l p -> given U s l -> fact_in U p (s, Given).
Proof.
  intros SD ND FP (WD & B & q & E); split; [exact B|]; exists q; cbn [fst]; rewrite <- E; apply there_local; [exact SD|]; intros d ID; specialize (WD d ID).
  apply in_map_iff in WD as ((d' & v) & <- & IN); cbn [fst]; rewrite (FP d' v IN); symmetry; apply spot_get; assumption.
Qed.
Lemma raw_at l p s : sound (u_env U) -> NoDup (map fst l) -> fits l p -> within_dims U s (map fst l) -> a_at (n_array (u_env U) s) p = a_at (n_array (u_env U) s) (spot l).
Proof.
  intros SD ND FP WD; apply there_local; [exact SD|]; intros d ID; specialize (WD d ID).
  apply in_map_iff in WD as ((d' & v) & <- & IN); cbn [fst]; rewrite (FP d' v IN); symmetry; apply spot_get; assumption.
Qed.
Lemma fact_on l p s : sound (u_env U) -> NoDup (map fst l) -> fits l p -> switched_on U s l -> fact_in U p (s, On).
Proof. intros SD ND FP (WD & E); unfold fact_in; cbn [fst snd]; rewrite (raw_at l p s SD ND FP WD); exact E. Qed.
Lemma fact_off l p s : sound (u_env U) -> NoDup (map fst l) -> fits l p -> switched_off U s l -> fact_in U p (s, Off).
Proof. intros SD ND FP (WD & E); unfold fact_in; cbn [fst snd]; rewrite (raw_at l p s SD ND FP WD); exact E. Qed.
Lemma fact_absent l p s : sound (u_env U) -> NoDup (map fst l) -> fits l p -> absent U s l -> fact_in U p (s, Absent).
Proof. intros SD ND FP (WD & E); unfold fact_in; cbn [fst snd]; rewrite (raw_at l p s SD ND FP WD); exact E. Qed.
Lemma fact_is l p s c : sound (u_env U) -> NoDup (map fst l) -> fits l p -> reads_as U s l c -> fact_in U p (s, Is c).
Proof. intros SD ND FP (WD & E); unfold fact_in; cbn [fst snd]; rewrite (value_spot U s p l SD FP ND WD); exact E. Qed.
Lemma fact_has l p s c : sound (u_env U) -> NoDup (map fst l) -> fits l p -> c <> Miss -> within_dims U s (map fst l) -> a_at (n_array (u_env U) s) (spot l) = c -> fact_in U p (s, Has c).
Proof. intros SD ND FP NM WD E; unfold fact_in; cbn [fst snd]; split; [exact NM|]; rewrite (raw_at l p s SD ND FP WD); exact E. Qed.
Lemma fits_incl l l' p : fits l p -> incl l' l -> fits l' p. Proof. intros FP I d v IN; apply FP, I, IN. Qed.
Lemma start_in N l p b : smem "timesteps" (LangModel.n_dims N) = true -> labels U "timesteps" <> [] -> fits l p ->
  (exists v, In ("timesteps", v) l /\ b = String.eqb v (nth 0 (labels U "timesteps") "")) -> weval (world_where N U) first_step p = b.
Proof.
  intros TD NE FP (v & IN & ->); unfold first_step; cbn [weval compare]; rewrite cond_dim, cond_first by assumption; rewrite (FP _ _ IN); reflexivity.
Qed.

(** The labels of some dimensions. *)
Definition cut (fe : list string) (l : list (string * string)) : list (string * string) := filter (fun x => smem (fst x) fe) l.
Lemma cut_in fe l x : In x (cut fe l) <-> In x l /\ In (fst x) fe.
Proof. unfold cut; rewrite filter_In, smem_in; reflexivity. Qed.
Lemma cut_fits fe l p x : fits l p -> same_on fe x p -> fits (cut fe l) x.
Proof. intros FP SO d v IN; apply cut_in in IN as (IL & IF); rewrite (SO d IF); apply FP, IL. Qed.
Lemma site_at l : sited U l -> exists p, whole U p /\ fits l p /\ is_true (a_at (n_matrix (u_env U)) p) = true.
Proof.
  intros ((SD & ND) & PO & PL & MD & MT); destruct (whole_at U l ND PO PL) as (p & WP & FP); exists p; split; [exact WP|split; [exact FP|]].
  rewrite <- MT; f_equal; apply (proj2 (proj2 SD)); intros d ID; specialize (MD d ID); apply in_map_iff in MD as ((d' & v) & <- & IN); cbn [fst].
  rewrite (FP d' v IN); symmetry; apply spot_get; [exact (proj1 PL)|exact IN].
Qed.

Variable order : list string -> list string.
Hypothesis OR : lists_set order.
(** What a component is read as. *)
Definition told (order : list string -> list string) (m : math_file) (group : string) (c : component) (fe : list string) (w : wexpr) (qs : list peq) : Prop :=
  c_foreach c = fe /\ parse_where_text (math_names m) (MathText.c_where c) = Some w /\ parse_equations order (math_names m) (math_valid m) group c = Done qs.
Lemma read_told m group c fe w qs : read_of m group c = Some (fe, w, qs) -> told order m group c fe w qs.
Proof. intros RD; apply read_of_reads in RD as (FE & (PW & PR & PE)); rewrite <- (parse_plain order m group c OR PR) in PE; repeat split; assumption. Qed.
Section At.
Variable m : math_file.
Variable l : list (string * string).
Hypothesis SI : sited U l.
Variable F : list (string * fact).
Variable st : option bool.
Hypothesis FI : forall p, fits l p -> Forall (fact_in U p) F.
Hypothesis FK : Forall (fact_known (math_names m)) F.
Hypothesis FS : forall p b, fits l p -> st = Some b -> weval (world_where (math_names m) U) first_step p = b.
Lemma cond_here w p b : fits l p -> cond3 F st w = Some b -> weval (world_where (math_names m) U) w p = b.
Proof. intros FP; apply (cond3_sound (math_names m) U F p (FI p FP) FK st (fun b => FS p b FP)). Qed.
Definition wheres_hold (q : peq) : bool := forallb (fun w => match cond3 F st w with Some true => true | _ => false end) (q_where q).
Lemma applies_here q p : fits l p -> wheres_hold q = true -> applies (world_where (math_names m) U) p q = true.
Proof.
  intros FP H; unfold applies; apply forallb_forall; intros w IW; unfold wheres_hold in H; rewrite forallb_forall in H; specialize (H w IW).
  destruct (cond3 F st w) as [[|]|] eqn:C; try discriminate; apply (cond_here w p true FP C).
Qed.
Lemma subdims_of fe : (forall s, In s fe -> In s (map fst l)) -> forall s, In s fe -> In s (u_dims U).
Proof. intros H s IS; apply H in IS; apply in_map_iff in IS as ((d & v) & <- & IN); exact (proj1 (proj2 (proj1 (proj2 (proj2 SI))) d v IN)). Qed.
Lemma entry_here group c r fe w qs q : build_all order m U group c = Built r -> told order m group c fe w qs -> NoDup fe ->
  (forall s, In s fe -> In s (map fst l)) -> cond3 F st w = Some true -> In q qs -> wheres_hold q = true ->
  exists f wd v, fits (cut fe l) (at_index fe f) /\ In f (CliModel.product (map (n_labels (u_env U)) fe)) /\ wd f = true /\
    m_at (mask_of fe wd) (at_index fe f) = true /\ evaluate_all U fe q wd = Built v /\ r f = v f.
Proof.
  intros B (FE & PW & PE) ND SUB CW IQ WQ; destruct (site_at l SI) as (p & (i & IN & ->) & FP & MX); pose proof (subdims_of fe SUB) as SD; subst fe.
  destruct (build_entries order m U group c r w qs B SD PW PE) as (K & _).
  destruct (K i q) as (wd & v & WD & EV & ER & NF); [split; [exact IN|split; [exact MX|apply (cond_here w _ true FP CW)]]|exact IQ|apply applies_here; assumption|].
  exists (map (at_index (u_dims U) i) (c_foreach c)), wd, v; split; [apply (cut_fits (c_foreach c) l (at_index (u_dims U) i)); [exact FP|apply at_map, ND]|].
  split; [apply (at_index_in (world_data (math_names m) U)); assumption|split; [exact WD|split; [|auto]]]; apply mask_here; [exact ND|apply map_length|exact WD].
Qed.
Lemma place_says c fe w qs q a o b : holds_in order m U c -> told order m "constraints" c fe w qs -> NoDup fe -> (forall s, In s fe -> In s (map fst l)) ->
  cond3 F st w = Some true -> In q qs -> wheres_hold q = true -> q_expr q = PEq a o b -> plain_side fe q a = true -> plain_side fe q b = true ->
  exists x, fits (cut fe l) x /\ related o (side U q a x) (side U q b x).
Proof.
  intros (r & B & SAT) TO ND SUB CW IQ WQ EQ PA PB.
  destruct (entry_here "constraints" c r fe w qs q B TO ND SUB CW IQ WQ) as (f & wd & v & FX & IF & WD & MA & EV & ER).
  exists (at_index fe f); split; [exact FX|]; destruct (evaluate_sides U fe q wd v f a o b EQ EV WD) as (_ & _ & VF).
  pose proof (proj1 TO) as FE; rewrite FE in SAT; specialize (SAT f IF); rewrite ER, VF in SAT.
  rewrite <- (side_sound U q a fe wd _ PA MA), <- (side_sound U q b fe wd _ PB MA); exact SAT.
Qed.
(** Any group whose equations are values. *)
Lemma built_value group c r fe w qs q e : build_all order m U group c = Built r -> told order m group c fe w qs -> NoDup fe ->
  (forall s, In s fe -> In s (map fst l)) -> cond3 F st w = Some true -> In q qs -> wheres_hold q = true -> q_expr q = PArith e -> plain_side fe q e = true ->
  exists x f, fits (cut fe l) x /\ x = at_index fe f /\ In f (CliModel.product (map (n_labels (u_env U)) fe)) /\ r f = VCell (side U q e x).
Proof.
  intros B TO ND SUB CW IQ WQ EQ PA; destruct (entry_here group c r fe w qs q B TO ND SUB CW IQ WQ) as (f & wd & v & FX & IF & WD & MA & EV & ER).
  destruct (evaluate_value U fe q wd v f e EQ EV) as (_ & VF).
  exists (at_index fe f), f; split; [exact FX|split; [reflexivity|split; [exact IF|]]]; rewrite ER, VF; f_equal; exact (side_sound U q e fe wd _ PA MA).
Qed.
Lemma place_value c fe w qs q e : defined_in order m U c -> told order m "global_expressions" c fe w qs -> NoDup fe -> (forall s, In s fe -> In s (map fst l)) ->
  cond3 F st w = Some true -> In q qs -> wheres_hold q = true -> q_expr q = PArith e -> plain_side fe q e = true ->
  exists x, fits (cut fe l) x /\ a_at (n_array (u_env U) (c_name c)) x = side U q e x.
Proof.
  intros (r & B & AD & SAT) TO ND SUB CW IQ WQ EQ PA.
  destruct (built_value "global_expressions" c r fe w qs q e B TO ND SUB CW IQ WQ EQ PA) as (x & f & FX & EX & IF & RF).
  exists x; split; [exact FX|]; pose proof (proj1 TO) as FE; rewrite FE in SAT; specialize (SAT f IF); rewrite RF, <- EX in SAT; injection SAT as E; auto.
Qed.
End At.
(** Entries. *)
Lemma entry_chain D e o a x : entry_of D (EChain e [(o, a)]) x = op_cell D o (entry_of D e x) (entry_of D a x). Proof. reflexivity. Qed.
Lemma entry_chain2 D e o a o' a' x : entry_of D (EChain e [(o, a); (o', a')]) x = op_cell D o' (op_cell D o (entry_of D e x) (entry_of D a x)) (entry_of D a' x). Proof. reflexivity. Qed.
Lemma entry_chain3 D e o a o' a' o2 a2 x : entry_of D (EChain e [(o, a); (o', a'); (o2, a2)]) x = op_cell D o2 (op_cell D o' (op_cell D o (entry_of D e x) (entry_of D a x)) (entry_of D a' x)) (entry_of D a2 x). Proof. reflexivity. Qed.
Lemma numeric_entry s l x : sound (u_env U) -> NoDup (map fst l) -> fits l x -> numeric U s l -> entry_of (u_env U) (EName s) x = Val (amount U s l).
Proof. intros SD ND FX (WD & NU); exact (name_number U s x l SD FX ND WD NU). Qed.
Lemma numeric_sum s d o l x : sound (u_env U) -> NoDup (map fst l) -> fits l x -> ~ In d (map fst l) -> labels U d <> [] -> names_of o = Some [d] -> numeric_over U s d l ->
  entry_of (u_env U) (EFun "sum" [EName s] [("over", o)]) x = Val (sum_over (labels U d) (fun v => amount U s ((d, v) :: l))).
Proof.
  intros SD ND FX NI NE NO (ID & NU); apply (sum_one (u_env U) (EName s) o d x _ NO ID NE); intros v IV.
  apply (numeric_entry s ((d, v) :: l)); [exact SD|constructor; assumption|apply fits_put; assumption|apply NU, IV].
Qed.
End Place.
