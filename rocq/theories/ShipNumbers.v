(** Values of the sums, products and quotients of the shipped math at a position. *)
From Coq Require Import QArith Qcanon Lia Permutation.
From Verif Require Import Base BaseProofs LangModel MathText EvalModel EvalSpec BuildModel BuildSpec BuildProofs BuildEqs
  HelperModel HelperSpec HelperProofs HelperLocal HelperLaws ShipModel ShipSpec ShipProofs ShipEntry ShipStorage.
From Verif Require CliModel CliProofs.
Local Open Scope nat_scope.
Local Open Scope string_scope.
Local Open Scope list_scope.
Local Arguments String.eqb : simpl never.

(** * References replaced by what they stand for *)
Fixpoint plug (sb : list (string * expr)) (e : expr) : expr :=
  match e with
  | ERef s => match d_get s sb with Some x => x | None => ERef s end
  | EFun f args kws => EFun f (map (plug sb) args) kws
  | EChain e ops => EChain (plug sb e) (map (fun x => (fst x, plug sb (snd x))) ops)
  | _ => e
  end.
(** Expressions of names, numbers, operators, sums of names, and sums over dimensions that are not in [sets]. *)
Fixpoint plainly (sets : list string) (refs : list string) (e : expr) : bool :=
  match e with
  | ENum _ _ | EName _ => true
  | ERef s => smem s refs
  | EChain e ops => plainly sets refs e && forallb (fun x => plainly sets refs (snd x)) ops
  | EFun f [e] [(k, o)] =>
      String.eqb f "sum" && String.eqb k "over" && plainly sets refs e &&
      match names_of o with Some ds => match e with EName _ => true | _ => forallb (fun d => negb (smem d sets)) ds end | None => false end
  | _ => false
  end.
Section Plain.
Variable D : denv.
Variable sets : list string.

Lemma deval_plug sb w e : plainly sets (d_keys sb) e = true -> deval (subs_in D sb) w e = deval D w (plug sb e).
Proof.
  revert w; induction e as [e IH] using expr_parts; intros w H; destruct e as [neg s|s|s|s|b|s|s|l|s sl|f args kws|neg e|e ops]; cbn [plainly] in H; try discriminate; try reflexivity.
  - cbn [plug deval subs_in n_ref]; destruct (d_get s sb) as [x|] eqn:G; [reflexivity|]; exfalso; apply smem_in in H; apply d_mem_keys in H; unfold d_mem in H; rewrite G in H; discriminate.
  - destruct args as [|e [|? ?]]; try discriminate; destruct kws as [|(k & o) [|? ?]]; try discriminate.
    rewrite !andb_true_iff, !String.eqb_eq in H; destruct H as (((-> & ->) & H1) & H2); destruct (names_of o) as [ds|] eqn:NO; [|discriminate].
    cbn [plug map]; rewrite !(sum_named _ _ _ _ ds NO), (IH e) by (try exact H1; left; left; reflexivity); reflexivity.
  - apply andb_true_iff in H as (H1 & H2); cbn [plug deval]; rewrite (IH e) by (try exact H1; left; reflexivity).
    assert (HO : forall x, In x ops -> deval (subs_in D sb) w (snd x) = deval D w (plug sb (snd x))).
    { intros x IX; apply IH; [right; apply in_map, IX|]; rewrite forallb_forall in H2; exact (H2 x IX). }
    clear IH H1 H2; generalize (option_map (under w) (deval D w (plug sb e))); clear e; induction ops as [|x ops IO]; intros v; [reflexivity|]; cbn [map fold_left fst snd].
    rewrite (HO x) by (left; reflexivity); apply IO; intros y IY; apply HO; right; exact IY.
Qed.

(** Dimensions and entries. *)
Fixpoint dims_in (e : expr) : list string :=
  match e with
  | EName s => a_dims (n_array D s)
  | EChain e ops => dims_in e ++ flat_map (fun x => dims_in (snd x)) ops
  | EFun _ [e] [(_, o)] => without (match names_of o with Some ds => ds | None => [] end) (dims_in e)
  | _ => []
  end.
Fixpoint entry_of (e : expr) (p : pos) : cell :=
  match e with
  | ENum neg s => number_cell neg s
  | EName s => fill (n_default D s) (a_at (n_array D s) p)
  | EChain e ops => fold_left (fun v x => op_cell D (fst x) v (entry_of (snd x) p)) ops (entry_of e p)
  | EFun _ [e] [(_, o)] => total D (map (entry_of e) (spread D (shared (match names_of o with Some ds => ds | None => [] end) (dims_in e)) p))
  | _ => Miss
  end.

Lemma shared_same ds a b : (forall d, In d ds -> (In d a <-> In d b)) -> shared ds a = shared ds b.
Proof.
  intros H; unfold shared; assert (H' : forall d, In d (nodup string_dec ds) -> smem d a = smem d b).
  { intros d ID; apply nodup_In in ID; apply eq_true_iff_eq; rewrite !smem_in; apply H, ID. }
  induction (nodup string_dec ds) as [|d l IH]; [reflexivity|]; cbn [filter]; rewrite (H' d) by (left; reflexivity); rewrite IH by (intros x IX; apply H'; right; exact IX); reflexivity.
Qed.

Variable wd : index -> bool.
Let w := mask_of sets wd.
Lemma mask_same p q : same_on sets p q -> m_at w p = m_at w q.
Proof. intros H; unfold w; cbn [mask_of m_at]; f_equal; apply map_ext_in; exact H. Qed.
Lemma entry_sound e : plainly sets [] e = true -> exists a, deval D w e = Some a /\
  (forall d, In d (a_dims a) -> In d (dims_in e) \/ In d sets) /\ (forall d, In d (dims_in e) -> In d (a_dims a)) /\
  forall p, m_at w p = true -> a_at a p = entry_of e p.
Proof.
  induction e as [e IH] using expr_parts; intros H; destruct e as [neg s|s|s|s|b|s|s|l|s sl|f args kws|neg e|e ops]; cbn [plainly] in H; try discriminate.
  - exists (scalar (number_cell neg s)); repeat split; [intros d []|intros d []].
  - exists (named D s); repeat split; [intros d ID; left; exact ID|intros d ID; exact ID].
  - destruct args as [|e [|? ?]]; try discriminate; destruct kws as [|(k & o) [|? ?]]; try discriminate.
    rewrite !andb_true_iff, !String.eqb_eq in H; destruct H as (((-> & ->) & H1) & H2); destruct (names_of o) as [ds|] eqn:NO; [|discriminate].
    assert (NM : (exists s, e = EName s) \/ forallb (fun d => negb (smem d sets)) ds = true) by (destruct e; first [right; exact H2|left; eexists; reflexivity]); clear H2; destruct NM as [(s & ->)|H2].
    { exists (h_sum D ds (named D s)); rewrite (sum_named _ _ _ _ ds NO); split; [reflexivity|]; cbn [h_sum a_dims a_at dims_in entry_of named]; rewrite NO.
      assert (IN : forall d, In d (shared ds (a_dims (n_array D s))) <-> In d ds /\ In d (a_dims (n_array D s))) by (intros d; unfold shared; rewrite filter_In, nodup_In, smem_in; reflexivity).
      split; [|split; [|reflexivity]]; intros d ID; apply without_in in ID as (I1 & I2); [left|]; apply without_in; (split; [exact I1|]); [intros I3; apply I2, IN; split; assumption|rewrite IN; tauto]. }
    assert (OUT : forall d, In d ds -> ~ In d sets) by (intros d ID IS; rewrite forallb_forall in H2; specialize (H2 d ID); apply smem_in in IS; rewrite IS in H2; discriminate).
    destruct (IH e) as (a & EA & A1 & A2 & A3); [left; left; reflexivity|exact H1|].
    assert (SH : shared ds (a_dims a) = shared ds (dims_in e)).
    { apply shared_same; intros d ID; split; [intros IA; destruct (A1 d IA) as [?|IS]; [assumption|exfalso; exact (OUT d ID IS)]|apply A2]. }
    exists (h_sum D ds a); rewrite (sum_named _ _ _ _ ds NO), EA; split; [reflexivity|]; cbn [h_sum a_dims a_at dims_in entry_of]; rewrite NO.
    assert (IN : forall d, In d (shared ds (a_dims a)) <-> In d ds /\ In d (a_dims a)) by (intros d; unfold shared; rewrite filter_In, nodup_In, smem_in; reflexivity).
    split; [|split].
    + intros d ID; apply without_in in ID as (I1 & I2); destruct (A1 d I1) as [I3|I3]; [left|right; exact I3]; apply without_in; split; [exact I3|]; intros I4; apply I2, IN; split; assumption.
    + intros d ID; apply without_in in ID as (I1 & I2); apply without_in; split; [apply A2, I1|]; rewrite IN; tauto.
    + intros p MP; rewrite SH; f_equal; apply map_ext_in; intros q IQ; apply A3; rewrite <- MP; apply mask_same.
      apply spread_in in IQ as (ls & -> & _); intros d IS; apply puts_other; rewrite <- SH, IN; intros (I1 & _); exact (OUT d I1 IS).
  - apply andb_true_iff in H as (H1 & H2); destruct (IH e) as (a & EA & A1 & A2 & A3); [left; reflexivity|exact H1|].
    rewrite forallb_forall in H2; assert (HO : forall x, In x ops -> exists a, deval D w (snd x) = Some a /\
      (forall d, In d (a_dims a) -> In d (dims_in (snd x)) \/ In d sets) /\ (forall d, In d (dims_in (snd x)) -> In d (a_dims a)) /\
      forall p, m_at w p = true -> a_at a p = entry_of (snd x) p) by (intros x IX; apply IH; [right; apply in_map, IX|apply H2, IX]).
    clear IH H1 H2; cbn [deval dims_in entry_of]; rewrite EA; cbn [option_map].
    assert (G : forall ops b ds v, (forall x, In x ops -> exists a, deval D w (snd x) = Some a /\
      (forall d, In d (a_dims a) -> In d (dims_in (snd x)) \/ In d sets) /\ (forall d, In d (dims_in (snd x)) -> In d (a_dims a)) /\
      forall p, m_at w p = true -> a_at a p = entry_of (snd x) p) ->
      (forall d, In d (a_dims b) -> In d ds \/ In d sets) -> (forall d, In d ds -> In d (a_dims b)) -> (forall p, m_at w p = true -> a_at b p = v p) ->
      exists a', fold_left (fun v x => match v, deval D w (snd x) with Some v, Some b => Some (combine D (fst x) v (under w b)) | _, _ => None end) ops (Some b) = Some a' /\
        (forall d, In d (a_dims a') -> In d (ds ++ flat_map (fun x => dims_in (snd x)) ops) \/ In d sets) /\
        (forall d, In d (ds ++ flat_map (fun x => dims_in (snd x)) ops) -> In d (a_dims a')) /\
        forall p, m_at w p = true -> a_at a' p = fold_left (fun v x => op_cell D (fst x) v (entry_of (snd x) p)) ops (v p)).
    { clear; induction ops as [|x ops IO]; intros b ds v HO B1 B2 B3; cbn [fold_left flat_map].
      - exists b; split; [reflexivity|]; rewrite app_nil_r; auto.
      - destruct (HO x) as (a & EA & A1 & A2 & A3); [left; reflexivity|]; rewrite EA.
        destruct (IO (combine D (fst x) b (under w a)) (ds ++ dims_in (snd x)) (fun p => op_cell D (fst x) (v p) (entry_of (snd x) p))) as (a' & EF & C1 & C2 & C3).
        + intros y IY; apply HO; right; exact IY.
        + intros d ID; cbn [combine a_dims under] in ID; apply merge_in in ID as [ID|ID]; [apply B1 in ID as [ID|ID]; [left; apply in_or_app; left; exact ID|right; exact ID]|].
          apply merge_in in ID as [ID|ID]; [|right; exact ID]; apply A1 in ID as [ID|ID]; [left; apply in_or_app; right; exact ID|right; exact ID].
        + intros d ID; cbn [combine a_dims under]; apply merge_in; apply in_app_or in ID as [ID|ID]; [left; apply B2, ID|right; apply merge_in; left; apply A2, ID].
        + intros p MP; unfold combine, under, mask; cbn [a_at]; rewrite MP, (B3 p MP), (A3 p MP); reflexivity.
        + exists a'; split; [exact EF|]; split; [intros d ID; rewrite app_assoc; apply C1, ID|]; split; [intros d ID; apply C2; rewrite <- app_assoc; exact ID|exact C3]. }
    apply (G ops (under w a) (dims_in e) (entry_of e) HO).
    + intros d ID; apply merge_in in ID as [ID|ID]; [apply A1, ID|right; exact ID].
    + intros d ID; apply merge_in; left; apply A2, ID.
    + intros p MP; unfold under, mask; cbn [a_at]; rewrite MP; apply A3, MP.
Qed.
Lemma cell_entry sb e p : plainly sets (d_keys sb) e = true -> plainly sets [] (plug sb e) = true -> m_at w p = true ->
  cell_of (subs_in D sb) w e p = entry_of (plug sb e) p.
Proof.
  intros H1 H2 MP; unfold cell_of; rewrite deval_plug by exact H1; destruct (entry_sound (plug sb e) H2) as (a & -> & _ & _ & A3); apply A3, MP.
Qed.
End Plain.

(** Slices do not matter. *)
Lemma entry_slices D sl e : forall p, entry_of (slices_in D sl) e p = entry_of D e p.
Proof. intros p; reflexivity. Qed.

(** * Components at a position *)
Definition read_of (m : math_file) (group : string) (c : component) : option (list string * wexpr * list peq) :=
  let N := math_names m in
  let valid := math_valid m in
  let pe := if String.eqb group "constraints" then equation_parser valid else arith_parser valid true in
  match parse_where_text N (MathText.c_where c), expression_list N pe (String.append group (String ":" (c_name c))) (c_equations c),
        expression_dict N (arith_parser valid false) (c_subs c), expression_dict N (slice_parser valid) (c_slices c) with
  | Some w, Some eqs, Some subs, Some slices =>
      if few_refs false eqs then
        match extend_all (nodup string_dec) false subs eqs with
        | Done mid => if few_refs true mid then match extend_all (nodup string_dec) true slices mid with Done qs => Some (c_foreach c, w, qs) | Fail _ => None end else None
        | Fail _ => None
        end
      else None
  | _, _, _, _ => None
  end.
Lemma read_of_reads m group c fe w qs : read_of m group c = Some (fe, w, qs) -> c_foreach c = fe /\ reads m group c w qs.
Proof.
  unfold read_of, reads, plain_refs, parse_equations; destruct (parse_where_text _ _) as [w'|]; [|discriminate].
  destruct (expression_list _ _ _ _) as [eqs|]; [|discriminate]; destruct (expression_dict _ (arith_parser _ false) _) as [subs|]; [|discriminate].
  destruct (expression_dict _ (slice_parser _) _) as [slices|]; [|discriminate]; destruct (few_refs false eqs); [|discriminate].
  destruct (extend_all _ false subs eqs) as [mid|]; [|discriminate]; destruct (few_refs true mid) eqn:F2; [|discriminate].
  cbn [next]; destruct (extend_all _ true slices mid) as [qs'|]; [|discriminate]; intros H; injection H as <- <- <-; repeat split; exact F2.
Qed.
Definition plain_side (fe : list string) (q : peq) (e : expr) : bool :=
  let sb := arith_of (q_subs q) in plainly fe (d_keys sb) e && plainly fe [] (plug sb e).
Definition side (U : world) (q : peq) (e : expr) (x : pos) : cell := entry_of (u_env U) (plug (arith_of (q_subs q)) e) x.
Lemma side_sound U q e fe wd x : plain_side fe q e = true -> m_at (mask_of fe wd) x = true -> cell_of (eq_denv (u_env U) q) (mask_of fe wd) e x = side U q e x.
Proof.
  intros H MX; apply andb_true_iff in H as (H1 & H2); unfold eq_denv, side; rewrite (cell_entry _ fe wd _ e x H1 H2 MX); apply entry_slices.
Qed.
Lemma constraint_says order m U c fe w qs p q l o r :
  holds_in order m U c -> lists_set order -> read_of m "constraints" c = Some (fe, w, qs) -> NoDup fe -> (forall s, In s fe -> In s (u_dims U)) ->
  whole U p -> is_true (a_at (n_matrix (u_env U)) p) = true -> weval (world_where (math_names m) U) w p = true ->
  In q qs -> applies (world_where (math_names m) U) p q = true -> q_expr q = PEq l o r -> plain_side fe q l = true -> plain_side fe q r = true ->
  exists x, same_on fe x p /\ related o (side U q l x) (side U q r x).
Proof.
  intros HO OR RD ND SUB WP MX HW IQ AQ EQ PL PR; apply read_of_reads in RD as (FE & RD); subst fe.
  destruct (holds_entry order m U c w qs p q l o r HO OR RD ND SUB WP MX HW IQ AQ EQ) as (wd & MA & _ & _ & R).
  exists (at_index (c_foreach c) (map p (c_foreach c))); split; [apply at_map, ND|].
  rewrite (side_sound U q l _ wd _ PL MA), (side_sound U q r _ wd _ PR MA) in R; exact R.
Qed.
Lemma expression_says order m U c fe w qs p q e :
  defined_in order m U c -> lists_set order -> read_of m "global_expressions" c = Some (fe, w, qs) -> NoDup fe -> (forall s, In s fe -> In s (u_dims U)) ->
  whole U p -> is_true (a_at (n_matrix (u_env U)) p) = true -> weval (world_where (math_names m) U) w p = true ->
  In q qs -> applies (world_where (math_names m) U) p q = true -> q_expr q = PArith e -> plain_side fe q e = true ->
  exists x, same_on fe x p /\ a_at (n_array (u_env U) (c_name c)) x = side U q e x.
Proof.
  intros HO OR RD ND SUB WP MX HW IQ AQ EQ PL; apply read_of_reads in RD as (FE & RD); subst fe.
  destruct (defined_entry order m U c w qs p q e HO OR RD ND SUB WP MX HW IQ AQ EQ) as (wd & MA & _ & _ & R).
  exists (at_index (c_foreach c) (map p (c_foreach c))); split; [apply at_map, ND|].
  rewrite (side_sound U q e _ wd _ PL MA) in R; exact R.
Qed.
(** Where the condition never holds an expression has no entry. *)
Lemma expression_absent order m U c fe w qs f :
  defined_in order m U c -> lists_set order -> read_of m "global_expressions" c = Some (fe, w, qs) -> (forall s, In s fe -> In s (u_dims U)) ->
  In f (CliModel.product (map (n_labels (u_env U)) fe)) ->
  (forall p, whole U p -> map p fe = f -> weval (world_where (math_names m) U) w p = false) ->
  a_at (n_array (u_env U) (c_name c)) (at_index fe f) = Miss.
Proof.
  intros (r & B & AD & SAT) OR RD SUB IF NO; apply read_of_reads in RD as (FE & (PW & PR & PE)); subst fe.
  rewrite <- (parse_plain order m "global_expressions" c OR PR) in PE.
  destruct (build_entries order m U "global_expressions" c r w qs B SUB PW PE) as (_ & K); specialize (SAT f IF).
  destruct (a_at _ _) as [|u|u|u|u] eqn:EA; [reflexivity|exfalso..].
  all: destruct (K f IF) as (i & q & wd & v & (IN & MX & HW) & _ & EF & _); [rewrite SAT; reflexivity|]; rewrite (NO (at_index (u_dims U) i)) in HW; [discriminate|exists i; split; [exact IN|reflexivity]|exact EF].
Qed.

(** * Numbers *)
Definition fits (l : list (string * string)) (x : pos) : Prop := forall d v, In (d, v) l -> x d = v.
Lemma name_value U s x l : sound (u_env U) -> fits l x -> NoDup (map fst l) -> within_dims U s (map fst l) -> entry_of (u_env U) (EName s) x = value_at U s l.
Proof. intros SD FX ND WD; exact (value_spot U s x l SD FX ND WD). Qed.
Lemma name_number U s x l : sound (u_env U) -> fits l x -> NoDup (map fst l) -> within_dims U s (map fst l) -> number U s l -> entry_of (u_env U) (EName s) x = Val (amount U s l).
Proof. intros SD FX ND WD NU; rewrite (name_value U s x l SD FX ND WD); apply number_amount, NU. Qed.
Lemma total_numbers D ls (f : string -> cell) g : ls <> [] -> (forall x, In x ls -> f x = Val (g x)) -> total D (map f ls) = Val (sum_over ls g).
Proof.
  intros NE H; assert (E : map f ls = map (fun x => Val (g x)) ls) by (apply map_ext_in; exact H); rewrite E.
  rewrite total_summed by (apply Forall_forall; intros c IC; apply in_map_iff in IC as (x & <- & _); exact I).
  assert (SO : forall l, value_sum (map (fun x => Val (g x)) l) = sum_over l g) by (clear; unfold value_sum, sum_over; induction l as [|y r IH]; [reflexivity|]; cbn [map fold_right worth]; rewrite IH; reflexivity).
  unfold summed; rewrite SO; destruct ls as [|x l]; [congruence|]; reflexivity.
Qed.
Lemma fits_put l x d v : fits l x -> ~ In d (map fst l) -> fits ((d, v) :: l) (put x d v).
Proof.
  intros FX NI d' v' [E|IN].
  - injection E as <- <-; unfold put; rewrite String.eqb_refl; reflexivity.
  - unfold put; destruct (String.eqb d' d) eqn:E; [|apply FX, IN]; apply String.eqb_eq in E; subst; exfalso; apply NI; exact (in_map fst _ _ IN).
Qed.
(** Sums over one and two dimensions. *)
Lemma sum_one D e o d x g : names_of o = Some [d] -> In d (dims_in D e) -> n_labels D d <> [] ->
  (forall v, In v (n_labels D d) -> entry_of D e (put x d v) = Val (g v)) ->
  entry_of D (EFun "sum" [e] [("over", o)]) x = Val (sum_over (n_labels D d) g).
Proof.
  intros NO ID NE H; cbn [entry_of]; rewrite NO, (shared_one d _ ID), spread_one, map_map; apply total_numbers; assumption.
Qed.
Lemma sum_over_ext ls f g : (forall x, In x ls -> f x = g x) -> sum_over ls f = sum_over ls g.
Proof. unfold sum_over; induction ls as [|x ls IH]; intros H; [reflexivity|]; cbn [fold_right]; rewrite H by (left; reflexivity); rewrite IH by (intros y IY; apply H; right; exact IY); reflexivity. Qed.
Lemma sum_over_app a b f : sum_over (a ++ b) f = (sum_over a f + sum_over b f)%Qc.
Proof. unfold sum_over; induction a as [|x a IH]; cbn [app fold_right]; [ring|rewrite IH; ring]. Qed.
Lemma sum_over_plus ls f g : sum_over ls (fun x => f x + g x)%Qc = (sum_over ls f + sum_over ls g)%Qc.
Proof. unfold sum_over; induction ls as [|x ls IH]; cbn [fold_right]; [ring|rewrite IH; ring]. Qed.
Lemma sum_over_minus ls f g : sum_over ls (fun x => f x - g x)%Qc = (sum_over ls f - sum_over ls g)%Qc.
Proof. unfold sum_over; induction ls as [|x ls IH]; cbn [fold_right]; [ring|rewrite IH; ring]. Qed.
Lemma sum_over_scale ls a f : sum_over ls (fun x => a * f x)%Qc = (a * sum_over ls f)%Qc.
Proof. unfold sum_over; induction ls as [|x ls IH]; cbn [fold_right]; [ring|rewrite IH; ring]. Qed.
Lemma sum_over_zero ls : sum_over ls (fun _ => 0%Qc) = 0%Qc.
Proof. unfold sum_over; induction ls as [|x ls IH]; cbn [fold_right]; [reflexivity|rewrite IH; ring]. Qed.
Lemma sum_over_swap a b (f : string -> string -> Qc) : sum_over a (fun x => sum_over b (f x)) = sum_over b (fun y => sum_over a (fun x => f x y)).
Proof.
  induction a as [|x a IH]; [symmetry; apply sum_over_zero|]; change (sum_over (x :: a) (fun x => sum_over b (f x))) with (sum_over b (f x) + sum_over a (fun x => sum_over b (f x)))%Qc.
  rewrite IH, <- sum_over_plus; reflexivity.
Qed.
Lemma sum_over_le ls f g : (forall x, In x ls -> (f x <= g x)%Qc) -> (sum_over ls f <= sum_over ls g)%Qc.
Proof.
  unfold sum_over; induction ls as [|x ls IH]; intros H; cbn [fold_right]; [apply Qcle_refl|]; apply Qcplus_le_compat; [apply H; left; reflexivity|apply IH; intros y IY; apply H; right; exact IY].
Qed.
Lemma sum_over_filter ls (f : string -> Qc) (b : string -> bool) : sum_over ls f = (sum_over (filter b ls) f + sum_over (filter (fun x => negb (b x)) ls) f)%Qc.
Proof. unfold sum_over; induction ls as [|x ls IH]; cbn [fold_right filter]; [ring|]; destruct (b x); cbn [negb fold_right]; rewrite IH; ring. Qed.
Lemma total_sum {A} D (l : list A) (f : A -> cell) g : l <> [] -> (forall x, In x l -> f x = Val (g x)) -> total D (map f l) = Val (fold_right (fun x s => g x + s)%Qc 0%Qc l).
Proof.
  intros NE H; assert (E : map f l = map (fun x => Val (g x)) l) by (apply map_ext_in; exact H); rewrite E.
  rewrite total_summed by (apply Forall_forall; intros c IC; apply in_map_iff in IC as (x & <- & _); exact I).
  assert (SO : forall l, value_sum (map (fun x => Val (g x)) l) = fold_right (fun x s => g x + s)%Qc 0%Qc l) by (clear; unfold value_sum; induction l as [|y r IH]; [reflexivity|]; cbn [map fold_right worth]; rewrite IH; reflexivity).
  unfold summed; rewrite SO; destruct l as [|x l]; [congruence|]; reflexivity.
Qed.
Lemma sum_two D e o d d' x g : names_of o = Some [d; d'] -> d <> d' -> In d (dims_in D e) -> In d' (dims_in D e) -> n_labels D d <> [] -> n_labels D d' <> [] ->
  (forall v v', In v (n_labels D d) -> In v' (n_labels D d') -> entry_of D e (put (put x d v) d' v') = Val (g v v')) ->
  entry_of D (EFun "sum" [e] [("over", o)]) x = Val (sum_over (n_labels D d) (fun v => sum_over (n_labels D d') (g v))).
Proof.
  intros NO ND ID ID' NE NE' H; cbn [entry_of]; rewrite NO.
  assert (SH : shared [d; d'] (dims_in D e) = [d; d']).
  { unfold shared; assert (E : nodup string_dec [d; d'] = [d; d']) by (apply nodup_fixed_point; repeat constructor; cbn; intuition).
    rewrite E; cbn [filter]; rewrite (proj2 (smem_in d _) ID), (proj2 (smem_in d' _) ID'); reflexivity. }
  rewrite SH; unfold spread; rewrite map_map.
  assert (P : CliModel.product (map (n_labels D) [d; d']) = flat_map (fun v => map (fun v' => [v; v']) (n_labels D d')) (n_labels D d)).
  { cbn [map CliModel.product]; apply flat_map_ext; intros v; clear; induction (n_labels D d') as [|y l IH]; [reflexivity|]; cbn [flat_map map app] in IH |- *; rewrite <- IH; reflexivity. }
  rewrite P; rewrite (total_sum D _ _ (fun ls => match ls with [v; v'] => g v v' | _ => 0%Qc end)).
  - f_equal; clear; induction (n_labels D d) as [|v l IH]; [reflexivity|]; cbn [flat_map]; rewrite fold_right_app, IH; clear IH.
    change (sum_over (v :: l) (fun v => sum_over (n_labels D d') (g v))) with (sum_over (n_labels D d') (g v) + sum_over l (fun v => sum_over (n_labels D d') (g v)))%Qc.
    generalize (sum_over l (fun v => sum_over (n_labels D d') (g v))); intros s; unfold sum_over; induction (n_labels D d') as [|y r IH]; cbn [map fold_right]; [ring|rewrite IH; ring].
  - intros E; destruct (n_labels D d) as [|v l]; [congruence|]; destruct (n_labels D d') as [|v' l']; [congruence|discriminate].
  - intros ls IL; apply in_flat_map in IL as (v & IV & IL); apply in_map_iff in IL as (v' & <- & IV'); apply H; assumption.
Qed.
