(** From built components to their entries: the equations of a component in whatever order sets are
    listed, and what its constraints say at a position. *)
From Coq Require Import QArith Qcanon Lia Permutation.
From Verif Require Import Base BaseProofs LangModel MathText EvalModel EvalSpec BuildModel BuildSpec BuildProofs BuildEqs
  HelperModel HelperSpec HelperProofs HelperLocal HelperLaws ShipModel ShipSpec ShipProofs.
From Verif Require CliModel CliProofs.
Local Open Scope nat_scope.
Local Open Scope string_scope.
Local Open Scope list_scope.
Local Arguments String.eqb : simpl never.

(** * Listing at most one reference *)
Definition few (l : list string) : bool := match nodup string_dec l with [] | [_] => true | _ => false end.
Lemma order_few order l : lists_set order -> few l = true -> order l = nodup string_dec l.
Proof.
  intros OR F; destruct (OR l) as (ND & IN); unfold few in F.
  assert (IN' : forall s, In s (order l) <-> In s (nodup string_dec l)) by (intros s; rewrite IN, nodup_In; reflexivity).
  destruct (nodup string_dec l) as [|x [|y r]]; [| |discriminate].
  - destruct (order l) as [|z zs]; [reflexivity|]; exfalso; apply (IN' z); left; reflexivity.
  - destruct (order l) as [|z [|z' zs]].
    + exfalso; apply (IN' x); left; reflexivity.
    + assert (I : In z [x]) by (apply IN'; left; reflexivity); destruct I as [->|[]]; reflexivity.
    + assert (I : In z [x]) by (apply IN'; left; reflexivity); assert (J : In z' [x]) by (apply IN'; right; left; reflexivity).
      destruct I as [->|[]]; destruct J as [->|[]]; inversion ND as [|? ? NI _]; subst; exfalso; apply NI; left; reflexivity.
Qed.
Definition few_refs (slices : bool) (qs : list peq) : bool := forallb (fun q => few (if slices then find_slices q else find_subs q)) qs.
Lemma extend_few order (slices : bool) alts qs : lists_set order -> few_refs slices qs = true -> extend_all order slices alts qs = extend_all (nodup string_dec) slices alts qs.
Proof.
  intros OR; induction qs as [|q qs IH]; intros F; [reflexivity|]; cbn [few_refs forallb] in F; apply andb_true_iff in F as (F1 & F2).
  cbn [extend_all]; rewrite (IH F2); unfold extend; rewrite (order_few order _ OR F1); reflexivity.
Qed.
Definition plain_refs (m : math_file) (group : string) (c : component) : bool :=
  let N := math_names m in
  let valid := math_valid m in
  let pe := if String.eqb group "constraints" then equation_parser valid else arith_parser valid true in
  match expression_list N pe (String.append group (String ":" (c_name c))) (c_equations c), expression_dict N (arith_parser valid false) (c_subs c) with
  | Some eqs, Some subs => few_refs false eqs && match extend_all (nodup string_dec) false subs eqs with Done mid => few_refs true mid | Fail _ => false end
  | _, _ => false
  end.
Lemma parse_plain order m group c : lists_set order -> plain_refs m group c = true ->
  parse_equations order (math_names m) (math_valid m) group c = parse_equations (nodup string_dec) (math_names m) (math_valid m) group c.
Proof.
  intros OR H; unfold plain_refs in H; unfold parse_equations; destruct (expression_list _ _ _ _) as [eqs|]; [|discriminate].
  destruct (expression_dict _ (arith_parser _ false) _) as [subs|]; [|discriminate]; destruct (expression_dict _ (slice_parser _) _) as [slices|]; [|reflexivity].
  apply andb_true_iff in H as (H1 & H2); rewrite (extend_few order false subs eqs OR H1); destruct (extend_all (nodup string_dec) false subs eqs) as [mid|]; [|reflexivity].
  cbn [next]; apply extend_few; assumption.
Qed.

(** The texts of a component are read so. *)
Definition reads (m : math_file) (group : string) (c : component) (w : wexpr) (qs : list peq) : Prop :=
  parse_where_text (math_names m) (MathText.c_where c) = Some w /\ plain_refs m group c = true /\
  parse_equations (nodup string_dec) (math_names m) (math_valid m) group c = Done qs.

(** * Constraints at a position *)
Definition same_on (ds : list string) (p q : pos) : Prop := forall d, In d ds -> p d = q d.
Lemma at_map ds p : NoDup ds -> same_on ds (at_index ds (map p ds)) p.
Proof.
  intros ND d ID; pose proof (at_index_self ds ND (map p ds) (map_length _ _)) as E; revert E; generalize (at_index ds (map p ds)); intros g E; exact (proj1 map_ext_in_iff E d ID).
Qed.
Lemma holds_entry order m U c w qs p q l o r :
  holds_in order m U c -> lists_set order -> reads m "constraints" c w qs -> NoDup (c_foreach c) -> (forall s, In s (c_foreach c) -> In s (u_dims U)) ->
  whole U p -> is_true (a_at (n_matrix (u_env U)) p) = true -> weval (world_where (math_names m) U) w p = true ->
  In q qs -> applies (world_where (math_names m) U) p q = true -> q_expr q = PEq l o r ->
  let E := eq_denv (u_env U) q in let x := at_index (c_foreach c) (map p (c_foreach c)) in
  exists wd, m_at (mask_of (c_foreach c) wd) x = true /\
    deval E (mask_of (c_foreach c) wd) l <> None /\ deval E (mask_of (c_foreach c) wd) r <> None /\
    related o (cell_of E (mask_of (c_foreach c) wd) l x) (cell_of E (mask_of (c_foreach c) wd) r x).
Proof.
  intros (da & B & SAT) OR (PW & PR & PE) ND SUB (i & IN & ->) MX HW IQ AQ EQ E x; rewrite <- (parse_plain order m "constraints" c OR PR) in PE.
  destruct (build_entries order m U "constraints" c da w qs B SUB PW PE) as (K & _).
  destruct (K i q) as (wd & v & WD & EV & ER & _); [split; [exact IN|split; assumption]|exact IQ|exact AQ|].
  exists wd; split; [apply mask_here; [exact ND|apply map_length|exact WD]|].
  destruct (evaluate_sides U (c_foreach c) q wd v _ l o r EQ EV WD) as (N1 & N2 & VF); split; [exact N1|split; [exact N2|]].
  specialize (SAT (map (at_index (u_dims U) i) (c_foreach c))); rewrite ER, VF in SAT; apply SAT.
  apply (at_index_in (world_data (math_names m) U)); assumption.
Qed.
Lemma defined_entry order m U c w qs p q e :
  defined_in order m U c -> lists_set order -> reads m "global_expressions" c w qs -> NoDup (c_foreach c) -> (forall s, In s (c_foreach c) -> In s (u_dims U)) ->
  whole U p -> is_true (a_at (n_matrix (u_env U)) p) = true -> weval (world_where (math_names m) U) w p = true ->
  In q qs -> applies (world_where (math_names m) U) p q = true -> q_expr q = PArith e ->
  let E := eq_denv (u_env U) q in let x := at_index (c_foreach c) (map p (c_foreach c)) in
  exists wd, m_at (mask_of (c_foreach c) wd) x = true /\
    deval E (mask_of (c_foreach c) wd) e <> None /\ cell_of E (mask_of (c_foreach c) wd) e x <> Miss /\
    a_at (n_array (u_env U) (c_name c)) x = cell_of E (mask_of (c_foreach c) wd) e x.
Proof.
  intros (da & B & AD & SAT) OR (PW & PR & PE) ND SUB (i & IN & ->) MX HW IQ AQ EQ E x; rewrite <- (parse_plain order m "global_expressions" c OR PR) in PE.
  destruct (build_entries order m U "global_expressions" c da w qs B SUB PW PE) as (K & _).
  destruct (K i q) as (wd & v & WD & EV & ER & NF); [split; [exact IN|split; assumption]|exact IQ|exact AQ|].
  exists wd; split; [apply mask_here; [exact ND|apply map_length|exact WD]|].
  destruct (evaluate_value U (c_foreach c) q wd v (map (at_index (u_dims U) i) (c_foreach c)) e EQ EV) as (N1 & VF); split; [exact N1|].
  specialize (SAT (map (at_index (u_dims U) i) (c_foreach c))); rewrite ER, VF in SAT; rewrite VF in NF.
  split; [intros M; fold E x in NF; rewrite M in NF; discriminate|].
  assert (X : VCell (cell_of E (mask_of (c_foreach c) wd) e x) = VCell (a_at (n_array (u_env U) (c_name c)) x)) by (apply SAT, (at_index_in (world_data (math_names m) U)); assumption); injection X as X; congruence.
Qed.

(** * Operations on numbers *)
Section Cells.
Variable D : denv.
Lemma op_add a b : op_cell D OAdd (Val a) (Val b) = Val (a + b)%Qc. Proof. reflexivity. Qed.
Lemma op_sub a b : op_cell D OSub (Val a) (Val b) = Val (a - b)%Qc. Proof. reflexivity. Qed.
Lemma op_mul a b : op_cell D OMul (Val a) (Val b) = Val (a * b)%Qc. Proof. reflexivity. Qed.
Lemma op_div a b : b <> 0%Qc -> op_cell D ODiv (Val a) (Val b) = Val (a / b)%Qc.
Proof. intros H; cbn [op_cell operate]; unfold op_cell; cbn [operate]; destruct (Qc_eq_dec b 0); [contradiction|reflexivity]. Qed.

(** Sums over one dimension of the entries of an expression. *)
Lemma cell_sum_one w e o d p f : names_of o = Some [d] -> (exists a, deval D w e = Some a /\ In d (a_dims a)) ->
  (forall x, In x (n_labels D d) -> cell_of D w e (put p d x) = Val (f x)) -> n_labels D d <> [] ->
  cell_of D w (EFun "sum" [e] [("over", o)]) p = Val (sum_over (n_labels D d) f).
Proof.
  intros NO (a & EA & IA) H NE; rewrite (cell_sum D w e o [d] p a NO EA), (shared_one d _ IA), spread_one, map_map.
  assert (E : map (fun x => cell_of D w e (put p d x)) (n_labels D d) = map (fun x => Val (f x)) (n_labels D d)) by (apply map_ext_in; exact H).
  rewrite E, total_summed by (apply Forall_forall; intros c IC; apply in_map_iff in IC as (x & <- & _); exact I).
  assert (SO : forall l, value_sum (map (fun x => Val (f x)) l) = sum_over l f) by (clear; unfold value_sum, sum_over; induction l as [|y r IH]; [reflexivity|]; cbn [map fold_right worth]; rewrite IH; reflexivity).
  unfold summed; rewrite SO; destruct (n_labels D d) as [|x l]; [congruence|]; reflexivity.
Qed.
(** Rolling by one step. *)
Lemma cell_roll_one w s d p k : d <> "array" -> NoDup (n_labels D d) -> local (n_array D s) -> deval D w (EFun "roll" [EName s] [(d, ENum false "1")]) <> None ->
  k < List.length (n_labels D d) -> p d = nth k (n_labels D d) "" ->
  let j := match k with 0 => List.length (n_labels D d) - 1 | S j => j end in
  In d (a_dims (n_array D s)) /\
  cell_of D w (EFun "roll" [EName s] [(d, ENum false "1")]) p = fill (n_default D s) (a_at (n_array D s) (put p d (nth j (n_labels D d) ""))).
Proof.
  intros DA ND LA NN LT PD j.
  assert (I1 : integer false "1" 1%Z) by (unfold integer; vm_compute; f_equal; apply Qc_is_canon; reflexivity).
  pose proof (roll_call D w (EName s) d false "1" 1%Z DA I1) as RC; unfold c_roll in RC; change (deval D no_mask (EName s)) with (Some (named D s)) in RC; cbv iota in RC.
  unfold cell_of; rewrite RC in NN |- *.
  assert (IA : In d (a_dims (n_array D s))).
  { destruct (in_dec string_dec d (a_dims (n_array D s))) as [I|NI]; [exact I|]; exfalso; apply NN; apply h_roll_none; exact NI. }
  split; [exact IA|]; rewrite (h_roll_one D (named D s) d 1%Z IA); cbn [a_at].
  unfold rolled; rewrite PD, (place_nth _ ND k LT).
  assert (EJ : Z.to_nat ((Z.of_nat k - 1) mod Z.of_nat (List.length (n_labels D d))) = j).
  { subst j; destruct k as [|k]; [|].
    - rewrite <- (Z_mod_plus_full _ 1), Z.mod_small by lia; lia.
    - rewrite Z.mod_small by lia; lia. }
  rewrite EJ; reflexivity.
Qed.
End Cells.
