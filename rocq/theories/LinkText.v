(** Components of the math with linked clusters: what they are read as, conditions on the first date,
    and the values of expressions with [roll] over any dimension and with labels from lookup tables. *)
From Coq Require Import QArith Qcanon Lia.
From Verif Require Import Base BaseProofs LangModel MathText EvalModel EvalSpec BuildModel BuildSpec BuildProofs BuildEqs
  HelperModel HelperSpec HelperProofs HelperLocal HelperLaws ShipModel ShipSpec ShipProofs ShipEntry ShipStorage ShipNumbers NetSpec NetProofs PlaceSpec ShipPlace RuleText RuleProofs StepText LinkSpec.
From Verif Require CliModel HelperProps.
Local Open Scope nat_scope.
Local Open Scope string_scope.
Local Open Scope list_scope.
Local Arguments String.eqb : simpl never.

(** * Readings *)
Definition link_names : list string := ["balance_storage"; "storage_intra_max"; "storage_intra_min"; "storage_inter_max"; "storage_inter_min"].
Definition link_texts : list text := Eval vm_compute in map or_none (texts_in (layered [inter_file]) "constraints" link_names).
Lemma link_read : map (fun files => texts_in (layered files) "constraints" link_names) linked_lists = repeat (map Some link_texts) 9.
Proof. vm_compute; reflexivity. Qed.

(** An equation with two references: they are listed in one of two orders. *)
Definition backwards (l : list string) : list string := rev (nodup string_dec l).
Lemma order_two order l a b : lists_set order -> nodup string_dec l = [a; b] -> order l = [a; b] \/ order l = [b; a].
Proof.
  intros OR E; destruct (OR l) as (ND & IN).
  assert (IN' : forall s, In s (order l) <-> s = a \/ s = b) by (intros s; rewrite IN, <- (nodup_In string_dec), E; cbn; intuition).
  assert (NE : a <> b) by (pose proof (NoDup_nodup string_dec l) as N; rewrite E in N; inversion N as [|? ? NI _]; subst; intros ->; apply NI; left; reflexivity).
  destruct (order l) as [|x [|y [|z r]]].
  - exfalso; apply (IN' a); auto.
  - exfalso; assert (A : In a [x]) by (apply IN'; auto); assert (B : In b [x]) by (apply IN'; auto); destruct A as [->|[]]; destruct B as [->|[]]; congruence.
  - assert (X : x = a \/ x = b) by (apply IN'; left; reflexivity); assert (Y : y = a \/ y = b) by (apply IN'; right; left; reflexivity).
    inversion ND as [|? ? NI _]; subst; destruct X as [->| ->], Y as [->| ->]; auto; exfalso; apply NI; left; reflexivity.
  - exfalso; assert (X : x = a \/ x = b) by (apply IN'; left; reflexivity); assert (Y : y = a \/ y = b) by (apply IN'; right; left; reflexivity); assert (Z : z = a \/ z = b) by (apply IN'; right; right; left; reflexivity).
    inversion ND as [|? ? N1 N2]; subst; inversion N2 as [|? ? N3 _]; subst; cbn in N1, N3; destruct X as [->| ->], Y as [->| ->], Z as [->| ->]; tauto.
Qed.
Definition pair_of (m : math_file) (group : string) (c : component) (order : list string -> list string) : option (list string * wexpr * list peq) :=
  let N := math_names m in
  let valid := math_valid m in
  let pe := if String.eqb group "constraints" then equation_parser valid else arith_parser valid true in
  match parse_where_text N (MathText.c_where c), expression_list N pe (String.append group (String ":" (c_name c))) (c_equations c),
        expression_dict N (arith_parser valid false) (c_subs c), expression_dict N (slice_parser valid) (c_slices c) with
  | Some w, Some [q], Some subs, Some slices =>
      match nodup string_dec (find_subs q) with
      | [_; _] => match extend_all order false subs [q] with
                  | Done mid => if few_refs true mid then match extend_all (nodup string_dec) true slices mid with Done qs => Some (c_foreach c, w, qs) | Fail _ => None end else None
                  | Fail _ => None
                  end
      | _ => None
      end
  | _, _, _, _ => None
  end.
Lemma pair_told order m group c fe w qs fe' w' qs' : lists_set order -> pair_of m group c (nodup string_dec) = Some (fe, w, qs) -> pair_of m group c backwards = Some (fe', w', qs') ->
  told order m group c fe w qs \/ told order m group c fe' w' qs'.
Proof.
  intros OR; unfold pair_of, told, parse_equations; destruct (parse_where_text _ _) as [w0|]; [|discriminate].
  destruct (expression_list _ _ _ _) as [[|q [|? ?]]|]; try discriminate; destruct (expression_dict _ (arith_parser _ false) _) as [subs|]; [|discriminate].
  destruct (expression_dict _ (slice_parser _) _) as [slices|]; [|discriminate]; destruct (nodup string_dec (find_subs q)) as [|a [|b [|? ?]]] eqn:E; try discriminate.
  assert (G : forall o, order (find_subs q) = o (find_subs q) -> extend_all order false subs [q] = extend_all o false subs [q]) by (intros o EO; cbn [extend_all]; unfold extend; rewrite EO; reflexivity).
  assert (F : forall o x y z, order (find_subs q) = o (find_subs q) ->
    match extend_all o false subs [q] with Done mid => if few_refs true mid then match extend_all (nodup string_dec) true slices mid with Done qs => Some (c_foreach c, w0, qs) | Fail _ => None end else None | Fail _ => None end = Some (x, y, z) ->
    c_foreach c = x /\ Some w0 = Some y /\ next (extend_all order false subs [q]) (extend_all order true slices) = Done z).
  { intros o x y z EO; rewrite (G o EO); destruct (extend_all o false subs [q]) as [mid|]; [|discriminate]; destruct (few_refs true mid) eqn:FR; [|discriminate].
    cbn [next]; rewrite (extend_few order true slices mid OR FR); destruct (extend_all _ true slices mid) as [r|]; [|discriminate]; intros H; injection H as <- <- <-; auto. }
  intros H1 H2; destruct (order_two order _ a b OR E) as [EO|EO]; [left; apply (F (nodup string_dec)); [congruence|exact H1]|right; apply (F backwards); [unfold backwards; rewrite E; exact EO|exact H2]].
Qed.
Definition pair_in (m : math_file) (s : string) (order : list string -> list string) : option text :=
  match find_in (h_constraints m) s with Some c => pair_of m "constraints" c order | None => None end.
Definition inter_text : text := Eval vm_compute in or_none (pair_in (layered [inter_file]) "balance_storage_inter" (nodup string_dec)).
Definition inter_text' : text := Eval vm_compute in or_none (pair_in (layered [inter_file]) "balance_storage_inter" backwards).
Lemma inter_read : map (fun files => (pair_in (layered files) "balance_storage_inter" (nodup string_dec), pair_in (layered files) "balance_storage_inter" backwards)) linked_lists =
  repeat (Some inter_text, Some inter_text') 9.
Proof. vm_compute; reflexivity. Qed.

(** * Conditions *)
Definition first_of (d : string) : wexpr := WCmp (EName d) CEq (EFun "get_val_at_index" [] [(d, ENum false "0")]).
Definition first_dim (l r : expr) : option string :=
  match l, r with
  | EName a, EFun f [] [(k, ENum false z)] => if String.eqb f "get_val_at_index" && String.eqb k a && String.eqb z "0" then Some a else None
  | _, _ => None
  end.
Section Decide.
Variable ex : list (string * bool).
Variable va : list (string * cell).
Variable fi : list (string * bool).
Fixpoint decide (w : wexpr) : option bool :=
  match w with
  | WBool b => Some b
  | WName s => d_get s ex
  | WCmp l CEq r => match first_dim l r with
                    | Some d => d_get d fi
                    | None => match l with EName s => match d_get s va, const_of r with Some v, Some k => Some (same v k) | _, _ => None end | _ => None end
                    end
  | WNot w => option_map negb (decide w)
  | WChain w ops => fold_left (fun v x => if fst x : bool then and3 v (decide (snd x)) else or3 v (decide (snd x))) ops (decide w)
  | _ => None
  end.
Variable W : wenv.
Variable p : pos.
Hypothesis HE : forall s b, d_get s ex = Some b -> weval W (WName s) p = b.
Hypothesis HV : forall s c, d_get s va = Some c -> aeval (cmp_env W) everywhere (EName s) p = c.
Hypothesis HF : forall d b, d_get d fi = Some b -> weval W (first_of d) p = b.
Lemma first_dim_eq l r d : first_dim l r = Some d -> l = EName d /\ r = EFun "get_val_at_index" [] [(d, ENum false "0")].
Proof.
  unfold first_dim; destruct l; try discriminate; destruct r as [| | | | | | | | |f args kws| |]; try discriminate; destruct args; try discriminate; destruct kws as [|(k & e) [|? ?]]; try discriminate;
    destruct e as [neg z| | | | | | | | | | |]; try discriminate; destruct neg; try discriminate.
  match goal with |- (if ?c then _ else _) = _ -> _ => destruct c eqn:E; [|discriminate] end; rewrite !andb_true_iff, !String.eqb_eq in E; destruct E as ((-> & ->) & ->); intros H; injection H as ->; auto.
Qed.
Lemma const_said e c : const_of e = Some c -> aeval (cmp_env W) everywhere e p = c.
Proof. destruct e; cbn [const_of]; intros H; try discriminate; injection H as <-; reflexivity. Qed.
Lemma decide_sound w : forall b, decide w = Some b -> weval W w p = b.
Proof.
  induction w as [w IH] using wexpr_parts; intros b H; destruct w as [b'|l c r|e|items d|s|w|w ops]; cbn [decide] in H; try discriminate.
  - injection H as <-; reflexivity.
  - destruct c; try discriminate; destruct (first_dim l r) as [d|] eqn:FD; [apply first_dim_eq in FD as (-> & ->); apply HF, H|].
    destruct l as [|s| | | | | | | | | |]; try discriminate; destruct (d_get s va) as [v|] eqn:V; [|discriminate]; destruct (const_of r) as [k|] eqn:K; [|discriminate].
    injection H as <-; cbn [weval]; rewrite (HV s v V), (const_said r k K); reflexivity.
  - apply HE, H.
  - destruct (decide w) as [v|] eqn:C; [|discriminate]; injection H as <-; cbn [weval]; rewrite (IH w) with (b := v) by (reflexivity || assumption); reflexivity.
  - cbn [weval].
    assert (G : forall ops v0 g, (forall x b, In x ops -> decide (snd x) = Some b -> weval W (snd x) p = b) -> (forall b, v0 = Some b -> g p = b) ->
      fold_left (fun v x => if fst x : bool then and3 v (decide (snd x)) else or3 v (decide (snd x))) ops v0 = Some b ->
      fold_left (fun v x => fun p => if fst x : bool then v p && weval W (snd x) p else v p || weval W (snd x) p) ops g p = b).
    { clear; intros ops; induction ops as [|x ops IO]; intros v0 g HX HG H; cbn [fold_left] in *; [apply HG, H|].
      refine (IO _ _ (fun y b IY => HX y b (or_intror IY)) _ H); intros b' E; pose proof (HX x) as HX1.
      destruct (fst x); [unfold and3 in E|unfold or3 in E]; destruct v0 as [[|]|]; destruct (decide (snd x)) as [[|]|] eqn:C; try discriminate; injection E as <-.
      all: try (rewrite (HG _ eq_refl)); try (rewrite (HX1 _ (or_introl eq_refl) eq_refl)); cbn; try reflexivity; rewrite ?andb_false_r, ?orb_true_r; reflexivity. }
    apply (G ops (decide w)); [|intros b' E; apply IH; [left; reflexivity|exact E]|exact H].
    intros x b' IX E; apply IH; [right; apply in_map, IX|exact E].
Qed.
End Decide.

(** * Expressions with [roll] and with labels that are looked up *)
Fixpoint faraway (sets refs : list string) (e : expr) : bool :=
  match e with
  | EChain e ops => faraway sets refs e && forallb (fun x => faraway sets refs (snd x)) ops
  | EFun f [e'] [(k, ENum neg z)] => String.eqb f "roll" && smem k sets && negb (String.eqb k "array") && negb neg && String.eqb z "1" && plainly [] refs e'
  | EFun f [e'] [(k, EName _)] => if String.eqb f "select_from_lookup_arrays" then match e' with EName _ => negb (String.eqb k "array") | _ => false end else plainly sets refs e
  | EIndex _ [(_, ESlice _)] => true
  | _ => plainly sets refs e
  end.
(** The label before, cyclically. *)
Definition before_in (D : denv) (d v : string) : string :=
  match place v (n_labels D d) with
  | Some 0 => nth (List.length (n_labels D d) - 1) (n_labels D d) ""
  | Some (S j) => nth j (n_labels D d) ""
  | None => ""
  end.
Section Entry.
Variable D : denv.
Fixpoint entry_far (e : expr) (p : pos) : cell :=
  match e with
  | EChain e ops => fold_left (fun v x => op_cell D (fst x) v (entry_far (snd x) p)) ops (entry_far e p)
  | EFun _ [e'] [(k, ENum _ _)] => entry_of D e' (put p k (before_in D k (p k)))
  | EFun f [e'] [(k, EName y)] =>
      if String.eqb f "select_from_lookup_arrays" then
        match a_at (n_array D y) p with Txt l => if smem l (n_labels D k) then entry_of D e' (put p k l) else Miss | _ => Miss end
      else entry_of D e p
  | EIndex s [(d, ESlice r)] => match n_slice D r with Some a => fill (n_default D s) (a_at (n_array D s) (put p d (label (a_at a p)))) | None => Miss end
  | _ => entry_of D e p
  end.
End Entry.
Section Far.
Variable D : denv.
Variable sets : list string.
Lemma faraway_cases refs e : faraway sets refs e = true ->
  (exists a ops, e = EChain a ops /\ faraway sets refs a = true /\ forall x, In x ops -> faraway sets refs (snd x) = true) \/
  (exists a k, e = c_roll a k false "1" /\ In k sets /\ k <> "array" /\ plainly [] refs a = true) \/
  (exists s d r, e = EIndex s [(d, ESlice r)]) \/
  (exists s k y, e = c_select (EName s) [(k, y)] /\ k <> "array") \/
  plainly sets refs e = true /\ (forall D p, entry_far D e p = entry_of D e p).
Proof.
  destruct e as [neg s|s|s|s|b|s|s|l|s sl|f args kws|neg e|e ops]; cbn [faraway]; intros H; try (right; right; right; right; split; [exact H|reflexivity]).
  - destruct sl as [|(d & r) [|? ?]]; try discriminate H; destruct r; try discriminate H; right; right; left; eauto.
  - destruct args as [|e [|? ?]]; try (right; right; right; right; split; [exact H|reflexivity]); destruct kws as [|(k & o) kws]; try (right; right; right; right; split; [exact H|reflexivity]).
    destruct o as [neg z|y|y|y|b|y|y|l|y sl|f' args' kws'|neg e'|e' ops']; destruct kws; try (right; right; right; right; split; [exact H|reflexivity]).
    + right; left; exists e, k; rewrite !andb_true_iff, !negb_true_iff, !String.eqb_eq, String.eqb_neq, smem_in in H; destruct H as (((((-> & H1) & H2) & ->) & ->) & H); auto.
    + destruct (String.eqb f "select_from_lookup_arrays") eqn:EF.
      * apply String.eqb_eq in EF; subst f; destruct e as [neg s|s|s|s|b|s|s|l|s sl|f' args' kws'|neg e'|e' ops']; try discriminate H.
        right; right; right; left; exists s, k, y; rewrite negb_true_iff, String.eqb_neq in H; auto.
      * right; right; right; right; split; [exact H|intros D0 p; cbn [entry_far]; rewrite EF; reflexivity].
  - left; exists e, ops; rewrite andb_true_iff, forallb_forall in H; destruct H; auto.
Qed.
Lemma deval_far sb w e : faraway sets (d_keys sb) e = true -> deval (subs_in D sb) w e = deval D w (plug sb e).
Proof.
  revert w; induction e as [e IH] using expr_parts; intros w H; destruct (faraway_cases _ _ H) as [(a & ops & -> & H1 & H2)|[(a & k & -> & _ & NA & HP)|[(s & d & r & ->)|[(s & k & y & -> & NA)|(HP & _)]]]].
  - cbn [plug deval]; rewrite (IH a) by (try exact H1; left; reflexivity).
    assert (HO : forall x, In x ops -> deval (subs_in D sb) w (snd x) = deval D w (plug sb (snd x))) by (intros x IX; apply IH; [right; apply in_map, IX|exact (H2 x IX)]).
    clear IH H H1 H2; generalize (option_map (under w) (deval D w (plug sb a))); clear a; induction ops as [|x ops IO]; intros v; [reflexivity|]; cbn [map fold_left fst snd].
    rewrite (HO x) by (left; reflexivity); apply IO; intros y IY; apply HO; right; exact IY.
  - change (plug sb (c_roll a k false "1")) with (c_roll (plug sb a) k false "1").
    rewrite !(roll_call _ w _ k false "1" 1%Z NA is_one), (deval_plug D [] sb no_mask a HP); reflexivity.
  - reflexivity.
  - change (plug sb (c_select (EName s) [(k, y)])) with (c_select (EName s) [(k, y)]).
    assert (NI : ~ In "array" (map fst [(k, y)])) by (intros [E|[]]; exact (NA E)); rewrite !HelperProps.select_call by exact NI; reflexivity.
  - apply (deval_plug D sets), HP.
Qed.
Hypothesis ND : forall d, In d sets -> NoDup (n_labels D d).
Variable wd : index -> bool.
Let w := mask_of sets wd.
Lemma entry_faraway e p : faraway sets [] e = true -> deval D w e <> None -> m_at w p = true -> (forall d, In d sets -> In (p d) (n_labels D d)) ->
  cell_of D w e p = entry_far D e p.
Proof.
  intros H NN MP IP; revert H NN; induction e as [e IH] using expr_parts; intros H NN; destruct (faraway_cases _ _ H) as [(a & ops & -> & H1 & H2)|[(a & k & -> & IK & NA & HP)|[(s & d & r & ->)|[(s & k & y & -> & NA)|(HP & E)]]]].
  - destruct (chain_at D w a ops p MP NN) as (-> & N1 & N2); cbn [entry_far]; rewrite (IH a) by (try assumption; left; reflexivity).
    assert (HO : forall x, In x ops -> cell_of D w (snd x) p = entry_far D (snd x) p) by (intros x IX; apply IH; [right; apply in_map, IX|exact (H2 x IX)|exact (N2 x IX)]).
    clear IH H H1 H2 NN N1 N2; generalize (entry_far D a p); clear a; induction ops as [|x ops IO]; intros v; [reflexivity|]; cbn [fold_left].
    rewrite (HO x) by (left; reflexivity); apply IO; intros y IY; apply HO; right; exact IY.
  - pose proof (roll_call D w a k false "1" 1%Z NA is_one) as RC.
    destruct (entry_sound D [] (fun _ => true) a HP) as (v & EV & _ & _ & A3); change (mask_of [] (fun _ => true)) with no_mask in EV, A3; rewrite EV in RC.
    unfold cell_of; rewrite RC in NN |- *; destruct (in_dec string_dec k (a_dims v)) as [ID|NI]; [|exfalso; apply NN, h_roll_none, NI].
    rewrite (h_roll_one D v k 1%Z ID); cbn [a_at]; unfold c_roll; cbn [entry_far]; unfold rolled, before_in.
    destruct (In_nth _ _ "" (IP k IK)) as (i & LT & EK); rewrite <- EK, (place_nth _ (ND k IK) i LT).
    assert (EJ : Z.to_nat ((Z.of_nat i - 1) mod Z.of_nat (List.length (n_labels D k))) = match i with 0 => List.length (n_labels D k) - 1 | S j => j end).
    { destruct i as [|i]; [rewrite <- (Z_mod_plus_full _ 1), Z.mod_small by lia; lia|rewrite Z.mod_small by lia; lia]. }
    rewrite EJ, A3 by reflexivity; destruct i; reflexivity.
  - unfold cell_of in *; cbn [deval fold_right fst snd entry_far] in *; unfold slice_dim in *; destruct (negb (smem d (a_dims (named D s)))); [congruence|].
    destruct (n_slice D r) as [b|] eqn:SL; [|congruence]; cbn [a_at slice_at plain_env e_slice named]; rewrite SL; reflexivity.
  - assert (NI : ~ In "array" (map fst [(k, y)])) by (intros [E|[]]; exact (NA E)).
    unfold cell_of; rewrite HelperProps.select_call in NN |- * by exact NI; change (deval D w (EName s)) with (Some (named D s)) in NN |- *; cbn [opt2 map fst snd] in NN |- *; unfold h_select in NN |- *.
    match goal with |- context [if ?b then Some _ else None] => destruct b; [|exfalso; apply NN; reflexivity] end; cbn [a_at forallb map fst snd andb puts]; unfold c_select; cbn [map fst snd entry_far].
    change (String.eqb "select_from_lookup_arrays" "select_from_lookup_arrays") with true; cbv iota.
    destruct (a_at (n_array D y) p) as [|q|b|b|l]; cbn [found andb]; try reflexivity; rewrite andb_true_r; destruct (smem l (n_labels D k)); reflexivity.
  - rewrite E; unfold cell_of; destruct (entry_sound D sets wd e HP) as (v & EV & _ & _ & A3); fold w in EV, A3; rewrite EV; apply A3, MP.
Qed.
End Far.

(** * Constraints at a place *)
Section At.
Variable U : world.
Variable order : list string -> list string.
Variable m : math_file.
Variable l : list (string * string).
Hypothesis SI : sited U l.
Variable ex : list (string * bool).
Variable va : list (string * cell).
Variable fi : list (string * bool).
Let W := world_where (math_names m) U.
Hypothesis HE : forall p s b, fits l p -> d_get s ex = Some b -> weval W (WName s) p = b.
Hypothesis HV : forall p s c, fits l p -> d_get s va = Some c -> aeval (cmp_env W) everywhere (EName s) p = c.
Hypothesis HF : forall p d b, fits l p -> d_get d fi = Some b -> weval W (first_of d) p = b.
Definition so (w : wexpr) : bool := match decide ex va fi w with Some true => true | _ => false end.
Lemma so_sound w p : fits l p -> so w = true -> weval W w p = true.
Proof.
  unfold so; intros FP H; apply (decide_sound ex va fi W p (fun s b => HE p s b FP) (fun s c => HV p s c FP) (fun d b => HF p d b FP)).
  destruct (decide ex va fi w) as [[|]|]; try discriminate; reflexivity.
Qed.
Definition far_sides (t : text) (i : nat) : option (expr * cmp * expr * list (string * expr)) :=
  match nth_error (eqs_of t) i with
  | Some q => match q_expr q with
              | PEq a o b => let sb := arith_of (q_subs q) in
                             if so (where_of t) && forallb so (q_where q) && forallb (fun d => smem d (map fst l)) (fe_of t) && apartb (fe_of t) &&
                                faraway (fe_of t) (d_keys sb) a && faraway (fe_of t) [] (plug sb a) && faraway (fe_of t) (d_keys sb) b && faraway (fe_of t) [] (plug sb b)
                             then Some (plug sb a, o, plug sb b, arith_of (q_slices q)) else None
              | PArith _ => None
              end
  | None => None
  end.
Lemma far_says t i co a o b sl : told order m "constraints" co (fe_of t) (where_of t) (eqs_of t) -> holds_in order m U co -> far_sides t i = Some (a, o, b, sl) ->
  exists x, fits (cut (fe_of t) l) x /\ related o (entry_far (slices_in (u_env U) sl) a x) (entry_far (slices_in (u_env U) sl) b x).
Proof.
  intros TO (r & B & SAT); unfold far_sides; destruct (nth_error (eqs_of t) i) as [q|] eqn:NE; [|discriminate]; destruct (q_expr q) as [|a' o' b'] eqn:EQ; [discriminate|]; cbv zeta.
  match goal with |- (if ?c then _ else _) = _ -> _ => destruct c eqn:G; [|discriminate] end; rewrite !andb_true_iff in G; destruct G as (((((((CW & WQ) & SUB) & ND) & P1) & P2) & P3) & P4).
  intros E; injection E as <- <- <- <-; apply apartb_sound in ND.
  assert (SUB' : forall s, In s (fe_of t) -> In s (map fst l)) by (intros s IS; rewrite forallb_forall in SUB; apply smem_in, SUB, IS).
  destruct TO as (FE & PW & PE); destruct (site_at U l SI) as (p & (j & IN & ->) & FP & MX).
  assert (SD : forall s, In s (fe_of t) -> In s (u_dims U)) by (apply (subdims_of U l SI); exact SUB').
  rewrite <- FE in SD; destruct (build_entries order m U "constraints" co r (where_of t) (eqs_of t) B SD PW PE) as (K & _).
  destruct (K j q) as (wd & v & WD & EV & ER & NF); [split; [exact IN|split; [exact MX|apply so_sound; assumption]]|exact (nth_error_In _ _ NE)| |].
  { unfold applies; apply forallb_forall; intros y IY; apply so_sound; [exact FP|]; rewrite forallb_forall in WQ; exact (WQ y IY). }
  rewrite FE in WD, EV, ER, SAT, SD; set (f := map (at_index (u_dims U) j) (fe_of t)) in *.
  assert (FX : fits (cut (fe_of t) l) (at_index (fe_of t) f)) by (subst f; apply (cut_fits (fe_of t) l (at_index (u_dims U) j)); [exact FP|apply at_map, ND]).
  assert (IF : In f (CliModel.product (map (n_labels (u_env U)) (fe_of t)))) by (apply (at_index_in (world_data (math_names m) U)); assumption).
  assert (MA : m_at (mask_of (fe_of t) wd) (at_index (fe_of t) f) = true) by (apply mask_here; [exact ND|apply map_length|exact WD]).
  exists (at_index (fe_of t) f); split; [exact FX|]; destruct (evaluate_sides U (fe_of t) q wd v f a' o' b' EQ EV WD) as (NA & NB & VF).
  specialize (SAT f IF); rewrite ER, VF in SAT.
  assert (IT : forall d, In d (fe_of t) -> In (at_index (fe_of t) f d) (n_labels (u_env U) d)).
  { intros d ID; apply SUB' in ID as IK; apply in_map_iff in IK as ((d' & y) & ED & IY); cbn [fst] in ED; subst d'.
    rewrite (FX d y) by (apply cut_in; split; [exact IY|exact ID]); exact (proj2 (proj2 (proj1 (proj2 (proj2 SI))) _ _ IY)). }
  assert (NL : forall d, In d (fe_of t) -> NoDup (n_labels (u_env U) d)) by (intros d _; apply SI).
  assert (EC : forall e, faraway (fe_of t) (d_keys (arith_of (q_subs q))) e = true -> faraway (fe_of t) [] (plug (arith_of (q_subs q)) e) = true ->
    deval (eq_denv (u_env U) q) (mask_of (fe_of t) wd) e <> None ->
    cell_of (eq_denv (u_env U) q) (mask_of (fe_of t) wd) e (at_index (fe_of t) f) = entry_far (slices_in (u_env U) (arith_of (q_slices q))) (plug (arith_of (q_subs q)) e) (at_index (fe_of t) f)).
  { intros e H1 H2 NN; unfold eq_denv in NN |- *; unfold cell_of; rewrite (deval_far _ (fe_of t)) in NN |- * by exact H1; apply (entry_faraway _ (fe_of t)); assumption. }
  rewrite (EC a' P1 P2 NA), (EC b' P3 P4 NB) in SAT; exact SAT.
Qed.
End At.
