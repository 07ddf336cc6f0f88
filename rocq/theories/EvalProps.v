(** Properties of evaluation and rendering: C33 (value of the tree), C34 (usual meaning), C35
    (conditions) and C48 (formulas). *)
From Coq Require Import QArith Qcanon.
From Verif Require Import Base LangModel LangSpec LangProofs LangWhere LangProps EvalModel EvalSpec EvalProofs EvalNumber EvalFormula EvalCond.
Local Open Scope nat_scope.
Local Open Scope string_scope.
Local Open Scope list_scope.

(** A small set of data for the examples: a = 1, b = 2, x = 5, "m" missing with default 7,
    everything else missing. *)
Definition ex_env (sub : string -> arr) : env :=
  {| e_array := fun s => const (if String.eqb s "a" then Val 1%Qc
                                else if String.eqb s "b" then Val (Q2Qc 2)
                                else if String.eqb s "x" then Val (Q2Qc 5) else Miss);
     e_default := fun s => if String.eqb s "m" then Val (Q2Qc 7) else Miss;
     e_config := fun _ => Miss; e_ref := fun s _ => sub s; e_slice := fun _ => const Miss;
     e_helper := fun _ _ _ => const Miss; e_ignore := fun _ => false; e_odd := fun _ _ _ => Miss |}.
Definition here : pos := fun _ => "".
Definition ex_lang := lang_expr ["a"; "b"; "x"; "m"; "techs"] true.
Ltac qc := apply Qc_is_canon; vm_compute; reflexivity.
Ltac dn := repeat first [apply dn_par | apply dn_add | apply dn_sub | apply dn_mul | apply dn_minus | apply dn_plus | apply dn_leaf; reflexivity].

(** * C33: the value of an expression *)

(** At every position of the mask the value of an expression is that of its tree. *)
Theorem C33_value E w p e q :
  w p = true -> denotes (fun x => aeval E w x p) (bin e) q -> aeval E w e p = Val q.
Proof. intros HW; apply aeval_denotes, HW. Qed.
Print Assumptions C33_value.

(** A text that is accepted, with its tree in place of the expression. *)
Theorem C33_text_value valid refs s e E w p q :
  parse_arith_text (lang_expr valid refs) s = Some e -> w p = true ->
  denotes (fun x => aeval E w x p) (bin e) q ->
  forall e', parse_arith_text (lang_expr valid refs) (text_of (show MExpr false e)) = Some e' ->
  aeval E w e' p = Val q.
Proof.
  intros P HW D e' P'; rewrite (C33_text_round_trip _ _ _ _ P) in P'; injection P' as <-; apply C33_value; assumption.
Qed.
Print Assumptions C33_text_value.

(** The value of a number is what its digits say. *)
Theorem C33_number ds f x neg :
  all_digits ds -> all_digits (match f with Some fs => fs | None => [] end) -> all_digits (digits_of x) ->
  number_cell neg (number_text ds f x) =
  let q := ((Q2Qc (inject_Z (whole ds)) + point_value f) * exp_value x)%Qc in Val (if neg then - q else q)%Qc.
Proof. intros D F X; unfold number_cell; rewrite number_not_inf by exact D; rewrite number_value by assumption; destruct neg; reflexivity. Qed.
Print Assumptions C33_number.

(** A missing operand makes sums, differences, products and quotients missing. *)
Theorem C33_missing E w p e ops :
  (forall o x, In (o, x) ops -> o <> OPow) ->
  (aeval E w e p = Miss \/ exists o x, In (o, x) ops /\ aeval E w x p = Miss) ->
  aeval E w (EChain e ops) p = Miss.
Proof.
  cbn [aeval]; generalize (aeval E w e); intros a NP H.
  assert (G : forall ops v, (forall o x, In (o, x) ops -> o <> OPow) ->
    (v p = Miss \/ exists o x, In (o, x) ops /\ aeval E w x p = Miss) ->
    fold_left (fun v (x : op * expr) => fun p => operate E (fst x) (v p) (mask w (aeval E w (snd x)) p)) ops v p = Miss).
  { clear; induction ops as [|[o y] ops IH]; intros v NP H.
    - destruct H as [H|(o & x & [] & _)]; exact H.
    - cbn [fold_left fst snd]; apply IH; [intros o' x' IN; apply (NP o' x'); right; exact IN|].
      pose proof (NP o y (or_introl eq_refl)) as NO.
      assert (OL : forall c, operate E o Miss c = Miss) by (intros c; destruct o, c; try reflexivity; congruence).
      assert (OR : forall c, operate E o c Miss = Miss) by (intros c; destruct o, c; try reflexivity; congruence).
      destruct H as [H|(o' & x & [EQ|IN] & M)].
      + left; rewrite H; apply OL.
      + injection EQ as -> ->; left; unfold mask; destruct (w p); rewrite ?M; apply OR.
      + right; exists o', x; auto. }
  apply G; [exact NP|]; destruct H as [H|H]; [left; unfold mask; destruct (w p); auto|right; exact H].
Qed.
Print Assumptions C33_missing.

Example C33_number_example :
  number_text [1; 2] (Some [5]) (Some (Some true, [2])) = "12.5e-2" /\ number_cell true "12.5e-2" = Val (Q2Qc (-1 # 8)).
Proof. split; [reflexivity|]; cbn; f_equal; qc. Qed.
Example C33_missing_example :
  aeval (ex_env (fun _ => const Miss)) everywhere (EName "techs") here = Miss.
Proof. reflexivity. Qed.

(** Outside the mask nothing is computed. *)
Theorem C33_outside_mask E w p e ops : w p = false -> aeval E w (EChain e ops) p = Miss.
Proof. apply chain_outside. Qed.
Print Assumptions C33_outside_mask.

Example C33_value_example :
  exists e, parse_arith_text ex_lang "x - a - b * -m" = Some e /\
    aeval (ex_env (fun _ => const Miss)) everywhere e here = Val (Q2Qc 18).
Proof.
  eexists; split; [reflexivity|].
  replace (Q2Qc 18) with ((Q2Qc 5 - 1) - Q2Qc 2 * - Q2Qc 7)%Qc by qc.
  apply C33_value; [reflexivity|cbn [bin fold_left fst snd]; dn].
Qed.
Example C33_mask_example :
  aeval (ex_env (fun _ => const Miss)) (fun p => String.eqb (p "techs") "t") (EChain (EName "a") [(OAdd, EName "b")]) here = Miss.
Proof. reflexivity. Qed.

(** * C34: the usual meaning *)

(** The same texts are expressions in the usual sense and for the parser. *)
Theorem C34_same_texts valid refs ts :
  (exists e, parse_arith (lang_expr valid refs) ts = Some e) <->
  (exists b, usual (lang_expr valid refs) 3 ts b).
Proof.
  split.
  - intros (e & P); apply C33_grammar in P; exact (proj1 (level_usual _) 3 _ _ P).
  - intros (b & U); destruct (usual_parse _ (coherent_expr valid refs) _ _ U) as (e & P & _); eauto.
Qed.
Print Assumptions C34_same_texts.

Theorem C34_usual_unambiguous valid refs ts b b' :
  usual (lang_expr valid refs) 3 ts b -> usual (lang_expr valid refs) 3 ts b' -> b = b'.
Proof. apply usual_unique, coherent_expr. Qed.
Print Assumptions C34_usual_unambiguous.

(** Exactly how the parser's reading deviates from the usual one: signs go to the base of a
    power and powers group to the left. *)
Theorem C34_deviation valid refs ts b e :
  usual (lang_expr valid refs) 3 ts b -> parse_arith (lang_expr valid refs) ts = Some e ->
  bin e = regroup b.
Proof.
  intros U P; destruct (usual_parse _ (coherent_expr valid refs) _ _ U) as (e' & P' & B); congruence.
Qed.
Print Assumptions C34_deviation.

(** Texts in which no sign is written directly before a power and no power directly in an
    exponent have the usual value.  Missing for the full claim: the other texts, for which it
    is false. *)
Theorem C34_usual_value_partial valid refs ts b e E w p q :
  usual (lang_expr valid refs) 3 ts b -> explicit b = true ->
  parse_arith (lang_expr valid refs) ts = Some e -> w p = true ->
  denotes (fun x => aeval E w x p) b q -> aeval E w e p = Val q.
Proof.
  intros U X P HW D; apply C33_value; [exact HW|].
  rewrite (C34_deviation _ _ _ _ _ U P), (explicit_regroup _ X); apply (proj1 (denotes_erase _ b q)), D.
Qed.
Print Assumptions C34_usual_value_partial.

(** "-2**2" is 4 and not -4; "2**3**2" is 64 and not 512. *)
Theorem C34_sign_refuted :
  exists s ts e b q, lex s = Some ts /\ parse_arith ex_lang ts = Some e /\ usual ex_lang 3 ts b /\
    (forall b', usual ex_lang 3 ts b' -> b' = b) /\
    forall E w p, w p = true ->
      denotes (fun x => aeval E w x p) b q /\ aeval E w e p <> Val q.
Proof.
  exists "-2**2", [TSym Minus; TNum "2"; TSym Pow; TNum "2"].
  exists (EChain (ESign true (ENum false "2")) [(OPow, ENum false "2")]).
  exists (BSign true (BBin OPow (BLeaf (ENum false "2")) (BLeaf (ENum false "2")))), (- (Qcpower (Q2Qc 2) 2))%Qc.
  assert (U : usual ex_lang 3 [TSym Minus; TNum "2"; TSym Pow; TNum "2"]
    (BSign true (BBin OPow (BLeaf (ENum false "2")) (BLeaf (ENum false "2"))))).
  { apply us_sum, us_prod, us_sign; [apply sg_minus|].
    apply (us_pow ex_lang [TNum "2"] _ [TNum "2"]); [apply us_leaf, lt_num|apply us_atom, us_leaf, lt_num]. }
  repeat split; try reflexivity; try exact U.
  - intros b' U'; exact (C34_usual_unambiguous _ _ _ _ _ U' U).
  - apply dn_minus, (dn_pow _ _ _ _ (Q2Qc 2) 2); [apply dn_leaf; cbn; f_equal; qc|apply dn_leaf; cbn; f_equal; qc|qc].
  - intros H0.
    assert (A : aeval E w (EChain (ESign true (ENum false "2")) [(OPow, ENum false "2")]) p = Val (Qcpower (- Q2Qc 2)%Qc 2)).
    { apply C33_value; [assumption|]; apply (dn_pow _ _ _ _ (Q2Qc 2) 2); [apply dn_minus, dn_leaf; cbn; f_equal; qc|apply dn_leaf; cbn; f_equal; qc|qc]. }
    rewrite A in H0; injection H0 as H0; discriminate H0.
Qed.
Print Assumptions C34_sign_refuted.

Theorem C34_power_refuted :
  exists s ts e b q, lex s = Some ts /\ parse_arith ex_lang ts = Some e /\ usual ex_lang 3 ts b /\
    (forall b', usual ex_lang 3 ts b' -> b' = b) /\
    forall E w p, w p = true ->
      denotes (fun x => aeval E w x p) b q /\ aeval E w e p <> Val q.
Proof.
  exists "2**3**2", [TNum "2"; TSym Pow; TNum "3"; TSym Pow; TNum "2"].
  exists (EChain (ENum false "2") [(OPow, ENum false "3"); (OPow, ENum false "2")]).
  exists (BBin OPow (BLeaf (ENum false "2")) (BBin OPow (BLeaf (ENum false "3")) (BLeaf (ENum false "2")))), (Qcpower (Q2Qc 2) 9).
  assert (U : usual ex_lang 3 [TNum "2"; TSym Pow; TNum "3"; TSym Pow; TNum "2"]
    (BBin OPow (BLeaf (ENum false "2")) (BBin OPow (BLeaf (ENum false "3")) (BLeaf (ENum false "2"))))).
  { apply us_sum, us_prod, (us_pow ex_lang [TNum "2"] _ [TNum "3"; TSym Pow; TNum "2"]); [apply us_leaf, lt_num|].
    apply (us_pow ex_lang [TNum "3"] _ [TNum "2"]); [apply us_leaf, lt_num|apply us_atom, us_leaf, lt_num]. }
  repeat split; try reflexivity; try exact U.
  - intros b' U'; exact (C34_usual_unambiguous _ _ _ _ _ U' U).
  - apply (dn_pow _ _ _ _ (Qcpower (Q2Qc 3) 2) 9); [apply dn_leaf; cbn; f_equal; qc| |qc].
    apply (dn_pow _ _ _ _ (Q2Qc 2) 2); [apply dn_leaf; cbn; f_equal; qc|apply dn_leaf; cbn; f_equal; qc|qc].
  - intros H0.
    assert (A : aeval E w (EChain (ENum false "2") [(OPow, ENum false "3"); (OPow, ENum false "2")]) p = Val (Qcpower (Qcpower (Q2Qc 2) 3) 2)).
    { apply C33_value; [assumption|]; apply (dn_pow _ _ _ _ (Q2Qc 2) 2); [|apply dn_leaf; cbn; f_equal; qc|qc].
      apply (dn_pow _ _ _ _ (Q2Qc 3) 3); [apply dn_leaf; cbn; f_equal; qc|apply dn_leaf; cbn; f_equal; qc|qc]. }
    rewrite A in H0; injection H0 as H0; discriminate H0.
Qed.
Print Assumptions C34_power_refuted.

Example C34_partial_example :
  exists ts b, lex "-(2**2) + a / 2" = Some ts /\ usual ex_lang 3 ts b /\ explicit b = true.
Proof.
  eexists _, (BBin OAdd (BSign true (BPar (BBin OPow (BLeaf (ENum false "2")) (BLeaf (ENum false "2"))))) (BBin ODiv (BLeaf (EName "a")) (BLeaf (ENum false "2"))));
    split; [reflexivity|split].
  - apply (us_add ex_lang [TSym Minus; TSym LPar; TNum "2"; TSym Pow; TNum "2"; TSym RPar] _ _ OAdd [TId "a" false; TSym Div; TNum "2"]);
      [apply us_sum, us_prod, us_sign; [apply sg_minus|]|apply ot_add|].
    + apply us_atom, (us_par ex_lang [TNum "2"; TSym Pow; TNum "2"]), us_sum, us_prod.
      apply (us_pow ex_lang [TNum "2"] _ [TNum "2"]); [apply us_leaf, lt_num|apply us_atom, us_leaf, lt_num].
    + apply (us_mul ex_lang [TId "a" false] _ _ ODiv [TNum "2"]); [apply us_prod, us_atom, us_leaf, lt_name; reflexivity|apply ot_div|apply us_atom, us_leaf, lt_num].
  - reflexivity.
Qed.

(** * C35: conditions *)

(** A condition is true at a position exactly if its parts are, combined by the logical
    meaning of its words; names of inputs are true where a usable value is given (neither
    missing nor infinite, or True for Boolean arrays), names of results where they exist. *)
Theorem C35_truth W w p :
  weval W w p = true <-> holds (fun a => weval W a p = true) W p w.
Proof. apply weval_holds. Qed.
Print Assumptions C35_truth.

(** Comparisons of arithmetic with finite values are comparisons of these values. *)
Theorem C35_comparison W l c r p x y :
  denotes (fun e => aeval (cmp_env W) everywhere e p) (bin l) x ->
  denotes (fun e => aeval (cmp_env W) everywhere e p) (bin r) y ->
  (weval W (WCmp l c r) p = true <-> in_order c x y).
Proof.
  intros DL DR; cbn [weval]; rewrite (aeval_denotes _ _ _ eq_refl _ _ DL), (aeval_denotes _ _ _ eq_refl _ _ DR).
  apply compare_vals.
Qed.
Print Assumptions C35_comparison.

(** In a comparison a missing entry of an input counts as the default of that input. *)
Theorem C35_default W s a p :
  w_dims W s = false -> w_inputs W s = true -> w_input W s = Some a ->
  (a p <> Miss -> aeval (cmp_env W) everywhere (EName s) p = a p) /\
  (a p = Miss -> aeval (cmp_env W) everywhere (EName s) p = w_default W s).
Proof.
  intros D I A; cbn [aeval cmp_env e_array e_default]; rewrite D, I, A; unfold fill.
  split; intros H; [destruct (a p); congruence || reflexivity|rewrite H; reflexivity].
Qed.
Print Assumptions C35_default.

Definition ex_wenv : wenv :=
  {| w_dims := fun s => String.eqb s "techs"; w_inputs := fun s => smem s ["p"; "q"; "r"];
     w_input := fun s => if String.eqb s "p" then Some (fun i => if String.eqb (i "techs") "t" then Val (Q2Qc 3) else Miss)
                         else if String.eqb s "q" then Some (const (Inf false)) else None;
     w_bool := fun _ => false; w_default := fun s => if String.eqb s "p" then Val (Q2Qc 1) else Miss;
     w_result := fun _ => const Miss; w_config := fun _ => Miss;
     w_helper_top := fun _ _ _ => const Miss; w_helper_cmp := fun _ _ _ => const Miss;
     w_odd := fun _ _ _ => Miss; w_less := fun _ _ => false |}.

(** An input that is not part of the data counts as False: as a condition and in comparisons,
    whatever its default ([_add_inputs], backend_model.py:573-595, gives every input of the math
    an entry, so this is for data prepared otherwise). *)
Theorem C35_absent W s p :
  w_dims W s = false -> w_inputs W s = true -> w_input W s = None ->
  weval W (WName s) p = false /\
  (forall x, weval W (WCmp (EName s) CEq (EBool x)) p = negb x) /\
  (forall n t q, number_cell n t = Val q -> (weval W (WCmp (EName s) CEq (ENum n t)) p = true <-> q = 0%Qc)).
Proof.
  intros D I A; cbn [weval aeval cmp_env e_array e_default]; unfold defined_at, fill, compare, const; rewrite D, I, A; split; [reflexivity|split].
  - intros []; reflexivity.
  - intros n t q ->; cbn [missing same]; destruct (Qc_eq_dec q 0%Qc) as [E|E]; split; intros X; congruence.
Qed.
Print Assumptions C35_absent.
Example C35_absent_example :
  w_dims ex_wenv "r" = false /\ w_inputs ex_wenv "r" = true /\ w_input ex_wenv "r" = None /\
  weval ex_wenv (WCmp (EName "r") CEq (ENum false "0")) (fun _ => "") = true.
Proof. repeat split; vm_compute; reflexivity. Qed.

(** Where there is no value and no default, no comparison is true. *)
Theorem C35_missing_compares_false W l c r p :
  aeval (cmp_env W) everywhere l p = Miss \/ aeval (cmp_env W) everywhere r p = Miss ->
  weval W (WCmp l c r) p = false.
Proof.
  intros H; cbn [weval].
  assert (A : forall x, less W Miss x = false) by reflexivity.
  assert (B : forall x, less W x Miss = false) by (intros []; reflexivity).
  assert (C : forall x, same Miss x = false) by reflexivity.
  assert (D : forall x, same x Miss = false) by (intros []; reflexivity).
  destruct H as [-> | ->]; destruct c; cbn [compare]; rewrite ?A, ?B, ?C, ?D; reflexivity.
Qed.
Print Assumptions C35_missing_compares_false.

(** Membership in a list of labels of a dimension. *)
Theorem C35_subset W items d p :
  (forall x, In x items -> exists s, x = EStr s) ->
  (weval W (WSubset items d) p = true <-> In (EStr (p d)) items).
Proof.
  intros H; cbn [weval]; rewrite existsb_exists; split.
  - intros (x & IN & E); destruct (H x IN) as (s & ->); cbn [aeval const same] in E; apply String.eqb_eq in E; subst; exact IN.
  - intros IN; exists (EStr (p d)); split; [exact IN|cbn [aeval const same]; apply String.eqb_refl].
Qed.
Print Assumptions C35_subset.

(** Boolean laws, for all conditions, data and positions. *)
Theorem C35_boolean_laws W u v x p :
  let A a b := WChain a [(true, b)] in let O a b := WChain a [(false, b)] in
  weval W (WNot (WNot u)) p = weval W u p /\
  weval W (WNot (A u v)) p = weval W (O (WNot u) (WNot v)) p /\
  weval W (WNot (O u v)) p = weval W (A (WNot u) (WNot v)) p /\
  weval W (A u v) p = weval W (A v u) p /\ weval W (O u v) p = weval W (O v u) p /\
  weval W (A u (O v x)) p = weval W (O (A u v) (A u x)) p /\
  weval W (O u (A v x)) p = weval W (A (O u v) (O u x)) p /\
  weval W (A u (WNot u)) p = false /\ weval W (O u (WNot u)) p = true.
Proof.
  cbn [weval fold_left fst snd]; destruct (weval W u p), (weval W v p), (weval W x p); repeat split; reflexivity.
Qed.
Print Assumptions C35_boolean_laws.

(** Several operators without brackets: from left to right. *)
Theorem C35_left_to_right W w ops o v p :
  weval W (WChain w (ops ++ [(o, v)])) p = weval W (WChain (WChain w ops) [(o, v)]) p.
Proof. cbn [weval]; rewrite fold_left_app; reflexivity. Qed.
Print Assumptions C35_left_to_right.

Definition at_tech (t : string) : pos := fun d => if String.eqb d "techs" then t else "".
Example C35_example :
  weval ex_wenv (WName "p") (at_tech "t") = true /\ weval ex_wenv (WName "p") (at_tech "u") = false /\
  weval ex_wenv (WName "q") (at_tech "t") = false /\ weval ex_wenv (WName "r") (at_tech "t") = false /\
  weval ex_wenv (WCmp (EName "p") CGe (ENum false "2")) (at_tech "t") = true /\
  weval ex_wenv (WCmp (EName "p") CGe (ENum false "2")) (at_tech "u") = false /\
  weval ex_wenv (WCmp (EName "p") CEq (ENum false "1")) (at_tech "u") = true /\
  weval ex_wenv (WSubset [EStr "t"; EStr "v"] "techs") (at_tech "t") = true.
Proof. repeat split; vm_compute; reflexivity. Qed.
Example C35_comparison_example :
  denotes (fun e => aeval (cmp_env ex_wenv) everywhere e (at_tech "u")) (bin (EChain (EName "p") [(OAdd, EName "p")])) (Q2Qc 2).
Proof. replace (Q2Qc 2) with (Q2Qc 1 + Q2Qc 1)%Qc by qc; cbn [bin fold_left fst snd]; dn. Qed.

(** * C48: formulas *)

(** If every operand of an expression has a place that admits it, the formula has one usual
    reading and its value is the one computed.  Missing for the full claim: expressions with a
    sign before a bracketed sum or power, "0 - x", a sub-expression that is a sum in a product,
    repeated powers; for those it is false.  Function calls are taken as one symbol. *)
Theorem C48_formula_partial valid sub e ts k :
  level (lang_expr valid true) 3 ts e ->
  (forall s, exists us, level (lang_expr valid false) 3 us (sub s)) ->
  fit (render_sub sub) (fit_sub sub) e = Some k ->
  exists b, usual (lang_expr valid true) 3 (lin (render (render_sub sub) e)) b /\
    forall b', usual (lang_expr valid true) 3 (lin (render (render_sub sub) e)) b' ->
    forall E w p q, w p = true -> (forall s, e_ref E s w p = aeval E w (sub s) p) ->
      denotes (fun x => aeval E w x p) (expand sub e) q ->
      denotes (fun x => aeval E w x p) b' q /\ aeval E w e p = Val q.
Proof.
  intros HL HS F; set (L := lang_expr valid true).
  assert (X : forall leaf, (forall neg s, leaf (ENum neg s) = number_cell neg s) ->
    says L leaf k (render (render_sub sub) e) (expand sub e)).
  { intros leaf NUM; apply (render_says L (coherent_expr _ _) leaf NUM sub _ (fit_sub sub)); [| |exact F].
    - intros s j FS; destruct (HS s) as (us & HU); unfold fit_sub, render_sub in *.
      pose proof (render_says L (coherent_expr _ _) leaf NUM (fun s => ERef s) no_refs (fun _ => None) ltac:(discriminate) (sub s) j) as R.
      assert (EX : forall x, expand (fun s => ERef s) x = bin x).
      { clear; fix IH 1; intros x; destruct x; cbn [expand bin]; try reflexivity; [rewrite IH; reflexivity|].
        rewrite IH; generalize (bin x); clear x; induction ops as [|y ops IHO]; intros c; [reflexivity|].
        cbn [fold_left]; rewrite (IH (snd y)); apply IHO. }
      rewrite EX in R; apply R; [|exact FS].
      apply (proj1 (level_wf L (coherent_expr _ _) eq_refl) 3 us), (proj1 (level_refs valid)), HU.
    - apply (proj1 (level_wf L (coherent_expr _ _) eq_refl) 3 ts), HL. }
  destruct (X (fun x => match x with ENum neg s => number_cell neg s | _ => Miss end) (fun _ _ => eq_refl)) as (K3 & b & U & _).
  exists b; split; [apply (usual_lift L k); auto|]; intros b' U' E w p q HW HE D; split.
  - destruct (X (fun x => aeval E w x p) (fun _ _ => eq_refl)) as (_ & c & UC & HC).
    rewrite (C34_usual_unambiguous _ _ _ _ _ U' (usual_lift L k 3 _ _ UC K3 (le_n 3))); apply HC, D.
  - apply (aeval_expand E w p sub HW HE), D.
Qed.
Print Assumptions C48_formula_partial.

Definition no_sub : string -> expr := fun _ => ENum false "0".
(** What the reader of a formula concludes, against what is computed. *)
Definition misleading (s : string) (sub : string -> expr) : Prop :=
  exists e b q q', parse_arith_text ex_lang s = Some e /\
    usual ex_lang 3 (lin (render (render_sub sub) e)) b /\
    (forall b', usual ex_lang 3 (lin (render (render_sub sub) e)) b' -> b' = b) /\
    let E := ex_env (fun r => aeval (ex_env (fun _ => const Miss)) everywhere (sub r)) in
    denotes (fun x => aeval E everywhere x here) b q /\ aeval E everywhere e here = Val q' /\ q <> q'.

(** A sign before brackets: "-(a + b)" is shown as "-a + b". *)
Theorem C48_sign_refuted : misleading "-(a + b)" no_sub.
Proof.
  exists (ESign true (EChain (EName "a") [(OAdd, EName "b")])), (BBin OAdd (BSign true (BLeaf (EName "a"))) (BLeaf (EName "b"))).
  exists (- Q2Qc 1 + Q2Qc 2)%Qc, (- (1 + Q2Qc 2))%Qc; split; [reflexivity|].
  assert (U : usual ex_lang 3 [TSym Minus; TId "a" false; TSym Plus; TId "b" false]
    (BBin OAdd (BSign true (BLeaf (EName "a"))) (BLeaf (EName "b")))).
  { apply (us_add ex_lang [TSym Minus; TId "a" false] _ _ OAdd [TId "b" false]); [|apply ot_add|].
    - apply us_sum, us_prod, us_sign; [apply sg_minus|apply us_atom, us_leaf, lt_name; reflexivity].
    - apply us_prod, us_atom, us_leaf, lt_name; reflexivity. }
  split; [exact U|split; [intros b' U'; exact (C34_usual_unambiguous _ _ _ _ _ U' U)|]]; cbv zeta; split; [dn|split].
  - apply C33_value; [reflexivity|cbn [bin fold_left fst snd]; dn].
  - intros H0; discriminate H0.
Qed.
Print Assumptions C48_sign_refuted.

(** A difference from nothing: "0 - x" is shown as "x". *)
Theorem C48_zero_refuted : misleading "0 - x" no_sub.
Proof.
  exists (EChain (ENum false "0") [(OSub, EName "x")]), (BLeaf (EName "x")), (Q2Qc 5), (0 - Q2Qc 5)%Qc; split; [reflexivity|].
  assert (U : usual ex_lang 3 [TId "x" false] (BLeaf (EName "x"))) by (apply us_sum, us_prod, us_atom, us_leaf, lt_name; reflexivity).
  split; [exact U|split; [intros b' U'; exact (C34_usual_unambiguous _ _ _ _ _ U' U)|]]; cbv zeta; split; [dn|split].
  - apply C33_value; [reflexivity|]; cbn [bin fold_left fst snd]; apply dn_sub; [apply dn_leaf; cbn; f_equal; qc|dn].
  - intros H0; discriminate H0.
Qed.
Print Assumptions C48_zero_refuted.

(** A sub-expression in a product: "$s * x" with "a + b" for "$s" is shown as "a + b * x". *)
Theorem C48_sub_expression_refuted : misleading "$s * x" (fun _ => EChain (EName "a") [(OAdd, EName "b")]).
Proof.
  exists (EChain (ERef "s") [(OMul, EName "x")]), (BBin OAdd (BLeaf (EName "a")) (BBin OMul (BLeaf (EName "b")) (BLeaf (EName "x")))).
  exists (1 + Q2Qc 2 * Q2Qc 5)%Qc, ((1 + Q2Qc 2) * Q2Qc 5)%Qc; split; [reflexivity|].
  assert (U : usual ex_lang 3 [TId "a" false; TSym Plus; TId "b" false; TSym Times; TId "x" false]
    (BBin OAdd (BLeaf (EName "a")) (BBin OMul (BLeaf (EName "b")) (BLeaf (EName "x"))))).
  { apply (us_add ex_lang [TId "a" false] _ _ OAdd [TId "b" false; TSym Times; TId "x" false]); [|apply ot_add|].
    - apply us_sum, us_prod, us_atom, us_leaf, lt_name; reflexivity.
    - apply (us_mul ex_lang [TId "b" false] _ _ OMul [TId "x" false]); [apply us_prod, us_atom, us_leaf, lt_name; reflexivity|apply ot_mul|apply us_atom, us_leaf, lt_name; reflexivity]. }
  split; [exact U|split; [intros b' U'; exact (C34_usual_unambiguous _ _ _ _ _ U' U)|]]; cbv zeta; split; [dn|split].
  - apply C33_value; [reflexivity|]; cbn [bin fold_left fst snd]; apply dn_mul; [|dn].
    apply dn_leaf; assert (V := C33_value (ex_env (fun _ => const Miss)) everywhere here (EChain (EName "a") [(OAdd, EName "b")]) (1 + Q2Qc 2)%Qc eq_refl).
    apply V; cbn [bin fold_left fst snd]; dn.
  - intros H0; discriminate H0.
Qed.
Print Assumptions C48_sub_expression_refuted.

Example C48_partial_example :
  let sub := fun s => if String.eqb s "s" then EChain (EName "a") [(OMul, EName "b")] else ENum false "0" in
  exists e, parse_arith_text ex_lang "x - $s / (a + b) ** 2 + $zero" = Some e /\
    fit (render_sub sub) (fit_sub sub) e = Some 3 /\
    (forall s, exists us, level (lang_expr ["a"; "b"; "x"; "m"; "techs"] false) 3 us (sub s)).
Proof.
  cbv zeta; eexists; split; [reflexivity|split; [vm_compute; reflexivity|]].
  intros s; destruct (String.eqb s "s").
  - exists [TId "a" false; TSym Times; TId "b" false]; apply C33_grammar; reflexivity.
  - exists [TNum "0"]; apply C33_grammar; reflexivity.
Qed.

(** The formula of a condition has one usual reading and its truth is the one computed, if
    "and" never follows "or" without brackets and the word "true" is no operand of "or". *)
Theorem C48_condition_partial w k :
  wfit w = Some k ->
  exists t, usual_cond 2 (wrender w) t /\
    forall t', usual_cond 2 (wrender w) t' ->
    forall W p, cval (fun a => weval W a p) t' = weval W w p.
Proof.
  intros F.
  assert (X : forall W p, csays W p k (wrender w) (weval W w p)) by (intros W p; exact (proj1 (wrender_says W p w k F))).
  destruct (X ex_wenv here) as (K2 & t & U & _); exists t; split; [apply (cond_lift k); auto|].
  intros t' U' W p; destruct (X W p) as (_ & u & UU & E).
  rewrite (usual_cond_unique _ _ _ U' (cond_lift k 2 _ _ UU K2 (le_n 2))); exact E.
Qed.
Print Assumptions C48_condition_partial.

(** "p or q and r" and "true or p" are shown as formulas with another meaning. *)
Theorem C48_condition_refuted :
  (exists w t W p, parse_where_text ex_names "p or x and q" = Some w /\ usual_cond 2 (wrender w) t /\
     cval (fun a => weval W a p) t <> weval W w p) /\
  (exists w t W p, parse_where_text ex_names "true or p" = Some w /\ usual_cond 2 (wrender w) t /\
     cval (fun a => weval W a p) t <> weval W w p).
Proof.
  split.
  - exists (WChain (WName "p") [(false, WName "x"); (true, WName "q")]), (CBin false (CLeaf (WName "p")) (CBin true (CLeaf (WName "x")) (CLeaf (WName "q")))), ex_wenv, (at_tech "t").
    split; [reflexivity|split; [|vm_compute; discriminate]].
    apply (uc_or [YLeaf (WName "p")] _ [YLeaf (WName "x"); YAnd; YLeaf (WName "q")]); [apply uc_conj, uc_one, uc_leaf|].
    apply (uc_and [YLeaf (WName "x")] _ [YLeaf (WName "q")]); [apply uc_one, uc_leaf|apply uc_leaf].
  - exists (WChain (WBool true) [(false, WName "p")]), (CLeaf (WName "p")), ex_wenv, (at_tech "u").
    split; [reflexivity|split; [apply uc_conj, uc_one, uc_leaf|vm_compute; discriminate]].
Qed.
Print Assumptions C48_condition_refuted.

Example C48_condition_example :
  exists w, parse_where_text ex_names "p and true and not (x or q) or q" = Some w /\ wfit w = Some 2.
Proof. eexists; split; [reflexivity|vm_compute; reflexivity]. Qed.

(** Every formula and condition of the shipped math satisfies these criteria, for each choice
    of alternatives of its sub-expressions (a check of the recorded texts). *)
Fixpoint choices (l : list (string * list (string * string))) : list (list (string * expr)) :=
  match l with
  | [] => [[]]
  | (n, alts) :: r =>
      flat_map (fun a => match parse_arith_text (lang_expr shipped_valid false) (snd a) with
                         | Some e => map (fun c => (n, e) :: c) (choices r)
                         | None => []
                         end) alts
  end.
Definition chosen (c : list (string * expr)) (s : string) : expr :=
  match find (fun x => String.eqb (fst x) s) c with Some (_, e) => e | None => ENum false "0" end.
Definition sides (c : MathText.component) : list expr :=
  flat_map (fun q => match parse_equation_text (lang_expr shipped_valid true) (snd q) with
                     | Some (l, _, r) => [l; r]
                     | None => match parse_arith_text (lang_expr shipped_valid true) (snd q) with Some e => [e] | None => [] end
                     end) (MathText.c_equations c).
Example shipped_formulas_fit :
  forallb (fun c => forallb (fun ch => forallb (fun e =>
    match fit (render_sub (chosen ch)) (fit_sub (chosen ch)) e with Some _ => true | None => false end)
    (sides c)) (choices (MathText.c_subs c))) with_conditions &&
  forallb (fun s => match parse_where_text shipped_names s with
                    | Some w => match wfit w with Some _ => true | None => false end
                    | None => false end) shipped_conditions = true.
Proof. vm_compute; reflexivity. Qed.
