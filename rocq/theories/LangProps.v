(** Properties of the math text languages: C32 (conditions) and C33 (arithmetic): what is
    accepted, that it has one reading, and that writing out and reading again is the identity. *)
From Verif Require Import Base LangModel LangSpec LangProofs LangWhere LangShow MathText.
Local Open Scope string_scope.
Local Open Scope list_scope.

(** * C33: arithmetic *)

Lemma coherent_expr valid refs : coherent (lang_expr valid refs).
Proof. split; intros s H; [exact H|exact H]. Qed.
Lemma coherent_slice valid : coherent (lang_slice valid).
Proof. split; intros s H; [exact H|exact H]. Qed.

(** A math string is accepted exactly if it is an expression of the grammar, in which signs
    bind tightest, then power, then multiplication and division, then addition and
    subtraction, and it is read as that expression. *)
Theorem C33_grammar valid refs ts e :
  parse_arith (lang_expr valid refs) ts = Some e <-> level (lang_expr valid refs) 3 ts e.
Proof. apply arith_iff, coherent_expr. Qed.
Print Assumptions C33_grammar.

(** The two sides of an equation and its comparison. *)
Theorem C33_equation_grammar valid refs ts l c r :
  parse_equation (lang_expr valid refs) ts = Some (l, c, r) <->
  exists us t vs, ts = us ++ t :: vs /\
    level (lang_expr valid refs) 3 us l /\ level (lang_expr valid refs) 3 vs r /\
    cmp_tok t c /\ (c = CEq \/ c = CGe \/ c = CLe).
Proof.
  rewrite (equation_iff _ _ _ _ _ (coherent_expr valid refs)); split; intros (us & t & vs & E & H).
  - destruct H as (H1 & T & N1 & N2 & H2); exists us, t, vs; repeat split; auto; destruct c; auto; congruence.
  - destruct H as (H1 & H2 & T & D); exists us, t, vs; repeat split; auto; intros ->; destruct D as [D|[D|D]]; discriminate.
Qed.
Print Assumptions C33_equation_grammar.

(** The expression used as a slice. *)
Theorem C33_slice_grammar valid ts e :
  parse_slice (lang_slice valid) ts = Some e <-> arg (lang_slice valid) ts e.
Proof. apply slice_iff, coherent_slice. Qed.
Print Assumptions C33_slice_grammar.

(** One text, one expression. *)
Theorem C33_unambiguous valid refs ts e e' :
  level (lang_expr valid refs) 3 ts e -> level (lang_expr valid refs) 3 ts e' -> e = e'.
Proof. rewrite <- !C33_grammar; congruence. Qed.
Print Assumptions C33_unambiguous.

(** Whatever was read, written out with brackets around every operand, is read as the same
    expression: as tokens and as text. *)
Theorem C33_round_trip valid refs ts e :
  parse_arith (lang_expr valid refs) ts = Some e ->
  parse_arith (lang_expr valid refs) (show MExpr false e) = Some e.
Proof.
  rewrite !C33_grammar; intros H; exact (proj1 (proj1 (shown _ (coherent_expr valid refs)) _ _ _ H)).
Qed.
Print Assumptions C33_round_trip.

Theorem C33_text_round_trip valid refs s e :
  parse_arith_text (lang_expr valid refs) s = Some e ->
  parse_arith_text (lang_expr valid refs) (text_of (show MExpr false e)) = Some e.
Proof.
  unfold parse_arith_text; destruct (lex s) as [ts|] eqn:LX; [|discriminate]; intros P.
  assert (G : good (show MExpr false e)).
  { apply (proj1 (shown_good (lang_expr valid refs)) 3 ts e); [apply C33_grammar, P|exact (lex_ok _ _ LX)]. }
  destruct G as (G1 & G2); rewrite (lex_text _ G1 G2); exact (C33_round_trip _ _ _ _ P).
Qed.
Print Assumptions C33_text_round_trip.

(** Example: precedence of sign, power, product and sum, grouping to the left. *)
Definition ex_valid : list string := ["a"; "b"; "c"; "techs"].
Example C33_example :
  parse_arith_text (lang_expr ex_valid true) "a - b * -a ** 2 ** c - sum(b, over=techs)" =
    Some (EChain (EName "a")
      [(OSub, EChain (EName "b")
         [(OMul, EChain (ESign true (EName "a")) [(OPow, ENum false "2"); (OPow, EName "c")])]);
       (OSub, EFun "sum" [EName "b"] [("over", EName "techs")])]).
Proof. reflexivity. Qed.
Example C33_round_trip_example :
  exists e, parse_arith_text (lang_expr ex_valid true) "-(a + b) / $foo[techs=x]" = None /\
    parse_arith_text (lang_expr ex_valid true) "-(a + b) / a[techs=$x] + $foo" = Some e /\
    text_of (show MExpr false e) = "( ( - ( a + b ) ) / a[ techs = $x ] ) + $foo " /\
    parse_arith_text (lang_expr ex_valid true) (text_of (show MExpr false e)) = Some e.
Proof. eexists; repeat split; reflexivity. Qed.

(** * C32: conditions *)

(** A condition text belonging to the grammar ("not" tightest, "and" and "or" on one level)
    is accepted and read so; *)
Theorem C32_grammar N ts w :
  no_keywords N -> proper_cond w -> (parse_where N ts = Some w <-> cond N ts w).
Proof. intros NK PC; split; [intros P; exact (where_sound _ _ _ P PC)|apply where_complete, NK]. Qed.
Print Assumptions C32_grammar.

Theorem C32_unambiguous N ts w w' : no_keywords N -> cond N ts w -> cond N ts w' -> w = w'.
Proof. intros NK H H'; apply (where_complete _ _ _ NK) in H; apply (where_complete _ _ _ NK) in H'; congruence. Qed.
Print Assumptions C32_unambiguous.

Theorem C32_round_trip N ts w :
  no_keywords N -> proper_cond w -> parse_where N ts = Some w ->
  parse_where N (wshow false w) = Some w.
Proof.
  intros NK PC P; apply where_complete; [exact NK|].
  exact (proj1 (proj1 (cond_shown N) _ _ (where_sound _ _ _ P PC))).
Qed.
Print Assumptions C32_round_trip.

Theorem C32_text_round_trip N s w :
  no_keywords N -> proper_cond w -> parse_where_text N s = Some w ->
  parse_where_text N (text_of (wshow false w)) = Some w.
Proof.
  unfold parse_where_text; destruct (lex s) as [ts|] eqn:LX; [|discriminate]; intros NK PC P.
  assert (G : good (wshow false w)).
  { apply (proj1 (cond_good N) ts w); [apply where_sound; assumption|exact (lex_ok _ _ LX)]. }
  destruct G as (G1 & G2); rewrite (lex_text _ G1 G2); exact (C32_round_trip _ _ _ NK PC P).
Qed.
Print Assumptions C32_text_round_trip.

(** "not" applies to the next operand only, whatever the letter case, and a second operator
    takes the whole text before it. *)
Theorem C32_not_binds_tightest N t u (o : bool) ts us v w :
  no_keywords N -> factor N ts v -> factor N us w ->
  keyword "not" t -> keyword (if o then "and" else "or") u ->
  parse_where N (t :: ts ++ u :: us) = Some (WChain (WNot v) [(o, w)]).
Proof.
  intros NK F1 F2 K1 K2; apply where_complete; [exact NK|].
  apply (cd_chain N (t :: ts) (WNot v) (u :: us)); [apply fa_not; assumption|apply cc_one; assumption].
Qed.
Print Assumptions C32_not_binds_tightest.

(** A bracketed condition is read as the condition. *)
Theorem C32_brackets N ts w :
  no_keywords N -> cond N ts w -> parse_where N (in_brackets ts) = Some w.
Proof. intros NK H; apply where_complete; [exact NK|]; apply cd_factor, fa_atom, ca_par, H. Qed.
Print Assumptions C32_brackets.

Definition ex_names : names := {| n_dims := ["techs"]; n_inputs := ["p"; "q"]; n_results := ["x"]; n_post := [] |}.
Example ex_no_keywords : no_keywords ex_names.
Proof.
  intros s H; destruct (smem s (n_dims ex_names) || smem s (n_inputs ex_names) || smem s (n_results ex_names) || smem s (n_post ex_names)) eqn:E; [|reflexivity].
  exfalso; simpl in E; repeat (apply orb_true_iff in E as [E|E]); try discriminate;
    apply String.eqb_eq in E; subst; simpl in H; intuition discriminate.
Qed.
Example C32_example :
  parse_where_text ex_names "NOT p and q or (x AND not not any(q, over=techs)) and p * 2 >= -1 or [s, t] in techs" =
    Some (WChain (WNot (WName "p"))
      [(true, WName "q");
       (false, WChain (WName "x") [(true, WNot (WNot (WFun (EFun "any" [EName "q"] [("over", EName "techs")]))))]);
       (true, WCmp (EChain (EName "p") [(OMul, ENum false "2")]) CGe (ENum true "1"));
       (false, WSubset [EStr "s"; EStr "t"] "techs")]).
Proof. reflexivity. Qed.
Example C32_round_trip_example :
  exists w, parse_where_text ex_names "not (p or q) and not x" = Some w /\ proper_cond w /\
    text_of (wshow false w) = "not ( p or q ) and not x ".
Proof.
  eexists; split; [reflexivity|split; [|reflexivity]].
  apply pc_chain; [apply pc_not, pc_chain; [apply pc_name|]|]; repeat (constructor; try apply pc_name).
Qed.

(** The words "and" and "or" are on one level although "and" conventionally binds tighter:
    the same text with the usual reading is a different condition. *)
Example C32_one_level :
  parse_where_text ex_names "p or q and x" = Some (WChain (WName "p") [(false, WName "q"); (true, WName "x")]) /\
  parse_where_text ex_names "p or (q and x)" = Some (WChain (WName "p") [(false, WChain (WName "q") [(true, WName "x")])]).
Proof. split; reflexivity. Qed.

(** Texts one would expect to be accepted and that are not: in conditions, a helper function
    argument that starts with a number or is itself a function call. *)
Example C32_arguments_cut :
  parse_where_text ex_names "sum(2 * p, over=techs) > 1" = None /\
  parse_where_text ex_names "sum(p * 2, over=techs) > 1" <> None /\
  parse_where_text ex_names "any(sum(p, over=techs), over=techs)" = None.
Proof. repeat split; (reflexivity || discriminate). Qed.

(** A missing comma between keyword arguments goes unnoticed, and an unknown name after "not"
    makes "not" a helper function. *)
Example C32_oddities :
  parse_where_text ex_names "any(p over=techs)" = parse_where_text ex_names "any(p, over=techs)" /\
  parse_where_text ex_names "not(foo)" = Some (WFun (EFun "not" [EStr "foo"] [])).
Proof. split; reflexivity. Qed.

(** * The shipped math *)
Definition with_conditions : list component :=
  base_constraints ++ base_global_expressions ++ base_objectives ++ base_postprocessed ++ base_variables ++
  milp_variables ++ milp_constraints ++ milp_global_expressions ++ operate_constraints ++ spores_constraints ++
  spores_objectives ++ spores_postprocessed ++ inter_constraints ++ inter_variables.
Definition shipped_inputs : list string :=
  base_parameters ++ base_lookups ++ milp_parameters ++ milp_lookups ++ operate_parameters ++ spores_parameters ++ inter_lookups.
Definition shipped_results : list string :=
  map c_name (base_variables ++ base_global_expressions ++ milp_variables ++ milp_global_expressions ++ inter_variables).
Definition shipped_post : list string := map c_name (base_postprocessed ++ spores_postprocessed).
Definition shipped_names : names :=
  {| n_dims := base_dimensions; n_inputs := shipped_inputs; n_results := shipped_results; n_post := shipped_post |}.
Definition shipped_valid : list string := base_dimensions ++ shipped_inputs ++ shipped_results ++ shipped_post.
Definition shipped_conditions : list string :=
  flat_map (fun c => c_where c :: map fst (c_equations c) ++ map fst (flat_map snd (c_subs c)) ++ map fst (flat_map snd (c_slices c))) with_conditions
  ++ map snd (base_checks ++ milp_checks ++ operate_checks ++ inter_checks).
Definition shipped_equations : list string :=
  flat_map (fun c => map snd (c_equations c)) (base_constraints ++ milp_constraints ++ operate_constraints ++ spores_constraints ++ inter_constraints).
Definition shipped_arithmetic : list string :=
  flat_map (fun c => map snd (c_equations c))
    (base_global_expressions ++ base_objectives ++ base_postprocessed ++ milp_global_expressions ++ spores_objectives ++ spores_postprocessed).
Definition shipped_subs : list string := flat_map (fun c => map snd (flat_map snd (c_subs c))) with_conditions.
Definition shipped_slices : list string := flat_map (fun c => map snd (flat_map snd (c_slices c))) with_conditions.

Definition accepted {A} (p : string -> option A) (l : list string) : bool :=
  forallb (fun s => match p s with Some _ => true | None => false end) l.

(** Every condition, equation, expression, sub-expression and slice of the math files that
    come with the package is accepted (a check of the recorded texts, not of all texts). *)
Example shipped_texts_parse :
  accepted (parse_where_text shipped_names) shipped_conditions &&
  accepted (parse_equation_text (lang_expr shipped_valid true)) shipped_equations &&
  accepted (parse_arith_text (lang_expr shipped_valid true)) shipped_arithmetic &&
  accepted (parse_arith_text (lang_expr shipped_valid false)) shipped_subs &&
  accepted (parse_slice_text (lang_slice shipped_valid)) shipped_slices = true.
Proof. vm_compute; reflexivity. Qed.
