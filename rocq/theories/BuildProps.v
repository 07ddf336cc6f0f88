(** Expansion of equations, building of components and input checks: C36, C37, C38, C39, C47. *)
From Coq Require Import QArith Qcanon Lia Permutation.
From Verif Require Import Base BaseProofs LangModel EvalModel MathText BuildModel BuildSpec BuildProofs BuildExpand BuildEqs BuildMove.
From Verif Require CliModel CliProofs LangProps.
Local Open Scope nat_scope.
Local Open Scope string_scope.
Local Open Scope list_scope.
Local Arguments String.eqb : simpl never.

(** * Small data for the examples *)

(** Two technologies and two carriers; "a" is given for heat, "b" for cold, "c" for technology
    t, "d" for u, "n" is a number for t; only t is defined. *)
Definition ex_names : names :=
  {| n_dims := ["techs"; "carriers"]; n_inputs := ["a"; "b"; "c"; "d"; "n"]; n_results := []; n_post := [] |}.
Definition ex_valid : list string := ["techs"; "carriers"; "a"; "b"; "c"; "d"; "n"].
Definition given_at (d l : string) (x : Qc) : arr := fun p => if String.eqb (p d) l then Val x else Miss.
Definition ex_array (s : string) : arr :=
  if String.eqb s "a" then given_at "carriers" "heat" (Q2Qc 1)
  else if String.eqb s "b" then given_at "carriers" "cold" (Q2Qc 2)
  else if String.eqb s "c" then given_at "techs" "t" (Q2Qc 3)
  else if String.eqb s "d" then given_at "techs" "u" (Q2Qc 4)
  else if String.eqb s "n" then given_at "techs" "t" (Q2Qc 5) else const Miss.
Definition ex_data : data :=
  {| d_dims := ["techs"; "carriers"];
     d_labels := fun s => if String.eqb s "techs" then ["t"; "u"] else ["heat"; "cold"];
     d_matrix := fun p => String.eqb (p "techs") "t";
     d_where := {| w_dims := fun s => smem s ["techs"; "carriers"]; w_inputs := fun s => smem s (n_inputs ex_names);
                   w_input := fun s => Some (ex_array s); w_bool := fun _ => false; w_default := fun _ => Miss;
                   w_result := fun _ => const Miss; w_config := fun _ => Miss;
                   w_helper_top := fun _ _ _ => const Miss; w_helper_cmp := fun _ _ _ => const Miss;
                   w_odd := fun _ _ _ => Miss; w_less := fun _ _ => false |};
     d_env := {| e_array := ex_array; e_default := fun _ => Miss; e_config := fun _ => Miss; e_ref := fun _ _ => const Miss;
                 e_slice := fun _ => const Miss; e_helper := fun _ _ _ => const Miss; e_ignore := fun _ => false;
                 e_odd := fun _ _ _ => Miss |} |}.
Definition once : list string -> list string := nodup string_dec.
Lemma once_lists : lists_set once.
Proof. intros l; split; [apply NoDup_nodup|intros s; apply nodup_In]. Qed.
Definition comp (where_ : string) (eqs : list (string * string)) (subs slices : list (string * list (string * string))) : component :=
  {| c_name := "k"; c_foreach := ["techs"]; c_where := where_; c_equations := eqs; c_subs := subs; c_slices := slices |}.

(** * C36: expansion *)

(** Every equation is expanded into exactly one equation for each choice of alternatives of
    the sub-expressions it refers to, and each of these into exactly one for each choice of
    alternatives of the slices that it and its chosen sub-expressions refer to. *)
Theorem C36_expansion order N valid group c qs :
  lists_set order -> (forall k, In k (d_keys (c_subs c)) \/ In k (d_keys (c_slices c)) -> plain_key k) ->
  parse_equations order N valid group c = Done qs ->
  exists eqs subs slices mid,
    alternatives_of N (if String.eqb group "constraints" then equation_parser valid else arith_parser valid true) (c_equations c) eqs /\
    dict_of N (arith_parser valid false) (c_subs c) subs /\
    dict_of N (slice_parser valid) (c_slices c) slices /\
    expanded false subs eqs mid /\ expanded true slices mid qs.
Proof.
  intros OR PK H; unfold parse_equations in H.
  destruct (expression_list _ _ _ _) as [eqs|] eqn:E1; [|discriminate].
  destruct (expression_dict N (arith_parser valid false) _) as [subs|] eqn:E2; [|discriminate].
  destruct (expression_dict N (slice_parser valid) _) as [slices|] eqn:E3; [|discriminate].
  destruct (extend_all order false subs eqs) as [mid|] eqn:E4; [|discriminate]; cbn [next] in H.
  exists eqs, subs, slices, mid; split; [eapply expression_list_alternatives, E1|].
  split; [apply expression_dict_of, E2|split; [apply expression_dict_of, E3|]].
  split; eapply (extend_expanded order OR); try eassumption; eapply expression_dict_named; try eassumption; auto.
Qed.
Print Assumptions C36_expansion.

(** If at a position at most one equation and at most one alternative of each item apply, then
    at most one expanded equation applies; likewise for exactly one. *)
Theorem C36_at_most_one order N valid group c qs W p :
  parse_equations order N valid group c = Done qs ->
  holding N W p (c_equations c) <= 1 ->
  (forall k l, In (k, l) (c_subs c ++ c_slices c) -> holding N W p l <= 1) ->
  at_most_one W p qs.
Proof.
  intros H HE HA; unfold parse_equations in H.
  destruct (expression_list _ _ _ _) as [eqs|] eqn:E1; [|discriminate].
  destruct (expression_dict N (arith_parser valid false) _) as [subs|] eqn:E2; [|discriminate].
  destruct (expression_dict N (slice_parser valid) _) as [slices|] eqn:E3; [|discriminate].
  destruct (extend_all order false subs eqs) as [mid|] eqn:E4; [|discriminate]; cbn [next] in H.
  assert (X : forall pe d alts, expression_dict N pe d = Some alts -> (forall k l, In (k, l) d -> holding N W p l <= 1) ->
    forall k l, d_get k alts = Some l -> at_most_one W p l).
  { intros pe d alts ED HD k l G; apply expression_dict_of in ED; destruct (dict_of_get _ _ _ _ _ _ ED G) as (t & IN & A).
    unfold at_most_one; rewrite (alternatives_holding _ _ _ _ _ _ A); eapply HD, IN. }
  eapply extend_all_most; [exact H|eapply X; [exact E3|intros k l IN; apply (HA k), in_or_app; right; exact IN]|].
  eapply extend_all_most; [exact E4|eapply X; [exact E2|intros k l IN; apply (HA k), in_or_app; left; exact IN]|].
  unfold at_most_one; rewrite (alternatives_holding _ _ _ _ _ _ (expression_list_alternatives _ _ _ _ _ E1)); exact HE.
Qed.
Print Assumptions C36_at_most_one.

Theorem C36_exactly_one order N valid group c qs W p :
  parse_equations order N valid group c = Done qs ->
  holding N W p (c_equations c) = 1 ->
  (forall k l, In (k, l) (c_subs c ++ c_slices c) -> holding N W p l = 1) ->
  exactly_one W p qs.
Proof.
  intros H HE HA; unfold parse_equations in H.
  destruct (expression_list _ _ _ _) as [eqs|] eqn:E1; [|discriminate].
  destruct (expression_dict N (arith_parser valid false) _) as [subs|] eqn:E2; [|discriminate].
  destruct (expression_dict N (slice_parser valid) _) as [slices|] eqn:E3; [|discriminate].
  destruct (extend_all order false subs eqs) as [mid|] eqn:E4; [|discriminate]; cbn [next] in H.
  assert (X : forall pe d alts, expression_dict N pe d = Some alts -> (forall k l, In (k, l) d -> holding N W p l = 1) ->
    forall k l, d_get k alts = Some l -> exactly_one W p l).
  { intros pe d alts ED HD k l G; apply expression_dict_of in ED; destruct (dict_of_get _ _ _ _ _ _ ED G) as (t & IN & A).
    unfold exactly_one; rewrite (alternatives_holding _ _ _ _ _ _ A); eapply HD, IN. }
  eapply extend_all_exact; [exact H|eapply X; [exact E3|intros k l IN; apply (HA k), in_or_app; right; exact IN]|].
  eapply extend_all_exact; [exact E4|eapply X; [exact E2|intros k l IN; apply (HA k), in_or_app; left; exact IN]|].
  unfold exactly_one; rewrite (alternatives_holding _ _ _ _ _ _ (expression_list_alternatives _ _ _ _ _ E1)); exact HE.
Qed.
Print Assumptions C36_exactly_one.

Definition ex_subs : list (string * list (string * string)) :=
  [("s", [("c", "n"); ("NOT c", "2")]); ("r", [("d", "d + 1"); ("NOT d", "a[carriers=$l]")])].
Definition ex_slices : list (string * list (string * string)) := [("l", [("True", "heat")])].
Definition ex_comp : component := comp "True" [("True", "n + $s * $r - $s"); ("False", "$s")] ex_subs ex_slices.
Example C36_example :
  (exists qs, parse_equations once ex_names ex_valid "global_expressions" ex_comp = Done qs /\
     map q_name qs = ["global_expressions:k:0-r:0-s:0"; "global_expressions:k:0-r:0-s:1"; "global_expressions:k:0-r:1-s:0-l:0";
                      "global_expressions:k:0-r:1-s:1-l:0"; "global_expressions:k:1-s:0"; "global_expressions:k:1-s:1"] /\
     exactly_one (d_where ex_data) (at_index ["techs"; "carriers"] ["u"; "heat"]) qs) /\
  (forall k, In k (d_keys (c_subs ex_comp)) \/ In k (d_keys (c_slices ex_comp)) -> plain_key k) /\
  (forall k l, In (k, l) (c_subs ex_comp ++ c_slices ex_comp) ->
     holding ex_names (d_where ex_data) (at_index ["techs"; "carriers"] ["u"; "heat"]) l = 1).
Proof.
  split; [|split].
  - eexists; split; [vm_compute; reflexivity|]; split; [vm_compute; reflexivity|vm_compute; reflexivity].
  - intros k [H|H]; vm_compute in H; repeat (destruct H as [<- |H]; [split; [discriminate|reflexivity]|]); destruct H.
  - intros k l H; vm_compute in H; repeat (destruct H as [H|H]; [injection H as <- <-; vm_compute; reflexivity|]); destruct H.
Qed.
(** All components of the math that comes with the package are expanded without error. *)
Example shipped_components_expand :
  forallb (fun gc => match parse_equations once LangProps.shipped_names LangProps.shipped_valid (fst gc) (snd gc) with Done _ => true | Fail _ => false end)
    (map (pair "constraints") (base_constraints ++ milp_constraints ++ operate_constraints ++ spores_constraints ++ inter_constraints) ++
     map (pair "global_expressions") (base_global_expressions ++ milp_global_expressions)) = true.
Proof. vm_compute; reflexivity. Qed.

(** * C37: references *)

(** The items an equation is expanded for are those that it refers to at any place that is not
    below a sign; one sign in front of the whole expression does not count. *)
Theorem C37_found q s :
  (In s (find_subs q) <-> refers false s (q_expr q)) /\ (In s (find_slices q) <-> referred true q s).
Proof.
  split; [apply top_items_refers|]; unfold find_slices, referred; rewrite in_app_iff, top_items_refers, in_flat_snd; split.
  - intros [H|(k & x & IN & HS)]; [left; exact H|right; split; [reflexivity|exists k, x; split; [exact IN|apply part_items_within, HS]]].
  - intros [H|(_ & k & x & IN & HS)]; [left; exact H|right; exists k, x; split; [exact IN|apply part_items_within, HS]].
Qed.
Print Assumptions C37_found.

(** If no reference of an equation or sub-expression is below a sign (but for one sign in front of
    an equation), then in all expanded equations every reference that evaluation meets has an
    alternative.  Missing for the full claim: references below signs, see below. *)
Theorem C37_all_given_partial order N valid group c qs :
  lists_set order -> (forall k, In k (d_keys (c_subs c)) \/ In k (d_keys (c_slices c)) -> plain_key k) ->
  parse_equations order N valid group c = Done qs ->
  (forall eqs q b s, alternatives_of N (if String.eqb group "constraints" then equation_parser valid else arith_parser valid true) (c_equations c) eqs ->
     In q eqs -> mentions b s (q_expr q) -> refers b s (q_expr q)) ->
  (forall k l alts a s, In (k, l) (c_subs c) -> alternatives_of N (arith_parser valid false) l alts ->
     In a alts -> mentions true s (q_expr a) -> within (occurs true s false) (q_expr a)) ->
  forall q, In q qs -> keys_given q = true.
Proof.
  intros OR PK H HE HA r IR; destruct (C36_expansion order N valid group c qs OR PK H) as (eqs & subs & slices & mid & A1 & A2 & A3 & X1 & X2).
  destruct (expanded_keys _ _ _ _ _ X2 IR) as (m & IM & E2 & D2 & K2 & _); destruct (expanded_keys _ _ _ _ _ X1 IM) as (q & IQ & E1 & D1 & K1 & V1).
  cbn [dictionary negb] in *.
  assert (QS : q_subs q = []).
  { clear - A1 IQ; unfold alternatives_of in A1; induction A1 as [|t a l eqs (w & _ & _ & _ & X & _) F IH]; [destruct IQ|]; destruct IQ as [-> |IQ]; [exact X|apply IH, IQ]. }
  unfold keys_given; rewrite andb_true_iff, !forallb_forall; split.
  - intros s IS; rewrite D2; apply K1; left; rewrite E2, E1 in IS; apply lookups_mentions in IS; apply (HE eqs); assumption.
  - intros s IS; apply K2; apply in_app_iff in IS as [IS|IS].
    + left; rewrite E1; rewrite E2, E1 in IS; apply lookups_mentions in IS; apply (HE eqs); assumption.
    + right; split; [reflexivity|]; rewrite D2 in IS; apply in_flat_snd in IS as (k & e & IN & HS); exists k, e; split; [exact IN|].
      destruct (V1 k e IN) as [X|(n & l & a & G & IA & ->)]; [rewrite QS in X; destruct X|].
      destruct (dict_of_get _ _ _ _ _ _ A2 G) as (t & IT & AT); eapply HA; [exact IT|exact AT|exact IA|apply lookups_mentions, HS].
Qed.
Print Assumptions C37_all_given_partial.
Example C37_example : forall q qs, parse_equations once ex_names ex_valid "global_expressions" ex_comp = Done qs -> In q qs -> keys_given q = true.
Proof.
  intros q qs H IQ; assert (X : match parse_equations once ex_names ex_valid "global_expressions" ex_comp with Done qs => forallb keys_given qs = true | _ => False end) by (vm_compute; reflexivity).
  rewrite H, forallb_forall in X; apply X, IQ.
Qed.

(** A reference below a sign is not found: although its name is defined and the text accepted, the
    component cannot be built; likewise for a slice in a sub-expression that starts with a sign. *)
Theorem C37_refuted :
  exists c c', (forall group, group = "global_expressions" ->
    (exists q, In q (c_equations c) /\ snd q = "n + -$s") /\ d_mem "s" (c_subs c) = true /\
    (exists q, In q (c_equations c') /\ snd q = "$s") /\ c_subs c' = [("s", [("True", "-a[carriers=$l]")])] /\ d_mem "l" (c_slices c') = true /\
    build once ex_data ex_names ex_valid group c = Fail FKey /\ build once ex_data ex_names ex_valid group c' = Fail FKey) /\
    (* without the sign both can be built *)
    (exists da, build once ex_data ex_names ex_valid "global_expressions" (comp "c" [("True", "n + $s")] (c_subs c) []) = Done da /\ da ["t"] = VCell (Val (Q2Qc 10))) /\
    (exists da, build once ex_data ex_names ex_valid "global_expressions" (comp "c" [("True", "$s")] [("s", [("True", "a[carriers=$l]")])] ex_slices) = Done da /\ da ["t"] = VCell (Val (Q2Qc 1))).
Proof.
  exists (comp "c" [("True", "n + -$s")] [("s", [("True", "n")])] []), (comp "c" [("True", "$s")] [("s", [("True", "-a[carriers=$l]")])] ex_slices); split.
  - intros group ->; repeat split; try (eexists; split; [left; reflexivity|reflexivity]); vm_compute; reflexivity.
  - split; eexists; (split; [vm_compute; reflexivity|vm_compute; f_equal; f_equal; apply Qc_is_canon; reflexivity]).
Qed.
Print Assumptions C37_refuted.

(** * C38: each entry gets exactly one equation *)

Definition empty : index -> entry := fun _ => VCell Miss.

(** When the equations of a component can be built, every entry has the value of the one
    equation whose condition holds there, and is empty if there is none. *)
Theorem C38_entry D sets top qs da :
  eval_equations D sets top empty qs = Done da -> forall f, In f (indices D sets) ->
  (forall i j q q', nth_error qs i = Some q -> nth_error qs j = Some q' -> selected D sets top q f -> selected D sets top q' f -> i = j) /\
  (forall q, In q qs -> selected D sets top q f ->
     exists wd, (forall g, wd g = true <-> selected D sets top q g) /\ da f = evaluate D sets q wd f /\ null (da f) = false) /\
  ((forall q, In q qs -> ~ selected D sets top q f) -> da f = VCell Miss).
Proof.
  intros H f IN; destruct (proj1 (eval_equations_done D sets top qs empty) (ex_intro _ da H)) as (_ & NB & AP).
  destruct (eval_equations_entries _ _ _ _ _ _ H f IN) as (V & NV); split; [|split; [|exact NV]].
  - intros i j q q' E1 E2 S1 S2; destruct (Nat.eq_dec i j) as [E|NE]; [exact E|exfalso].
    exact (proj1 (all_apart_nth D sets top qs) AP i j q q' E1 E2 NE f IN S1 S2).
  - intros q IQ SE; exists (sel D sets top q); split; [intros g; apply sel_spec|]; rewrite (V q IQ SE); split; [reflexivity|].
    destruct (null (value D sets top q f)) eqn:N; [|reflexivity]; exfalso; rewrite Forall_forall in NB; apply (NB q IQ); split; [eauto|right; eauto].
Qed.
Print Assumptions C38_entry.

(** Building fails exactly if two equations apply to the same entry or an equation that applies
    somewhere cannot be evaluated there. *)
Theorem C38_fails D sets top qs :
  (forall s, In s sets -> In s (d_dims D)) -> congruent (d_env D) ->
  ((exists e, eval_equations D sets top empty qs = Fail e) <->
   (exists i j q q' f, i <> j /\ nth_error qs i = Some q /\ nth_error qs j = Some q' /\
      selected D sets top q f /\ selected D sets top q' f) \/
   (exists q, In q qs /\ unusable D sets top q)).
Proof.
  intros SUB C; split.
  - intros (e & H).
    assert (ND : ~ exists da, eval_equations D sets top empty qs = Done da) by (intros (da & X); congruence).
    rewrite eval_equations_done in ND.
    (* classical reasoning is avoided by deciding along the list *)
    assert (X : forall da, eval_equations D sets top da qs = Fail e -> (exists q f, In q qs /\ In f (indices D sets) /\ selected D sets top q f /\ null (da f) = false) \/
      (exists i j q q' f, i <> j /\ nth_error qs i = Some q /\ nth_error qs j = Some q' /\ selected D sets top q f /\ selected D sets top q' f) \/
      (exists q, In q qs /\ unusable D sets top q)).
    { clear H ND; induction qs as [|q qs IH]; intros da H; cbn [eval_equations] in H; [discriminate|].
      destruct (add_equation D sets top da q) as [d1|e1] eqn:AE; cbn [next] in H.
      - destruct (add_equation_done _ _ _ _ _ _ AE) as (F & NB & AF).
        destruct (IH d1 H) as [(q' & f & IQ & IN & SE & N)|[(i & j & q1 & q2 & f & NE & E1 & E2 & S12)|(q' & IQ & U)]].
        + destruct (AF f IN) as (A1 & A2), (sel_dec D sets top q f) as [S1|S1].
          * right; left; apply In_nth_error in IQ as (j & EJ); exists 0, (S j), q, q', f; repeat split; auto; apply S1 || apply SE.
          * left; exists q', f; rewrite (A2 S1) in N; split; [right; exact IQ|auto].
        + right; left; exists (S i), (S j), q1, q2, f; split; [congruence|auto].
        + right; right; exists q'; split; [right; exact IQ|exact U].
      - unfold add_equation in AE; fold (sel D sets top q) in AE; destruct (any_full _ _) eqn:A; [|discriminate]; apply any_sel in A.
        destruct (existsb _ _) eqn:O.
        { left; apply existsb_exists in O as (f & IN & O); apply andb_true_iff in O as (SE & N); exists q, f; split; [left; reflexivity|split; [exact IN|split; [apply sel_spec, SE|]]].
          destruct (null (da f)); [discriminate|reflexivity]. }
        right; right; exists q; split; [left; reflexivity|]; apply broken_unusable; [exact C|]; split; [exact A|].
        destruct (keys_given q) eqn:K; [right|left; reflexivity]; fold (value D sets top q) in AE.
        destruct (existsb (fun f => sel D sets top q f && null (value D sets top q f)) _) eqn:M; [|discriminate].
        apply existsb_exists in M as (f & IN & M); apply andb_true_iff in M as (SE & N); exists f; split; [exact IN|split; [apply sel_spec, SE|exact N]]. }
    destruct (X empty H) as [(q & f & _ & _ & _ & N)|Y]; [discriminate|exact Y].
  - intros Y; destruct (eval_equations D sets top empty qs) as [da|e] eqn:H; [exfalso|eauto].
    destruct (proj1 (eval_equations_done D sets top qs empty) (ex_intro _ da H)) as (_ & NB & AP).
    destruct Y as [(i & j & q & q' & f & NE & E1 & E2 & S1 & S2)|(q & IQ & U)].
    + exact (proj1 (all_apart_nth D sets top qs) AP i j q q' E1 E2 NE f (selected_index D sets top q f SUB S1) S1 S2).
    + rewrite Forall_forall in NB; apply (NB q IQ), broken_unusable; assumption.
Qed.
Print Assumptions C38_fails.

(** The order of the equations does not matter. *)
Theorem C38_order D sets top qs qs' : Permutation qs qs' ->
  same_outcome D sets (eval_equations D sets top empty qs) (eval_equations D sets top empty qs').
Proof.
  intros P.
  assert (IMP : forall l l', Permutation l l' -> (exists da, eval_equations D sets top empty l = Done da) -> exists da, eval_equations D sets top empty l' = Done da).
  { intros l l' PL H; rewrite eval_equations_done in *; destruct H as (A & B & X).
    split; [eapply Permutation_Forall; eassumption|split; [eapply Permutation_Forall; eassumption|eapply all_apart_perm; eassumption]]. }
  unfold same_outcome; destruct (eval_equations D sets top empty qs) as [x|e] eqn:E1, (eval_equations D sets top empty qs') as [y|e'] eqn:E2; auto.
  - intros f IN; destruct (eval_equations_entries _ _ _ _ _ _ E1 f IN) as (V1 & N1), (eval_equations_entries _ _ _ _ _ _ E2 f IN) as (V2 & N2).
    assert (DEC : (exists q, In q qs /\ selected D sets top q f) \/ forall q, In q qs -> ~ selected D sets top q f).
    { clear; induction qs as [|q qs IH]; [right; intros q []|]; destruct (sel_dec D sets top q f) as [SE|NS]; [left; exists q; split; [left; reflexivity|exact SE]|].
      destruct IH as [(a & IA & SA)|H]; [left; exists a; split; [right; exact IA|exact SA]|right; intros a [<- |IA]; [exact NS|apply H, IA]]. }
    destruct DEC as [(q & IQ & SE)|NS].
    + rewrite (V1 q IQ SE), (V2 q (Permutation_in _ P IQ) SE); reflexivity.
    + rewrite (N1 NS), N2; [reflexivity|]; intros q IQ; apply NS, (Permutation_in _ (Permutation_sym P) IQ).
  - destruct (IMP qs qs' P (ex_intro _ x E1)) as (da & X); congruence.
  - destruct (IMP qs' qs (Permutation_sym P) (ex_intro _ y E2)) as (da & X); congruence.
Qed.
Print Assumptions C38_order.

(** A whole component: its entries come from the expanded equations, over the entries that the
    component's own condition and the definition matrix select. *)
Theorem C38_component order D N valid group c da w :
  parse_where_text N (c_where c) = Some w -> build order D N valid group c = Done da ->
  forall f, In f (indices D (c_foreach c)) ->
  (~ top_selects D (c_foreach c) [w] f -> da f = VCell Miss) /\
  (top_selects D (c_foreach c) [w] f -> exists top qs,
     (forall g, top g = true <-> top_selects D (c_foreach c) [w] g) /\
     parse_equations order N valid group c = Done qs /\ eval_equations D (c_foreach c) top empty qs = Done da).
Proof.
  intros PW H f IN; unfold build in H; destruct (top_level_where_spec D N c w PW) as (top & ET & TS); rewrite ET in H; cbn [next] in H.
  destruct (existsb top (indices D (c_foreach c))) eqn:EX.
  - destruct (parse_equations order N valid group c) as [qs|] eqn:PE; [|discriminate]; cbn [next] in H; split.
    + intros NT; apply (C38_entry D (c_foreach c) top qs da H f IN); intros q IQ (T & _); apply NT, TS, T.
    + intros _; exists top, qs; auto.
  - injection H as <-; split; [reflexivity|]; intros T; apply TS in T; rewrite existsb_false in EX; rewrite (EX f IN) in T; discriminate.
Qed.
Print Assumptions C38_component.

Example ex_congruent : congruent (d_env ex_data).
Proof. split; reflexivity. Qed.
Example C38_example :
  (exists da, build once ex_data ex_names ex_valid "global_expressions" (comp "True" [("c", "n + 1"); ("d", "d * 2")] [] []) = Done da /\
     da ["t"] = VCell (Val (Q2Qc 6)) /\ da ["u"] = VCell Miss) /\
  (* the same entry twice *)
  (exists name, build once ex_data ex_names ex_valid "global_expressions" (comp "True" [("c", "n"); ("n", "c")] [] []) = Fail (FOverlap name)) /\
  (* conditions that exclude each other over a dimension that the component does not have *)
  (exists name, build once ex_data ex_names ex_valid "global_expressions" (comp "True" [("a", "n"); ("NOT a", "c")] [] []) = Fail (FOverlap name)) /\
  (exists name, build once ex_data ex_names ex_valid "global_expressions" (comp "True" [("True", "n + d")] [] []) = Fail (FMissing name)).
Proof.
  split; [|split; [|split]]; eexists; try (vm_compute; reflexivity).
  split; [vm_compute; reflexivity|split; [vm_compute; f_equal; f_equal; apply Qc_is_canon; reflexivity|vm_compute; reflexivity]].
Qed.

(** * C39: conditions of component and equations *)

(** A condition that depends on the dimensions of the component only may stand in the component
    or in all its equations.  Missing for the full claim: conditions over other dimensions, for
    which it is false, see below. *)
Theorem C39_moved_partial order D N valid group c c' w w' u qs :
  congruent (d_env D) -> over (d_where D) (c_foreach c) u ->
  c_name c' = c_name c -> c_foreach c' = c_foreach c -> c_subs c' = c_subs c -> c_slices c' = c_slices c ->
  (* the component has the conjunct in c, the equations have it in c' *)
  parse_where_text N (c_where c) = Some w' -> parse_where_text N (c_where c') = Some w -> with_conjunct (d_where D) u w w' ->
  conjunct_added N (d_where D) u (c_equations c) (c_equations c') ->
  parse_equations order N valid group c = Done qs ->
  same_outcome D (c_foreach c) (build order D N valid group c) (build order D N valid group c').
Proof.
  intros CG OV EN EF ES EL PW' PW WC CA PQ; unfold build.
  destruct (top_level_where_spec D N c w' PW') as (top' & ET' & TS'), (top_level_where_spec D N c' w PW) as (top & ET & TS).
  rewrite ET', ET; cbn [next]; rewrite EF in *.
  assert (PE : exists qs', parse_equations order N valid group c' = Done qs' /\ Forall2 (conj_eq (d_where D) u) qs qs').
  { unfold parse_equations in *; rewrite EN, ES, EL.
    set (pe := if String.eqb group "constraints" then equation_parser valid else arith_parser valid true) in *; set (k := String.append group (String ":" (c_name c))) in *.
    pose proof (expression_list_conj N pe (d_where D) u k _ _ CA) as X.
    destruct (expression_list N pe k (c_equations c)) as [eqs|]; [|discriminate]; destruct (expression_list N pe k (c_equations c')) as [eqs'|]; [|contradiction].
    destruct (expression_dict N (arith_parser valid false) _) as [subs|]; [|discriminate].
    destruct (expression_dict N (slice_parser valid) _) as [slices|]; [|discriminate].
    pose proof (extend_all_conj order (d_where D) u false subs eqs eqs' X) as Y.
    destruct (extend_all order false subs eqs) as [mid|]; [|discriminate]; destruct (extend_all order false subs eqs') as [mid'|]; [|contradiction]; cbn [next lift] in *.
    pose proof (extend_all_conj order (d_where D) u true slices mid mid' Y) as Z; rewrite PQ in Z.
    destruct (extend_all order true slices mid') as [qs'|]; [|contradiction]; eauto. }
  destruct PE as (qs' & PQ' & F).
  assert (TOP' : forall f, top' f = true <-> exists w', with_conjunct (d_where D) u w w' /\ top_selects D (c_foreach c) [w'] f).
  { intros f; rewrite TS'; split; [intros X; exists w'; auto|]; intros (v & VC & SB & i & IN & E & M & H); split; [exact SB|]; exists i; do 3 (split; [assumption|]).
    intros x [<- |[]]; rewrite (WC _ : weval _ w' _ = _), <- (VC _ : weval _ v _ = _); apply H; left; reflexivity. }
  pose proof (eval_move D (c_foreach c) top top' u w CG OV TS TOP' qs qs' F) as EV.
  rewrite PQ, PQ'; cbn [next].
  destruct (existsb top' _) eqn:X', (existsb top (indices D (c_foreach c))) eqn:X; cbn [same_outcome].
  - exact EV.
  - exfalso; apply existsb_exists in X' as (f & IN & T'); apply TS' in T' as (SB & i & II & E & M & H).
    rewrite existsb_false in X; specialize (X f IN); assert (T : top f = true); [|congruence]; apply TS; split; [exact SB|]; exists i; do 3 (split; [assumption|]).
    intros x [<- |[]]; pose proof (H w' (or_introl eq_refl)) as HW; rewrite (WC _ : weval _ w' _ = _), andb_true_iff in HW; apply HW.
  - (* the conjunct holds nowhere: nothing is built *)
    destruct (eval_equations D (c_foreach c) top' (fun _ => VCell Miss) qs) as [x|e] eqn:E1.
    + assert (XM : forall f, In f (indices D (c_foreach c)) -> x f = VCell Miss).
      { intros f IN; apply (eval_equations_entries _ _ _ _ _ _ E1 f IN); intros q IQ (T & _); rewrite existsb_false in X'; rewrite (X' f IN) in T; discriminate. }
      destruct (eval_equations D (c_foreach c) top (fun _ => VCell Miss) qs') as [y|]; [|contradiction].
      intros f IN; rewrite <- (EV f IN); symmetry; apply XM, IN.
    + exfalso; rewrite existsb_false in X'.
      assert (Z : exists da, eval_equations D (c_foreach c) top' (fun _ => VCell Miss) qs = Done da); [|destruct Z as (da & Z); congruence].
      assert (NS : forall q f, ~ selected D (c_foreach c) top' q f).
      { intros q f SE; pose proof SE as (T & _); pose proof T as T2; apply TS' in T2 as (SB & _).
        pose proof (selected_index _ _ _ _ _ SB SE) as IN; rewrite (X' f IN) in T; discriminate. }
      apply eval_equations_done; split; [|split].
      * apply Forall_forall; intros q _ f _ SE; exfalso; eapply NS, SE.
      * apply Forall_forall; intros q _ ((f & SE) & _); eapply NS, SE.
      * apply all_apart_nth; intros i j q q' _ _ _ f _ SE _; eapply NS, SE.
  - reflexivity.
Qed.
Print Assumptions C39_moved_partial.
Example C39_example :
  (exists u w w', parse_where_text ex_names "c" = Some u /\ parse_where_text ex_names "n" = Some w /\ parse_where_text ex_names "n AND c" = Some w' /\
     over (d_where ex_data) ["techs"] u /\ with_conjunct (d_where ex_data) u w w') /\
  (exists u, parse_where_text ex_names "c" = Some u /\ conjunct_added ex_names (d_where ex_data) u [("True", "n")] [("True AND c", "n")]) /\
  (exists da, build once ex_data ex_names ex_valid "global_expressions" (comp "n AND c" [("True", "n")] [] []) = Done da /\ da ["t"] = VCell (Val (Q2Qc 5))).
Proof.
  split; [|split].
  - do 3 eexists; split; [vm_compute; reflexivity|split; [vm_compute; reflexivity|split; [vm_compute; reflexivity|split]]].
    + intros p p' E; injection E as E; cbn [weval]; unfold defined_at; cbn [ex_data d_where w_inputs w_input w_bool].
      change (negb (missing (ex_array "c" p)) && negb (is_inf (ex_array "c" p)) = negb (missing (ex_array "c" p')) && negb (is_inf (ex_array "c" p'))).
      change (ex_array "c") with (given_at "techs" "t" (Q2Qc 3)); unfold given_at; rewrite E; reflexivity.
    + intros p; reflexivity.
  - eexists; split; [vm_compute; reflexivity|]; constructor; [|constructor].
    split; [reflexivity|]; do 2 eexists; split; [vm_compute; reflexivity|split; [vm_compute; reflexivity|intros p; reflexivity]].
  - eexists; split; [vm_compute; reflexivity|vm_compute; f_equal; f_equal; apply Qc_is_canon; reflexivity].
Qed.

(** Conditions over a dimension that the component does not have: "a" holds for heat and "b" for
    cold, so as one condition nothing is built; split between component and equation the entry is
    built.  And a condition in an equation may hold at combinations that are not defined. *)
Theorem C39_refuted :
  (exists da da',
     build once ex_data ex_names ex_valid "global_expressions" (comp "a AND b" [("True", "n")] [] []) = Done da /\
     build once ex_data ex_names ex_valid "global_expressions" (comp "a" [("b", "n")] [] []) = Done da' /\
     da ["t"] = VCell Miss /\ da' ["t"] = VCell (Val (Q2Qc 5))) /\
  (exists D da da',
     build once D ex_names ex_valid "global_expressions" (comp "b" [("True", "n")] [] []) = Done da /\
     build once D ex_names ex_valid "global_expressions" (comp "True" [("b", "n")] [] []) = Done da' /\
     da ["t"] = VCell Miss /\ da' ["t"] = VCell (Val (Q2Qc 5))).
Proof.
  split.
  - do 2 eexists; split; [vm_compute; reflexivity|split; [vm_compute; reflexivity|split; [vm_compute; reflexivity|]]].
    vm_compute; f_equal; f_equal; apply Qc_is_canon; reflexivity.
  - exists {| d_dims := d_dims ex_data; d_labels := d_labels ex_data; d_matrix := fun p => String.eqb (p "techs") "t" && String.eqb (p "carriers") "heat";
              d_where := d_where ex_data; d_env := d_env ex_data |}.
    do 2 eexists; split; [vm_compute; reflexivity|split; [vm_compute; reflexivity|split; [vm_compute; reflexivity|]]].
    vm_compute; f_equal; f_equal; apply Qc_is_canon; reflexivity.
Qed.
Print Assumptions C39_refuted.

(** * C47: input checks *)

(** The messages reported are those of the active checks whose condition holds for a defined
    combination, by severity; the build stops exactly if there is one of severity "raise". *)
Theorem C47_checks D N ks during bullet warning error :
  check_inputs D N ks during bullet = Some (warning, error) ->
  exists warn raise,
    (forall m, In m warn <-> exists k, In k ks /\ k_message k = m /\ k_raise k = false /\ violated D N k) /\
    (forall m, In m raise <-> exists k, In k ks /\ k_message k = m /\ k_raise k = true /\ violated D N k) /\
    (warning, error) = CliModel.report (Some (CliModel.Plain warn)) (Some (CliModel.Plain raise)) during bullet /\
    (error <> None <-> exists k, In k ks /\ k_raise k = true /\ violated D N k) /\
    (warning <> None <-> exists k, In k ks /\ k_raise k = false /\ violated D N k).
Proof.
  unfold check_inputs; destruct (check_results D N ks) as [(warn & raise)|] eqn:R; [|discriminate]; cbn [option_map fst snd].
  intros H.
  assert (HR : CliModel.report (Some (CliModel.Plain warn)) (Some (CliModel.Plain raise)) during bullet = (warning, error)) by congruence; clear H.
  pose proof (f_equal fst HR) as HW; pose proof (f_equal snd HR) as HE; cbn [fst snd] in HW, HE; destruct (check_results_in D N ks warn raise R) as (I1 & I2); exists warn, raise.
  split; [exact I1|split; [exact I2|split; [symmetry; exact HR|]]].
  split.
  - rewrite <- HE; destruct raise as [|m raise]; cbn [CliModel.report CliModel.nonempty snd]; split; try congruence.
    + intros (k & IN & KR & V); destruct (proj2 (I2 (k_message k)) ltac:(eauto)).
    + intros _; destruct (proj1 (I2 m) (or_introl eq_refl)) as (k & IN & _ & KR & V); eauto.
  - rewrite <- HW; destruct warn as [|m warn]; cbn [CliModel.report CliModel.nonempty fst]; split; try congruence.
    + intros (k & IN & KR & V); destruct (proj2 (I1 (k_message k)) ltac:(eauto)).
    + intros _; destruct (proj1 (I1 m) (or_introl eq_refl)) as (k & IN & _ & KR & V); eauto.
Qed.
Print Assumptions C47_checks.

(** Checks are made unless the condition of an active one is not accepted. *)
Theorem C47_accepted D N ks during bullet :
  check_inputs D N ks during bullet = None <->
  exists k, In k ks /\ k_active k = true /\ parse_where_text N (k_where k) = None.
Proof. unfold check_inputs; rewrite <- (check_results_none D); destruct (check_results D N ks); cbn [option_map]; split; intros X; congruence || reflexivity. Qed.
Print Assumptions C47_accepted.

Definition ex_check (w m : string) (raise active : bool) : check := {| k_where := w; k_message := m; k_raise := raise; k_active := active |}.
Example C47_example :
  (* "d" is given for an undefined technology only *)
  check_inputs ex_data ex_names [ex_check "d" "m1" true true; ex_check "c AND a" "m2" false true; ex_check "c" "m3" true false] "math checks" "* " =
    Some (Some (String.append "Possible issues found during math checks:" (String CliModel.newline "* m2")), None) /\
  violated ex_data ex_names (ex_check "c AND a" "m2" false true) /\
  (exists e, check_inputs ex_data ex_names [ex_check "c" "m" true true] "math checks" "* " = Some (None, Some e)).
Proof.
  split; [vm_compute; reflexivity|split].
  - split; [reflexivity|]; eexists; exists ["t"; "heat"]; split; [vm_compute; reflexivity|]; split; [vm_compute; auto|split; vm_compute; reflexivity].
  - eexists; vm_compute; reflexivity.
Qed.
