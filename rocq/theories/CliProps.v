(** The command line and reporting of messages: C28, C29, C30, C31, C49, C63. *)
From Coq Require Import Sorting.Sorted.
From Verif Require Import Base BaseProofs AttrDictModel ConfigModel ConfigSpec CliModel CliSpec CliNumbers CliProofs.
Local Open Scope string_scope.
Local Open Scope list_scope.

(** *** C28 *)
(** Every way of picking one override per group is a scenario, and there is nothing else; each is there as often
    as it can be picked. *)
Theorem C28_combinations overrides prefix groups : Forall2 (pieces ";"%char) overrides groups ->
  (forall c, In c (map snd (generate_scenarios overrides prefix)) <-> Forall2 (fun x g => In x g) c groups) /\
  List.length (generate_scenarios overrides prefix) = times (map (@List.length string) groups) /\
  (Forall (@NoDup string) groups -> NoDup (map snd (generate_scenarios overrides prefix))).
Proof.
  intros F; assert (E : map (split_on ";"%char) overrides = groups).
  { induction F as [|x g xs gs X F IH]; [reflexivity|]; simpl; rewrite IH; f_equal; symmetry; apply pieces_split; exact X. }
  rewrite <- E; split; [|split].
  - intros c; rewrite scenarios_snd; apply product_in.
  - rewrite <- (map_length snd), scenarios_snd; apply product_length.
  - intros N; rewrite scenarios_snd; apply product_nodup; exact N.
Qed.
Print Assumptions C28_combinations.

(** Names are distinct, count from one, and their text order is their numeric order. *)
Theorem C28_names overrides prefix :
  StronglySorted text_lt (map fst (generate_scenarios overrides prefix)) /\
  NoDup (map fst (generate_scenarios overrides prefix)) /\
  exists p, (forall s, prefix = Some s -> s <> "" -> p = s) /\
    forall k name c, nth_error (generate_scenarios overrides prefix) k = Some (name, c) -> exists s, name = (p ++ s)%string /\ number s (k + 1).
Proof.
  pose proof (scenarios_sorted overrides prefix) as S; split; [exact S|split].
  - clear -S; induction S as [|x l S IH F]; constructor; [|exact IH].
    intros I; rewrite Forall_forall in F; specialize (F x I); clear -F; induction x as [|c x IH]; inversion F; subst; [lia|auto].
  - exists (prefix_of prefix); split.
    + intros s -> N; unfold prefix_of; destruct (String.eqb_spec s ""); [contradiction|reflexivity].
    + intros k name c H; rewrite scenarios_eq, nth_error_map, enumerate_nth in H.
      destruct (nth_error (product _) k); [|discriminate]; injection H as <- <-.
      eexists; split; [reflexivity|apply numbered_number].
Qed.
Print Assumptions C28_names.

Example C28_example : Forall2 (pieces ";"%char) ["cold;mild"; "high;low;none"] [["cold"; "mild"]; ["high"; "low"; "none"]] /\
  generate_scenarios ["cold;mild"; "high;low;none"] (Some "s") =
  [("s1", ["cold"; "high"]); ("s2", ["cold"; "low"]); ("s3", ["cold"; "none"]);
   ("s4", ["mild"; "high"]); ("s5", ["mild"; "low"]); ("s6", ["mild"; "none"])].
Proof. split; [constructor; [apply pieces_split; reflexivity|constructor; [apply pieces_split; reflexivity|constructor]]|vm_compute; reflexivity]. Qed.
Example C28_example_sorting : map fst (generate_scenarios ["a;b;c;d;e;f;g;h;i;j"] None) =
  ["scenario_01"; "scenario_02"; "scenario_03"; "scenario_04"; "scenario_05"; "scenario_06"; "scenario_07"; "scenario_08"; "scenario_09"; "scenario_10"].
Proof. vm_compute; reflexivity. Qed.

(** *** C29 *)
(** Called with the number i the script executes the i-th command and nothing else, with any other argument
    nothing, without argument all commands once in order. *)
Theorem C29_script cmds print : Forall armable cmds -> (forall n, decimal (print n) n) ->
  (forall i cmd arg, nth_error cmds i = Some cmd -> decimal arg (i + 1) -> execute print (bash_script cmds) (Some arg) = [cmd]) /\
  (forall arg, (forall i, i < List.length cmds -> ~ decimal arg (i + 1)) -> execute print (bash_script cmds) (Some arg) = []) /\
  execute print (bash_script cmds) None = cmds.
Proof.
  intros F P; unfold execute; change (ascii_of_nat 10) with newline; rewrite (arms_script cmds F).
  split; [|split].
  - intros i cmd arg H D; rewrite (process_decimal cmds arg _ D), Nat.add_1_r, H; reflexivity.
  - intros arg N.
    assert (C : (exists n, decimal arg n) \/ forall n, ~ decimal arg n).
    { destruct (string_dec arg (str (value arg))) as [E|E]; [left; exists (value arg); rewrite E at 1; apply str_decimal|right].
      intros n D; apply E; destruct (proj1 D) as [_ [_ V]]; rewrite V; apply (decimal_unique _ _ n); [exact D|apply str_decimal]. }
    destruct C as [[n D]|C]; [|apply process_other; exact C].
    rewrite (process_decimal cmds arg n D); destruct n as [|n]; [reflexivity|].
    destruct (nth_error cmds n) eqn:G; [|reflexivity]; exfalso; apply (N n); [apply nth_error_Some; congruence|rewrite Nat.add_1_r; exact D].
  - rewrite loop_script by (eapply Forall_impl; [|exact F]; intros a [H _]; exact H).
    destruct (str_number (List.length cmds)) as [_ [_ V]]; rewrite V.
    transitivity (flat_map (fun i => match i with 0 => [] | S k => match nth_error ([] ++ cmds) k with Some c => [c] | None => [] end end) (seq 1 (List.length cmds))).
    + apply flat_map_ext; intros i; apply process_decimal, P.
    + apply (flat_nth cmds []).
Qed.
Print Assumptions C29_script.

(** The i-th command runs the i-th scenario; no two commands write to the same file. *)
Theorem C29_commands file args overrides runs : exists outs tail,
  List.length outs = List.length runs /\ NoDup outs /\ List.length (commands file args overrides runs) = List.length runs /\
  forall i r o, nth_error runs i = Some r -> nth_error outs i = Some o ->
    nth_error (commands file args overrides runs) i =
    Some ("calliope run " ++ file ++ " --scenario " ++ r ++ " --save_netcdf " ++ o ++ tail)%string.
Proof.
  exists (map (fun ir => out_name (List.length runs) (fst ir) (snd ir)) (enumerate 0 runs)).
  exists (match given overrides with Some s => " --override_dict=" ++ String """"%char s ++ String """"%char "" | None => "" end
   ++ match given args with Some s => " " ++ s | None => "" end)%string.
  split; [rewrite map_length, <- (map_length fst), enumerate_fst, seq_length; reflexivity|split; [|split; [apply commands_length|]]].
  - apply nodup_map_on.
    + apply (NoDup_map_inv fst); rewrite enumerate_fst; apply seq_NoDup.
    + intros [i r] [j q] X Y E; cbn [fst snd] in E.
      assert (X' := in_map fst _ _ X); assert (Y' := in_map fst _ _ Y); rewrite enumerate_fst in X', Y'; cbn [fst] in X', Y'.
      apply in_seq in X'; apply in_seq in Y'; apply out_name_inj in E; [|lia|lia]; subst j.
      apply In_nth_error in X; apply In_nth_error in Y; destruct X as [k X], Y as [l Y]; rewrite enumerate_nth in X, Y.
      destruct (nth_error runs k) eqn:G1; [|discriminate]; destruct (nth_error runs l) eqn:G2; [|discriminate].
      injection X as X ->; injection Y as Y ->; f_equal; assert (k = l) by lia; subst l; congruence.
  - intros i r o H G; rewrite commands_nth, H; rewrite nth_error_map, enumerate_nth, H in G; injection G as <-; cbn [fst snd].
    unfold command; cbn [Nat.add]; rewrite !append_assoc; reflexivity.
Qed.
Print Assumptions C29_commands.

(** As words of a shell, for names without spaces. Missing for the full property: names with spaces or other
    characters that are special to the shell, which are not quoted. *)
Theorem C29_words_partial file args overrides total i r : has_char " "%char file = false -> has_char " "%char r = false ->
  exists o rest, split_on " "%char (command file args overrides total i r) =
    ["calliope"; "run"; file; "--scenario"; r; "--save_netcdf"; o] ++ rest.
Proof.
  intros F R; exists (out_name total i r); unfold command.
  set (tail := (match given overrides with Some s => " --override_dict=" ++ String """"%char s ++ String """"%char "" | None => "" end
   ++ match given args with Some s => " " ++ s | None => "" end)%string).
  assert (O : has_char " "%char (out_name total i r) = false).
  { unfold out_name; rewrite !has_char_app, R, (has_char_digits " "%char (numbered total (i + 1))); [reflexivity|apply numbered_number|].
    apply not_digit; left; change (nat_of_ascii " "%char) with 32; lia. }
  assert (T : exists rest, split_on " "%char (out_name total i r ++ tail) = out_name total i r :: rest).
  { assert (TT : tail = "" \/ exists t, tail = String " "%char t).
    { unfold tail; destruct (given overrides); [right; eexists; reflexivity|]; destruct (given args); [right; eexists; reflexivity|left; reflexivity]. }
    destruct TT as [-> | [t ->]]; [exists []; rewrite append_nil; apply split_on_nochar; exact O|].
    rewrite split_app_char by exact O; exists (split_on " "%char t); reflexivity. }
  destruct T as [rest T]; exists rest; rewrite !append_assoc.
  change ("calliope run " ++ file ++ " --scenario " ++ r ++ " --save_netcdf " ++ out_name total i r ++ tail)%string
    with ("calliope" ++ String " "%char ("run" ++ String " "%char (file ++ String " "%char ("--scenario" ++ String " "%char (r ++ String " "%char ("--save_netcdf" ++ String " "%char (out_name total i r ++ tail)))))))%string.
  rewrite !split_app_char by (reflexivity || assumption); rewrite T; reflexivity.
Qed.
Print Assumptions C29_words_partial.

Theorem C29_unquoted_refuted : exists file r, has_char newline r = false /\
  nth_error (split_on " "%char (command file None None 1 0 r)) 3 = Some "--scenario" /\
  nth_error (split_on " "%char (command file None None 1 0 r)) 4 <> Some r /\
  nth_error (split_on " "%char (command file None None 1 0 r)) 5 <> Some "--save_netcdf".
Proof. exists "model.yaml", "cold winter"; split; [reflexivity|split; [reflexivity|split; vm_compute; discriminate]]. Qed.
Print Assumptions C29_unquoted_refuted.

Example C29_example : exists cmds, commands "m.yaml" None (Some "{a: 1}") ["cold"; "mild"] = cmds /\ Forall armable cmds /\
  cmds = ["calliope run m.yaml --scenario cold --save_netcdf out_1_cold.nc --override_dict=""{a: 1}""";
          "calliope run m.yaml --scenario mild --save_netcdf out_2_mild.nc --override_dict=""{a: 1}"""] /\
  execute str (bash_script cmds) (Some "2") = [nth 1 cmds ""] /\ execute str (bash_script cmds) None = cmds.
Proof.
  eexists; split; [reflexivity|split; [|split; [vm_compute; reflexivity|split; vm_compute; reflexivity]]].
  assert (A : forall s, has_char ";"%char s = false -> one_line s -> armable s).
  { intros s N O; split; [exact O|]; intros a b ->; rewrite has_char_app in N; destruct (has_char ";"%char a); discriminate N. }
  repeat constructor; try (vm_compute; reflexivity); apply A; vm_compute; reflexivity.
Qed.
Example C29_example_print : forall n, decimal (str n) n.
Proof. exact str_decimal. Qed.

(** *** C30 *)
(** The time written is the time given modulo one day.  Missing for the full property: a day or longer. *)
Theorem C30_time_partial seconds : seconds < 24 * 3600 -> read_clock (cluster_time seconds) = Some seconds.
Proof.
  intros L; unfold read_clock, cluster_time.
  assert (N : forall k n, has_char ":"%char (pad k (str n)) = false).
  { intros k n; apply has_char_digits; [exact (proj1 (proj2 (pad_number k (str n) n (str_number n))))|apply not_digit; right; change (nat_of_ascii ":"%char) with 58; lia]. }
  set (h := (seconds / 3600) mod 24); set (m := (seconds / 60) mod 60); set (x := seconds mod 60).
  change ((pad 2 (str h) ++ ":" ++ pad 2 (str m) ++ ":" ++ pad 2 (str x))%string)
    with (pad 2 (str h) ++ String ":"%char (pad 2 (str m) ++ String ":"%char (pad 2 (str x))))%string.
  rewrite !split_app_char by apply N; rewrite (split_on_nochar _ _ (N 2 x)).
  assert (V : forall k n, value (pad k (str n)) = n) by (intros k n; exact (proj2 (proj2 (pad_number k (str n) n (str_number n))))).
  rewrite !V; f_equal; subst h m x.
  rewrite (Nat.mod_small (seconds / 3600) 24) by (apply Nat.div_lt_upper_bound; lia).
  pose proof (Nat.div_mod seconds 60 ltac:(lia)) as A; pose proof (Nat.div_mod (seconds / 60) 60 ltac:(lia)) as B.
  rewrite Nat.div_div in B by lia; change (60 * 60) with 3600 in B; lia.
Qed.
Print Assumptions C30_time_partial.

Theorem C30_long_refuted : exists seconds, exists n, read_clock (cluster_time seconds) = Some n /\ n <> seconds.
Proof. exists (25 * 3600), 3600; split; [|discriminate]. unfold cluster_time.
  change (25 * 3600 / 3600) with 25; change (25 * 3600 / 60) with 1500; change ((25 * 3600) mod 60) with 0. vm_compute; reflexivity.
Qed.
Print Assumptions C30_long_refuted.
Example C30_example : cluster_time (90 * 60) = "01:30:00" /\ read_clock "01:30:00" = Some (90 * 60).
Proof. split; vm_compute; reflexivity. Qed.

(** *** C31 *)
(** The options have no influence on the solve configuration, which has no part called "solve"; were the name
    refused rather than ignored, the call would fail. *)
Theorem C31_no_influence o parent sp fields sc config : ~ In "solve" fields ->
  solve_update true fields sc config (solve_options o parent sp) = solve_update true fields sc config [].
Proof.
  intros N; assert (S : smem "solve" fields = false) by (destruct (smem "solve" fields) eqn:E; [apply smem_in in E; contradiction|reflexivity]).
  unfold solve_options; destruct (given (save_logs o)) as [l|]; destruct (given (save_netcdf o)) as [n|]; try destruct sp; unfold solve_update; cbn; unfold known_only; cbn; rewrite ?S; reflexivity.
Qed.
Print Assumptions C31_no_influence.

Definition ex_schema : schema :=
  SModel [("solve", (VDict [], SModel [("save_logs", (VNone, SLeaf Ok)); ("solver", (VStr "cbc", SLeaf Ok))] (fun _ => true)))] (fun _ => true).
Definition ex_config : obj := OModel [("solve", OModel [("save_logs", OLeaf VNone); ("solver", OLeaf (VStr "cbc"))])].
Definition ex_options : options :=
  {| model_file := "model.yaml"; scenario := None; fmt := None; override_dict := None; save_netcdf := None; save_csv := Some "out";
     save_logs := Some "logs"; save_lp := None; fail_when_infeasible := false |}.

(** Given the option --save_logs, the directory does not arrive in the configuration, with either treatment of
    unknown names; passed under its own name it would. *)
Theorem C31_save_logs_refuted : exists o fields sc config dir, save_logs o = Some dir /\ instance sc config /\
  (forall ignore r, solve_update ignore fields sc config (solve_options o (fun s => s) false) = Ok r -> ~ setting r ["solve"; "save_logs"] (VStr dir)) /\
  (exists r, solve_update true fields sc config (solve_options o (fun s => s) false) = Ok r) /\
  (exists r, solve_update false fields sc config [("save_logs", VStr dir)] = Ok r /\ setting r ["solve"; "save_logs"] (VStr dir)).
Proof.
  exists ex_options, ["save_logs"; "solver"], ex_schema, ex_config, "logs".
  split; [reflexivity|split; [reflexivity|split; [|split]]].
  - intros [|] r H; vm_compute in H; [|discriminate]; injection H as <-; intros S.
    inversion S as [|fs k ob p v I S1|]; subst; destruct I as [E|[]]; injection E as <-.
    inversion S1 as [|fs1 k1 ob1 p1 v1 I1 S2|]; subst; destruct I1 as [E|[E|[]]]; try discriminate; injection E as <-; inversion S2.
  - eexists; vm_compute; reflexivity.
  - eexists; split; [vm_compute; reflexivity|]; apply (set_field _ "solve" (OModel [("save_logs", OLeaf (VStr "logs")); ("solver", OLeaf (VStr "cbc"))])); [left; reflexivity|].
    apply (set_field _ "save_logs" (OLeaf (VStr "logs"))); [left; reflexivity|constructor].
Qed.
Print Assumptions C31_save_logs_refuted.

(** *** C63 *)
(** An option that is given and not empty. *)
Definition set_to (o : option string) (s : string) : Prop := o = Some s /\ s <> "".
Lemma given_set o s : given o = Some s <-> set_to o s.
Proof.
  unfold given, set_to; destruct o as [x|]; [|split; [discriminate|intros [H _]; discriminate]].
  destruct (String.eqb_spec x "") as [->|N]; split; [discriminate|intros [H X]; injection H as <-; contradiction| |].
  - intros H; injection H as ->; auto.
  - intros [H _]; injection H as ->; reflexivity.
Qed.
Definition saves (e : effect) : Prop := match e with ToCsv _ | ToNetcdf _ => True | _ => False end.
Definition solves (e : effect) : Prop := match e with Solve _ => True | _ => False end.
Definition loads (e : effect) : Prop := match e with LoadYaml _ _ _ | LoadNetcdf _ => True | _ => False end.

Lemma setup_loads o es r : setup o = (es, r) -> Forall loads es /\ (r = Ok tt -> exists e, es = [e]) /\ (forall e, r = Err e -> es = []).
Proof.
  unfold setup; destruct (model_format (model_file o) (fmt o)) as [[|]|e]; intros H.
  - injection H as <- <-; split; [repeat constructor|split; [eauto|discriminate]].
  - destruct (scenario o), (override_dict o); injection H as <- <-; (split; [repeat constructor|split; [eauto; discriminate|try discriminate; reflexivity]]).
  - injection H as <- <-; split; [constructor|split; [discriminate|reflexivity]].
Qed.

(** With an LP target the model is built, written and neither solved nor saved. *)
Theorem C63_lp_only o parent sp term f : set_to (save_lp o) f ->
  Forall (fun e => ~ solves e /\ ~ saves e) (fst (run o parent sp term)) /\
  (snd (run o parent sp term) = Ok tt -> exists e, fst (run o parent sp term) = [e; Build; ToLp f] /\ loads e).
Proof.
  intros L; apply given_set in L; unfold run; destruct (setup o) as [es [u|e]] eqn:S; destruct (setup_loads o es _ S) as [F [A B]].
  - rewrite L; cbn [fst snd]; destruct (A ltac:(destruct u; reflexivity)) as [e ->]; split.
    + inversion F; subst; repeat constructor; simpl; auto; destruct e; simpl in *; tauto.
    + intros _; exists e; inversion F; subst; auto.
  - cbn [fst snd]; rewrite (B e eq_refl); split; [constructor|discriminate].
Qed.
Print Assumptions C63_lp_only.

(** Otherwise a model that could be loaded is built, solved once and saved where asked, whatever the outcome;
    the command fails exactly if asked to and the termination is not "optimal". *)
Theorem C63_run o parent sp term es : (forall f, ~ set_to (save_lp o) f) -> setup o = (es, Ok tt) ->
  exists opts post, fst (run o parent sp term) = es ++ [Build; Solve opts] ++ post /\ Forall saves post /\
    (forall d, In (ToCsv d) post <-> set_to (save_csv o) d) /\ (forall f, In (ToNetcdf f) post <-> set_to (save_netcdf o) f) /\
    (snd (run o parent sp term) = Ok tt <-> (fail_when_infeasible o = false \/ term = "optimal")).
Proof.
  intros L S; unfold run; rewrite S.
  destruct (given (save_lp o)) as [f|] eqn:G; [apply given_set in G; exfalso; exact (L f G)|].
  cbn [fst snd]; eexists; eexists; split; [reflexivity|].
  assert (T : (if fail_when_infeasible o && negb (String.eqb term "optimal") then Err EBackend else Ok tt) = Ok tt <-> fail_when_infeasible o = false \/ term = "optimal").
  { destruct (fail_when_infeasible o), (String.eqb_spec term "optimal"); cbn [andb negb]; split; try tauto; try discriminate; intros [|]; discriminate || contradiction. }
  split; [|split; [|split; [|exact T]]].
  - destruct (given (save_csv o)), (given (save_netcdf o)); repeat constructor.
  - intros d; rewrite <- given_set; destruct (given (save_csv o)), (given (save_netcdf o)); cbn [app In]; split; intros H; repeat (destruct H as [H|H]); try discriminate; try contradiction; try (injection H as ->); auto; discriminate.
  - intros d; rewrite <- given_set; destruct (given (save_csv o)), (given (save_netcdf o)); cbn [app In]; split; intros H; repeat (destruct H as [H|H]); try discriminate; try contradiction; try (injection H as ->); auto; discriminate.
Qed.
Print Assumptions C63_run.

(** A pre-built model cannot be combined with a scenario or overrides. *)
Theorem C63_prebuilt o parent sp term : model_format (model_file o) (fmt o) = Ok Netcdf ->
  (scenario o <> None \/ override_dict o <> None) -> run o parent sp term = ([], Err EValue).
Proof. intros M H; unfold run, setup; rewrite M; destruct (scenario o), (override_dict o); try reflexivity; destruct H; congruence. Qed.
Print Assumptions C63_prebuilt.

(** A feasible result (accepted by [Model.solve], model.py:377) is reported as infeasible. *)
Theorem C63_feasible_refuted : exists o, snd (run o (fun s => s) false "feasible") = Err EBackend /\ In (ToCsv "out") (fst (run o (fun s => s) false "feasible")).
Proof.
  exists {| model_file := "model.yaml"; scenario := None; fmt := None; override_dict := None; save_netcdf := None; save_csv := Some "out";
     save_logs := None; save_lp := None; fail_when_infeasible := true |}; split; vm_compute; auto.
Qed.
Print Assumptions C63_feasible_refuted.

Example C63_example : (forall f, ~ set_to (save_lp ex_options) f) /\ setup ex_options = ([LoadYaml "model.yaml" None None], Ok tt) /\
  run ex_options (fun s => s) false "optimal" = ([LoadYaml "model.yaml" None None; Build; Solve [("solve.save_logs", VStr "logs")]; ToCsv "out"], Ok tt).
Proof. split; [intros f [H _]; discriminate|split; vm_compute; reflexivity]. Qed.

(** *** C49 *)
(** Errors given as a list: one exception that lists each distinct message once, in order, as an item. *)
Theorem C49_list_partial warnings errors during bullet : errors <> [] -> Forall (simple_message bullet) errors ->
  exists items, increasing items /\ same_set items errors /\
    snd (report warnings (Some (Plain errors)) during bullet) =
    Some ("Errors during " ++ during ++ ":" ++ String newline (join_on newline (map (fun s => bullet ++ s) items)))%string.
Proof.
  intros NE F; destruct (sort_spec errors) as [I S]; exists (sort_strings errors); split; [exact I|split; [exact S|]].
  unfold report; cbn [snd]; destruct errors as [|e errors]; [congruence|]; cbn [nonempty].
  unfold indenter; rewrite indent_plain; [reflexivity|apply sort_nonempty; discriminate|apply sort_forall; exact F].
Qed.
Print Assumptions C49_list_partial.

(** Warnings are given in the same way, whether or not there are errors. *)
Theorem C49_warnings_partial warnings errors during bullet : warnings <> [] -> Forall (simple_message bullet) warnings ->
  exists items, increasing items /\ same_set items warnings /\
    fst (report (Some (Plain warnings)) errors during bullet) =
    Some ("Possible issues found during " ++ during ++ ":" ++ String newline (join_on newline (map (fun s => bullet ++ s) items)))%string.
Proof.
  intros NE F; destruct (sort_spec warnings) as [I S]; exists (sort_strings warnings); split; [exact I|split; [exact S|]].
  unfold report; cbn [fst]; destruct warnings as [|e warnings]; [congruence|]; cbn [nonempty].
  unfold indenter; rewrite indent_plain; [reflexivity|apply sort_nonempty; discriminate|apply sort_forall; exact F].
Qed.
Print Assumptions C49_warnings_partial.

(** Errors given by group: the items under the group's name, each once, in order. *)
Theorem C49_groups_partial warnings groups during bullet : groups <> [] -> bullet <> "" -> one_line bullet ->
  Forall (fun g => simple_message bullet (fst g ++ ":") /\ Forall one_line (snd g)) groups ->
  exists items : list (list string), Forall2 (fun l g => increasing l /\ same_set l (snd g)) items groups /\
    snd (report warnings (Some (Grouped groups)) during bullet) =
    Some ("Errors during " ++ during ++ ":" ++ String newline (join_on newline (flat_map (fun gl =>
       (bullet ++ fst (fst gl) ++ ":") :: map (fun s => spaces (String.length bullet) ++ bullet ++ s) (snd gl)) (combine groups items))))%string.
Proof.
  intros NE NB OB F; exists (map (fun g => sort_strings (snd g)) groups); split.
  { clear; induction groups as [|g gs IH]; constructor; [apply sort_spec|exact IH]. }
  unfold report; cbn [snd]; destruct groups as [|g0 gs0] eqn:GE; [congruence|]; cbn [nonempty]; rewrite <- GE in *; clear GE g0 gs0.
  do 4 f_equal; unfold indenter, indent; rewrite split_join.
  - apply (f_equal (String newline)), (f_equal (join_on newline)); clear NE; induction F as [|g gs [K O] F IH]; [reflexivity|]; cbn [flat_map map combine fst snd app].
    destruct (simple_line _ _ K) as [KN KP]; rewrite indent_cons by exact KN; rewrite KP; f_equal.
    rewrite (map_ext (fun i => (spaces (String.length bullet) ++ bullet ++ i)%string) (fun i => ((spaces (String.length bullet) ++ bullet) ++ i)%string)) by (intros; rewrite append_assoc; reflexivity).
    rewrite sort_map_prefix.
    rewrite (map_ext (fun i => ((spaces (String.length bullet) ++ bullet) ++ i)%string) (fun i => (spaces (String.length bullet) ++ bullet ++ i)%string)) by (intros; rewrite append_assoc; reflexivity).
    rewrite indent_items by exact NB; f_equal; exact IH.
  - destruct groups; [congruence|discriminate].
  - apply Forall_forall; intros x X; apply in_flat_map in X; destruct X as [g [G [<-|X]]]; rewrite Forall_forall in F; destruct (F g G) as [[_ [K _]] O]; [exact K|].
    destruct (sort_spec (map (fun i => (spaces (String.length bullet) ++ bullet ++ i)%string) (snd g))) as [_ S]; apply S in X.
    apply in_map_iff in X; destruct X as [i [<- I]]; rewrite Forall_forall in O; pose proof (O i I) as OI; unfold one_line in OB, OI; change (ascii_of_nat 10) with newline in OB, OI.
    rewrite !has_char_app, spaces_one, OI, OB; reflexivity.
Qed.
Print Assumptions C49_groups_partial.

(** Without errors nothing is raised, whatever the warnings; with a non-empty list something always is. *)
Theorem C49_raised warnings during bullet :
  snd (report warnings None during bullet) = None /\ snd (report warnings (Some (Plain [])) during bullet) = None /\
  (forall errors, errors <> [] -> snd (report warnings (Some (Plain errors)) during bullet) <> None) /\
  (forall errors ws, snd (report ws errors during bullet) = snd (report warnings errors during bullet)).
Proof.
  split; [reflexivity|split; [reflexivity|split; [|reflexivity]]].
  intros [|e errors] N; [congruence|discriminate].
Qed.
Print Assumptions C49_raised.

(** Groups without any error raise an exception. *)
Theorem C49_empty_group_refuted : exists groups : list (string * list string), flat_map snd groups = [] /\
  snd (report None (Some (Grouped groups)) "model processing" " * ") <> None.
Proof. exists [("techs", [])]; split; [reflexivity|discriminate]. Qed.
Print Assumptions C49_empty_group_refuted.

(** A message of two lines cannot be told from two messages. *)
Theorem C49_multiline_refuted : exists a b, ~ same_set a b /\
  report None (Some (Plain a)) "model processing" " * " = report None (Some (Plain b)) "model processing" " * ".
Proof.
  exists ["first" ++ String newline "second"]%string, ["first"; "second"]; split; [|vm_compute; reflexivity].
  intros S; destruct (proj2 (S "first") (or_introl eq_refl)) as [E|[]]; discriminate.
Qed.
Print Assumptions C49_multiline_refuted.

Lemma ex_simple s c t : s = String c t -> c <> " "%char -> one_line s -> simple_message " * " s.
Proof.
  intros -> N O; split; [discriminate|split; [exact O|split]].
  - intros u E; injection E as E _; congruence.
  - exists 0, c, t; split; [simpl; lia|split; [reflexivity|exact N]].
Qed.
Example C49_example : Forall (simple_message " * ") ["b"; "a"; "b"] /\
  snd (report None (Some (Plain ["b"; "a"; "b"])) "x" " * ") = Some ("Errors during x:" ++ String newline (" * a" ++ String newline " * b"))%string.
Proof.
  split; [|vm_compute; reflexivity].
  repeat constructor; try discriminate; (eapply ex_simple; [reflexivity|discriminate|reflexivity]).
Qed.
Example C49_example_groups : Forall (fun g => simple_message " * " (fst g ++ ":") /\ Forall one_line (snd g)) [("k", ["y"; "x"; "y"])] /\
  snd (report None (Some (Grouped [("k", ["y"; "x"; "y"])])) "x" " * ") =
  Some ("Errors during x:" ++ String newline (" * k:" ++ String newline ("    * x" ++ String newline "    * y")))%string.
Proof.
  split; [|vm_compute; reflexivity].
  constructor; [|constructor]; split; [eapply ex_simple; [reflexivity|discriminate|reflexivity]|repeat constructor].
Qed.
