(** Property theorems C14: configuration updates. *)
From Verif Require Import Base BaseProofs AttrDictModel AttrDictSpec AttrDictProofs ConfigModel ConfigSpec ConfigProofs ConfigUpdate.
Local Open Scope string_scope.
Local Open Scope list_scope.

(** Exactly the addressed settings change: a setting mentioned in the update gets the
    validated new value, every other one keeps its value, none appears or disappears.
    Missing from the full property: updates that add entries to a dictionary, replace
    lists, or name unknown fields.  That the original object stays untouched is built into
    the model (objects are values), not proved. *)
Theorem C14_update_local_partial sc o u d r :
  steady sc -> neat o -> instance sc o -> init_from_dict u = Ok d -> wf (VDict d) -> addresses o (VDict d) ->
  update_api sc o u = Ok r ->
  instance sc r /\ (forall p x, setting o p x -> exists v, setting r p v) /\
  forall p v, setting r p v <->
    exists x, setting o p x /\
      ((exists w c, at_path (VDict d) p w /\ checker sc p c /\ c w = Ok v) \/
       ((~ exists w, at_path (VDict d) p w) /\ v = x)).
Proof.
  intros St Nt Iz E W Ad U; unfold update_api in U; rewrite E in U; cbn [bind] in U.
  destruct (update_spec (VDict d) sc o r eq_refl W St Nt Iz Ad U) as [I [_ [P H]]]; auto.
Qed.
Print Assumptions C14_update_local_partial.

(** An update is accepted exactly when every value it gives is accepted by the validator of
    its setting (classes without a whole-object validator). *)
Theorem C14_update_accepted_iff sc o d :
  steady sc -> neat o -> instance sc o -> (forall x, o <> OLeaf x) -> unguarded sc ->
  wf (VDict d) -> addresses o (VDict d) ->
  ((exists r, update sc o (VDict d) = Ok r) <->
   forall p w c x, setting o p x -> at_path (VDict d) p w -> checker sc p c -> exists y, c w = Ok y).
Proof.
  intros St Nt Iz NL Ug W Ad; split.
  - intros [r U] p w c x Hx Hw Hc.
    destruct (update_checked (VDict d) sc o r eq_refl W St Nt Iz Ad U p w x Hx Hw) as [c' [y [Hc' [E _]]]].
    assert (c = c'); [|subst; eauto].
    clear -St Hc Hc'; revert sc St Hc Hc'; induction p as [|k p IH]; intros sc St H1 H2.
    + inversion H1; subst; inversion H2; reflexivity.
    + inversion H1; subst; inversion H2; subst.
      * inversion St as [| |? ? NF Fs|]; subst; rewrite Forall_forall in Fs.
        match goal with A : In (k, (?d1, ?s1)) fs, B : In (k, (?d2, ?s2)) fs |- _ =>
          pose proof (d_in_get _ _ _ NF A) as E1; pose proof (d_in_get _ _ _ NF B) as E2; rewrite E1 in E2; injection E2 as -> -> end.
        eapply IH; [|eassumption|eassumption].
        match goal with A : In (k, (?d1, ?s1)) fs |- _ => exact (Fs _ A) end.
      * inversion St; subst; eapply IH; eauto.
  - intros CK; exact (update_succeeds (VDict d) sc o eq_refl W St Nt Iz NL Ad Ug CK).
Qed.
Print Assumptions C14_update_accepted_iff.

(** Two updates one after the other, or one update combining them (the second winning where
    both mention a setting): same settings. *)
Theorem C14_one_by_one_or_at_once sc o d1 d2 d3 o1 o2 :
  steady sc -> neat o -> instance sc o -> unguarded sc -> (forall x, o <> OLeaf x) ->
  wf (VDict d1) -> wf (VDict d2) -> wf (VDict d3) ->
  addresses o (VDict d1) -> addresses o1 (VDict d2) -> addresses o (VDict d3) ->
  (forall p x w, setting o p x ->
     (at_path (VDict d3) p w <->
      at_path (VDict d2) p w \/ (at_path (VDict d1) p w /\ ~ exists y, at_path (VDict d2) p y))) ->
  update sc o (VDict d1) = Ok o1 -> update sc o1 (VDict d2) = Ok o2 ->
  exists o3, update sc o (VDict d3) = Ok o3 /\ forall p v, setting o3 p v <-> setting o2 p v.
Proof.
  intros St Nt Iz Ug NL W1 W2 W3 A1 A2 A3 C U1 U2.
  exact (update_twice sc o (VDict d1) (VDict d2) (VDict d3) o1 o2 St Nt Iz Ug NL eq_refl eq_refl eq_refl W1 W2 W3 A1 A2 A3 C U1 U2).
Qed.
Print Assumptions C14_one_by_one_or_at_once.

(** An excerpt of the configuration classes (schemas/config_schema.py:130-246). *)
Definition chk_str (v : val) : result val := match v with VStr _ => Ok v | _ => Err EValue end.
Definition chk_bool (v : val) : result val :=
  match v with VBool _ => Ok v | VInt 0 => Ok (VBool false) | VInt 1 => Ok (VBool true) | _ => Err EValue end.
Definition chk_dict (v : val) : result val := match v with VDict _ => Ok v | _ => Err EValue end.
Definition any_ok (d : dict) : bool := true.
Definition build_schema : schema :=
  SModel [("backend", (VStr "pyomo", SLeaf chk_str));
          ("ensure_feasibility", (VBool false, SLeaf chk_bool));
          ("operate", (VDict [], SModel [("window", (VStr "24h", SLeaf chk_str)); ("horizon", (VStr "48h", SLeaf chk_str))] any_ok))] any_ok.
Definition solve_schema : schema :=
  SModel [("solver", (VStr "cbc", SLeaf chk_str)); ("solver_options", (VDict [], SLeaf chk_dict))] any_ok.
Definition config_schema : schema :=
  SModel [("build", (VDict [], build_schema)); ("solve", (VDict [], solve_schema))] any_ok.
Definition ex_config : obj :=
  OModel [("build", OModel [("backend", OLeaf (VStr "pyomo")); ("ensure_feasibility", OLeaf (VBool false));
                            ("operate", OModel [("window", OLeaf (VStr "24h")); ("horizon", OLeaf (VStr "48h"))])]);
          ("solve", OModel [("solver", OLeaf (VStr "cbc")); ("solver_options", OLeaf (VDict [("tol", VInt 1)]))])].

Example C14_example_instance : instance config_schema ex_config.
Proof. reflexivity. Qed.
Example C14_example_steady : steady config_schema.
Proof.
  assert (S1 : steady (SLeaf chk_str)) by (apply st_leaf; intros v x H; destruct v; simpl in H; inversion H; subst; reflexivity).
  assert (S2 : steady (SLeaf chk_bool)).
  { apply st_leaf; intros [| |z| | |] x H; simpl in H; try discriminate H; [injection H as <-; reflexivity|].
    destruct z as [|[| |]|]; try discriminate H; injection H as <-; reflexivity. }
  assert (S3 : steady (SLeaf chk_dict)) by (apply st_leaf; intros v x H; destruct v; simpl in H; inversion H; subst; reflexivity).
  unfold config_schema, build_schema, solve_schema.
  assert (forall l : list string, forallb (fun x => Nat.eqb (count_occ string_dec l x) 1) l = true -> NoDup l) as ND.
  { intros l H; apply (NoDup_count_occ string_dec); intros x.
    destruct (in_dec string_dec x l) as [I|N]; [rewrite forallb_forall in H; specialize (H x I); apply Nat.eqb_eq in H; lia|].
    apply (count_occ_not_In string_dec) in N; lia. }
  repeat first [exact S1|exact S2|exact S3|apply st_model; [apply ND; reflexivity|]|apply Forall_cons; cbn [snd]|apply Forall_nil].
Qed.
Example C14_example_neat : neat ex_config.
Proof. unfold ex_config; repeat first [apply nt_leaf|apply nt_model|apply Forall_cons; cbn [snd]|apply Forall_nil]. Qed.
Definition ex_update : dict :=
  [("build.operate.window", VStr "12h"); ("build", VDict [("ensure_feasibility", VInt 1)]); ("solve.solver", VStr "gurobi")].
Example C14_example : update_api config_schema ex_config ex_update = Ok
  (OModel [("build", OModel [("backend", OLeaf (VStr "pyomo")); ("ensure_feasibility", OLeaf (VBool true));
                            ("operate", OModel [("window", OLeaf (VStr "12h")); ("horizon", OLeaf (VStr "48h"))])]);
          ("solve", OModel [("solver", OLeaf (VStr "gurobi")); ("solver_options", OLeaf (VDict [("tol", VInt 1)]))])]).
Proof. reflexivity. Qed.
Example C14_example_addresses : exists d, init_from_dict ex_update = Ok d /\ wf (VDict d) /\ addresses ex_config (VDict d).
Proof.
  exists [("build", VDict [("operate", VDict [("window", VStr "12h")]); ("ensure_feasibility", VInt 1)]);
          ("solve", VDict [("solver", VStr "gurobi")])].
  split; [reflexivity|split; [apply wfb_wf; reflexivity|]]; unfold ex_config.
  repeat (first [apply ad_leaf|apply ad_model; intros k v H; simpl in H;
    repeat match goal with H : _ \/ _ |- _ => destruct H as [H|H] end; try contradiction; injection H as <- <-;
    eexists; (split; [simpl; first [left; reflexivity|right; left; reflexivity|right; right; left; reflexivity]|])]).
Qed.
Example C14_example_refused : update_api config_schema ex_config [("build.operate.window", VInt 3)] = Err EValue.
Proof. reflexivity. Qed.

(** A dotted key reaching into a setting that holds a dictionary replaces the whole
    dictionary: entries that the update does not mention are lost. *)
Theorem C14_inside_dictionary_refuted :
  exists sc o r, steady sc /\ instance sc o /\
    update_api sc o [("solve.solver_options.threads", VInt 4)] = Ok r /\
    setting o ["solve"; "solver_options"] (VDict [("tol", VInt 1)]) /\
    setting r ["solve"; "solver_options"] (VDict [("threads", VInt 4)]).
Proof.
  exists config_schema, ex_config; eexists; split; [exact C14_example_steady|split; [reflexivity|split; [reflexivity|]]].
  split; repeat (eapply set_field; [simpl; auto|]); apply set_here.
Qed.
Print Assumptions C14_inside_dictionary_refuted.

(** The same for a dictionary inside a dictionary of user-defined keys, such as a math file
    among the initial math (schemas/math_schema.py:492-495). *)
Theorem C14_nested_dictionary_refuted :
  exists sc o r, steady sc /\ instance sc o /\ neat o /\
    update_api sc o [("init.mine.a", VInt 4)] = Ok r /\
    setting o ["init"; "mine"; "b"] (VInt 1) /\ forall v, ~ setting r ["init"; "mine"; "b"] v.
Proof.
  exists (SModel [("init", (VDict [], SDict (SDict (SLeaf (fun v => Ok v)))))] any_ok),
    (OModel [("init", ODict [("mine", ODict [("a", OLeaf (VInt 0)); ("b", OLeaf (VInt 1))])])]).
  eexists; split; [|split; [reflexivity|split; [|split; [reflexivity|split]]]].
  - apply st_model; [repeat constructor; simpl; tauto|]; apply Forall_cons; [|apply Forall_nil]; cbn [snd].
    apply st_dict, st_dict, st_leaf; congruence.
  - apply nt_model; apply Forall_cons; [|apply Forall_nil]; cbn [snd].
    apply nt_dict; [repeat constructor; simpl; tauto|]; apply Forall_cons; [|apply Forall_nil]; cbn [snd].
    apply nt_dict; [repeat constructor; simpl; intuition discriminate|].
    repeat (apply Forall_cons; [apply nt_leaf|]); apply Forall_nil.
  - eapply set_field; [left; reflexivity|]; eapply set_entry; [left; reflexivity|].
    eapply set_entry; [right; left; reflexivity|apply set_here].
  - intros v H.
    repeat match goal with
    | H : setting _ (_ :: _) _ |- _ => inversion H; subst; clear H
    | H : In _ (_ :: _) |- _ => destruct H as [H|H]
    | H : In _ [] |- _ => destruct H
    | H : (_, _) = (_, _) |- _ => injection H; clear H; intros; subst; try discriminate
    end.
Qed.
Print Assumptions C14_nested_dictionary_refuted.

(** A misspelt setting with the value None is accepted without notice. *)
Theorem C14_unknown_none_refuted :
  exists sc o, steady sc /\ instance sc o /\ update_api sc o [("build.opperate", VNone)] = Ok o /\
    ~ exists x, setting o ["build"; "opperate"] x.
Proof.
  exists config_schema, ex_config; split; [exact C14_example_steady|split; [reflexivity|split; [reflexivity|]]].
  intros [x H].
  repeat match goal with
  | H : setting _ (_ :: _) _ |- _ => inversion H; subst; clear H
  | H : In _ (_ :: _) |- _ => destruct H as [H|H]
  | H : In _ [] |- _ => destruct H
  | H : (_, _) = (_, _) |- _ => injection H; clear H; intros; subst; try discriminate
  end.
Qed.
Print Assumptions C14_unknown_none_refuted.
