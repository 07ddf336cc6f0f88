(** C114: messages are shown once, and those asked for. *)
From Verif Require Import Base BaseProofs LogModel.
Local Open Scope string_scope.
Local Open Scope list_scope.
Local Open Scope Z_scope.

(** The level a verbosity stands for. *)
Definition names_level (v : verbosity) (l : Z) : Prop :=
  match v with
  | Number z => z = l
  | Text s => In (upper s, l) [("CRITICAL", 50); ("FATAL", 50); ("ERROR", 40); ("WARN", 30); ("WARNING", 30); ("INFO", 20); ("DEBUG", 10); ("NOTSET", 0)]
  end.
(** Logger "calliope.[...]" (parts last first in [q]) and the loggers above it, up to "calliope", were left alone. *)
Definition untouched (st : state) (q : list string) : Prop :=
  forall a b, q = a ++ b -> b <> [] -> level st (b ++ ["calliope"]) = 0 /\ handlers st (b ++ ["calliope"]) = [].
Definition no_handlers (st : state) (q : list string) : Prop :=
  forall a b, q = a ++ b -> b <> [] -> handlers st (b ++ ["calliope"]) = [].
(** What other handlers, those of Python itself, write. *)
Definition outside (st : state) (L : Z) : list handler :=
  filter (fun h => match h with Console _ => true | Other _ least => least <=? L end) (handlers st []).

Lemma check_names v l : names_level v l <-> check_level (match v with Text s => Text (upper s) | Number z => Number z end) = Ok l.
Proof.
  destruct v as [s|z]; cbn [names_level check_level]; [|split; congruence].
  change (In (upper s, l) level_names <-> match d_get (upper s) level_names with Some z => Ok z | None => Err EValue end = Ok l).
  assert (N : NoDup (map fst level_names)) by (cbn; repeat (constructor; [cbn; intuition discriminate|]); constructor).
  split.
  - intros I; rewrite (d_in_get _ _ _ N I); reflexivity.
  - destruct (d_get (upper s) level_names) eqn:G; [|discriminate]; intros E; injection E as ->; apply d_get_in, G.
Qed.

Lemma at_same {A} p (x : A) f : at_logger p x f p = x.
Proof. unfold at_logger; destruct (list_eq_dec string_dec p p); congruence. Qed.
Lemma at_other {A} p q (x : A) f : p <> q -> at_logger p x f q = f q.
Proof. unfold at_logger; destruct (list_eq_dec string_dec p q); congruence. Qed.

(** The state after a call. *)
Record after (l : Z) (out cap : bool) (st st' : state) : Prop := {
  af_level : level st' calliope = l;
  af_handlers : handlers st' calliope = [Console (made st)];
  af_solve : level st' solve = if out then 10 else l;
  af_wlevel : level st' py_warnings = if cap then l else 30;
  af_whandlers : handlers st' py_warnings = if cap then original st ++ [Console (made st)] else original st;
  af_captured : captured st' = cap;
  af_levels : forall p, p <> calliope -> p <> solve -> p <> py_warnings -> level st' p = level st p;
  af_others : forall p, p <> calliope -> p <> py_warnings -> handlers st' p = handlers st p;
  af_made : made st' = S (made st)
}.
Lemma set_after v l out cap st : names_level v l -> exists st', set_log_verbosity v out cap st = (st', Ok tt) /\ after l out cap st st'.
Proof.
  intros N; apply check_names in N; unfold set_log_verbosity; set (v' := match v with Text s => _ | Number z => _ end) in *.
  assert (G : forall ls, exists st', setup_root_logger v' cap (set_level solve ls st) = (st', Ok tt) /\
    (ls = (if out then 10 else l) -> after l out cap st st')).
  { intros ls; unfold setup_root_logger; rewrite N; cbv zeta; eexists; split; [reflexivity|]; intros ->.
    set (s1 := set_level solve _ st); set (s2 := match reached s1 calliope with [] => s1 | _ => set_handlers calliope [] s1 end).
    assert (H : handlers s2 calliope = [] /\ level s2 = level s1 /\ (forall p, p <> calliope -> handlers s2 p = handlers st p) /\ original s2 = original st /\ made s2 = made st).
    { unfold s2; destruct (reached s1 calliope) eqn:R.
      - cbn [reached calliope] in R; apply app_eq_nil in R; destruct R as [R _]; split; [exact R|]; split; [reflexivity|]; split; [|split; reflexivity]; intros; reflexivity.
      - split; [reflexivity|]; split; [reflexivity|]; split; [|split; reflexivity]; intros p P; cbn; apply at_other; congruence. }
    destruct H as (H0 & H1 & H2 & H3 & H4).
    assert (LS : forall p, level s1 p = at_logger solve (if out then 10 else l) (level st) p) by reflexivity.
    destruct cap; split; cbn [level handlers captured original made set_level set_handlers set_captured count_console]; rewrite ?H1, ?H3, ?H4.
    all: try reflexivity.
    all: try (rewrite ?H0; reflexivity).
    all: try (intros p A B; rewrite !at_other by congruence; apply H2; exact A).
    all: try (intros p A B C; rewrite !at_other by congruence; rewrite LS, at_other by congruence; reflexivity). }
  destruct out; [destruct (G 10) as (st' & E & A)|rewrite N; destruct (G l) as (st' & E & A)]; exists st'; auto.
Qed.

Lemma shown_below q : forall st', level st' calliope <> 0 ->
  (forall a b, q = a ++ b -> b <> [] -> level st' (b ++ ["calliope"]) = 0) -> no_handlers st' q ->
  effective st' (q ++ ["calliope"]) = level st' calliope /\ reached st' (q ++ ["calliope"]) = handlers st' calliope ++ handlers st' [].
Proof.
  intros st' NZ; induction q as [|x q IH]; intros LV NH.
  - cbn [app effective reached]; change ["calliope"] with calliope; rewrite (proj2 (Z.eqb_neq _ _) NZ), app_nil_r; auto.
  - destruct IH as [A B].
    { intros a b E; apply (LV (x :: a)); cbn; congruence. }
    { intros a b E; apply (NH (x :: a)); cbn; congruence. }
    cbn [app effective reached]; rewrite (LV [] (x :: q) eq_refl ltac:(discriminate) : level st' (x :: q ++ ["calliope"]) = 0).
    rewrite (NH [] (x :: q) eq_refl ltac:(discriminate) : handlers st' (x :: q ++ ["calliope"]) = []); cbn [Z.eqb app]; auto.
Qed.

(** Whatever was set before: a message of any part of Calliope that was left alone is written to one console if its level is at
    least the verbosity, and by nothing if not.  The handlers of Python itself write it, too. *)
Theorem C114_messages_partial v l out cap st q L : names_level v l -> l <> 0 -> untouched st q ->
  (forall a b, q = a ++ b -> b ++ ["calliope"] <> solve) ->
  exists st', set_log_verbosity v out cap st = (st', Ok tt) /\
    shown st' (q ++ ["calliope"]) L = if l <=? L then Console (made st) :: outside st L else [].
Proof.
  intros N NZ U NS; destruct (set_after v l out cap st N) as (st' & E & A); exists st'; split; [exact E|].
  assert (D : forall b, b <> [] -> b ++ ["calliope"] <> calliope /\ b ++ ["calliope"] <> py_warnings).
  { intros b NB; split; intros X; destruct b as [|x [|y [|]]]; cbn in X; try congruence; discriminate. }
  destruct (shown_below q st') as [F R].
  - rewrite (af_level _ _ _ _ _ A); exact NZ.
  - intros a b Q NB; destruct (D b NB); rewrite (af_levels _ _ _ _ _ A) by (auto; exact (NS a b Q)); apply (U a b Q NB).
  - intros a b Q NB; destruct (D b NB); rewrite (af_others _ _ _ _ _ A) by auto; apply (U a b Q NB).
  - unfold shown; rewrite F, R, (af_level _ _ _ _ _ A), (af_handlers _ _ _ _ _ A), (af_others _ _ _ _ _ A []) by discriminate.
    destruct (Z.ltb_spec L l), (Z.leb_spec l L); try lia; reflexivity.
Qed.
Print Assumptions C114_messages_partial.

(** Output of the solver (of level 10) is written to one console if it is asked for or the verbosity is at most that level. *)
Theorem C114_solver_partial v l out cap st : names_level v l -> l <> 0 -> no_handlers st ["<solve>"; "backend_model"; "backend"] ->
  exists st', set_log_verbosity v out cap st = (st', Ok tt) /\
    shown st' ["<solve>"; "backend_model"; "backend"; "calliope"] 10 = if out || (l <=? 10) then Console (made st) :: outside st 10 else [].
Proof.
  intros N NZ U; destruct (set_after v l out cap st N) as (st' & E & A); exists st'; split; [exact E|].
  assert (F : effective st' solve = if out then 10 else l).
  { unfold solve at 1; cbn [effective]; fold solve; rewrite (af_solve _ _ _ _ _ A); destruct out; [reflexivity|]; rewrite (proj2 (Z.eqb_neq _ _) NZ); reflexivity. }
  assert (R : reached st' solve = Console (made st) :: handlers st []).
  { unfold solve; cbn [reached].
    rewrite !(af_others _ _ _ _ _ A) by discriminate; rewrite (af_handlers _ _ _ _ _ A : handlers st' ["calliope"] = _).
    rewrite (U [] ["<solve>"; "backend_model"; "backend"] eq_refl ltac:(discriminate) : handlers st ["<solve>"; "backend_model"; "backend"; "calliope"] = []).
    rewrite (U ["<solve>"] ["backend_model"; "backend"] eq_refl ltac:(discriminate) : handlers st ["backend_model"; "backend"; "calliope"] = []).
    rewrite (U ["<solve>"; "backend_model"] ["backend"] eq_refl ltac:(discriminate) : handlers st ["backend"; "calliope"] = []).
    cbn [app]; rewrite app_nil_r, ?(af_others _ _ _ _ _ A []) by discriminate; reflexivity. }
  change ["<solve>"; "backend_model"; "backend"; "calliope"] with solve; unfold shown; rewrite F, R; destruct out; cbn [orb].
  - reflexivity.
  - destruct (Z.ltb_spec 10 l), (Z.leb_spec l 10); try lia; reflexivity.
Qed.
Print Assumptions C114_solver_partial.

(** Warnings of Python (of level 30) go to one console if they are captured and the verbosity is at most that level; if they are
    not to be captured they are left to Python. *)
Theorem C114_warnings_partial v l out cap st : names_level v l -> l <> 0 -> original st = [] -> handlers st ["py"] = [] ->
  exists st', set_log_verbosity v out cap st = (st', Ok tt) /\ captured st' = cap /\
    shown st' ["warnings"; "py"] 30 = if cap then if l <=? 30 then Console (made st) :: outside st 30 else [] else outside st 30.
Proof.
  intros N NZ O P; destruct (set_after v l out cap st N) as (st' & E & A); exists st'; split; [exact E|split; [exact (af_captured _ _ _ _ _ A)|]].
  assert (F : effective st' py_warnings = if cap then l else 30).
  { unfold py_warnings at 1; cbn [effective]; fold py_warnings; rewrite (af_wlevel _ _ _ _ _ A); destruct cap; [|reflexivity]; rewrite (proj2 (Z.eqb_neq _ _) NZ); reflexivity. }
  assert (R : reached st' py_warnings = (if cap then [Console (made st)] else []) ++ handlers st []).
  { unfold py_warnings; cbn [reached]; change ["warnings"; "py"] with py_warnings; rewrite (af_whandlers _ _ _ _ _ A), O.
    rewrite !(af_others _ _ _ _ _ A) by discriminate; rewrite P, app_nil_r; destruct cap; reflexivity. }
  change ["warnings"; "py"] with py_warnings; unfold shown; rewrite F, R; destruct cap.
  - destruct (Z.ltb_spec 30 l), (Z.leb_spec l 30); try lia; reflexivity.
  - reflexivity.
Qed.
Print Assumptions C114_warnings_partial.

(** Python as it starts, with the handlers [hs]. *)
Definition start (hs : list handler) : state :=
  {| level := fun p => match p with [] => 30 | _ => 0 end; handlers := fun p => match p with [] => hs | _ => [] end;
     captured := false; original := []; made := 0 |}.
Definition run_calls (calls : list (verbosity * bool)) (st : state) : state :=
  fold_left (fun st c => fst (set_log_verbosity (fst c) (snd c) true st)) calls st.
(** Setting it three times leaves one console. *)
Example C114_example :
  let st := run_calls [(Text "debug", true); (Number 40, false); (Text "info", false)] (start []) in
  shown st ["model"; "calliope"] 20 = [Console 2] /\ shown st ["model"; "calliope"] 10 = [] /\
  shown st ["<solve>"; "backend_model"; "backend"; "calliope"] 10 = [] /\ shown st ["warnings"; "py"] 30 = [Console 2].
Proof. repeat split. Qed.
Example C114_example_hypotheses : untouched (start []) ["model"] /\ names_level (Text "Info") 20.
Proof.
  split; [|cbn; auto 10].
  intros a b E NB; destruct b as [|x b]; [congruence|]; split; reflexivity.
Qed.

(** If Python has a handler of its own, as after logging.basicConfig(), every message is written twice. *)
Theorem C114_once_refuted : exists st v l L, names_level v l /\ l <> 0 /\
  let st' := fst (set_log_verbosity v true true st) in List.length (shown st' ["model"; "calliope"] L) = 2%nat.
Proof. exists (start [Other "stderr" 0]), (Text "info"), 20, 20; split; [cbn; auto 10|split; [discriminate|reflexivity]]. Qed.
Print Assumptions C114_once_refuted.

(** The lowest verbosity, 0, hides everything below a warning instead of showing it. *)
Theorem C114_zero_refuted : exists st v l L, names_level v l /\ l <= L /\
  snd (set_log_verbosity v false true st) = Ok tt /\ shown (fst (set_log_verbosity v false true st)) ["model"; "calliope"] L = [].
Proof. exists (start []), (Number 0), 0, 20; split; [reflexivity|split; [lia|split; reflexivity]]. Qed.
Print Assumptions C114_zero_refuted.

(** A verbosity that is refused has effects: output of the solver is switched on. *)
Theorem C114_refused_refuted : exists st v, let r := set_log_verbosity v true true st in snd r = Err EValue /\
  shown st ["<solve>"; "backend_model"; "backend"; "calliope"] 10 = [] /\
  shown (fst r) ["<solve>"; "backend_model"; "backend"; "calliope"] 10 <> [].
Proof. exists (start []), (Text "loud"); split; [reflexivity|split; [reflexivity|discriminate]]. Qed.
Print Assumptions C114_refused_refuted.
