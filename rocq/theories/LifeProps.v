(** Property theorems C20 and C21: life cycle and zero threshold. *)
From Verif Require Import Base SporesModel LifeModel LifeSpec LifeProofs.
Local Open Scope string_scope.
Local Open Scope list_scope.

(** * C20 *)
(** The guards, and a call that fails them changes nothing. *)
Theorem C20_guards thr m :
  (m_built m = false -> forall force o, solve thr force o m = (m, Some EModel)) /\
  (results_exist (m_results m) -> forall o, solve thr false o m = (m, Some EModel)) /\
  (m_built m = true -> forall o, build false o m = (m, Some EModel)).
Proof. exact (guards thr m). Qed.
Print Assumptions C20_guards.

(** Whatever is called without force, results once present stay as they are. *)
Theorem C20_results_kept thr m ops :
  Forall unforced ops -> results_exist (m_results m) -> m_results (exec_all thr m ops) = m_results m.
Proof. intros U R; exact (unforced_keeps thr ops m U R). Qed.
Print Assumptions C20_results_kept.

(** A failing call keeps results and flags. *)
Theorem C20_errors_keep thr m :
  (forall f o m' e, solve thr f o m = (m', Some e) -> m' = m) /\
  (forall f o m' e, build f o m = (m', Some e) ->
     m_results m' = m_results m /\ m_built m' = m_built m /\ m_solved m' = m_solved m).
Proof. exact (errors_keep thr m). Qed.
Print Assumptions C20_errors_keep.

(** Solved exactly when there are results, for models that are not loaded from a file and
    whose solves all find a solution.  The full property has no such restrictions. *)
Theorem C20_solved_iff_results_partial thr ops :
  Forall productive ops -> Forall no_reload ops ->
  let m := exec_all thr (new_model None) ops in
  m_solved m = true <-> results_exist (m_results m).
Proof. intros P N; apply solved_iff; [exact P|exact N|]; simpl; split; [discriminate|tauto]. Qed.
Print Assumptions C20_solved_iff_results_partial.

(** A model that counts as built has a complete problem, unless a build failed half-way. *)
Theorem C20_built_is_complete_partial thr ops :
  Forall builds_clean ops ->
  let m := exec_all thr (new_model None) ops in
  m_built m = true -> m_backend m = Some true.
Proof. intros C; apply built_complete; [exact C|discriminate]. Qed.
Print Assumptions C20_built_is_complete_partial.

Definition ex_results : results := RPlain [("flow_cap", [Fin 10; Fin (1 # 100000000000); NaN]); ("systemwide", [PInf])].
Example C20_example :
  let m := exec_all (1 # 10000000000) (new_model None)
             [Build false BDone; Build false BDone; Solve false (SDone ex_results "optimal");
              Solve false (SDone RNone "infeasible"); Build false BDone] in
  m_built m = true /\ m_solved m = true /\
  m_results m = RPlain [("flow_cap", [Fin 10; Fin 0; NaN]); ("systemwide", [PInf])].
Proof. vm_compute; auto. Qed.

(** An infeasible problem counts as solved although there are no results. *)
Theorem C20_infeasible_refuted :
  exists ops, Forall unforced ops /\ let m := exec_all 0 (new_model None) ops in
    m_solved m = true /\ ~ results_exist (m_results m).
Proof.
  exists [Build false BDone; Solve false (SDone RNone "infeasible")]; split; [repeat constructor|].
  vm_compute; auto.
Qed.
Print Assumptions C20_infeasible_refuted.

(** A model loaded from a file counts as solved even if it never was. *)
Theorem C20_loaded_refuted :
  exists ops, let m := exec_all 0 (new_model None) ops in
    m_solved m = true /\ ~ results_exist (m_results m) /\ forall x, In x ops -> x = Reload.
Proof.
  exists [Reload]; vm_compute; repeat split; auto; intros x [<-|[]]; reflexivity.
Qed.
Print Assumptions C20_loaded_refuted.

(** A forced rebuild that fails leaves a model that counts as built, keeps the results of the
    previous problem, and can be solved with the incomplete problem. *)
Theorem C20_failed_rebuild_refuted :
  exists ops, let m := exec_all 0 (new_model None) ops in
    m_built m = true /\ m_backend m = Some false /\
    exists m', solve 0 true (SDone ex_results "optimal") m = (m', None).
Proof.
  exists [Build false BDone; Build true (BFailAfter EBackend)]; vm_compute; repeat split; eexists; reflexivity.
Qed.
Print Assumptions C20_failed_rebuild_refuted.

(** * C21 *)
(** After a solve that ended "optimal" or "feasible", exactly the values below the threshold
    are zero and all others are as the solver returned them.  The full property also covers
    every other usable ending; see the refutation. *)
Theorem C21_zero_threshold_partial thr force m m' r t :
  solve thr force (SDone r t) m = (m', None) -> In t ["optimal"; "feasible"] ->
  cleaned_results thr r (m_results m').
Proof.
  unfold solve; destruct (negb _); [discriminate|destruct (_ && _); [discriminate|]]; intros E I; injection E as <-; cbn [m_results].
  assert (U : usable t = true) by (unfold usable; apply existsb_exists; exists t; split; [exact I|apply String.eqb_refl]).
  rewrite U; apply threshold_results_spec.
Qed.
Print Assumptions C21_zero_threshold_partial.

(** A threshold of zero (or less) changes nothing. *)
Theorem C21_no_threshold_no_change thr r r' :
  cleaned_results thr r r' -> (thr <= 0)%Q -> r' = r.
Proof.
  intros C L.
  assert (V : forall x y, cleaned thr x y -> y = x).
  { intros x y [z [q [-> Q]]|z _]; [|reflexivity]; exfalso; apply (Qlt_not_le _ _ Q); eapply Qle_trans; [exact L|apply Qabs_nonneg]. }
  assert (W : forall l l', Forall2 (cleaned thr) l l' -> l' = l) by (induction 1; f_equal; auto).
  assert (D : forall d d', cleaned_data thr d d' -> d' = d).
  { induction 1 as [|[n a] [n' a'] d d' [E F] _ IH]; [reflexivity|]; simpl in *; rewrite (W _ _ F), IH, E; reflexivity. }
  destruct r as [|d|l], r' as [|d'|l']; simpl in C; try tauto; f_equal; [exact (D _ _ C)|].
  induction C as [|[k a] [k' a'] l l' [E F] _ IH]; [reflexivity|]; simpl in *; rewrite (D _ _ F), IH, E; reflexivity.
Qed.
Print Assumptions C21_no_threshold_no_change.
Example C21_example :
  threshold_results (1 # 10000000000) ex_results = RPlain [("flow_cap", [Fin 10; Fin 0; NaN]); ("systemwide", [PInf])].
Proof. vm_compute; reflexivity. Qed.

(** A SPORES run whose parts ended "optimal" and "feasible" keeps its small values. *)
Theorem C21_joined_conditions_refuted :
  exists m m', let t := joined ["optimal"; "feasible"; "optimal"] in
    solve (1 # 10000000000) false (SDone ex_results t) m = (m', None) /\
    m_results m' = ex_results /\
    threshold_results (1 # 10000000000) ex_results <> ex_results.
Proof.
  exists {| m_built := true; m_solved := false; m_results := RNone; m_term := None; m_backend := Some true |}.
  eexists; split; [vm_compute; reflexivity|split; [reflexivity|vm_compute; discriminate]].
Qed.
Print Assumptions C21_joined_conditions_refuted.
