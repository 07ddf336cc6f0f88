From Verif Require Import Base SporesModel LifeModel LifeSpec SporesMore.
Local Open Scope list_scope.

Lemma has_data_spec r : has_data r = true <-> results_exist r.
Proof.
  destruct r as [|d|l]; simpl.
  - split; [discriminate|tauto].
  - destruct d; split; try congruence; auto.
  - rewrite existsb_exists; split.
    + intros [[k d] [I E]]; exists k, d; split; [exact I|simpl in E; destruct d; congruence].
    + intros [k [d [I N]]]; exists (k, d); split; [exact I|simpl; destruct d; congruence].
Qed.

Lemma below_spec thr x : below thr x = true <-> small thr x.
Proof.
  unfold small; destruct x as [q| | |]; simpl; try (split; [discriminate|intros [q [E _]]; discriminate]).
  rewrite Qltb_spec; split; [intros H; exists q; auto|intros [q' [E H]]; injection E as ->; exact H].
Qed.

Lemma small_pos thr x : small thr x -> ~ (thr == 0)%Q.
Proof. intros [q [_ L]] E; rewrite E in L; exact (Qlt_not_le _ _ L (Qabs_nonneg q)). Qed.

Lemma threshold_value_spec thr x : cleaned thr x (threshold_value thr x).
Proof.
  unfold threshold_value; destruct (below thr x) eqn:B.
  - constructor; apply below_spec; exact B.
  - constructor; rewrite <- below_spec; congruence.
Qed.

Lemma threshold_spec thr d : cleaned_data thr d (threshold thr d).
Proof.
  unfold threshold; destruct (Qeq_bool thr 0) eqn:Z.
  - apply Qeq_bool_iff in Z; induction d as [|[n l] d IH]; constructor; [|exact IH]; split; [reflexivity|]; simpl.
    induction l as [|x l IHl]; constructor; [|exact IHl]; apply cl_same; intros S; exact (small_pos _ _ S Z).
  - clear Z; induction d as [|[n l] d IH]; simpl; constructor; [|exact IH]; split; [reflexivity|]; simpl.
    induction l as [|x l IHl]; simpl; constructor; [apply threshold_value_spec|exact IHl].
Qed.

Lemma threshold_results_spec thr r : cleaned_results thr r (threshold_results thr r).
Proof.
  destruct r as [|d|l]; simpl; [exact Logic.I|apply threshold_spec|].
  induction l as [|[k d] l IH]; simpl; constructor; [split; [reflexivity|apply threshold_spec]|exact IH].
Qed.

Lemma cleaned_exist thr a b : cleaned_results thr a b -> (results_exist a <-> results_exist b).
Proof.
  destruct a as [|d|l], b as [|d'|l']; simpl; try tauto.
  - intros F; inversion F; subst; split; congruence.
  - intros F; split; intros [k [d [I N]]].
    + revert I; induction F as [|x y l l' [E C] F IH]; intros I; [destruct I|destruct I as [->|I]].
      * simpl in *; exists k, (snd y); split; [left; destruct y; simpl in *; congruence|]; inversion C; subst; congruence.
      * destruct (IH I) as [k' [d'' [I' N']]]; exists k', d''; split; [right; exact I'|exact N'].
    + revert I; induction F as [|x y l l' [E C] F IH]; intros I; [destruct I|destruct I as [->|I]].
      * simpl in *; exists k, (snd x); split; [left; destruct x; simpl in *; congruence|]; inversion C; subst; congruence.
      * destruct (IH I) as [k' [d'' [I' N']]]; exists k', d''; split; [right; exact I'|exact N'].
Qed.

(** ** Life cycle *)
Lemma guards thr m :
  (m_built m = false -> forall f o, solve thr f o m = (m, Some EModel)) /\
  (results_exist (m_results m) -> forall o, solve thr false o m = (m, Some EModel)) /\
  (m_built m = true -> forall o, build false o m = (m, Some EModel)).
Proof.
  repeat split.
  - intros E f o; unfold solve; rewrite E; reflexivity.
  - intros R o; apply has_data_spec in R; unfold solve; destruct (m_built m); [rewrite R|]; reflexivity.
  - intros E o; unfold build; rewrite E; reflexivity.
Qed.

Lemma unforced_keeps thr ops : forall m, Forall unforced ops -> results_exist (m_results m) ->
  m_results (exec_all thr m ops) = m_results m.
Proof.
  induction ops as [|x ops IH]; intros m U R; [reflexivity|]; inversion U as [|? ? U1 U2]; subst; simpl.
  assert (E : m_results (exec thr m x) = m_results m).
  { destruct x as [f o|f o|]; simpl in *.
    - subst f; unfold build; destruct (_ && _); [reflexivity|destruct o; reflexivity].
    - subst f; destruct (guards thr m) as [_ [G _]]; rewrite (G R); reflexivity.
    - reflexivity. }
  unfold exec_all in *; rewrite IH; [exact E|exact U2|rewrite E; exact R].
Qed.

Lemma errors_keep thr m :
  (forall f o m' e, solve thr f o m = (m', Some e) -> m' = m) /\
  (forall f o m' e, build f o m = (m', Some e) ->
     m_results m' = m_results m /\ m_built m' = m_built m /\ m_solved m' = m_solved m).
Proof.
  split; intros f o m' e.
  - unfold solve; destruct (negb _); [congruence|destruct (_ && _); [congruence|destruct o; congruence]].
  - unfold build; destruct (_ && _); [intros E; injection E as <- <-; auto|].
    destruct o; intros E; try discriminate; injection E as <- <-; auto.
Qed.

Lemma solved_iff thr ops : forall m, Forall productive ops -> Forall no_reload ops ->
  (m_solved m = true <-> results_exist (m_results m)) ->
  m_solved (exec_all thr m ops) = true <-> results_exist (m_results (exec_all thr m ops)).
Proof.
  induction ops as [|x ops IH]; intros m P N R; [exact R|]; inversion P as [|? ? P1 P2]; inversion N as [|? ? N1 N2]; subst.
  apply (IH (exec thr m x) P2 N2); destruct x as [f o|f o|]; simpl in *; [| |destruct N1].
  - unfold build; destruct (_ && _); [exact R|destruct o; exact R].
  - unfold solve; destruct (negb _); [exact R|destruct (_ && _); [exact R|destruct o as [r t|e]; [|exact R]]]; simpl.
    split; [intros _|reflexivity].
    destruct (usable t); [apply (cleaned_exist thr r); [apply threshold_results_spec|exact P1]|exact P1].
Qed.

Lemma built_complete thr ops : forall m, Forall builds_clean ops ->
  (m_built m = true -> m_backend m = Some true) ->
  m_built (exec_all thr m ops) = true -> m_backend (exec_all thr m ops) = Some true.
Proof.
  induction ops as [|x ops IH]; intros m P R; [exact R|]; inversion P as [|? ? P1 P2]; subst.
  apply (IH (exec thr m x) P2); destruct x as [f o|f o|]; simpl in *.
  - unfold build; destruct (_ && _); [exact R|destruct o; [reflexivity|exact R|destruct P1]].
  - unfold solve; destruct (negb _); [exact R|destruct (_ && _); [exact R|destruct o as [r t|e]; exact R]].
  - discriminate.
Qed.
