(** Further theorems on C99, C102 and C103, found missing by changing the model. *)
From Coq Require Import QArith.
From Verif Require Import Base BaseProofs.
From Verif Require KindModel KindSpec KindProps DualModel AgainModel AgainSpec.
Local Open Scope string_scope.
Local Open Scope list_scope.

(** * C102: a name that is declared twice *)
Section Kind.
Import KindModel.
Definition on (n : string) (l : list (string * decl)) : Prop := exists d, d_get n l = Some d /\ d_active d = true.
Lemma active_on n l : on n l -> exists d, active_in n l = [d].
Proof. intros (d & G & A); unfold active_in; rewrite G, A; eauto. Qed.
(** An input that two groups of the math declare is refused. *)
Theorem C102_ambiguous P F m f ds ds' n :
  In n (map fst ds) ->
  on n (m_lookups m) /\ on n (m_parameters m) \/ on n (m_lookups m) /\ on n (m_dimensions m) \/ on n (m_parameters m) /\ on n (m_dimensions m) ->
  clean P F m f ds <> Ok ds'.
Proof.
  intros I O.
  assert (E : find m n = Err EValue).
  { unfold find; destruct O as [(A & B)|[(A & B)|(A & B)]]; apply active_on in A; apply active_on in B; destruct A as (d1 & ->); destruct B as (d2 & ->); cbn [app]; [reflexivity| |].
    - destruct (active_in n (m_parameters m)); reflexivity.
    - destruct (active_in n (m_lookups m)) as [|a [|b l]]; reflexivity. }
  assert (U : forall ds1, update_types P F m ds <> Ok ds1); [|unfold clean; destruct (update_types P F m ds) as [ds1|e]; [destruct (U ds1 eq_refl)|discriminate]].
  induction ds as [|[n' a] r IH]; [destruct I|]; intros ds1; cbn [update_types]; destruct (String.eqb_spec n' n) as [->|NE]; [rewrite E; discriminate|].
  destruct I as [I|I]; [cbn in I; congruence|].
  destruct (find m n') as [o|e]; [|discriminate]; cbn [bind].
  destruct (match o with Some d => _ | None => _ end) as [a'|e]; [|discriminate]; cbn [bind].
  destruct (update_types P F m r) as [r'|e]; [destruct (IH I r' eq_refl)|discriminate].
Qed.
Print Assumptions C102_ambiguous.
Example C102_ambiguous_ex :
  let m := {| m_parameters := [("flow_cap_max", KindProps.cap)]; m_lookups := [("flow_cap_max", KindProps.unit_of)]; m_dimensions := [] |} in
  clean KindProps.ex_P KindProps.ex_F m KindProps.ex_there KindProps.ex_ds = Err EValue /\
  (exists ds', clean KindProps.ex_P KindProps.ex_F KindProps.ex_m KindProps.ex_there KindProps.ex_ds = Ok ds') /\
  forall ds', clean KindProps.ex_P KindProps.ex_F m KindProps.ex_there KindProps.ex_ds <> Ok ds'.
Proof.
  split; [vm_compute; reflexivity|split; [eexists; vm_compute; reflexivity|]]; intros ds'; apply (C102_ambiguous _ _ _ _ _ _ "flow_cap_max"); [left; reflexivity|].
  left; split; eexists; split; reflexivity.
Qed.
(** Numbers become whole by leaving out what is behind the point. *)
Theorem C102_whole P F q z : convert P F KWhole (Num q) = Ok (Int z) ->
  ((0 <= q)%Q -> (inject_Z z <= q)%Q /\ (q < inject_Z z + 1)%Q) /\ ((q <= 0)%Q -> (q <= inject_Z z)%Q /\ (inject_Z z - 1 < q)%Q).
Proof.
  cbn [convert]; intros E; injection E as <-; destruct q as [a b]; cbn [Qnum Qden]; unfold Qle, Qlt, inject_Z, Qplus, Qminus, Qopp; cbn [Qnum Qden].
  pose proof (Z.quot_rem a (Zpos b) ltac:(discriminate)) as D.
  split; intros S.
  - assert (S' : (0 <= a)%Z) by (unfold Qle in S; cbn in S; lia); pose proof (Z.rem_bound_pos a (Zpos b) S' ltac:(reflexivity)); nia.
  - assert (S' : (a <= 0)%Z) by (unfold Qle in S; cbn in S; lia); pose proof (Z.rem_bound_pos (- a) (Zpos b) ltac:(lia) ltac:(reflexivity)) as R; rewrite Z.rem_opp_l in R by discriminate; set (z := Z.quot a (Zpos b)) in *; set (r := Z.rem a (Zpos b)) in *; split; [nia|unfold Qplus; cbn [Qnum Qden]; change (1 * 1)%positive with 1%positive; nia].
Qed.
Print Assumptions C102_whole.
Example C102_whole_ex : convert KindProps.ex_P KindProps.ex_F KWhole (Num (-5 # 2)) = Ok (Int (-2)) /\ (inject_Z (-2) - 1 < -5 # 2)%Q.
Proof. split; [reflexivity|]; apply (proj2 (C102_whole KindProps.ex_P KindProps.ex_F (-5 # 2) (-2) eq_refl)); vm_compute; discriminate. Qed.
End Kind.

(** * C103: constraints built again *)
Section Dual.
Import DualModel.
(** A constraint that was built again has no shadow prices of the problem before. *)
Theorem C103_rebuilt s p rebuilt n l : In n rebuilt -> price_of n l (t_dual (snd (act s (Change p rebuilt)))) = None /\ prices_of p (t_dual (snd (act s (Change p rebuilt)))) n = [].
Proof.
  intros I; assert (N : forall l, price_of n l (t_dual (snd (act s (Change p rebuilt)))) = None).
  { intros x; cbn [act snd forget t_dual]; induction (t_dual (snd s)) as [|[[n' l'] q] r IH]; [reflexivity|]; cbn [filter fst].
    destruct (smem n' rebuilt) eqn:M; cbn [negb]; [exact IH|]; cbn [price_of]; destruct (String.eqb_spec n n') as [<-|_]; [|exact IH].
    apply smem_in in I; congruence. }
  split; [apply N|]; unfold prices_of; destruct (d_get n (p_constraints p)) as [ls|]; [|reflexivity].
  induction ls as [|x ls IH]; [reflexivity|]; cbn [flat_map]; rewrite N; exact IH.
Qed.
Print Assumptions C103_rebuilt.
(** Constraints that were not built again keep theirs. *)
Theorem C103_untouched s p rebuilt n l : ~ In n rebuilt -> price_of n l (t_dual (snd (act s (Change p rebuilt)))) = price_of n l (t_dual (snd s)).
Proof.
  intros I; cbn [act snd forget t_dual]; induction (t_dual (snd s)) as [|[[n' l'] q] r IH]; [reflexivity|]; cbn [filter fst price_of].
  destruct (smem n' rebuilt) eqn:M; cbn [negb price_of]; destruct (String.eqb_spec n n') as [<-|_]; try exact IH.
  - apply smem_in in M; contradiction.
  - rewrite IH; reflexivity.
Qed.
Print Assumptions C103_untouched.
Definition two_prices : problem * tracker :=
  ({| p_constraints := [("balance", [["a"]]); ("limit", [["a"]])]; p_integer := false |},
   {| t_active := true; t_dual := [("balance", ["a"], 3%Q); ("limit", ["a"], 5%Q)]; t_tracked := ["balance"; "limit"] |}).
Example C103_rebuilt_ex : results (fst two_prices) (snd (act two_prices (Change (fst two_prices) ["limit"]))) = [("shadow_price_balance", [(["a"], 3%Q)])].
Proof. reflexivity. Qed.
End Dual.

(** * C99: what is inferred when a model is opened first *)
Section Again.
Import AgainModel AgainSpec.
Local Open Scope Z_scope.
(** Before clustering every timestep counts once, and has the length of the time to the next one. *)
Theorem C99_inferred days c d o : s_cluster c = None ->
  open days c {| o_data := d; o_runtime := {| r_applied := no_settings; r_instantiated := false |} |} = Ok o ->
  (forall t, In t (t_times (o_data o)) -> value (o_data o) "timestep_weights" t (Some 1%Q)) /\
  (exists m s, d_get "timestep_weights" (t_series (o_data o)) = Some (m, s) /\ forall t v, In (t, v) s -> In t (t_times (o_data o)) /\ v = Some 1%Q) /\
  (forall k t u, nth_error (t_times (o_data o)) k = Some t -> nth_error (t_times (o_data o)) (S k) = Some u -> value (o_data o) "timestep_resolution" t (Some (inject_Z (u - t)))).
Proof.
  intros CL E; unfold open in E; cbv zeta in E; cbn [o_data o_runtime r_applied r_instantiated no_settings s_subset s_resample s_cluster] in E.
  destruct (if opt_eqb list_eqb _ _ then _ else _) as [d1|e]; [|discriminate E]; cbn [bind] in E; destruct (if opt_eqb Z.eqb _ _ then _ else _) as [d2|e]; [|discriminate E]; cbn [bind] in E.
  rewrite CL in E; cbn [opt_eqb bind] in E; injection E as <-; cbn [o_data]; unfold infer, value; cbn [t_times t_series].
  assert (DF : forall k t u, nth_error (t_times d2) k = Some t -> nth_error (t_times d2) (S k) = Some u -> nth_error (diffs (t_times d2)) k = Some (u - t)).
  { induction (t_times d2) as [|a r IH]; intros k t u H1 H2; [destruct k; discriminate|]; destruct k as [|k]; cbn [nth_error] in H1.
    - injection H1 as ->; destruct r as [|b r]; [discriminate H2|]; cbn in H2; injection H2 as ->; reflexivity.
    - destruct r as [|b r]; [destruct k; discriminate|]; cbn [diffs nth_error]; apply IH; [exact H1|exact H2]. }
  split; [|split].
  - intros t IT; do 2 eexists; split; [apply d_get_in, d_get_set_same|]; apply in_map_iff; eauto.
  - do 2 eexists; split; [apply d_get_set_same|]; intros t v I; apply in_map_iff in I; destruct I as (x & H & IX); injection H as <- <-; auto.
  - intros k t u H1 H2; do 2 eexists; split; [apply d_get_in; rewrite d_get_set_other by discriminate; apply d_get_set_same|].
    specialize (DF k t u H1 H2); apply (nth_error_In _ k); revert k H1 H2 DF; intros k H1 H2 DF.
    assert (R : nth_error (resolutions (t_times d2)) k = Some (u - t)).
    { unfold resolutions; destruct (t_times d2) as [|a [|b r]]; [destruct k; discriminate|destruct k; discriminate|]; rewrite nth_error_app1; [exact DF|]; apply nth_error_Some; congruence. }
    clear -H1 R; revert k H1 R; generalize (resolutions (t_times d2)); induction (t_times d2) as [|a r IH]; intros l k H1 R; [destruct k; discriminate|].
    destruct k as [|k]; destruct l as [|y l]; try discriminate R; cbn [nth_error map combine] in *; [injection H1 as ->; injection R as ->; reflexivity|apply IH; assumption].
Qed.
Print Assumptions C99_inferred.
Example C99_inferred_ex : exists o,
  open (fun _ => None) no_settings (defined {| t_times := [0; 60; 180]; t_series := [("sink", (Some MSum, [(0, Some 4%Q); (60, None); (180, Some 2%Q)]))] |}) = Ok o /\
  value (o_data o) "timestep_weights" 60 (Some 1%Q) /\ value (o_data o) "timestep_resolution" 60 (Some (inject_Z 120)).
Proof.
  eexists; split; [vm_compute; reflexivity|].
  destruct (C99_inferred (fun _ => None) no_settings {| t_times := [0; 60; 180]; t_series := [("sink", (Some MSum, [(0, Some 4%Q); (60, None); (180, Some 2%Q)]))] |} _ eq_refl eq_refl) as (W & _ & R).
  split; [apply W; right; left; reflexivity|apply (R 1%nat 60 180); reflexivity].
Qed.
End Again.
