(** Proofs about rendered formulas. *)
From Coq Require Import QArith Qcanon.
From Verif Require Import Base LangModel LangSpec LangProofs LangWhere LangShow EvalModel EvalSpec EvalProofs.
Local Open Scope nat_scope.
Local Open Scope string_scope.
Local Open Scope list_scope.

(** Leaves that can be written out. *)
Section Formula.
Variable L : lang.
Hypothesis CO : coherent L.
Hypothesis ML : l_mode L = MExpr.

Fixpoint wf (e : expr) : Prop :=
  match e with
  | ESign _ e => wf e
  | EChain e ops => wf e /\ fold_right (fun x P => wf (snd x) /\ P) True ops
  | ERef _ => True
  | _ => leaf_text L (show MExpr true e) e
  end.
Lemma atom_leaf ts e : atom L ts e -> match ts with TSym LPar :: _ => False | _ => True end -> leaf_text L ts e.
Proof.
  intros H N; destruct H; [apply lt_call|apply lt_ref|apply lt_num|apply lt_index|apply lt_name|apply lt_conf|destruct N]; assumption.
Qed.
Lemma leaf_wf ts e : leaf_text L ts e -> wf e.
Proof.
  intros H; pose proof (proj2 (proj1 (proj2 (proj2 (shown L CO))) _ _ (leaf_atom _ _ _ H))) as A; rewrite ML in A.
  destruct H as [us x C|s R|s|us x I X|s g N|us x C]; cbn [wf]; try exact Logic.I.
  - destruct C; apply (atom_leaf _ _ A); exact Logic.I.
  - apply (atom_leaf _ _ A); exact Logic.I.
  - destruct X; apply (atom_leaf _ _ A); exact Logic.I.
  - apply (atom_leaf _ _ A); exact Logic.I.
  - destruct C; apply (atom_leaf _ _ A); exact Logic.I.
Qed.
Lemma level_wf :
  (forall l ts e, level L l ts e -> wf e) /\
  (forall l ts o, chain L l ts o -> fold_right (fun x P => wf (snd x) /\ P) True o) /\
  (forall ts e, atom L ts e -> wf e) /\
  (forall ts e, call L ts e -> True) /\ (forall ts l, args L ts l -> True) /\
  (forall ts k, kws L ts k -> True) /\ (forall ts e, arg L ts e -> True).
Proof.
  apply grammar_ind; try (intros; exact Logic.I); try (intros; assumption).
  - intros l ts e us ops LT H IH C IHC; split; assumption.
  - intros l t o ts e T H IH; split; [exact IH|exact Logic.I].
  - intros l t o ts e us ops T H IH C IHC; split; assumption.
  - intros ts e C _; apply (leaf_wf ts), lt_call, C.
  - intros s; apply (leaf_wf [TNum s]), lt_num.
  - intros ts e HI X; apply (leaf_wf ts), lt_index; assumption.
  - intros s g N; apply (leaf_wf [TId s g]), lt_name, N.
  - intros ts e C; apply (leaf_wf ts), lt_conf, C.
Qed.

Lemma usual_lift k j ts b : usual L k ts b -> k <= j -> j <= 3 -> usual L j ts b.
Proof.
  intros H KJ J3; induction KJ as [|j KJ IH]; [exact H|]; assert (X := IH ltac:(lia)).
  destruct j as [|[|[|]]]; [apply us_atom|apply us_prod|apply us_sum|lia]; exact X.
Qed.
Lemma lin_app a b : lin (a ++ b) = lin a ++ lin b.
Proof. apply flat_map_app. Qed.
Lemma lin_parens a : lin (in_parens a) = TSym LPar :: lin a ++ [TSym RPar].
Proof. unfold in_parens; cbn [lin flat_map lin1 app]; fold (lin (a ++ [XClose])); rewrite lin_app; reflexivity. Qed.

Variable leaf : expr -> cell.
Hypothesis NUM : forall neg s, leaf (ENum neg s) = number_cell neg s.

(** The formula [v] is read at level [k] and says what [b] says. *)
Definition says (k : nat) (v : list ltok) (b : bexpr) : Prop :=
  k <= 3 /\ exists c, usual L k (lin v) c /\ forall q, denotes leaf b q -> denotes leaf c q.

Lemma says_zero k v b q : says k v b -> is_zero v = true -> denotes leaf b q -> q = 0%Qc.
Proof.
  intros (K3 & c & U & H) Z D; apply H in D; clear H.
  destruct v as [|[e| | | | | | | | | |] [|]]; try discriminate; destruct e as [[|] s| | | | | | | | | | |]; try discriminate.
  cbn [is_zero] in Z; apply andb_true_iff in Z as (Z1 & Z2); apply negb_true_iff in Z1.
  destruct (Qc_eq_dec (decimal 0 0 false s) 0) as [Z|]; [|discriminate].
  assert (U' : usual L 3 (lin [XLeaf (ENum false s)]) (BLeaf (ENum false s))).
  { apply (usual_lift 0); [apply us_leaf, lt_num|lia..]. }
  assert (c = BLeaf (ENum false s)) by (apply (usual_unique L CO _ _ _ (usual_lift _ 3 _ _ U K3 (le_n 3)) U')); subst c.
  inversion D as [? ? X| | | | | | | |]; subst; rewrite NUM in X; unfold number_cell in X; rewrite Z1, Z in X; injection X as <-; reflexivity.
Qed.
Lemma says_parens k v b : says k v b -> says 0 (in_parens v) b.
Proof.
  intros (K3 & c & U & H); split; [lia|]; exists (BPar c); rewrite lin_parens; split; [apply us_par, (usual_lift k); auto|].
  intros q D; apply dn_par, H, D.
Qed.

Lemma step_says first v kv bv o chain t kt bt k :
  says kv v bv -> says kt t bt ->
  fit_step first (is_zero v) (Some kv) o chain (is_zero t) (Some kt) = Some k ->
  says k (render_step first v o chain t) (BBin o bv bt).
Proof.
  intros HV HT; unfold fit_step, render_step.
  destruct (is_zero t && skips o) eqn:ZT.
  { apply andb_true_iff in ZT as (Z & SK); intros E; injection E as <-.
    destruct HV as (K3 & c & U & H); split; [exact K3|]; exists c; split; [exact U|]; intros q D.
    destruct o; try discriminate; inversion D; subst;
      match goal with X : denotes leaf bt ?y |- _ => rewrite (says_zero _ _ _ _ HT Z X) end.
    - match goal with |- denotes _ _ (?x + _)%Qc => replace (x + 0)%Qc with x by ring end; apply H; assumption.
    - match goal with |- denotes _ _ (?x - _)%Qc => replace (x - 0)%Qc with x by ring end; apply H; assumption. }
  assert (HV' : says (if first then 0 else kv) (if first then in_parens v else v) bv)
    by (destruct first; [apply (says_parens _ _ _ HV)|exact HV]).
  assert (HT' : says (if chain then 0 else kt) (if chain then in_parens t else t) bt)
    by (destruct chain; [apply (says_parens _ _ _ HT)|exact HT]).
  replace (is_zero (if first then in_parens v else v)) with (is_zero v && negb first)
    by (destruct first; [rewrite andb_false_r; destruct v as [|[] [|]]; reflexivity|rewrite andb_true_r; reflexivity]).
  cbv zeta; destruct (is_zero v && negb first && skips o) eqn:ZV.
  { apply andb_true_iff in ZV as (Z & SK); apply andb_true_iff in Z as (Z & _).
    destruct o; try discriminate; intros E; injection E as <-.
    destruct HT' as (K3 & c & U & H); split; [exact K3|]; exists c; split; [exact U|]; intros q D.
    inversion D; subst; match goal with X : denotes leaf bv ?y |- _ => rewrite (says_zero _ _ _ _ HV Z X) end.
    match goal with |- denotes _ _ (_ + ?y)%Qc => replace (0 + y)%Qc with y by ring end; apply H; assumption. }
  clear ZT ZV HV HT; revert HV' HT'.
  generalize (if first then 0 else kv) (if first then in_parens v else v) (if chain then 0 else kt) (if chain then in_parens t else t).
  clear kv v kt t; intros kv v kt t (KV & c & U & H) (KT & d & W & G) E.
  destruct o; cbn [render_op].
  - destruct (Nat.eqb kv 0) eqn:K0; [|discriminate]; injection E as <-; apply Nat.eqb_eq in K0; subst kv.
    split; [lia|]; exists (BBin OPow c (BPar d)); split.
    + rewrite lin_app; cbn [lin flat_map lin1 app]; fold (lin (t ++ [XSupEnd])); rewrite lin_app.
      apply us_pow; [exact U|]; apply us_atom, us_par, (usual_lift kt); auto.
    + intros q D; inversion D; subst; apply (dn_pow leaf c (BPar d) x (Q2Qc (inject_Z (Z.of_nat n))) n); [apply H; assumption|apply dn_par, G; assumption|reflexivity].
  - destruct (Nat.leb kv 2 && Nat.leb kt 1) eqn:K; [|discriminate]; injection E as <-; apply andb_true_iff in K as (K1 & K2).
    apply Nat.leb_le in K1, K2; split; [lia|]; exists (BBin OMul c d); split.
    + rewrite lin_app; cbn [lin flat_map lin1 app]; fold (lin t); apply us_mul; [apply (usual_lift kv); auto|apply ot_mul|apply (usual_lift kt); auto].
    + intros q D; inversion D; subst; apply dn_mul; auto.
  - injection E as <-; split; [lia|]; exists (BPar (BBin ODiv (BPar c) (BPar d))); split.
    + cbn [lin flat_map lin1 app]; fold (lin (v ++ XOver :: t ++ [XFracEnd])); rewrite lin_app.
      cbn [lin flat_map lin1 app]; fold (lin (t ++ [XFracEnd])); rewrite lin_app; cbn [lin flat_map lin1 app]; fold (lin t).
      replace (TSym LPar :: TSym LPar :: lin v ++ TSym RPar :: TSym Div :: TSym LPar :: lin t ++ [TSym RPar; TSym RPar])
        with (TSym LPar :: ((TSym LPar :: lin v ++ [TSym RPar]) ++ TSym Div :: (TSym LPar :: lin t ++ [TSym RPar])) ++ [TSym RPar])
        by (cbn [app]; rewrite <- !app_assoc; cbn [app]; rewrite <- !app_assoc; reflexivity).
      apply us_par, us_sum, us_mul; [apply us_prod, us_atom, us_par, (usual_lift kv); auto|apply ot_div|apply us_atom, us_par, (usual_lift kt); auto].
    + intros q D; inversion D; subst; apply dn_par, dn_div; [apply dn_par, H|apply dn_par, G|]; assumption.
  - destruct (Nat.leb kt 2) eqn:K; [|discriminate]; injection E as <-; apply Nat.leb_le in K.
    split; [lia|]; exists (BBin OAdd c d); split.
    + rewrite lin_app; cbn [lin flat_map lin1 app]; fold (lin t); apply us_add; [apply (usual_lift kv); auto|apply ot_add|apply (usual_lift kt); auto].
    + intros q D; inversion D; subst; apply dn_add; auto.
  - destruct (Nat.leb kt 2) eqn:K; [|discriminate]; injection E as <-; apply Nat.leb_le in K.
    split; [lia|]; exists (BBin OSub c d); split.
    + rewrite lin_app; cbn [lin flat_map lin1 app]; fold (lin t); apply us_add; [apply (usual_lift kv); auto|apply ot_sub|apply (usual_lift kt); auto].
    + intros q D; inversion D; subst; apply dn_sub; auto.
Qed.

Section Refs.
Variables (sub : string -> expr) (rs : string -> list ltok) (rl : string -> option nat).
Hypothesis SUB : forall s k, rl s = Some k -> says k (rs s) (bin (sub s)).

Lemma fit_step_none first z o chain zb b : fit_step first z None o chain zb b = None.
Proof. destruct b; reflexivity. Qed.
Lemma fit_step_none2 first z v o chain zb : fit_step first z v o chain zb None = None.
Proof. destruct v; reflexivity. Qed.

Lemma fold_says first ops : forall v kv bv k,
  Forall (fun x => forall j, fit rs rl (snd x) = Some j -> says j (render rs (snd x)) (expand sub (snd x))) ops ->
  (forall j, kv = Some j -> says j v bv) ->
  snd (fold_left (fun v x =>
         (render_step first (fst v) (fst x) (is_chain (snd x)) (render rs (snd x)),
          fit_step first (is_zero (fst v)) (snd v) (fst x) (is_chain (snd x))
            (is_zero (render rs (snd x))) (fit rs rl (snd x)))) ops (v, kv)) = Some k ->
  says k (fold_left (fun v x => render_step first v (fst x) (is_chain (snd x)) (render rs (snd x))) ops v)
         (fold_left (fun b x => BBin (fst x) b (expand sub (snd x))) ops bv).
Proof.
  induction ops as [|(o, e) ops IH]; intros v kv bv k F HV E; [exact (HV _ E)|].
  cbn [fold_left fst snd] in *; inversion F as [|? ? F1 F2]; subst; cbn [snd] in F1.
  refine (IH _ _ _ _ F2 _ E); intros j FJ.
  destruct kv as [kv|]; [|rewrite fit_step_none in FJ; discriminate].
  destruct (fit rs rl e) as [kt|]; [|discriminate FJ].
  exact (step_says _ _ _ _ _ _ _ _ _ _ (HV _ eq_refl) (F1 _ eq_refl) FJ).
Qed.

Lemma render_says : forall e k, wf e -> fit rs rl e = Some k -> says k (render rs e) (expand sub e).
Proof.
  assert (LF : forall e, leaf_text L (show MExpr true e) e -> says 0 [XLeaf e] (BLeaf e)).
  { intros e H; split; [lia|]; exists (BLeaf e); split; [|auto]; cbn [lin flat_map lin1]; rewrite app_nil_r; apply us_leaf, H. }
  fix IH 1; intros e k W F; destruct e; cbn [wf fit render expand] in *;
    try (injection F as <-; exact (LF _ W)).
  - exact (SUB _ _ F).
  - destruct (fit rs rl e) as [l|] eqn:FE; [|discriminate]; destruct (Nat.leb l 1) eqn:LE; [|discriminate]; injection F as <-.
    apply Nat.leb_le in LE; destruct (IH e l W FE) as (_ & c & U & H); split; [lia|]; exists (BSign neg c); split.
    + replace (lin ((if neg then XMinus else XPlus) :: render rs e)) with (TSym (if neg then Minus else Plus) :: lin (render rs e)) by (destruct neg; reflexivity).
      apply us_sign; [destruct neg; [apply sg_minus|apply sg_plus]|]; apply (usual_lift l); auto.
    + intros q D; inversion D; subst; constructor; apply H; assumption.
  - destruct W as (W1 & W2); refine (fold_says _ ops _ _ _ _ _ _ F).
    + clear F; induction ops as [|x ops IHO]; [constructor|]; destruct W2 as (W3 & W4); constructor.
      * intros j FJ; exact (IH (snd x) j W3 FJ).
      * exact (IHO W4).
    + intros j FJ; exact (IH e j W1 FJ).
Qed.
End Refs.
End Formula.

(** Whatever can be written without references can be written with them. *)
Section Refs.
Variable valid : list string.
Let L0 := lang_expr valid false.
Let L1 := lang_expr valid true.
Lemma lst_refs nm ts e : lst L0 nm ts e -> lst L1 nm ts e.
Proof.
  intros [us l H]; apply ls_items; induction H as [us y [vs x N|vs x [s g R]|s g N]|us y vs l [ws x N|ws x [s g R]|s g N] H IH].
  all: try (apply is_last); try (apply is_cons; [|exact IH]).
  all: try (apply it_num; assumption); try (apply it_str, st_id; exact R); apply it_name; assumption.
Qed.
Lemma slicer_refs ts e : slicer L0 ts e -> slicer L1 ts e.
Proof.
  intros [s R|us x N|us x [s g R]|us x H]; [apply sl_ref; exact R|apply sl_num; exact N|apply sl_str, st_id; exact R|apply sl_list, lst_refs, H].
Qed.
Lemma index_refs ts e : index L0 ts e -> index L1 ts e.
Proof.
  intros [s us l N H]; apply ix; [exact N|]; induction H; [apply ss_last|apply ss_cons]; auto using slicer_refs.
Qed.
Lemma level_refs :
  (forall l ts e, level L0 l ts e -> level L1 l ts e) /\
  (forall l ts o, chain L0 l ts o -> chain L1 l ts o) /\
  (forall ts e, atom L0 ts e -> atom L1 ts e) /\
  (forall ts e, call L0 ts e -> call L1 ts e) /\ (forall ts l, args L0 ts l -> args L1 ts l) /\
  (forall ts k, kws L0 ts k -> kws L1 ts k) /\ (forall ts e, arg L0 ts e -> arg L1 ts e).
Proof.
  apply grammar_ind; intros.
  - apply lv_sign; assumption.
  - apply lv_atom; assumption.
  - apply lv_up; assumption.
  - apply lv_chain; assumption.
  - apply ch_one; assumption.
  - apply ch_cons; assumption.
  - apply at_call; assumption.
  - discriminate.
  - apply at_num.
  - apply at_index; [assumption|apply index_refs; assumption].
  - apply at_name; assumption.
  - match goal with X : conf _ _ _ |- _ => destruct X as [s X]; discriminate end.
  - apply at_par; assumption.
  - apply cl_none.
  - apply cl_args; assumption.
  - apply cl_kws; assumption.
  - apply cl_both; assumption.
  - apply ar_one; assumption.
  - apply ar_cons; assumption.
  - apply kw_one; assumption.
  - apply kw_cons; assumption.
  - apply ag_arith; assumption.
  - discriminate.
  - match goal with X : l_mode _ <> _ |- _ => destruct X; reflexivity end.
  - match goal with X : str _ _ _ |- _ => destruct X; apply ag_str, st_id; assumption end.
  - apply ag_list, lst_refs; assumption.
  - match goal with X : _ \/ _ |- _ => destruct X; discriminate end.
  - discriminate.
  - discriminate.
  - discriminate.
Qed.
End Refs.

(** Values with sub-expressions in place. *)
Section Expand.
Variables (E : env) (w : pos -> bool) (p : pos) (sub : string -> expr).
Hypothesis HW : w p = true.
Hypothesis SUB : forall s, e_ref E s w p = aeval E w (sub s) p.
Let leaf := fun x => aeval E w x p.

Lemma chain_expand ops : forall v b,
  (forall q, denotes leaf b q -> v p = Val q) ->
  Forall (fun x => forall q, denotes leaf (expand sub (snd x)) q -> aeval E w (snd x) p = Val q) ops ->
  forall q, denotes leaf (fold_left (fun b x => BBin (fst x) b (expand sub (snd x))) ops b) q ->
  fold_left (fun v x => fun p => operate E (fst x) (v p) (mask w (aeval E w (snd x)) p)) ops v p = Val q.
Proof.
  induction ops as [|(o, e) ops IH]; intros v b HV HF q H; [exact (HV _ H)|].
  cbn [fold_left fst snd] in *; inversion HF as [|? ? H1 H2]; subst; cbn [snd] in H1.
  refine (IH _ _ _ H2 _ H); clear q H IH H2; intros q H; unfold mask; rewrite HW.
  inversion H; subst;
    repeat match goal with X : denotes _ b ?x |- _ => apply HV in X; rewrite X; clear X
                         | X : denotes _ (expand sub e) ?x |- _ => apply H1 in X; rewrite X; clear X end; cbn [operate].
  - reflexivity.
  - reflexivity.
  - reflexivity.
  - destruct (Qc_eq_dec y 0); [contradiction|reflexivity].
  - rewrite Qc_of_nat; reflexivity.
Qed.
Lemma aeval_expand : forall e q, denotes leaf (expand sub e) q -> aeval E w e p = Val q.
Proof.
  fix IH 1; intros e; destruct e; cbn [expand]; intros q H;
    try (inversion H; subst; assumption).
  - cbn [aeval]; rewrite SUB; apply aeval_denotes; assumption.
  - destruct neg; inversion H; subst; cbn [aeval].
    + rewrite (IH _ _ H1); cbn [operate]; f_equal; ring.
    + exact (IH _ _ H1).
  - cbn [aeval]; refine (chain_expand ops _ _ _ _ _ H).
    + intros q' H'; unfold mask; rewrite HW; exact (IH _ _ H').
    + clear H; induction ops as [|x ops IHO]; constructor; [exact (IH (snd x))|exact IHO].
Qed.
End Expand.
