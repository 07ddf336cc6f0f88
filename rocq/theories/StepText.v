(** Components of the shipped math that look back by one timestep: what they are read as, and the
    values of expressions with [roll]. *)
From Coq Require Import QArith Qcanon Lia.
From Verif Require Import Base BaseProofs LangModel MathText EvalModel EvalSpec BuildModel BuildSpec BuildProofs BuildEqs
  HelperModel HelperSpec HelperProofs HelperLocal HelperLaws ShipModel ShipSpec ShipProofs ShipEntry ShipStorage ShipNumbers NetSpec NetProofs PlaceSpec ShipPlace RuleText RuleProofs.
From Verif Require CliModel.
Local Open Scope nat_scope.
Local Open Scope string_scope.
Local Open Scope list_scope.
Local Arguments String.eqb : simpl never.

(** * Readings *)
Definition step_names : list string := ["ramping_up"; "ramping_down"].
Definition step_texts : list text := Eval vm_compute in map or_none (texts_in (layered []) "constraints" step_names).
Lemma step_read : map (fun files => texts_in (layered files) "constraints" step_names) shipped = repeat (map Some step_texts) 15.
Proof. vm_compute; reflexivity. Qed.
Definition buffer_names : list string := ["balance_supply_with_storage"].
Definition buffer_texts : list text := Eval vm_compute in map or_none (texts_in (layered []) "constraints" buffer_names).
Lemma buffer_read : map (fun files => texts_in (layered files) "constraints" buffer_names) chronological = repeat (map Some buffer_texts) (List.length chronological).
Proof. vm_compute; reflexivity. Qed.

(** * Expressions with [roll] *)
Fixpoint rolling (sets : list string) (refs : list string) (e : expr) : bool :=
  match e with
  | EChain e ops => rolling sets refs e && forallb (fun x => rolling sets refs (snd x)) ops
  | EFun f [e'] [(k, ENum neg z)] => String.eqb f "roll" && String.eqb k "timesteps" && negb neg && String.eqb z "1" && plainly [] refs e'
  | ESign _ (ENum _ _) => true
  | _ => plainly sets refs e
  end.
(** The label before, cyclically. *)
Definition previous (D : denv) (v : string) : string :=
  match place v (n_labels D "timesteps") with
  | Some 0 => nth (List.length (n_labels D "timesteps") - 1) (n_labels D "timesteps") ""
  | Some (S j) => nth j (n_labels D "timesteps") ""
  | None => ""
  end.
Section Entry.
Variable D : denv.
Fixpoint entry_back (e : expr) (p : pos) : cell :=
  match e with
  | EChain e ops => fold_left (fun v x => op_cell D (fst x) v (entry_back (snd x) p)) ops (entry_back e p)
  | EFun _ [e'] [(k, ENum _ _)] => entry_of D e' (put p "timesteps" (previous D (p "timesteps")))
  | ESign neg (ENum b z) => if neg then op_cell D OMul (Val (- (1))%Qc) (number_cell b z) else number_cell b z
  | _ => entry_of D e p
  end.
End Entry.
Lemma back_one D e o a x : entry_back D (EChain e [(o, a)]) x = op_cell D o (entry_back D e x) (entry_back D a x).
Proof. reflexivity. Qed.
Lemma back_two D e o a o' a' x : entry_back D (EChain e [(o, a); (o', a')]) x = op_cell D o' (op_cell D o (entry_back D e x) (entry_back D a x)) (entry_back D a' x).
Proof. reflexivity. Qed.
Lemma back_roll D e x : entry_back D (EFun "roll" [e] [("timesteps", ENum false "1")]) x = entry_of D e (put x "timesteps" (previous D (x "timesteps"))).
Proof. reflexivity. Qed.
Lemma back_name D s x : entry_back D (EName s) x = entry_of D (EName s) x.
Proof. reflexivity. Qed.
Lemma back_num D b z x : entry_back D (ENum b z) x = entry_of D (ENum b z) x.
Proof. reflexivity. Qed.
Lemma back_minus D z x : entry_back D (ESign true (ENum false z)) x = op_cell D OMul (Val (- (1))%Qc) (number_cell false z).
Proof. reflexivity. Qed.
Lemma is_one : integer false "1" 1%Z.
Proof. unfold integer; vm_compute; f_equal; apply Qc_is_canon; reflexivity. Qed.
Section Back.
Variable D : denv.
Variable sets : list string.
Lemma rolling_cases refs e : rolling sets refs e = true ->
  (exists a ops, e = EChain a ops /\ rolling sets refs a = true /\ forall x, In x ops -> rolling sets refs (snd x) = true) \/
  (exists a, e = c_roll a "timesteps" false "1" /\ plainly [] refs a = true) \/
  (exists neg b z, e = ESign neg (ENum b z)) \/
  plainly sets refs e = true /\ (forall D p, entry_back D e p = entry_of D e p).
Proof.
  destruct e as [neg s|s|s|s|b|s|s|l|s sl|f args kws|neg e|e ops]; cbn [rolling]; intros H; try (right; right; right; split; [exact H|reflexivity]).
  - destruct args as [|e [|? ?]]; try (right; right; right; split; [exact H|reflexivity]); destruct kws as [|(k & o) kws]; try (right; right; right; split; [exact H|reflexivity]).
    destruct o as [neg z|s|s|s|b|s|s|l|s sl|f' args' kws'|neg e'|e' ops']; destruct kws; try (right; right; right; split; [exact H|reflexivity]).
    right; left; exists e; rewrite !andb_true_iff, !String.eqb_eq, negb_true_iff in H; destruct H as ((((-> & ->) & ->) & ->) & H); split; [reflexivity|exact H].
  - destruct e; try discriminate H; right; right; left; eauto.
  - left; exists e, ops; rewrite andb_true_iff, forallb_forall in H; destruct H; auto.
Qed.
Lemma deval_rolling sb w e : rolling sets (d_keys sb) e = true -> deval (subs_in D sb) w e = deval D w (plug sb e).
Proof.
  revert w; induction e as [e IH] using expr_parts; intros w H; destruct (rolling_cases _ _ H) as [(a & ops & -> & H1 & H2)|[(a & -> & HP)|[(neg & b & z & ->)|(HP & _)]]].
  - cbn [plug deval]; rewrite (IH a) by (try exact H1; left; reflexivity).
    assert (HO : forall x, In x ops -> deval (subs_in D sb) w (snd x) = deval D w (plug sb (snd x))) by (intros x IX; apply IH; [right; apply in_map, IX|exact (H2 x IX)]).
    clear IH H H1 H2; generalize (option_map (under w) (deval D w (plug sb a))); clear a; induction ops as [|x ops IO]; intros v; [reflexivity|]; cbn [map fold_left fst snd].
    rewrite (HO x) by (left; reflexivity); apply IO; intros y IY; apply HO; right; exact IY.
  - assert (NA : "timesteps" <> "array") by discriminate; change (plug sb (c_roll a "timesteps" false "1")) with (c_roll (plug sb a) "timesteps" false "1").
    rewrite !(roll_call _ w _ "timesteps" false "1" 1%Z NA is_one), (deval_plug D [] sb no_mask a HP); reflexivity.
  - reflexivity.
  - apply (deval_plug D sets), HP.
Qed.
Hypothesis ND : NoDup (n_labels D "timesteps").
Variable wd : index -> bool.
Let w := mask_of sets wd.
Lemma entry_rolling e p : rolling sets [] e = true -> deval D w e <> None -> m_at w p = true -> In (p "timesteps") (n_labels D "timesteps") ->
  cell_of D w e p = entry_back D e p.
Proof.
  intros H NN MP IP; revert H NN; induction e as [e IH] using expr_parts; intros H NN; destruct (rolling_cases _ _ H) as [(a & ops & -> & H1 & H2)|[(a & -> & HP)|[(neg & b & z & ->)|(HP & E)]]].
  - destruct (chain_at D w a ops p MP NN) as (-> & N1 & N2); cbn [entry_back]; rewrite (IH a) by (try assumption; left; reflexivity).
    assert (HO : forall x, In x ops -> cell_of D w (snd x) p = entry_back D (snd x) p) by (intros x IX; apply IH; [right; apply in_map, IX|exact (H2 x IX)|exact (N2 x IX)]).
    clear IH H H1 H2 NN N1 N2; generalize (entry_back D a p); clear a; induction ops as [|x ops IO]; intros v; [reflexivity|]; cbn [fold_left].
    rewrite (HO x) by (left; reflexivity); apply IO; intros y IY; apply HO; right; exact IY.
  - assert (NA : "timesteps" <> "array") by discriminate; pose proof (roll_call D w a "timesteps" false "1" 1%Z NA is_one) as RC.
    destruct (entry_sound D [] (fun _ => true) a HP) as (v & EV & _ & _ & A3); change (mask_of [] (fun _ => true)) with no_mask in EV, A3; rewrite EV in RC.
    unfold cell_of; rewrite RC in NN |- *; destruct (in_dec string_dec "timesteps" (a_dims v)) as [ID|NI]; [|exfalso; apply NN, h_roll_none, NI].
    rewrite (h_roll_one D v "timesteps" 1%Z ID); cbn [a_at]; unfold c_roll; cbn [entry_back]; unfold rolled, previous.
    destruct (In_nth _ _ "" IP) as (k & LT & EK); rewrite <- EK, (place_nth _ ND k LT).
    assert (EJ : Z.to_nat ((Z.of_nat k - 1) mod Z.of_nat (List.length (n_labels D "timesteps"))) = match k with 0 => List.length (n_labels D "timesteps") - 1 | S j => j end).
    { destruct k as [|k]; [rewrite <- (Z_mod_plus_full _ 1), Z.mod_small by lia; lia|rewrite Z.mod_small by lia; lia]. }
    rewrite EJ, A3 by reflexivity; destruct k; reflexivity.
  - destruct neg; reflexivity.
  - rewrite E; unfold cell_of; destruct (entry_sound D sets wd e HP) as (v & EV & _ & _ & A3); fold w in EV, A3; rewrite EV; apply A3, MP.
Qed.
End Back.

(** * Constraints at a place *)
Definition back_sides (F : list (string * fact)) (st : option bool) (t : text) (keys : list string) (i : nat) : option (expr * cmp * expr) :=
  match nth_error (eqs_of t) i with
  | Some q => match q_expr q with
              | PEq a o b => let sb := arith_of (q_subs q) in
                             if ready F st t keys q && rolling (fe_of t) (d_keys sb) a && rolling (fe_of t) [] (plug sb a) && rolling (fe_of t) (d_keys sb) b && rolling (fe_of t) [] (plug sb b) &&
                                smem "timesteps" (fe_of t)
                             then Some (plug sb a, o, plug sb b) else None
              | PArith _ => None
              end
  | None => None
  end.
Section At.
Variable U : world.
Variable order : list string -> list string.
Variable m : math_file.
Variable l : list (string * string).
Hypothesis SI : sited U l.
Variable F : list (string * fact).
Variable st : option bool.
Hypothesis FI : forall p, fits l p -> Forall (fact_in U p) F.
Hypothesis FK : Forall (fact_known (math_names m)) F.
Hypothesis FS : forall p b, fits l p -> st = Some b -> weval (world_where (math_names m) U) first_step p = b.
Lemma entry_back_same q e : forall p, entry_back (slices_in (u_env U) q) e p = entry_back (u_env U) e p.
Proof. reflexivity. Qed.
Lemma step_says t i co a o b : told order m "constraints" co (fe_of t) (where_of t) (eqs_of t) -> holds_in order m U co -> back_sides F st t (map fst l) i = Some (a, o, b) ->
  exists x, fits (cut (fe_of t) l) x /\ related o (entry_back (u_env U) a x) (entry_back (u_env U) b x).
Proof.
  intros TO (r & B & SAT); unfold back_sides; destruct (nth_error (eqs_of t) i) as [q|] eqn:NE; [|discriminate]; destruct (q_expr q) as [|a' o' b'] eqn:EQ; [discriminate|]; cbv zeta.
  destruct (ready F st t (map fst l) q) eqn:RE; [|discriminate]; destruct (rolling (fe_of t) (d_keys (arith_of (q_subs q))) a') eqn:P1; [|discriminate].
  destruct (rolling (fe_of t) [] (plug (arith_of (q_subs q)) a')) eqn:P2; [|discriminate]; destruct (rolling (fe_of t) (d_keys (arith_of (q_subs q))) b') eqn:P3; [|discriminate].
  destruct (rolling (fe_of t) [] (plug (arith_of (q_subs q)) b')) eqn:P4; [|discriminate]; destruct (smem "timesteps" (fe_of t)) eqn:ST; [|discriminate].
  intros E; injection E as <- <- <-; apply ready_says in RE as (CW & WQ & SUB & ND).
  destruct (entry_here U order m l SI F st FI FK FS "constraints" co r (fe_of t) (where_of t) (eqs_of t) q B TO ND SUB CW (nth_error_In _ _ NE) WQ) as (f & wd & v & FX & IF & WD & MA & EV & ER).
  exists (at_index (fe_of t) f); split; [exact FX|]; destruct (evaluate_sides U (fe_of t) q wd v f a' o' b' EQ EV WD) as (NA & NB & VF).
  pose proof (proj1 TO) as FE; rewrite FE in SAT; specialize (SAT f IF); rewrite ER, VF in SAT.
  assert (IT : In (at_index (fe_of t) f "timesteps") (n_labels (u_env U) "timesteps")).
  { apply smem_in in ST; apply SUB in ST as IK; apply in_map_iff in IK as ((d & y) & ED & IN); cbn [fst] in ED; subst d.
    rewrite (FX "timesteps" y) by (apply cut_in; split; [exact IN|exact ST]); exact (proj2 (proj2 (proj1 (proj2 (proj2 SI))) _ _ IN)). }
  assert (NL : NoDup (n_labels (u_env U) "timesteps")) by apply SI.
  assert (EC : forall e, rolling (fe_of t) (d_keys (arith_of (q_subs q))) e = true -> rolling (fe_of t) [] (plug (arith_of (q_subs q)) e) = true ->
    deval (eq_denv (u_env U) q) (mask_of (fe_of t) wd) e <> None -> cell_of (eq_denv (u_env U) q) (mask_of (fe_of t) wd) e (at_index (fe_of t) f) = entry_back (u_env U) (plug (arith_of (q_subs q)) e) (at_index (fe_of t) f)).
  { intros e H1 H2 NN; unfold eq_denv in NN |- *; unfold cell_of; rewrite (deval_rolling _ (fe_of t)) in NN |- * by exact H1; rewrite <- entry_back_same with (q := arith_of (q_slices q)).
    apply (entry_rolling _ (fe_of t)); assumption. }
  rewrite (EC a' P1 P2 NA), (EC b' P3 P4 NB) in SAT; exact SAT.
Qed.
End At.
