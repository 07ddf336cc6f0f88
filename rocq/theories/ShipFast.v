(** A quicker way to check what a system satisfies: tables instead of functions, texts that are read once.  For examples and counterexamples only. *)
From Coq Require Import QArith Qcanon.
From Verif Require Import Base BaseProofs LangModel MathText EvalModel EvalSpec BuildModel BuildSpec BuildEqs HelperModel HelperSpec ShipModel ShipSpec ShipExample NetSpec NetExample PlaceSpec ShipProofs ShipNumbers ShipPlace RuleText.
From Verif Require CliModel.
Local Open Scope nat_scope.
Local Open Scope string_scope.
Local Open Scope list_scope.

Definition memo {A} (ks : list index) (f : index -> A) : index -> A :=
  let t := map (fun i => (i, f i)) ks in fun i => match find (fun p => index_eqb (fst p) i) t with Some p => snd p | None => f i end.
Lemma memo_is {A} ks (f : index -> A) i : memo ks f i = f i.
Proof.
  unfold memo; destruct (find _ _) as [p|] eqn:E; [|reflexivity]; apply find_some in E as (IP & EP); apply in_map_iff in IP as (j & <- & _); cbn [fst snd] in *.
  apply index_eqb_eq in EP; rewrite EP; reflexivity.
Qed.
(** The value of a side at an index: without masks, where that makes no difference. *)
Definition quick (U : world) (sets : list string) (q : peq) (e : expr) (wm : index -> bool) (a : darr) : index -> cell :=
  let b := plain_side sets q e in let e' := plug (arith_of (q_subs q)) e in
  fun f => if b && wm f && index_eqb (map (at_index sets f) sets) f then entry_of (u_env U) e' (at_index sets f) else a_at a (at_index sets f).
Definition evaluate_fast (U : world) (sets : list string) (q : peq) (w wm : index -> bool) : built (index -> entry) :=
  let E := eq_denv (u_env U) q in
  let m := mask_of sets w in
  match q_expr q with
  | PArith e =>
      match deval E m e with
      | Some a => if all_in (a_dims a) sets then (let v := quick U sets q e wm a in Built (fun f => VCell (v f))) else Broken (TDims (q_name q))
      | None => Broken (TCall (q_name q))
      end
  | PEq l c r =>
      match deval E m l, deval E m r with
      | Some a, Some b =>
          if all_in (a_dims a) sets && all_in (a_dims b) sets
          then (let v := quick U sets q l wm a in let v' := quick U sets q r wm b in Built (fun f => if wm f then VRel (v f) c (v' f) else VCell Miss))
          else Broken (TDims (q_name q))
      | _, _ => Broken (TCall (q_name q))
      end
  end.
Definition add_fast (N : names) (U : world) (sets : list string) (ks : list index) (top tm : index -> bool) (da : index -> entry) (q : peq) : built (index -> entry) :=
  let D := world_data N U in
  let wm := eval_where D (fun p => tm (map p sets)) (q_where q) in
  if any_full D wm then
    let wd := drop_dims D sets (eval_where D (fun p => top (map p sets)) (q_where q)) in
    let wdm := memo ks (drop_dims D sets wm) in
    if existsb (fun f => wdm f && negb (null (da f))) ks then Broken (TBuild (FOverlap (q_name q)))
    else if keys_given q then
      then_ (evaluate_fast U sets q wd wdm) (fun v => let vm := memo ks (fun f => if wdm f then v f else VCell Miss) in
        if existsb (fun f => wdm f && null (vm f)) ks then Broken (TBuild (FMissing (q_name q)))
        else Built (memo ks (fun f => if null (da f) then if wdm f then vm f else VCell Miss else da f)))
    else Broken (TBuild FKey)
  else Built da.
Fixpoint add_fasts (N : names) (U : world) (sets : list string) (ks : list index) (top tm : index -> bool) (da : index -> entry) (qs : list peq) : built (index -> entry) :=
  match qs with
  | [] => Built da
  | q :: r => then_ (add_fast N U sets ks top tm da q) (fun da => add_fasts N U sets ks top tm da r)
  end.
Definition build_text (N : names) (U : world) (t : text) : built (index -> entry) :=
  let D := world_data N U in
  let fe := fe_of t in
  let ks := indices D fe in
  let fw := foreach_where D fe in
  if any_full D fw then
    let v := eval_where D fw [where_of t] in
    let top := if any_full D v then drop_dims D fe v else fun _ => false in
    let tm := memo ks top in
    if existsb tm ks then add_fasts N U fe ks top tm (fun _ => VCell Miss) (eqs_of t) else Built (fun _ => VCell Miss)
  else Built (fun _ => VCell Miss).

Definition alike (a b : built (index -> entry)) : Prop :=
  match a, b with Built f, Built g => forall i, f i = g i | Broken s, Broken t => s = t | _, _ => False end.
Lemma fold_where_ext D ws : forall f g, (forall p, f p = g p) -> forall p, eval_where D f ws p = eval_where D g ws p.
Proof. unfold eval_where; induction ws as [|w ws IH]; intros f g E p; cbn [fold_left]; [apply E|apply IH; intros r; rewrite E; reflexivity]. Qed.
Lemma existsb_same {A} (f g : A -> bool) l : (forall x, f x = g x) -> existsb f l = existsb g l.
Proof. intros E; induction l as [|x l IH]; cbn; [reflexivity|rewrite E, IH; reflexivity]. Qed.
Lemma any_full_ext D f g : (forall p, f p = g p) -> any_full D f = any_full D g.
Proof. intros E; unfold any_full; apply existsb_same; intros i; apply E. Qed.
Lemma drop_dims_ext D sets f g : (forall p, f p = g p) -> forall i, drop_dims D sets f i = drop_dims D sets g i.
Proof. intros E i; unfold drop_dims; apply existsb_same; intros j; rewrite E; reflexivity. Qed.
Lemma quick_is U sets q e w wm a : (forall i, wm i = w i) -> deval (eq_denv (u_env U) q) (mask_of sets w) e = Some a -> forall f, quick U sets q e wm a f = a_at a (at_index sets f).
Proof.
  intros E DE f; unfold quick; destruct (plain_side sets q e) eqn:PS; [|reflexivity]; cbn [andb]; destruct (wm f) eqn:WF; [|reflexivity]; cbn [andb]; destruct (index_eqb _ f) eqn:IE; [|reflexivity].
  apply index_eqb_eq in IE; pose proof (side_sound U q e sets w (at_index sets f) PS) as SS; cbn [m_at mask_of] in SS; rewrite IE, <- E in SS; specialize (SS WF).
  unfold cell_of in SS; change (mask_of sets w) with (mask_of sets w) in SS; rewrite DE in SS; symmetry; exact SS.
Qed.
Lemma evaluate_alike U sets q w wm : (forall i, wm i = w i) -> alike (evaluate_fast U sets q w wm) (evaluate_all U sets q w).
Proof.
  intros E; unfold evaluate_fast, evaluate_all; destruct (q_expr q) as [e|l c r].
  - destruct (deval _ _ e) as [a|] eqn:DE; [|reflexivity]; destruct (all_in _ _); [intros i; rewrite (quick_is _ _ _ _ _ _ _ E DE); reflexivity|reflexivity].
  - destruct (deval _ _ l) as [a|] eqn:DL; [|reflexivity]; destruct (deval _ _ r) as [b|] eqn:DR; [|reflexivity]; destruct (_ && _)%bool; [|reflexivity].
    intros i; rewrite (quick_is _ _ _ _ _ _ _ E DL), (quick_is _ _ _ _ _ _ _ E DR), E; reflexivity.
Qed.
Lemma add_alike N U sets top tm da db q : (forall i, tm i = top i) -> (forall i, da i = db i) ->
  alike (add_fast N U sets (indices (world_data N U) sets) top tm da q) (add_one N U sets top db q).
Proof.
  intros ET ED; unfold add_fast, add_one; set (D := world_data N U); set (w := eval_where D (fun p => top (map p sets)) (q_where q)); set (wm := eval_where D (fun p => tm (map p sets)) (q_where q)).
  assert (EW : forall p, wm p = w p) by (apply fold_where_ext; intros p; apply ET).
  rewrite (any_full_ext D _ _ EW); destruct (any_full D w); [|exact ED].
  assert (EM : forall i, memo (indices D sets) (drop_dims D sets wm) i = drop_dims D sets w i) by (intros i; rewrite memo_is; apply drop_dims_ext, EW).
  set (wdm := memo (indices D sets) (drop_dims D sets wm)) in *; set (wd := drop_dims D sets w) in *; cbv zeta.
  rewrite (existsb_same (fun f => wdm f && negb (null (da f)))%bool (fun f => wd f && negb (null (db f)))%bool) by (intros i; rewrite EM, ED; reflexivity).
  destruct (existsb _ _); [reflexivity|]; destruct (keys_given q); [|reflexivity].
  pose proof (evaluate_alike U sets q wd wdm EM) as EV; destruct (evaluate_fast U sets q wd wdm) as [v|s], (evaluate_all U sets q wd) as [v'|s']; cbn [alike then_] in *; try contradiction; [|subst; reflexivity].
  rewrite (existsb_same (fun f => wdm f && null (memo (indices D sets) (fun f => if wdm f then v f else VCell Miss) f))%bool (fun f => wd f && null (v' f))%bool) by (intros i; rewrite memo_is, EM, EV; destruct (wd i); reflexivity).
  destruct (existsb _ _); [reflexivity|]; intros i; rewrite memo_is, memo_is, EM, ED, EV; destruct (null (db i)), (wd i); reflexivity.
Qed.
Lemma adds_alike N U sets top tm qs : (forall i, tm i = top i) -> forall da db, (forall i, da i = db i) ->
  alike (add_fasts N U sets (indices (world_data N U) sets) top tm da qs) (add_ones N U sets top db qs).
Proof.
  intros ET; induction qs as [|q qs IH]; intros da db ED; [exact ED|]; cbn [add_fasts add_ones]; pose proof (add_alike N U sets top tm da db q ET ED) as A.
  destruct (add_fast _ _ _ _ _ _ _ q) as [v|s], (add_one _ _ _ _ _ q) as [v'|s']; cbn [alike then_] in *; try contradiction; [apply IH, A|exact A].
Qed.
Lemma text_alike order m U group c t : told order m group c (fe_of t) (where_of t) (eqs_of t) -> alike (build_text (math_names m) U t) (build_all order m U group c).
Proof.
  intros (FE & PW & PE); unfold build_text, build_all, top_level_where; rewrite FE, PW; set (D := world_data (math_names m) U).
  destruct (any_full D (foreach_where D (fe_of t))).
  - set (v := eval_where D _ _); replace (if any_full D v then Done (drop_dims D (fe_of t) v) else Done (fun _ => false)) with (Done (if any_full D v then drop_dims D (fe_of t) v else fun _ => false)) by (destruct (any_full D v); reflexivity).
    cbn [lift then_]; set (top := if any_full D v then _ else _); cbv zeta; rewrite (existsb_same (memo (indices D (fe_of t)) top) top) by (intros i; apply memo_is).
    destruct (existsb _ _); [|intros i; reflexivity]; rewrite PE; cbn [lift then_]; apply adds_alike; [intros i; apply memo_is|reflexivity].
  - cbn [lift then_]; replace (existsb _ _) with false; [intros i; reflexivity|]; induction (indices D (fe_of t)) as [|x l IH]; [reflexivity|exact IH].
Qed.
(** Constraints and values of expressions by their texts. *)
Definition holds_text (N : names) (U : world) (t : text) : bool :=
  match build_text N U t with Built r => forallb (fun f => entry_check (r f)) (CliModel.product (map (n_labels (u_env U)) (fe_of t))) | Broken _ => false end.
Lemma holds_text_sound order m U c t : told order m "constraints" c (fe_of t) (where_of t) (eqs_of t) -> holds_text (math_names m) U t = true -> holds_in order m U c.
Proof.
  intros TO H; pose proof (text_alike _ _ U _ _ _ TO) as A; apply holds_check_sound; unfold holds_text, holds_check in *; destruct (build_text _ _ _) as [r|]; [|discriminate]; destruct (build_all _ _ _ _ _) as [r'|]; [|contradiction].
  destruct TO as (-> & _); rewrite forallb_forall in *; intros f IF; rewrite <- A; apply H, IF.
Qed.
Definition value_text (N : names) (U : world) (s : string) (t : text) : bool :=
  match build_text N U t with
  | Built r => same_key (a_dims (n_array (u_env U) s)) (fe_of t) &&
      forallb (fun f => match r f with VCell v => same_cell v (a_at (n_array (u_env U) s) (at_index (fe_of t) f)) | VRel _ _ _ => false end)
        (CliModel.product (map (n_labels (u_env U)) (fe_of t)))
  | Broken _ => false
  end.
Lemma value_text_sound order m U c t : told order m "global_expressions" c (fe_of t) (where_of t) (eqs_of t) -> value_text (math_names m) U (c_name c) t = true -> defined_in order m U c.
Proof.
  intros TO H; pose proof (text_alike _ _ U _ _ _ TO) as A; apply defined_check_sound; unfold value_text, defined_check in *; destruct (build_text _ _ _) as [r|]; [|discriminate]; destruct (build_all _ _ _ _ _) as [r'|]; [|contradiction].
  destruct TO as (-> & _); apply andb_prop in H as (H1 & H2); rewrite H1; cbn [andb]; rewrite forallb_forall in H2 |- *; intros f IF; rewrite <- A; apply H2, IF.
Qed.
(** A whole model. *)
Definition parsed_text (order : list string -> list string) (m : math_file) (group : string) (c : component) : option text :=
  match parse_where_text (math_names m) (MathText.c_where c), parse_equations order (math_names m) (math_valid m) group c with Some w, Done qs => Some (c_foreach c, w, qs) | _, _ => None end.
Lemma parsed_told order m group c t : parsed_text order m group c = Some t -> told order m group c (fe_of t) (where_of t) (eqs_of t).
Proof.
  unfold parsed_text, told; destruct (parse_where_text _ _) as [w|]; [|discriminate]; destruct (parse_equations _ _ _ _ _) as [qs|]; [|discriminate]; intros E; injection E as <-; repeat split; reflexivity.
Qed.
Definition feasible_check (order : list string -> list string) (m : math_file) (U : world) : bool :=
  forallb (fun c => match parsed_text order m "global_expressions" c with Some t => value_text (math_names m) U (c_name c) t | None => false end) (active m (h_expressions m)) &&
  forallb (fun c => match parsed_text order m "constraints" c with Some t => holds_text (math_names m) U t | None => false end) (active m (h_constraints m)).
Lemma feasible_sound order m U : feasible_check order m U = true -> feasible order m U.
Proof.
  intros H; apply andb_prop in H as (H1 & H2); rewrite forallb_forall in H1, H2; split; intros c IC.
  - specialize (H1 c IC); cbv beta in H1; destruct (parsed_text _ _ _ c) as [t|] eqn:E; [|discriminate]; exact (value_text_sound _ _ _ _ _ (parsed_told _ _ _ _ _ E) H1).
  - specialize (H2 c IC); cbv beta in H2; destruct (parsed_text _ _ _ c) as [t|] eqn:E; [|discriminate]; exact (holds_text_sound _ _ _ _ _ (parsed_told _ _ _ _ _ E) H2).
Qed.
