(** The parser of conditions accepts exactly the grammar of [LangSpec]. *)
From Verif Require Import Base BaseProofs LangModel LangSpec LangProofs.
Local Open Scope string_scope.
Local Open Scope list_scope.
Local Arguments String.eqb : simpl never.

Scheme cond_m := Minimality for cond Sort Prop
  with cchain_m := Minimality for cchain Sort Prop
  with factor_m := Minimality for factor Sort Prop
  with catom_m := Minimality for catom Sort Prop.
Combined Scheme cond_grammar_ind from cond_m, cchain_m, factor_m, catom_m.

(** * Matching brackets *)
Definition dep (t : tok) : Z := match t with TSym LPar => 1 | TSym RPar => -1 | _ => 0 end.
Fixpoint depth (ts : list tok) : Z := match ts with [] => 0 | t :: r => dep t + depth r end.
Definition bal (ts : list tok) : Prop :=
  depth ts = 0%Z /\ forall p q, ts = p ++ q -> (0 <= depth p)%Z.

Lemma depth_app a b : depth (a ++ b) = (depth a + depth b)%Z.
Proof. induction a; cbn [depth app]; lia. Qed.
Lemma bal_nil : bal [].
Proof. split; [reflexivity|]; intros [|] q E; [cbn; lia|discriminate]. Qed.
Lemma bal_app a b : bal a -> bal b -> bal (a ++ b).
Proof.
  intros (A1 & A2) (B1 & B2); split; [rewrite depth_app; lia|].
  intros p q E; apply app_eq_app in E as (l & [(E1 & E2)|(E1 & E2)]).
  - apply (A2 p l E1).
  - subst p; rewrite depth_app; specialize (B2 l q E2); lia.
Qed.
Lemma bal_flat t : dep t = 0%Z -> bal [t].
Proof. intros D; split; [cbn [depth]; lia|]; intros [|x [|y p]] q E; cbn [depth]; [lia|injection E as <- E; lia|discriminate]. Qed.
Lemma bal_cons t ts : dep t = 0%Z -> bal ts -> bal (t :: ts).
Proof. intros D B; apply (bal_app [t] ts); [apply bal_flat, D|exact B]. Qed.
Lemma bal_par ts : bal ts -> bal (TSym LPar :: ts ++ [TSym RPar]).
Proof.
  intros (A & B); split; [cbn [depth dep]; rewrite depth_app; cbn [depth dep]; lia|].
  intros [|t p] q E; [cbn; lia|]; injection E as <- E; cbn [depth dep].
  apply app_eq_app in E as (l & [(E1 & E2)|(E1 & E2)]); [specialize (B _ _ E1); lia|].
  subst p; rewrite depth_app; destruct l as [|x [|y l]]; cbn [depth dep]; [lia|injection E2 as <- _; cbn [dep]; lia|discriminate].
Qed.
Lemma close_unique a b r s : bal a -> bal b -> a ++ TSym RPar :: r = b ++ TSym RPar :: s -> a = b /\ r = s.
Proof.
  intros A B E; apply app_eq_app in E as (l & [(E1 & E2)|(E1 & E2)]).
  - destruct l as [|x l]; [rewrite app_nil_r in E1; injection E2; auto|].
    injection E2 as <- E2; destruct A as (_ & A); exfalso.
    specialize (A (b ++ [TSym RPar]) l ltac:(rewrite <- app_assoc; exact E1)); rewrite depth_app in A; destruct B as (B & _); cbn [depth dep] in A; lia.
  - destruct l as [|x l]; [rewrite app_nil_r in E1; injection E2; auto|].
    injection E2 as <- E2; destruct B as (_ & B); exfalso.
    specialize (B (a ++ [TSym RPar]) l ltac:(rewrite <- app_assoc; exact E1)); rewrite depth_app in B; destruct A as (A & _); cbn [depth dep] in B; lia.
Qed.

Lemma num_bal ts e : num ts e -> bal ts.
Proof. intros []; [apply bal_flat; reflexivity|]; destruct H; apply bal_cons; try reflexivity; apply bal_flat; reflexivity. Qed.
Section Balance.
Variable L : lang.
Lemma str_bal ts e : str L ts e -> bal ts. Proof. intros []; apply bal_flat; reflexivity. Qed.
Lemma item_bal nm ts e : item L nm ts e -> bal ts.
Proof. intros []; [apply (num_bal _ _ H)|apply (str_bal _ _ H)|apply bal_flat; reflexivity]. Qed.
Lemma items_bal nm ts l : items L nm ts l -> bal ts.
Proof. induction 1; (apply bal_app; [apply (item_bal _ _ _ H)|]); [apply bal_flat; reflexivity|apply bal_cons; [reflexivity|assumption]]. Qed.
Lemma lst_bal nm ts e : lst L nm ts e -> bal ts.
Proof. intros []; apply bal_cons; [reflexivity|apply (items_bal _ _ _ H)]. Qed.
Lemma slicer_bal ts e : slicer L ts e -> bal ts.
Proof. intros []; [apply bal_flat; reflexivity|apply (num_bal _ _ H)|apply (str_bal _ _ H)|apply (lst_bal _ _ _ H)]. Qed.
Lemma slices_bal ts l : slices L ts l -> bal ts.
Proof.
  induction 1; repeat (apply bal_cons; [reflexivity|]); (apply bal_app; [apply (slicer_bal _ _ H)|]); [apply bal_flat; reflexivity|apply bal_cons; [reflexivity|assumption]].
Qed.
Lemma index_bal ts e : index L ts e -> bal ts.
Proof. intros []; repeat (apply bal_cons; [reflexivity|]); apply (slices_bal _ _ H0). Qed.
Lemma conf_bal ts e : conf L ts e -> bal ts. Proof. intros []; apply bal_flat; reflexivity. Qed.
Lemma sign_dep t b : sign_tok t b -> dep t = 0%Z. Proof. intros []; reflexivity. Qed.
Lemma op_dep l t o : op_tok l t o -> dep t = 0%Z. Proof. intros []; reflexivity. Qed.
Lemma con_bal c : comma_or_nothing c -> bal c.
Proof. intros [->| ->]; [apply bal_nil|apply bal_flat; reflexivity]. Qed.

Lemma balanced :
  (forall l ts e, level L l ts e -> bal ts) /\
  (forall l ts o, chain L l ts o -> bal ts) /\
  (forall ts e, atom L ts e -> bal ts) /\
  (forall ts e, call L ts e -> exists f b, ts = TId f true :: TSym LPar :: b ++ [TSym RPar] /\ bal b) /\
  (forall ts l, args L ts l -> bal ts) /\
  (forall ts k, kws L ts k -> bal ts) /\
  (forall ts e, arg L ts e -> bal ts).
Proof.
  assert (F : forall s g, bal [TId s g]) by (intros; apply bal_flat; reflexivity).
  assert (CB : forall ts : list tok, (exists f b, ts = TId f true :: TSym LPar :: b ++ [TSym RPar] /\ bal b) -> bal ts).
  { intros ts (f & b & -> & B); apply bal_cons; [reflexivity|apply bal_par, B]. }
  apply grammar_ind; intros; auto.
  - apply bal_cons; [apply (sign_dep _ _ H)|assumption].
  - apply bal_app; assumption.
  - apply bal_cons; [apply (op_dep _ _ _ H)|assumption].
  - apply bal_cons; [apply (op_dep _ _ _ H)|apply bal_app; assumption].
  - apply bal_flat; reflexivity.
  - apply bal_flat; reflexivity.
  - apply (index_bal _ _ H0).
  - apply (conf_bal _ _ H).
  - apply bal_par; assumption.
  - exists f, []; split; [reflexivity|apply bal_nil].
  - exists f, ts; auto.
  - exists f, us; auto.
  - exists f, (ts ++ c ++ us); split; [rewrite <- !app_assoc; reflexivity|].
    apply bal_app; [assumption|apply bal_app; [apply con_bal|]; assumption].
  - apply bal_app; [assumption|apply bal_cons; [reflexivity|assumption]].
  - do 2 (apply bal_cons; [reflexivity|]); assumption.
  - do 2 (apply bal_cons; [reflexivity|]); apply bal_app; [assumption|apply bal_app; [apply con_bal|]; assumption].
  - apply (num_bal _ _ H0).
  - apply (str_bal _ _ H).
  - apply (lst_bal _ _ _ H).
  - apply (conf_bal _ _ H0).
  - apply (index_bal _ _ H0).
Qed.

(** An arithmetic text that starts with an atom and goes on without an operator is that atom. *)
Definition noop (r : list tok) : Prop := forall k, op_of k r = None.
Lemma p_lvl_from_atom l : forall n ts e r, sign_of ts = None -> p_lvl L n l ts = Some (e, r) ->
  exists m e' r', p_atom L m ts = Some (e', r') /\ (noop r' -> e = e' /\ r = r').
Proof.
  induction l as [|l IH]; intros [|n] ts e r SG; try discriminate; rewrite p_lvl_S.
  - rewrite SG; intros E; exists n, e, r; auto.
  - destruct (p_lvl L n l ts) as [[e1 r1]|] eqn:P; [|discriminate].
    destruct (IH _ _ _ _ SG P) as (m & e' & r' & A & Q); intros E; exists m, e', r'; split; [exact A|].
    intros NO; destruct (Q NO) as (-> & ->).
    assert (X : p_ops L n (S l) r' = ([], r')) by (destruct n; [reflexivity|rewrite p_ops_S, NO; reflexivity]).
    rewrite X in E; injection E; auto.
Qed.
End Balance.

Section Where.
Variable N : names.

Lemma coherent_cmp : coherent (lang_cmp N).
Proof.
  split; cbn; intros s H.
  - rewrite !orb_true_iff, ?andb_true_iff, ?orb_true_iff in H; rewrite !orb_true_iff; destruct H as [[H|H]|(_ & [H|H])]; auto.
  - rewrite H; reflexivity.
Qed.
Lemma coherent_top : coherent (lang_top N).
Proof. split; cbn; intros s H; rewrite H; reflexivity. Qed.

(** ** One step of each parser *)
Lemma p_where_S m ts : p_where N (S m) ts =
  match p_wnot N m ts with
  | Some (w, r) => match p_wops N m r with ([], _) => Some (w, r) | (ops, r') => Some (WChain w ops, r') end
  | None => None
  end.
Proof. reflexivity. Qed.
Lemma p_wops_S m ts : p_wops N (S m) ts =
  match andor_of ts with
  | Some (o, r) =>
      match p_wnot N m r with
      | Some (w, r') => let '(os, r'') := p_wops N m r' in ((o, w) :: os, r'')
      | None => ([], ts)
      end
  | None => ([], ts)
  end.
Proof. reflexivity. Qed.
Lemma p_wnot_S m ts : p_wnot N (S m) ts =
  match not_of ts with
  | Some r => match p_wnot N m r with Some (w, r') => Some (WNot w, r') | None => p_watom N m ts end
  | None => p_watom N m ts
  end.
Proof. reflexivity. Qed.
Lemma p_watom_S m ts : p_watom N (S m) ts =
  orelse (match bool_of ts with Some (b, r) => Some (WBool b, r) | None => None end)
    (orelse (p_cmp N (8 * List.length ts + 8) ts)
       (orelse (match p_call (lang_top N) (8 * List.length ts + 8) ts with
                | Some (e, r) => Some (WFun e, r)
                | None => None
                end)
          (orelse (p_subset N (List.length ts) ts)
             match ts with
             | TId s _ :: r => if wname N s then Some (WName s, r) else None
             | TSym LPar :: r =>
                 match p_where N m r with
                 | Some (w, TSym RPar :: r') => Some (w, r')
                 | _ => None
                 end
             | _ => None
             end))).
Proof. reflexivity. Qed.

(** ** Keywords *)
Lemma is_kw_spec w s : is_kw w s = true <-> lower s = w.
Proof. apply String.eqb_eq. Qed.
Lemma bool_of_spec ts b r : bool_of ts = Some (b, r) <-> exists t, ts = t :: r /\ truth t b.
Proof.
  unfold truth, keyword; split.
  - destruct ts as [|[s g| | | |] ts]; try discriminate; simpl.
    destruct (is_kw "true" s) eqn:A; [apply is_kw_spec in A; intros; brk; eauto 7|].
    destruct (is_kw "false" s) eqn:B; [apply is_kw_spec in B; intros; brk; eauto 7|discriminate].
  - intros (t & -> & s & g & -> & E); simpl; unfold is_kw; rewrite E; destruct b; reflexivity.
Qed.
Lemma andor_of_spec ts b r : andor_of ts = Some (b, r) <-> exists t, ts = t :: r /\ keyword (if b then "and" else "or") t.
Proof.
  unfold keyword; split.
  - destruct ts as [|[s g| | | |] ts]; try discriminate; simpl.
    destruct (is_kw "and" s) eqn:A; [apply is_kw_spec in A; intros; brk; eauto 7|].
    destruct (is_kw "or" s) eqn:B; [apply is_kw_spec in B; intros; brk; eauto 7|discriminate].
  - intros (t & -> & s & g & -> & E); simpl; unfold is_kw; rewrite E; destruct b; reflexivity.
Qed.
Lemma not_of_spec ts r : not_of ts = Some r <-> exists t, ts = t :: r /\ keyword "not" t.
Proof.
  unfold keyword; split.
  - destruct ts as [|[s g| | | |] ts]; try discriminate; simpl.
    destruct (is_kw "not" s) eqn:A; [apply is_kw_spec in A; intros; brk; eauto 7|discriminate].
  - intros (t & -> & s & g & -> & E); simpl; unfold is_kw; rewrite E; reflexivity.
Qed.
Lemma cmp_of_spec ts c r : cmp_of ts = Some (c, r) <-> exists t, ts = t :: r /\ cmp_tok t c.
Proof.
  split.
  - destruct ts as [|[| | | |[]] ts]; simpl; intros E; try discriminate; brk; eexists; split; try reflexivity; constructor.
  - intros (t & -> & []); reflexivity.
Qed.

(** ** What is accepted is in the grammar *)
Lemma p_rhs_sound n ts e r : p_rhs N n ts = Some (e, r) -> exists us, ts = us ++ r /\ rhs N us e.
Proof.
  unfold p_rhs, orelse; destruct (p_call (lang_cmp N) n ts) as [[? ?]|] eqn:A.
  { intros; brk; destruct (proj1 (proj2 (proj2 (proj2 (sound (lang_cmp N) n)))) _ _ _ A) as (us & E & K); exists us; split; [exact E|apply rh_call, K]. }
  destruct (bool_of ts) as [[b q]|] eqn:B.
  { intros; brk; apply bool_of_spec in B as (t & -> & T); exists [t]; split; [reflexivity|apply rh_bool, T]. }
  destruct (p_num ts) as [[? ?]|] eqn:C.
  { intros; brk; destruct (p_num_sound _ _ _ C) as (us & E & K); exists us; split; [exact E|apply rh_num, K]. }
  destruct ts as [|[s g| | | |] ts]; try discriminate; simpl in *; intros; brk; exists [TId s g]; split; [reflexivity|].
  apply rh_str; intros X; unfold is_kw in B; rewrite X in B; discriminate.
Qed.
Lemma p_member_sound ts e r : p_member N ts = Some (e, r) -> exists us, ts = us ++ r /\ member us e.
Proof.
  unfold p_member, orelse; destruct (p_conf (lang_cmp N) ts) as [[? ?]|] eqn:A.
  { intros; brk; destruct (p_conf_sound _ _ _ _ A) as (us & E & K); exists us; split; [exact E|destruct K; constructor]. }
  destruct (p_num ts) as [[? ?]|] eqn:C.
  { intros; brk; destruct (p_num_sound _ _ _ C) as (us & E & K); exists us; split; [exact E|apply mb_num, K]. }
  destruct ts as [|[s g| | | |] ts]; try discriminate; simpl in *; intros; brk; exists [TId s g]; split; [reflexivity|apply mb_str].
Qed.
Lemma p_members_sound n : forall ts l r, p_members N n ts = Some (l, r) -> exists us, ts = us ++ r /\ members us l.
Proof.
  induction n as [|n IH]; intros ts l r; [discriminate|]; simpl.
  destruct (p_member N ts) as [[x q]|] eqn:A; [|discriminate].
  destruct (p_member_sound _ _ _ A) as (us & E & H); subst ts.
  destruct q as [|[| | | |[]] q]; try discriminate.
  - intros; brk; exists (us ++ [TSym RBr]); split; [rewrite <- app_assoc; reflexivity|apply ms_last, H].
  - destruct (p_members N n q) as [[l' r']|] eqn:B; [|discriminate]; intros; brk.
    destruct (IH _ _ _ B) as (vs & -> & H2); exists (us ++ TSym Comma :: vs); split; [rewrite <- app_assoc; reflexivity|apply ms_cons; assumption].
Qed.

Lemma p_wops_nil n ts r : p_wops N n ts = ([], r) -> r = ts.
Proof.
  destruct n; [cbn; intros; brk; reflexivity|]; rewrite p_wops_S.
  destruct (andor_of ts) as [[o q]|]; [|intros; brk; reflexivity].
  destruct (p_wnot N n q) as [[e q']|]; [|intros; brk; reflexivity].
  destruct (p_wops N n q'); discriminate.
Qed.

Lemma cond_sound n :
  (forall ts w r, p_where N n ts = Some (w, r) -> proper_cond w -> exists us, ts = us ++ r /\ cond N us w) /\
  (forall ts o os r, p_wops N n ts = (o :: os, r) -> Forall (fun x => proper_cond (snd x)) (o :: os) ->
     exists us, ts = us ++ r /\ cchain N us (o :: os)) /\
  (forall ts w r, p_wnot N n ts = Some (w, r) -> proper_cond w -> exists us, ts = us ++ r /\ factor N us w) /\
  (forall ts w r, p_watom N n ts = Some (w, r) -> proper_cond w -> exists us, ts = us ++ r /\ catom N us w).
Proof.
  induction n as [|n (HW & HO & HN & HA)]; [repeat split; intros; discriminate|].
  split; [|split; [|split]].
  - intros ts w r; rewrite p_where_S.
    destruct (p_wnot N n ts) as [[w1 q]|] eqn:P; [|discriminate].
    destruct (p_wops N n q) as [[|o os] q'] eqn:O; intros E PC; injection E as <- <-.
    + destruct (HN _ _ _ P PC) as (us & -> & K); exists us; split; [reflexivity|apply cd_factor, K].
    + inversion PC; subst; destruct (HN _ _ _ P H1) as (us & -> & K).
      destruct (HO _ _ _ _ O H2) as (vs & -> & K2); exists (us ++ vs); split; [rewrite app_assoc; reflexivity|apply cd_chain; assumption].
  - intros ts o os r; rewrite p_wops_S.
    destruct (andor_of ts) as [[o1 q]|] eqn:AO; [|intros; discriminate].
    destruct (p_wnot N n q) as [[w q']|] eqn:P; [|intros; discriminate].
    destruct (p_wops N n q') as [os' q''] eqn:O; intros E F; injection E as <- <- <-.
    apply andor_of_spec in AO as (t & -> & T); inversion F; subst; simpl in *.
    destruct (HN _ _ _ P H1) as (us & -> & K).
    destruct os' as [|o2 os'].
    + apply p_wops_nil in O; subst; exists (t :: us); split; [reflexivity|apply cc_one; assumption].
    + destruct (HO _ _ _ _ O H2) as (vs & -> & K2); exists (t :: us ++ vs); split; [simpl; rewrite app_assoc; reflexivity|apply cc_cons; assumption].
  - intros ts w r; rewrite p_wnot_S.
    assert (AT : p_watom N n ts = Some (w, r) -> proper_cond w -> exists us, ts = us ++ r /\ factor N us w).
    { intros H PC; destruct (HA _ _ _ H PC) as (us & E & K); exists us; split; [exact E|apply fa_atom, K]. }
    destruct (not_of ts) as [q|] eqn:NO; [|exact AT].
    destruct (p_wnot N n q) as [[w1 q']|] eqn:P; [|exact AT].
    intros E PC; injection E as <- <-; inversion PC; subst.
    apply not_of_spec in NO as (t & -> & T); destruct (HN _ _ _ P H0) as (us & -> & K).
    exists (t :: us); split; [reflexivity|apply fa_not; assumption].
  - intros ts w r; rewrite p_watom_S; unfold orelse.
    destruct (bool_of ts) as [[b q]|] eqn:B.
    { intros E PC; brk; apply bool_of_spec in B as (t & -> & T); exists [t]; split; [reflexivity|apply ca_bool, T]. }
    destruct (p_cmp N (8 * List.length ts + 8) ts) as [[w1 q]|] eqn:C.
    { intros E PC; injection E as -> ->; revert C; unfold p_cmp.
      destruct (p_lvl (lang_cmp N) _ 3 ts) as [[l q1]|] eqn:P; [|discriminate].
      destruct (cmp_of q1) as [[c q2]|] eqn:CM; [|discriminate].
      destruct (p_rhs N _ q2) as [[e q3]|] eqn:R; [|discriminate]; intros E; brk; inversion PC; subst.
      apply cmp_of_spec in CM as (t & -> & T).
      destruct (proj1 (sound (lang_cmp N) _) 3 _ _ _ (le_n 3) P) as (us & E1 & K).
      destruct (p_rhs_sound _ _ _ _ R) as (vs & -> & K2).
      exists (us ++ t :: vs); split; [rewrite <- app_assoc; exact E1|apply ca_cmp; assumption]. }
    destruct (p_call (lang_top N) (8 * List.length ts + 8) ts) as [[e q]|] eqn:F.
    { intros E PC; brk; inversion PC; subst; destruct (proj1 (proj2 (proj2 (proj2 (sound (lang_top N) _)))) _ _ _ F) as (us & E1 & K).
      exists us; split; [exact E1|apply ca_fun; assumption]. }
    destruct (p_subset N (List.length ts) ts) as [[w1 q]|] eqn:SB.
    { intros E PC; injection E as -> ->; revert SB; generalize (List.length ts); intros k.
      destruct ts as [|[| | | |[]] ts]; try discriminate; simpl.
      destruct (p_members N k ts) as [[l q1]|] eqn:P; [|discriminate].
      destruct q1 as [|[i g| | | |] [|[d h| | | |] q1]]; try discriminate.
      destruct (String.eqb i "in" && smem d (n_dims N)) eqn:C2; [|discriminate]; intros E; brk.
      apply andb_true_iff in C2 as (C2 & C3); apply String.eqb_eq in C2; subst i.
      destruct (p_members_sound _ _ _ _ P) as (us & -> & K).
      exists (TSym LBr :: us ++ [TId "in" g; TId d h]); split; [simpl; rewrite <- app_assoc; reflexivity|apply ca_subset; assumption]. }
    destruct ts as [|[s g| | | |[]] ts]; try discriminate.
    + destruct (wname N s) eqn:WN; [|discriminate]; intros E PC; brk; exists [TId s g]; split; [reflexivity|apply ca_name, WN].
    + destruct (p_where N n ts) as [[w1 q]|] eqn:P; [|discriminate].
      destruct q as [|[| | | |[]] q]; try discriminate; intros E PC; brk.
      destruct (HW _ _ _ P PC) as (us & -> & K); exists (TSym LPar :: us ++ [TSym RPar]); split; [simpl; rewrite <- app_assoc; reflexivity|apply ca_par, K].
Qed.

(** ** What is in the grammar is accepted *)
Definition cstop (rest : list tok) : Prop := match rest with [] | TSym RPar :: _ => True | _ => False end.
Definition wstop (rest : list tok) : Prop :=
  cstop rest \/ exists t r (o : bool), rest = t :: r /\ keyword (if o then "and" else "or") t.
Lemma wstop_facts rest : wstop rest -> (forall l, stop l rest) /\ noop rest /\ cmp_of rest = None.
Proof.
  intros [H|(t & r & o & -> & s & g & -> & E)].
  - destruct rest as [|[| | | |[]] rest]; simpl in H; try contradiction; (split; [|split]).
    1: intros; exact Logic.I. 1,2: try reflexivity; intros [|[|[|[|k]]]]; reflexivity.
    + intros l; repeat split; try discriminate; intros k o _ X; inversion X.
    + intros [|[|[|[|k]]]]; reflexivity.
    + reflexivity.
  - split; [|split]; [|intros [|[|[|[|k]]]]; reflexivity|reflexivity].
    intros l; repeat split; try discriminate; intros k o' _ X; inversion X.
Qed.

Lemma cmp_none_call n f b rest : bal b -> wstop rest ->
  p_cmp N n (TId f true :: TSym LPar :: b ++ TSym RPar :: rest) = None.
Proof.
  intros B W; unfold p_cmp; destruct (wstop_facts _ W) as (_ & NO & CN).
  destruct (p_lvl (lang_cmp N) n 3 _) as [[e r]|] eqn:P; [|reflexivity].
  edestruct p_lvl_from_atom as (m & e' & r' & A & Q); [|exact P|]; [reflexivity|].
  assert (X : noop r' /\ cmp_of r' = None).
  { destruct (proj1 (proj2 (proj2 (sound (lang_cmp N) m))) _ _ _ A) as (us & E & K).
    inversion K; subst; clear K; try discriminate.
    - destruct (proj1 (proj2 (proj2 (proj2 (balanced (lang_cmp N))))) _ _ H) as (f' & b' & -> & B').
      injection E as -> E; rewrite <- app_assoc in E; apply close_unique in E as (-> & ->); auto.
    - injection E as E1 E2 E3; subst r'; split; [intros [|[|[|[|k]]]]; reflexivity|reflexivity].
    - inversion H; subst; discriminate. }
  destruct X as (X1 & X2); destruct (Q X1) as (-> & ->); rewrite X2; reflexivity.
Qed.
Lemma cmp_none_par n b rest : bal b -> wstop rest ->
  p_cmp N n (TSym LPar :: b ++ TSym RPar :: rest) = None.
Proof.
  intros B W; unfold p_cmp; destruct (wstop_facts _ W) as (_ & NO & CN).
  destruct (p_lvl (lang_cmp N) n 3 _) as [[e r]|] eqn:P; [|reflexivity].
  edestruct p_lvl_from_atom as (m & e' & r' & A & Q); [|exact P|]; [reflexivity|].
  assert (X : r' = rest).
  { destruct (proj1 (proj2 (proj2 (sound (lang_cmp N) m))) _ _ _ A) as (us & E & K).
    inversion K; subst; clear K; try discriminate.
    - destruct (proj1 (proj2 (proj2 (proj2 (balanced (lang_cmp N))))) _ _ H) as (f' & b' & -> & B'); discriminate.
    - inversion H; subst; discriminate.
    - injection E as E; rewrite <- app_assoc in E; apply close_unique in E as (-> & ->); auto.
      apply (proj1 (balanced (lang_cmp N)) _ _ _ H). }
  subst r'; destruct (Q NO) as (-> & ->); rewrite CN; reflexivity.
Qed.
Lemma cmp_none_lbr n r : p_cmp N n (TSym LBr :: r) = None.
Proof. unfold p_cmp; rewrite p_lvl_lbr; reflexivity. Qed.
Lemma cmp_none_id n s g rest : wstop rest -> p_cmp N n (TId s g :: rest) = None.
Proof.
  intros W; unfold p_cmp; destruct (wstop_facts _ W) as (ST & _ & CN).
  destruct (p_lvl_id (lang_cmp N) 3 n s g rest (ST 3)) as [->|(_ & ->)]; [|rewrite CN]; reflexivity.
Qed.

Lemma member_complete ts e rest : member ts e -> p_member N (ts ++ rest) = Some (e, rest).
Proof. intros []; unfold p_member, orelse; try reflexivity; rewrite (num_complete _ _ _ H); destruct H as [|t b s []]; reflexivity. Qed.
Lemma member_pos ts e : member ts e -> 1 <= List.length ts.
Proof. intros []; simpl; try lia; apply (num_pos _ _ H). Qed.
Lemma members_complete ts l : members ts l -> forall n rest, List.length ts <= n -> p_members N n (ts ++ rest) = Some (l, rest).
Proof.
  intros H; induction H as [ts e I1|ts e us l I1 I2 IH]; intros [|n] rest LE; rewrite ?app_length in LE; simpl in LE; try lia; rewrite <- app_assoc; cbn [p_members app].
  - rewrite (member_complete _ _ _ I1); reflexivity.
  - rewrite (member_complete _ _ _ I1), IH; [reflexivity|pose proof (member_pos _ _ I1); lia].
Qed.
Lemma rhs_complete ts e n rest : rhs N ts e -> 8 * List.length ts <= n -> wstop rest -> p_rhs N n (ts ++ rest) = Some (e, rest).
Proof.
  intros H LE W; destruct (wstop_facts _ W) as (ST & _ & _); unfold p_rhs, orelse; destruct H as [ts e H|t b H|ts e H|s g H1 H2].
  - rewrite (proj1 (proj2 (proj2 (proj2 (complete _ coherent_cmp)))) _ _ H); [reflexivity|lia].
  - cbn [app]; assert (BO : bool_of (t :: rest) = Some (b, rest)) by (apply bool_of_spec; eauto).
    destruct H as (s & g & -> & E); rewrite (p_call_none _ _ _ _ _ _ (ST 0)), BO; reflexivity.
  - rewrite (p_call_start _ _ _ (num_start _ _ rest H)), (num_complete _ _ _ H).
    destruct H as [|t b s []]; reflexivity.
  - cbn [app]; rewrite (p_call_none _ _ _ _ _ _ (ST 0)); simpl.
    unfold is_kw; apply String.eqb_neq in H1; apply String.eqb_neq in H2; rewrite H1, H2; reflexivity.
Qed.

Hypothesis NK : no_keywords N.

Definition reserved_word (s : string) : Prop := In (lower s) ["not"; "true"; "false"].
Lemma names_not_words s : smem s (n_dims N) || smem s (n_inputs N) || smem s (n_results N) || smem s (n_post N) = true -> ~ reserved_word s.
Proof.
  intros H R; rewrite (NK s) in H; [discriminate|]; unfold reserved_word in R; simpl in *; intuition.
Qed.
Lemma level_head l ts e : level (lang_cmp N) l ts e -> proper e -> forall s g r, ts = TId s g :: r -> ~ reserved_word s.
Proof.
  induction 1; intros PR s g r E; subst.
  - destruct H; discriminate.
  - inversion H; subst; clear H.
    + inversion H0; subst; apply (PR s); reflexivity.
    + inversion H1; subst; apply names_not_words; apply (proj1 coherent_cmp); assumption.
    + apply names_not_words, (proj1 coherent_cmp); assumption.
    + inversion H0; discriminate.
  - eauto.
  - destruct ts as [|t ts].
    + destruct (proj1 (starts _) _ _ _ H0) as [X|(r' & [X|X])]; [destruct X|discriminate..].
    + injection E as -> E; apply (IHlevel PR s g ts); reflexivity.
Qed.
Lemma not_word ts : (forall s g r, ts = TId s g :: r -> ~ reserved_word s) -> bool_of ts = None /\ not_of ts = None.
Proof.
  intros H; destruct ts as [|[s g| | | |] ts]; auto; specialize (H s g ts eq_refl); simpl; unfold is_kw, reserved_word in *; simpl in H.
  destruct (String.eqb (lower s) "true") eqn:A; [apply String.eqb_eq in A; rewrite A in H; tauto|].
  destruct (String.eqb (lower s) "false") eqn:B; [apply String.eqb_eq in B; rewrite B in H; tauto|].
  destruct (String.eqb (lower s) "not") eqn:C; [apply String.eqb_eq in C; rewrite C in H; tauto|auto].
Qed.

Lemma cond_bal :
  (forall ts w, cond N ts w -> bal ts) /\ (forall ts o, cchain N ts o -> bal ts) /\
  (forall ts w, factor N ts w -> bal ts) /\ (forall ts w, catom N ts w -> bal ts).
Proof.
  clear NK.
  assert (KB : forall w t ts, keyword w t -> bal ts -> bal (t :: ts)) by (intros w t ts (s & g & -> & _) B; apply bal_cons; [reflexivity|exact B]).
  assert (CB : forall L ts e, call L ts e -> bal ts).
  { intros L ts e H; destruct (proj1 (proj2 (proj2 (proj2 (balanced L)))) _ _ H) as (f & b & -> & B); apply bal_cons; [reflexivity|apply bal_par, B]. }
  assert (RB : forall ts e, rhs N ts e -> bal ts).
  { intros ts e [us x H|t b H|us x H|s g H1 H2]; [apply (CB _ _ _ H)|apply (KB _ _ _ H), bal_nil|apply (num_bal _ _ H)|apply bal_flat; reflexivity]. }
  assert (MB : forall ts e, member ts e -> bal ts).
  { intros ts e []; [apply bal_flat; reflexivity|apply (num_bal _ _ H)|apply bal_flat; reflexivity]. }
  assert (MSB : forall ts e, members ts e -> bal ts).
  { induction 1; (apply bal_app; [eauto|]); [apply bal_flat; reflexivity|apply bal_cons; [reflexivity|assumption]]. }
  apply cond_grammar_ind; intros; auto.
  - apply bal_app; assumption.
  - eauto.
  - apply (KB _ _ _ H), bal_app; assumption.
  - eauto.
  - apply (KB _ _ _ H), bal_nil.
  - apply bal_app; [apply (proj1 (balanced _) _ _ _ H0)|]. destruct H1; (apply bal_cons; [reflexivity|eauto]).
  - eauto.
  - apply bal_cons; [reflexivity|apply bal_app; [eauto|]]; repeat (apply bal_cons; [reflexivity|]); apply bal_nil.
  - apply bal_flat; reflexivity.
  - apply bal_par; assumption.
Qed.

Lemma catom_no_not ts w rest : catom N ts w -> not_of (ts ++ rest) = None.
Proof.
  intros []; try reflexivity.
  - destruct H as (s & g & -> & E); simpl; unfold is_kw; rewrite E; destruct b; reflexivity.
  - apply not_word; intros s g r' E; destruct ls as [|x ls].
    + destruct (proj1 (starts _) _ _ _ H0) as [X|(r2 & [X|X])]; [destruct X|discriminate..].
    + injection E as -> E; apply (level_head _ _ _ H0 H s g ls eq_refl).
  - apply not_word; intros s g r E; inversion H0; subst; injection E as <- <- E; apply (H f); reflexivity.
  - apply not_word; intros s' g' r E; injection E as <- <- E; apply names_not_words.
    destruct (smem s (n_dims N)); [reflexivity|exact H].
Qed.

Lemma cchain_start ts o rest : cchain N ts o -> wstop (ts ++ rest).
Proof. clear NK; intros []; right; exists t; eexists; exists o0; split; [reflexivity|assumption|reflexivity|assumption]. Qed.

Lemma cond_complete :
  (forall ts w, cond N ts w -> forall n rest, 4 * List.length ts + 3 <= n -> cstop rest ->
     p_where N n (ts ++ rest) = Some (w, rest)) /\
  (forall ts o, cchain N ts o -> forall n rest, 4 * List.length ts + 1 <= n -> cstop rest ->
     p_wops N n (ts ++ rest) = (o, rest)) /\
  (forall ts w, factor N ts w -> forall n rest, 4 * List.length ts + 2 <= n -> wstop rest ->
     p_wnot N n (ts ++ rest) = Some (w, rest)) /\
  (forall ts w, catom N ts w -> forall n rest, 4 * List.length ts + 1 <= n -> wstop rest ->
     p_watom N n (ts ++ rest) = Some (w, rest)).
Proof.
  assert (CW : forall rest, cstop rest -> wstop rest) by (left; assumption).
  assert (CA : forall rest, cstop rest -> andor_of rest = None).
  { intros [|[| | | |[]] rest]; simpl; try contradiction; reflexivity. }
  assert (CO : forall n rest, cstop rest -> p_wops N n rest = ([], rest)).
  { intros [|n] rest H; [reflexivity|rewrite p_wops_S, (CA _ H); reflexivity]. }
  apply cond_grammar_ind.
  - intros ts w F IH [|n] rest LE ST; [lia|]; rewrite p_where_S, IH, CO; auto; lia.
  - intros ts w us ops F IH C IHC [|n] rest LE ST; rewrite app_length in LE; [lia|]; rewrite p_where_S, <- app_assoc.
    rewrite IH; [|lia|apply (cchain_start _ _ _ C)]; rewrite IHC; [|lia|exact ST].
    assert (NE : ops <> []) by (inversion C; discriminate); destruct ops; [congruence|reflexivity].
  - intros t o ts w K F IH [|n] rest LE ST; simpl List.length in LE; [lia|]; rewrite p_wops_S; cbn [app].
    rewrite (proj2 (andor_of_spec (t :: ts ++ rest) o (ts ++ rest))) by eauto.
    rewrite IH, CO; auto; lia.
  - intros t o ts w us ops K F IH C IHC [|n] rest LE ST; simpl List.length in LE; rewrite app_length in LE; [lia|]; rewrite p_wops_S; cbn [app].
    rewrite (proj2 (andor_of_spec (t :: (ts ++ us) ++ rest) o ((ts ++ us) ++ rest))) by eauto.
    rewrite <- app_assoc, IH; [|lia|apply (cchain_start _ _ _ C)]; rewrite IHC; [reflexivity|lia|exact ST].
  - intros t ts w K F IH [|n] rest LE ST; simpl List.length in LE; [lia|]; rewrite p_wnot_S; cbn [app].
    rewrite (proj2 (not_of_spec (t :: ts ++ rest) (ts ++ rest))) by eauto.
    rewrite IH; [reflexivity|lia|exact ST].
  - intros ts w C IH [|n] rest LE ST; [lia|]; rewrite p_wnot_S, (catom_no_not _ _ _ C); apply IH; [lia|exact ST].
  - intros t b T [|n] rest LE ST; simpl in LE; [lia|]; rewrite p_watom_S; cbn [app].
    rewrite (proj2 (bool_of_spec (t :: rest) b rest)) by eauto; reflexivity.
  - intros ls l t c rs r PR HL HC HR [|n] rest LE ST; [lia|]; rewrite p_watom_S.
    assert (B : bool_of ((ls ++ t :: rs) ++ rest) = None).
    { apply not_word; intros s g r' E; destruct ls as [|x ls].
      - destruct (proj1 (starts _) _ _ _ HL) as [X|(r2 & [X|X])]; [destruct X|discriminate..].
      - injection E as -> E; apply (level_head _ _ _ HL PR s g ls eq_refl). }
    rewrite B; unfold orelse, p_cmp.
    set (k := 8 * List.length ((ls ++ t :: rs) ++ rest) + 8).
    assert (KE : k = 8 * List.length ls + 8 * List.length rs + 8 * List.length rest + 16) by (unfold k; rewrite !app_length; simpl List.length; lia).
    rewrite <- app_assoc; cbn [app].
    rewrite (proj1 (complete _ coherent_cmp) _ _ _ HL); [|lia|].
    + rewrite (proj2 (cmp_of_spec (t :: rs ++ rest) c (rs ++ rest))) by eauto.
      rewrite (rhs_complete _ _ _ _ HR); [reflexivity|lia|exact ST].
    + destruct HC; repeat split; try discriminate; intros ? ? ? X; inversion X.
  - intros ts e PR HC [|n] rest LE ST; [lia|]; rewrite p_watom_S.
    destruct (proj1 (proj2 (proj2 (proj2 (balanced (lang_top N))))) _ _ HC) as (f & b & E & BB).
    assert (B : bool_of (ts ++ rest) = None).
    { clear E; apply not_word; intros s g r E2; inversion HC; subst; injection E2 as <- <- E2; apply (PR f0); reflexivity. }
    rewrite B; unfold orelse.
    assert (P : p_cmp N (8 * List.length (ts ++ rest) + 8) (ts ++ rest) = None).
    { generalize (8 * List.length (ts ++ rest) + 8); intros k; subst ts; cbn [app]; rewrite <- app_assoc; apply cmp_none_call; assumption. }
    rewrite P, (proj1 (proj2 (proj2 (proj2 (complete _ coherent_top)))) _ _ HC); [reflexivity|rewrite app_length; lia].
  - intros ts l g d h HM HD [|n] rest LE ST; [lia|]; rewrite p_watom_S; cbn [app bool_of orelse].
    rewrite cmp_none_lbr, p_call_other by discriminate; unfold orelse, p_subset.
    rewrite <- app_assoc; cbn [app]; rewrite (members_complete _ _ HM); [|cbn [List.length]; rewrite app_length; lia].
    rewrite HD; reflexivity.
  - intros s g HS [|n] rest LE ST; [lia|]; rewrite p_watom_S; cbn [app].
    assert (B : bool_of (TId s g :: rest) = None).
    { apply not_word; intros s' g' r E; injection E as <- <- E; apply names_not_words; destruct (smem s (n_dims N)); [reflexivity|exact HS]. }
    rewrite B; unfold orelse; rewrite (cmp_none_id _ _ _ _ ST), (p_call_none _ _ _ _ _ _ (proj1 (wstop_facts _ ST) 0)).
    simpl p_subset; unfold wname; rewrite HS; reflexivity.
  - intros ts w HC IH [|n] rest LE ST; [lia|]; rewrite p_watom_S; cbn [app bool_of orelse]; rewrite <- app_assoc; cbn [app].
    rewrite (cmp_none_par _ _ _ (proj1 cond_bal _ _ HC) ST), p_call_other by discriminate; unfold orelse; simpl p_subset.
    rewrite IH; [reflexivity|cbn [List.length] in LE; rewrite app_length in LE; lia|exact Logic.I].
Qed.

End Where.

(** * Whole texts *)
Lemma arith_iff L ts e : coherent L -> (parse_arith L ts = Some e <-> level L 3 ts e).
Proof.
  intros CO; unfold parse_arith; split.
  - unfold all_of; destruct (p_lvl L (enough ts) 3 ts) as [[e' [|]]|] eqn:P; try discriminate; intros E; injection E as ->.
    destruct (proj1 (sound L _) 3 _ _ _ (le_n 3) P) as (us & E & K); rewrite app_nil_r in E; subst; exact K.
  - intros H; rewrite <- (app_nil_r ts) at 2; rewrite (proj1 (complete L CO) _ _ _ H); [reflexivity|unfold enough; lia|exact Logic.I].
Qed.
Lemma slice_iff L ts e : coherent L -> (parse_slice L ts = Some e <-> arg L ts e).
Proof.
  intros CO; unfold parse_slice; split.
  - unfold all_of; destruct (p_arg L (enough ts) ts) as [[e' [|]]|] eqn:P; try discriminate; intros E; injection E as ->.
    destruct (proj2 (proj2 (proj2 (proj2 (proj2 (proj2 (sound L _)))))) _ _ _ P) as (us & E & K); rewrite app_nil_r in E; subst; exact K.
  - intros H; rewrite <- (app_nil_r ts) at 2; rewrite (proj2 (proj2 (proj2 (proj2 (proj2 (proj2 (complete L CO)))))) _ _ H); [reflexivity|unfold enough; lia|exact Logic.I].
Qed.
Lemma equation_iff L ts l c r : coherent L -> (parse_equation L ts = Some (l, c, r) <->
  exists us t vs, ts = us ++ t :: vs /\ level L 3 us l /\ cmp_tok t c /\ c <> CLt /\ c <> CGt /\ level L 3 vs r).
Proof.
  intros CO; unfold parse_equation; split.
  - destruct (p_lvl L (enough ts) 3 ts) as [[e q]|] eqn:P; [|discriminate].
    destruct (cmp_of q) as [[c' q']|] eqn:CM; [|discriminate].
    assert (X : match p_lvl L (enough ts) 3 q' with Some (e0, []) => Some (e, c', e0) | _ => None end = Some (l, c, r) -> c' <> CLt -> c' <> CGt ->
      exists us t vs, ts = us ++ t :: vs /\ level L 3 us l /\ cmp_tok t c /\ c <> CLt /\ c <> CGt /\ level L 3 vs r).
    { destruct (p_lvl L (enough ts) 3 q') as [[e0 [|]]|] eqn:Q; try discriminate; intros E N1 N2; injection E as <- <- <-.
      apply cmp_of_spec in CM as (t & -> & T).
      destruct (proj1 (sound L _) 3 _ _ _ (le_n 3) P) as (us & E1 & K); destruct (proj1 (sound L _) 3 _ _ _ (le_n 3) Q) as (vs & E2 & K2).
      rewrite app_nil_r in E2; subst; exists us, t, vs; auto 7. }
    destruct c'; try discriminate; intros E; apply X; try exact E; discriminate.
  - intros (us & t & vs & -> & H1 & T & N1 & N2 & H2).
    rewrite (proj1 (complete L CO) _ _ _ H1); [|unfold enough; rewrite app_length; lia|destruct T; repeat split; try discriminate; intros ? ? ? X; inversion X].
    rewrite (proj2 (cmp_of_spec (t :: vs) c vs)) by eauto.
    assert (X : p_lvl L (enough (us ++ t :: vs)) 3 vs = Some (r, [])).
    { rewrite <- (app_nil_r vs) at 2; apply (proj1 (complete L CO) _ _ _ H2); [|exact Logic.I].
      unfold enough; rewrite app_length; cbn [List.length]; lia. }
    rewrite X.
    destruct c; congruence || reflexivity.
Qed.
Lemma where_sound N ts w : parse_where N ts = Some w -> proper_cond w -> cond N ts w.
Proof.
  unfold parse_where, all_of; destruct (p_where N (enough ts) ts) as [[w' [|]]|] eqn:P; try discriminate; intros E PC; injection E as ->.
  destruct (proj1 (cond_sound N _) _ _ _ P PC) as (us & E & K); rewrite app_nil_r in E; subst; exact K.
Qed.
Lemma where_complete N ts w : no_keywords N -> cond N ts w -> parse_where N ts = Some w.
Proof.
  intros NK H; unfold parse_where; rewrite <- (app_nil_r ts) at 2.
  rewrite (proj1 (cond_complete N NK) _ _ H); [reflexivity|unfold enough; lia|exact Logic.I].
Qed.
