(** Expressions that are written out are read back unchanged. *)
From Verif Require Import Base BaseProofs LangModel LangSpec LangProofs LangWhere CliProofs.
Local Open Scope string_scope.
Local Open Scope list_scope.
Local Arguments String.eqb : simpl never.

(** * At the level of tokens *)
Section Show.
Variable L : lang.
Notation sh := (show (l_mode L)).
Definition sharg (e : expr) : list tok :=
  match l_mode L, e with
  | MCmp, EFun _ _ _ => in_brackets (show (l_mode L) true e)
  | _, _ => show (l_mode L) true e
  end.
Definition shkw (p : string * expr) : list tok := TId (fst p) false :: TSym Eq :: sharg (snd p).
Lemma show_fun a f l k : sh a (EFun f l k) =
  TId f true :: TSym LPar :: sep (map sharg l ++ map shkw k) ++ [TSym RPar].
Proof. reflexivity. Qed.

Lemma num_show ts e a : num ts e -> num (sh a e) e.
Proof. intros [s|t b s []]; cbn; constructor; constructor. Qed.
Lemma str_show ts e a : str L ts e -> str L (sh a e) e.
Proof. intros [s g H]; constructor; exact H. Qed.
Lemma item_show nm ts e a : item L nm ts e -> item L nm (sh a e) e.
Proof. intros []; [apply it_num, (num_show _ _ _ H)|apply it_str, (str_show _ _ _ H)|apply it_name, H]. Qed.
Lemma sep_cons x r : r <> [] -> sep (x :: r) = x ++ TSym Comma :: sep r.
Proof. destruct r; [congruence|reflexivity]. Qed.
Lemma map_nil {A B} (f : A -> B) l : l <> [] -> map f l <> [].
Proof. destruct l; [congruence|discriminate]. Qed.
Lemma items_ne nm ts l : items L nm ts l -> l <> []. Proof. intros []; discriminate. Qed.
Lemma items_show nm ts l : items L nm ts l -> items L nm (sep (map (sh false) l) ++ [TSym RBr]) l.
Proof.
  induction 1; [apply is_last, (item_show _ _ _ _ H)|].
  cbn [map]; rewrite sep_cons, <- app_assoc; [|apply map_nil, (items_ne _ _ _ H0)].
  apply (is_cons _ _ _ _ (sep (map (sh false) l) ++ [TSym RBr])); [apply (item_show _ _ _ _ H)|exact IHitems].
Qed.
Lemma lst_show nm ts e a : lst L nm ts e -> lst L nm (sh a e) e.
Proof. intros []; cbn; constructor; apply (items_show _ _ _ H). Qed.
Lemma slicer_show ts e a : slicer L ts e -> slicer L (sh a e) e.
Proof. intros []; [apply sl_ref, H|apply sl_num, (num_show _ _ _ H)|apply sl_str, (str_show _ _ _ H)|apply sl_list, (lst_show _ _ _ _ H)]. Qed.
Lemma slices_ne ts l : slices L ts l -> l <> []. Proof. intros []; discriminate. Qed.
Lemma slices_show ts l : slices L ts l ->
  slices L (sep (map (fun p => TId (fst p) false :: TSym Eq :: sh false (snd p)) l) ++ [TSym RBr]) l.
Proof.
  induction 1; [cbn [map sep fst snd app]; apply ss_last, (slicer_show _ _ _ H)|].
  cbn [map]; rewrite sep_cons, <- app_assoc; [|apply map_nil, (slices_ne _ _ H0)].
  cbn [fst snd app]; apply (ss_cons _ _ _ _ _ (sep _ ++ [TSym RBr])); [apply (slicer_show _ _ _ H)|exact IHslices].
Qed.
Lemma index_show ts e a : index L ts e -> index L (sh a e) e.
Proof. intros []; cbn; constructor; [exact H|apply (slices_show _ _ H0)]. Qed.
Lemma conf_show ts e a : conf L ts e -> conf L (sh a e) e.
Proof. intros []; constructor; exact H. Qed.

Lemma level_up l k ts e : l <= k -> k <= 3 -> level L l ts e -> level L k ts e.
Proof. induction 1; intros LE HL; [exact HL|]; apply lv_up; [lia|apply IHle; [lia|exact HL]]. Qed.
Lemma atom_level l ts e : l <= 3 -> atom L ts e -> level L l ts e.
Proof. intros LE H; apply (level_up 0); [lia|exact LE|apply lv_atom, H]. Qed.
Lemma op_sym_tok l t o : op_tok l t o -> t = TSym (op_sym o).
Proof. intros []; reflexivity. Qed.

Lemma sep_app (x y : list (list tok)) : x <> [] -> y <> [] -> sep (x ++ y) = sep x ++ TSym Comma :: sep y.
Proof.
  induction x as [|a x IH]; intros H K; [congruence|]; destruct x as [|b x].
  - cbn [app]; apply sep_cons, K.
  - cbn [app]; rewrite sep_cons by discriminate; rewrite (sep_cons a (b :: x)) by discriminate.
    rewrite <- app_assoc; cbn [app]; rewrite <- IH; [reflexivity|discriminate|exact K].
Qed.

Ltac noatom H := exfalso; inversion H; subst; try discriminate;
  try match goal with
  | X : call _ _ _ |- _ => inversion X
  | X : conf _ _ _ |- _ => inversion X
  | X : index _ _ _, M : l_mode _ = MCmp, Y : has_index _ = true |- _ =>
      unfold has_index in Y; rewrite M in Y; discriminate
  | X : index _ _ _ |- _ => inversion X
  end.

Hypothesis CO : coherent L.

Lemma shown :
  (forall l ts e, level L l ts e -> level L 3 (sh false e) e /\ atom L (sh true e) e) /\
  (forall l ts o, chain L l ts o -> chain L l (List.concat (map (fun p => TSym (op_sym (fst p)) :: sh true (snd p)) o)) o) /\
  (forall ts e, atom L ts e -> level L 3 (sh false e) e /\ atom L (sh true e) e) /\
  (forall ts e, call L ts e -> forall a, call L (sh a e) e) /\
  (forall ts l, args L ts l -> args L (sep (map sharg l)) l) /\
  (forall ts k, kws L ts k -> kws L (sep (map shkw k)) k) /\
  (forall ts e, arg L ts e -> arg L (sharg e) e).
Proof.
  assert (AT : forall e, atom L (sh true e) e -> sh false e = sh true e -> level L 3 (sh false e) e /\ atom L (sh true e) e).
  { intros e H E; split; [rewrite E; apply atom_level; [lia|exact H]|exact H]. }
  apply grammar_ind; try (intros; assumption).
  - intros t b ts e T H (IH1 & IH2); assert (X : level L 3 (sh false (ESign b e)) (ESign b e)).
    { cbn [show]; apply (level_up 0); [lia..|]; apply lv_sign; [destruct T; constructor|apply lv_atom, IH2]. }
    split; [exact X|apply at_par, X].
  - intros l ts e us ops LT H (IH1 & IH2) C IHC.
    assert (X : level L 3 (sh false (EChain e ops)) (EChain e ops)).
    { cbn [show]; apply (level_up (S l)); [lia..|]; apply lv_chain; [exact LT|apply atom_level; [lia|exact IH2]|exact IHC]. }
    split; [exact X|apply at_par, X].
  - intros l t o ts e T H (IH1 & IH2); cbn [map List.concat fst snd]; rewrite app_nil_r, <- (op_sym_tok _ _ _ T).
    apply ch_one; [exact T|apply atom_level; [inversion T; lia|exact IH2]].
  - intros l t o ts e us ops T H (IH1 & IH2) C IHC; cbn [map List.concat fst snd app]; rewrite <- (op_sym_tok _ _ _ T).
    apply ch_cons; [exact T|apply atom_level; [inversion T; lia|exact IH2]|exact IHC].
  - intros ts e H IH; apply AT; [apply at_call, IH|inversion H; subst; rewrite !show_fun; reflexivity].
  - intros s H; apply AT; [apply at_ref, H|reflexivity].
  - intros s; apply AT; [apply at_num|reflexivity].
  - intros ts e HI H; apply AT; [apply at_index; [exact HI|apply (index_show _ _ _ H)]|destruct H; reflexivity].
  - intros s g H; apply AT; [apply at_name, H|reflexivity].
  - intros ts e H; apply AT; [apply at_conf, (conf_show _ _ _ H)|destruct H; reflexivity].
  - intros f a; rewrite show_fun; apply cl_none.
  - intros f ts l H IH a; rewrite show_fun; cbn [map]; rewrite app_nil_r; apply cl_args, IH.
  - intros f us k H IH a; rewrite show_fun; apply cl_kws, IH.
  - intros f ts l c us k HA IHA HC HK IHK a; rewrite show_fun, sep_app.
    + rewrite <- app_assoc; apply (cl_both _ _ _ _ [TSym Comma] (sep (map shkw k))); [exact IHA|right; reflexivity|exact IHK].
    + apply map_nil; inversion HA; discriminate.
    + apply map_nil; inversion HK; discriminate.
  - intros ts e H IH; apply ar_one, IH.
  - intros ts e us l H IH HA IHA; cbn [map]; rewrite sep_cons; [|apply map_nil; inversion HA; discriminate].
    apply ar_cons; assumption.
  - intros k g ts e H IH; apply kw_one, IH.
  - intros k g ts e c us l H IH HC HK IHK; cbn [map]; rewrite sep_cons; [|apply map_nil; inversion HK; discriminate].
    cbn [shkw fst snd app]; apply (kw_cons _ _ _ _ _ [TSym Comma]); [exact IH|right; reflexivity|exact IHK].
  - intros ts e M H (IH1 & IH2); apply ag_arith; [exact M|]; unfold sharg; rewrite M in *; apply atom_level; [lia|exact IH2].
  - intros ts e M P H (IH1 & IH2).
    unfold sharg; rewrite M in *; destruct e; try (apply ag_cmp; [exact M|reflexivity|apply atom_level; [lia|exact IH2]]).
    + destruct neg; [noatom IH2|apply ag_num; [rewrite M; discriminate|constructor]].
    + apply ag_cmp; [exact M| |apply atom_level; [lia|exact IH2]]; cbn.
      assert (LN : l_name L s = true) by (inversion IH2; subst; try assumption; noatom IH2).
      rewrite (proj1 CO _ LN); reflexivity.
    + noatom IH2.
    + noatom IH2.
    + noatom IH2.
    + apply ag_cmp; [exact M|reflexivity|apply atom_level; [lia|apply at_par, atom_level; [lia|exact IH2]]].
  - intros ts e M H; unfold sharg; pose proof (num_show _ _ true H) as X; apply ag_num; [exact M|].
    destruct H; destruct (l_mode L); exact X.
  - intros ts e H; unfold sharg; pose proof (str_show _ _ true H) as X; apply ag_str.
    destruct H; destruct (l_mode L); exact X.
  - intros ts e H; unfold sharg; pose proof (lst_show _ _ _ true H) as X; apply ag_list.
    destruct H; destruct (l_mode L); exact X.
  - intros s g M H; unfold sharg; destruct M as [M|M]; rewrite M; apply ag_name; auto.
  - intros ts e M H; unfold sharg; rewrite M; pose proof (conf_show _ _ true H) as X; rewrite M in X; apply ag_conf; assumption.
  - intros ts e M H IH; specialize (IH true); unfold sharg; rewrite M in *; apply ag_call; assumption.
  - intros ts e M H; unfold sharg; rewrite M; pose proof (index_show _ _ true H) as X; rewrite M in X; apply ag_index; assumption.
Qed.
End Show.

Section ShowWhere.
Variable N : names.

Lemma rhs_show ts e : rhs N ts e -> rhs N (show MCmp true e) e.
Proof.
  intros [us x H|t b H|us x H|s g H1 H2].
  - apply rh_call; exact (proj1 (proj2 (proj2 (proj2 (shown (lang_cmp N) (coherent_cmp N))))) _ _ H true).
  - apply rh_bool; exists (if b then "true" else "false"), false; destruct b; auto.
  - apply rh_num; exact (num_show (lang_cmp N) _ _ true H).
  - apply rh_str; assumption.
Qed.
Lemma member_show ts e : member ts e -> member (show MTop false e) e.
Proof. intros []; [constructor| |constructor]; apply mb_num; exact (num_show (lang_top N) _ _ false H). Qed.
Lemma members_ne ts l : members ts l -> l <> []. Proof. intros []; discriminate. Qed.
Lemma members_show ts l : members ts l -> members (sep (map (show MTop false) l) ++ [TSym RBr]) l.
Proof.
  induction 1; [apply ms_last, (member_show _ _ H)|].
  cbn [map]; rewrite sep_cons, <- app_assoc; [|apply map_nil, (members_ne _ _ H0)].
  apply (ms_cons _ _ (sep (map (show MTop false) l) ++ [TSym RBr])); [apply (member_show _ _ H)|exact IHmembers].
Qed.
Lemma cmp_sym_tok t c : cmp_tok t c -> t = TSym (cmp_sym c).
Proof. intros []; reflexivity. Qed.

Lemma cond_shown :
  (forall ts w, cond N ts w -> cond N (wshow false w) w /\ factor N (wshow true w) w) /\
  (forall ts o, cchain N ts o -> cchain N (List.concat (map (fun p => TId (if fst p : bool then "and" else "or") false :: wshow true (snd p)) o)) o) /\
  (forall ts w, factor N ts w -> cond N (wshow false w) w /\ factor N (wshow true w) w) /\
  (forall ts w, catom N ts w -> cond N (wshow false w) w /\ factor N (wshow true w) w).
Proof.
  assert (KW : forall s g, keyword (lower s) (TId s g)) by (intros s g; exists s, g; auto).
  assert (AT : forall w, catom N (wshow true w) w -> wshow false w = wshow true w -> cond N (wshow false w) w /\ factor N (wshow true w) w).
  { intros w H E; rewrite E; split; [apply cd_factor|]; apply fa_atom, H. }
  apply cond_grammar_ind; try (intros; assumption).
  - intros ts w us ops F (IH1 & IH2) C IHC.
    assert (X : cond N (wshow false (WChain w ops)) (WChain w ops)) by (cbn [wshow]; apply cd_chain; assumption).
    split; [exact X|apply fa_atom, ca_par, X].
  - intros t o ts w K F (IH1 & IH2); cbn [map List.concat fst snd]; rewrite app_nil_r; apply cc_one; [destruct o; apply KW|exact IH2].
  - intros t o ts w us ops K F (IH1 & IH2) C IHC; cbn [map List.concat fst snd app]; apply cc_cons; [destruct o; apply KW|exact IH2|exact IHC].
  - intros t ts w K F (IH1 & IH2); cbn [wshow]; split; [apply cd_factor|]; (apply fa_not; [apply KW|exact IH2]).
  - intros t b T; apply AT; [|reflexivity]; cbn; apply ca_bool; destruct b; apply KW.
  - intros ls l t c rs r PR HL HC HR; apply AT; [|reflexivity]; cbn [wshow]; rewrite <- (cmp_sym_tok _ _ HC).
    apply ca_cmp; [exact PR| |exact HC|apply (rhs_show _ _ HR)].
    exact (proj1 (proj1 (shown (lang_cmp N) (coherent_cmp N)) _ _ _ HL)).
  - intros ts e PR H; apply AT; [|reflexivity]; apply ca_fun; [exact PR|].
    exact (proj1 (proj2 (proj2 (proj2 (shown (lang_top N) (coherent_top N))))) _ _ H true).
  - intros ts l g d h HM HD; apply AT; [|reflexivity]; cbn [wshow].
    replace (sep (map (show MTop false) l) ++ [TSym RBr; TId "in" false; TId d false])
      with ((sep (map (show MTop false) l) ++ [TSym RBr]) ++ [TId "in" false; TId d false]) by (rewrite <- app_assoc; reflexivity).
    apply ca_subset; [apply (members_show _ _ HM)|exact HD].
  - intros s g H; apply AT; [apply ca_name, H|reflexivity].
Qed.
End ShowWhere.

(** * At the level of text *)
Fixpoint all_chars (p : ascii -> bool) (s : string) : bool :=
  match s with EmptyString => true | String c t => p c && all_chars p t end.
Definition ident (s : string) : bool :=
  match s with String c _ => is_alpha c | EmptyString => false end
  && all_chars is_idc s && negb (is_kw "inf" s).
Definition digits1 (s : string) : bool := match s with EmptyString => false | _ => all_chars is_digit s end.
Definition exp_text (s : string) : bool :=
  match s with
  | EmptyString => true
  | String c t =>
      (Ascii.eqb c "e" || Ascii.eqb c "E") &&
      (match t with
       | String d r => if Ascii.eqb d "+" || Ascii.eqb d "-" then digits1 r else digits1 t
       | EmptyString => false
       end)
  end.
(** What a number looks like: an integer or a decimal fraction, with an optional exponent. *)
Inductive numeral : string -> Prop :=
| nm_inf : numeral "inf"
| nm_int d x : digits1 d = true -> exp_text x = true -> numeral (String.append d x)
| nm_dec d f x : all_chars is_digit d = true -> all_chars is_digit f = true ->
    (d <> EmptyString \/ f <> EmptyString) -> exp_text x = true ->
    numeral (String.append d (String "." (String.append f x))).
Definition tok_ok (t : tok) : Prop :=
  match t with
  | TId s _ | TRef s | TConf s => ident s = true
  | TNum s => numeral s
  | TSym _ => True
  end.
Fixpoint glued (ts : list tok) : Prop :=
  match ts with
  | [] => True
  | TId _ true :: r => match r with TSym LPar :: _ | TSym LBr :: _ => True | _ => False end /\ glued r
  | _ :: r => glued r
  end.

Definition head_not (p : ascii -> bool) (s : string) : bool :=
  match s with EmptyString => true | String c _ => negb (p c) end.
Lemma span_app p s r : all_chars p s = true -> head_not p r = true -> span p (String.append s r) = (s, r).
Proof.
  induction s as [|c s IH]; simpl.
  - intros _; destruct r as [|c r]; [reflexivity|]; simpl; destruct (p c); [discriminate|reflexivity].
  - rewrite andb_true_iff; intros (A & B) H; rewrite A, IH; auto.
Qed.
Lemma span_ok p s a b : span p s = (a, b) -> all_chars p a = true /\ head_not p b = true /\ s = String.append a b.
Proof.
  revert a b; induction s as [|c s IH]; intros a b; simpl.
  - intros E; injection E as <- <-; auto.
  - destruct (p c) eqn:P.
    + destruct (span p s) as [x y]; intros E; injection E as <- <-; destruct (IH _ _ eq_refl) as (A & B & ->); simpl; rewrite P; auto.
    + intros E; injection E as <- <-; simpl; rewrite P; auto.
Qed.
Lemma append_app a b c : String.append (String.append a b) c = String.append a (String.append b c).
Proof. induction a; simpl; [reflexivity|rewrite IHa; reflexivity]. Qed.

Lemma ident_parts s : ident s = true -> exists c t, s = String c t /\ is_alpha c = true /\ all_chars is_idc s = true /\ is_kw "inf" s = false.
Proof.
  unfold ident; rewrite !andb_true_iff, negb_true_iff; intros ((A & B) & C); destruct s as [|c t]; [discriminate|]; exists c, t; auto.
Qed.
Lemma word_ident s r : ident s = true -> head_not is_idc r = true -> match r with String "." _ => False | _ => True end ->
  word (String.append s r) = Some (TId s (opens r), r).
Proof.
  intros H HR ND; destruct (ident_parts _ H) as (c & t & -> & A & B & C); unfold word.
  change (String.append (String c t) r) with (String c (String.append t r)) at 1; cbv iota; rewrite A.
  rewrite (span_app _ _ _ B HR), C.
  destruct (String.eqb (String c t) "config"); [|reflexivity].
  destruct r as [|x r]; [reflexivity|]; destruct x as [[] [] [] [] [] [] [] []]; try reflexivity; contradiction.
Qed.
Lemma digit_not_alpha c : is_digit c = true -> is_alpha c = false.
Proof. destruct c as [[] [] [] [] [] [] [] []]; vm_compute; auto; discriminate. Qed.
Lemma exponent_app x r : exp_text x = true -> exponent (String.append x (String " " r)) = (x, String " " r).
Proof.
  destruct x as [|c t]; [reflexivity|]; cbn [exp_text String.append]; rewrite andb_true_iff; intros (A & B).
  unfold exponent; rewrite A; destruct t as [|d q]; [discriminate|]; cbn [String.append].
  destruct (Ascii.eqb d "+" || Ascii.eqb d "-") eqn:D.
  - assert (Q : all_chars is_digit q = true /\ q <> EmptyString) by (destruct q; [discriminate|split; [exact B|discriminate]]).
    rewrite span_app; [|apply Q|reflexivity]; destruct q; [destruct Q; congruence|reflexivity].
  - change (String d (String.append q (String " " r))) with (String.append (String d q) (String " " r)).
    rewrite span_app; [reflexivity|exact B|reflexivity].
Qed.
Lemma exp_head x r : exp_text x = true -> head_not is_digit (String.append x (String " " r)) = true /\ match String.append x (String " " r) with String "." _ => False | _ => True end.
Proof.
  destruct x as [|c t]; [cbn; auto|]; cbn [exp_text String.append]; rewrite andb_true_iff, orb_true_iff, !Ascii.eqb_eq; intros ([->| ->] & B); cbn; auto.
Qed.
Lemma number_app s r : numeral s -> s <> "inf" -> number (String.append s (String " " r)) = Some (s, String " " r).
Proof.
  intros [|d x D X|d f x D F NE X] NI; [congruence| |].
  - rewrite append_app; unfold number; destruct (exp_head x r X) as (H1 & H2).
    assert (D' : all_chars is_digit d = true /\ d <> EmptyString) by (destruct d; [discriminate|split; [exact D|discriminate]]).
    rewrite span_app; [|apply D'|exact H1]; rewrite (exponent_app _ _ X); destruct D' as (_ & D').
    destruct (String.append x (String " " r)) as [|y q] eqn:E.
    { destruct x; discriminate. }
    destruct d; [congruence|]; destruct y as [[] [] [] [] [] [] [] []]; try reflexivity; contradiction.
  - rewrite append_app; unfold number; rewrite span_app; [|exact D|reflexivity]; cbn [String.append].
    rewrite append_app, span_app; [|exact F|apply (exp_head _ _ X)]; rewrite (exponent_app _ _ X).
    destruct d, f; try reflexivity; destruct NE; congruence.
Qed.
Lemma numeral_head s r : numeral s -> s <> "inf" -> word (String.append s r) = None.
Proof.
  intros [|d x D X|d f x D F NE X] NI; [congruence| |].
  - destruct d as [|c d]; [discriminate|]; cbn in D; apply andb_true_iff in D as (D & _); cbn; rewrite (digit_not_alpha _ D); reflexivity.
  - destruct d as [|c d]; [reflexivity|]; cbn in D; apply andb_true_iff in D as (D & _); cbn; rewrite (digit_not_alpha _ D); reflexivity.
Qed.

Definition after (t : tok) (r : string) : string := match t with TId _ true => r | _ => String " " r end.
Lemma token_text t r : tok_ok t -> (forall s, t = TId s true -> opens r = true) ->
  token (String.append (tok_text t) r) = Some (t, after t r).
Proof.
  intros OK G; destruct t as [s [|]|s|s|s|y]; cbn [tok_text tok_ok after] in *.
  - unfold token; specialize (G s eq_refl); rewrite word_ident; [rewrite G; reflexivity|exact OK|..];
      (destruct r as [|c r]; [discriminate|]; destruct c as [[] [] [] [] [] [] [] []]; try discriminate; reflexivity || exact Logic.I).
  - rewrite append_app; unfold token; rewrite word_ident; [reflexivity|exact OK|reflexivity|exact Logic.I].
  - rewrite !append_app; cbn [String.append]; unfold token.
    assert (W : word (String "$" (String.append s (String " " r))) = None) by reflexivity.
    assert (W2 : number (String "$" (String.append s (String " " r))) = None) by reflexivity.
    rewrite W, W2, word_ident; [reflexivity|exact OK|reflexivity|exact Logic.I].
  - rewrite !append_app; unfold token.
    assert (W : word (String.append "config." (String.append s (String " " r))) = Some (TConf s, String " " r)).
    { destruct (ident_parts _ OK) as (c & t & -> & A & B & C); unfold word.
      change (span is_idc (String.append "config." (String.append (String c t) (String " " r)))) with ("config", String "." (String c (String.append t (String " " r)))).
      cbn [String.append is_alpha]; cbv beta iota.
      change (is_kw "inf" "config") with false; change (String.eqb "config" "config") with true; cbv iota.
      rewrite A; change (String c (String.append t (String " " r))) with (String.append (String c t) (String " " r)).
      rewrite span_app; [rewrite C; reflexivity|exact B|reflexivity]. }
    cbn [String.append] in *; rewrite W; reflexivity.
  - rewrite append_app; cbn [String.append]; destruct (String.eqb_spec s "inf") as [E|NI].
    + subst; reflexivity.
    + unfold token; rewrite (numeral_head _ _ OK NI), (number_app _ _ OK NI); reflexivity.
  - destruct y; reflexivity.
Qed.

Lemma length_app a b : String.length (String.append a b) = String.length a + String.length b.
Proof. induction a; simpl; [reflexivity|rewrite IHa; reflexivity]. Qed.
Lemma lex_go_space n s : lex_go (S n) (String " " s) = lex_go n s. Proof. reflexivity. Qed.
Lemma lex_step n s x r : token s = Some (x, r) -> (match s with String c _ => is_space c = false | EmptyString => False end) ->
  lex_go (S n) s = option_map (cons x) (lex_go n r).
Proof. intros T SP; destruct s as [|c t]; [contradiction|]; cbn [lex_go]; rewrite SP, T; reflexivity. Qed.
Lemma alpha_not_space c : is_alpha c = true -> is_space c = false.
Proof. destruct c as [[] [] [] [] [] [] [] []]; vm_compute; auto; discriminate. Qed.
Lemma digit_not_space c : is_digit c = true -> is_space c = false.
Proof. destruct c as [[] [] [] [] [] [] [] []]; vm_compute; auto; discriminate. Qed.
Lemma text_head t r : tok_ok t -> match String.append (tok_text t) r with String c _ => is_space c = false | EmptyString => False end.
Proof.
  intros OK; destruct t as [s [|]|s|s|s|y]; cbn [tok_text tok_ok] in *; try reflexivity.
  - destruct (ident_parts _ OK) as (c & t & -> & A & _); cbn; apply alpha_not_space, A.
  - destruct (ident_parts _ OK) as (c & t & -> & A & _); cbn; apply alpha_not_space, A.
  - destruct OK as [|d x D X|d f x D F NE X]; [reflexivity| |].
    + destruct d as [|c d]; [discriminate|]; cbn in D; apply andb_true_iff in D as (D & _); cbn; apply digit_not_space, D.
    + destruct d as [|c d]; [reflexivity|]; cbn in D; apply andb_true_iff in D as (D & _); cbn; apply digit_not_space, D.
  - destruct y; reflexivity.
Qed.

Lemma lex_go_text ts : Forall tok_ok ts -> glued ts -> forall n, String.length (text_of ts) <= n -> lex_go n (text_of ts) = Some ts.
Proof.
  induction ts as [|t ts IH]; intros OK GL n LE; [destruct n; reflexivity|].
  inversion OK as [|? ? O1 O2]; subst; cbn [text_of] in *; rewrite length_app in LE.
  assert (G2 : glued ts) by (destruct t as [? [|]| | | |]; try exact GL; apply GL).
  assert (TT : token (String.append (tok_text t) (text_of ts)) = Some (t, after t (text_of ts))).
  { apply token_text; [exact O1|]; intros s ->; destruct GL as (GL & _); destruct ts as [|[| | | |[]] ts]; try contradiction; reflexivity. }
  assert (TL : 1 <= String.length (tok_text t) /\ (after t (text_of ts) = String " " (text_of ts) -> 2 <= String.length (tok_text t))).
  { pose proof (text_head t EmptyString O1) as TH; destruct t as [s [|]|s|s|s|y]; cbn [tok_text] in *; rewrite ?append_app in *; rewrite ?length_app; cbn [String.length].
    - split; [destruct s; [contradiction|cbn; lia]|]. intros E; exfalso; revert E; cbn [after].
      intros E; apply (f_equal String.length) in E; cbn in E; lia.
    - destruct s; [|cbn; lia]. discriminate.
    - lia.
    - lia.
    - destruct s; [|cbn; lia]. discriminate.
    - destruct y; cbn; lia. }
  destruct n as [|n]; [lia|]; rewrite (lex_step _ _ _ _ TT (text_head _ _ O1)).
  destruct TL as (T1 & T2).
  assert (AF : after t (text_of ts) = text_of ts \/ after t (text_of ts) = String " " (text_of ts)) by (destruct t as [? [|]| | | |]; auto).
  destruct AF as [E|E]; rewrite E in *.
  - rewrite (IH O2 G2); [reflexivity|lia].
  - specialize (T2 eq_refl); destruct n as [|n]; [lia|]; rewrite lex_go_space, (IH O2 G2); [reflexivity|lia].
Qed.
Lemma lex_text ts : Forall tok_ok ts -> glued ts -> lex (text_of ts) = Some ts.
Proof. intros A B; apply lex_go_text; auto. Qed.

(** ** Texts only contain proper tokens *)
Lemma all_chars_app p a b : all_chars p (String.append a b) = all_chars p a && all_chars p b.
Proof. induction a; simpl; [reflexivity|rewrite IHa, andb_assoc; reflexivity]. Qed.
Lemma alpha_idc c : is_alpha c = true -> is_idc c = true.
Proof. intros H; unfold is_idc; rewrite H; reflexivity. Qed.
Lemma span_ident c s w r : is_alpha c = true -> span is_idc (String c s) = (w, r) -> is_kw "inf" w = false -> ident w = true.
Proof.
  intros A E K; cbn in E; rewrite (alpha_idc _ A) in E; destruct (span is_idc s) as [x y] eqn:SP; injection E as <- <-.
  destruct (span_ok _ _ _ _ SP) as (B & _); unfold ident; cbn [all_chars]; rewrite A, (alpha_idc _ A), B, K; reflexivity.
Qed.
Lemma word_ok s t r : word s = Some (t, r) -> tok_ok t.
Proof.
  destruct s as [|c s]; [discriminate|]; cbn [word]; destruct (is_alpha c) eqn:A; [|discriminate].
  destruct (span is_idc (String c s)) as [w q] eqn:SP; destruct (is_kw "inf" w) eqn:K.
  { intros E; injection E as <- <-; constructor. }
  pose proof (span_ident _ _ _ _ A SP K) as ID.
  destruct (String.eqb w "config"); [|intros E; injection E as <- <-; exact ID].
  destruct q as [|[[] [] [] [] [] [] [] []] q]; try (intros E; injection E as <- <-; exact ID).
  destruct q as [|a q]; [intros E; injection E as <- <-; exact ID|].
  destruct (is_alpha a) eqn:AA; [|intros E; injection E as <- <-; exact ID].
  destruct (span is_idc (String a q)) as [x r'] eqn:SP2; destruct (is_kw "inf" x) eqn:K2; intros E; injection E as <- <-; [exact ID|].
  apply (span_ident _ _ _ _ AA SP2 K2).
Qed.
Lemma digits1_of d : all_chars is_digit d = true -> d <> EmptyString -> digits1 d = true.
Proof. destruct d; [congruence|auto]. Qed.
Lemma exponent_ok s x q : exponent s = (x, q) -> exp_text x = true.
Proof.
  destruct s as [|c t]; cbn [exponent]; [intros E; injection E as <- <-; reflexivity|].
  destruct (Ascii.eqb c "e" || Ascii.eqb c "E") eqn:C; [|intros E; injection E as <- <-; reflexivity].
  destruct t as [|d t]; [cbn; intros E; injection E as <- <-; reflexivity|].
  destruct (Ascii.eqb d "+" || Ascii.eqb d "-") eqn:D.
  - destruct (span is_digit t) as [ds r'] eqn:SP; destruct (span_ok _ _ _ _ SP) as (B & _).
    destruct ds as [|y ds]; intros E; injection E as <- <-; [reflexivity|]; cbn [exp_text String.append]; rewrite C, D; exact B.
  - destruct (span is_digit (String d t)) as [ds r'] eqn:SP; destruct (span_ok _ _ _ _ SP) as (B & _ & E2).
    destruct ds as [|y ds]; intros E; injection E as <- <-; [reflexivity|]; injection E2 as -> E2.
    cbn [exp_text String.append]; rewrite C, D; exact B.
Qed.
Lemma number_ok s x r : number s = Some (x, r) -> numeral x.
Proof.
  unfold number; destruct (span is_digit s) as [d q] eqn:SP; destruct (span_ok _ _ _ _ SP) as (B & _).
  assert (X : match d with EmptyString => None | _ => let '(x0, q0) := exponent q in Some (String.append d x0, q0) end = Some (x, r) -> numeral x).
  { destruct d as [|c d]; [discriminate|]; destruct (exponent q) as [y q'] eqn:EX; intros E; injection E as <- <-.
    apply (nm_int (String c d)); [exact B|apply (exponent_ok _ _ _ EX)]. }
  destruct q as [|[[] [] [] [] [] [] [] []] q]; try exact X.
  destruct (span is_digit q) as [f q2] eqn:SP2; destruct (span_ok _ _ _ _ SP2) as (B2 & _).
  destruct (exponent q2) as [y q'] eqn:EX; pose proof (exponent_ok _ _ _ EX) as EO.
  destruct d as [|c d]; [destruct f as [|c f]; [discriminate|]|]; intros E; injection E as <- <-.
  - apply (nm_dec EmptyString (String c f)); auto; right; discriminate.
  - apply (nm_dec (String c d) f); auto; left; discriminate.
Qed.
Lemma token_ok s t r : token s = Some (t, r) -> tok_ok t.
Proof.
  unfold token; destruct (word s) as [[w q]|] eqn:W; [intros E; injection E as <- <-; apply (word_ok _ _ _ W)|].
  destruct (number s) as [[x q]|] eqn:NU; [intros E; injection E as <- <-; apply (number_ok _ _ _ NU)|].
  assert (X : match symbol s with Some (y, r) => Some (TSym y, r) | None => None end = Some (t, r) -> tok_ok t).
  { destruct (symbol s) as [[y q]|]; [|discriminate]; intros E; injection E as <- <-; exact Logic.I. }
  destruct s as [|[[] [] [] [] [] [] [] []] s]; try exact X; clear X.
  - destruct (word s) as [[[x g| | |x|] q]|] eqn:W2; try discriminate; intros E; injection E as <- <-; apply (word_ok _ _ _ W2).
  - destruct (word s) as [[[x g| | |x|] q]|] eqn:W2; try discriminate; intros E; injection E as <- <-; apply (word_ok _ _ _ W2).
Qed.
Lemma lex_ok s ts : lex s = Some ts -> Forall tok_ok ts.
Proof.
  unfold lex; generalize (String.length s); intros n; revert s ts; induction n as [|n IH]; intros s ts; cbn [lex_go].
  - destruct s; [|discriminate]; intros E; injection E as <-; constructor.
  - destruct s as [|c s]; [intros E; injection E as <-; constructor|].
    destruct (is_space c); [apply IH|].
    destruct (token (String c s)) as [[x r]|] eqn:T; [|discriminate].
    destruct (lex_go n r) as [l|] eqn:LG; [|discriminate]; intros E; injection E as <-.
    constructor; [apply (token_ok _ _ _ T)|apply (IH _ _ LG)].
Qed.

(** ** What is written out only contains proper tokens *)
Definition good (ts : list tok) : Prop := Forall tok_ok ts /\ glued ts.
Lemma glued_app a b : glued a -> glued b -> glued (a ++ b).
Proof.
  induction a as [|t a IH]; intros A B; [exact B|].
  destruct t as [s [|]| | | |]; cbn [glued app] in *; auto.
  destruct A as (A1 & A2); split; [|auto]; destruct a as [|[| | | |[]] a]; try contradiction; exact Logic.I.
Qed.
Lemma good_app a b : good a -> good b -> good (a ++ b).
Proof. intros (A1 & A2) (B1 & B2); split; [apply Forall_app; auto|apply glued_app; auto]. Qed.
Lemma good_nil : good []. Proof. split; [constructor|exact Logic.I]. Qed.
Lemma good_sym y r : good r -> good (TSym y :: r).
Proof. intros (A & B); split; [constructor; [exact Logic.I|exact A]|exact B]. Qed.
Lemma good_id s r : ident s = true -> good r -> good (TId s false :: r).
Proof. intros H (A & B); split; [constructor; assumption|exact B]. Qed.
Lemma good_open s y r : ident s = true -> y = LPar \/ y = LBr -> good r -> good (TId s true :: TSym y :: r).
Proof. intros H [->| ->] (A & B); (split; [constructor; [exact H|constructor; [exact Logic.I|exact A]]|split; [exact Logic.I|exact B]]). Qed.
Lemma good_one t : tok_ok t -> (forall s, t <> TId s true) -> good [t].
Proof. intros H N; split; [constructor; [exact H|constructor]|]; destruct t as [s [|]| | | |]; try exact Logic.I; congruence. Qed.
Lemma good_brackets ts : good ts -> good (in_brackets ts).
Proof. intros H; apply good_sym, good_app; [exact H|apply good_sym, good_nil]. Qed.
Lemma good_sep l : Forall good l -> good (sep l).
Proof.
  induction 1 as [|x r H1 H2 IH]; [apply good_nil|]; destruct r as [|y r]; [exact H1|].
  rewrite sep_cons by discriminate; apply good_app; [exact H1|apply good_sym, IH].
Qed.

Lemma num_good m a ts e : num ts e -> Forall tok_ok ts -> good (show m a e).
Proof.
  intros [s|t b s T] F.
  - inversion F; subst; apply good_one; [assumption|discriminate].
  - inversion F as [|? ? F1 F2]; subst; inversion F2; subst; destruct b; cbn; [apply good_sym|]; apply good_one; auto; discriminate.
Qed.
Section Good.
Variable L : lang.
Notation sh := (show (l_mode L)).
Lemma str_good a ts e : str L ts e -> Forall tok_ok ts -> good (sh a e).
Proof. intros [s g H] F; inversion F; subst; apply good_id; [assumption|apply good_nil]. Qed.
Lemma item_good nm a ts e : item L nm ts e -> Forall tok_ok ts -> good (sh a e).
Proof.
  intros [us x H|us x H|s g H] F; [apply (num_good _ _ _ _ H F)|apply (str_good _ _ _ H F)|].
  inversion F; subst; apply good_id; [assumption|apply good_nil].
Qed.
Lemma items_good nm ts l : items L nm ts l -> Forall tok_ok ts -> Forall good (map (sh false) l).
Proof.
  induction 1; intros F; apply Forall_app in F as (F1 & F2).
  - constructor; [apply (item_good _ _ _ _ H F1)|constructor].
  - inversion F2; subst; constructor; [apply (item_good _ _ _ _ H F1)|auto].
Qed.
Lemma lst_good nm a ts e : lst L nm ts e -> Forall tok_ok ts -> good (sh a e).
Proof.
  intros [us l H] F; inversion F; subst; apply good_sym, good_app; [apply good_sep, (items_good _ _ _ H); assumption|apply good_sym, good_nil].
Qed.
Lemma slicer_good a ts e : slicer L ts e -> Forall tok_ok ts -> good (sh a e).
Proof.
  intros [s H|us x H|us x H|us x H] F; [|apply (num_good _ _ _ _ H F)|apply (str_good _ _ _ H F)|apply (lst_good _ _ _ _ H F)].
  inversion F; subst; apply good_one; [assumption|discriminate].
Qed.
Lemma slices_good ts l : slices L ts l -> Forall tok_ok ts ->
  Forall good (map (fun p => TId (fst p) false :: TSym Eq :: sh false (snd p)) l).
Proof.
  induction 1; intros F; inversion F as [|? ? F1 F2]; subst; inversion F2 as [|? ? F3 F4]; subst; apply Forall_app in F4 as (F5 & F6); cbn [map fst snd].
  - constructor; [apply good_id, good_sym, (slicer_good _ _ _ H F5); assumption|constructor].
  - inversion F6; subst; constructor; [apply good_id, good_sym, (slicer_good _ _ _ H F5); assumption|auto].
Qed.
Lemma index_good a ts e : index L ts e -> Forall tok_ok ts -> good (sh a e).
Proof.
  intros [s us l H1 H2] F; inversion F as [|? ? F1 F2]; subst; inversion F2; subst; cbn [show].
  apply good_open; [assumption|auto|]; apply good_app; [apply good_sep, (slices_good _ _ H2); assumption|apply good_sym, good_nil].
Qed.
Lemma conf_good a ts e : conf L ts e -> Forall tok_ok ts -> good (sh a e).
Proof. intros [s H] F; inversion F; subst; apply good_one; [assumption|discriminate]. Qed.

Lemma sharg_good e : good (sh true e) -> good (sharg L e).
Proof. intros H; unfold sharg; destruct (l_mode L); auto; destruct e; auto; apply good_brackets; exact H. Qed.

Lemma shown_good :
  (forall l ts e, level L l ts e -> Forall tok_ok ts -> forall a, good (sh a e)) /\
  (forall l ts o, chain L l ts o -> Forall tok_ok ts -> good (List.concat (map (fun p => TSym (op_sym (fst p)) :: sh true (snd p)) o))) /\
  (forall ts e, atom L ts e -> Forall tok_ok ts -> forall a, good (sh a e)) /\
  (forall ts e, call L ts e -> Forall tok_ok ts -> forall a, good (sh a e)) /\
  (forall ts l, args L ts l -> Forall tok_ok ts -> Forall good (map (sharg L) l)) /\
  (forall ts k, kws L ts k -> Forall tok_ok ts -> Forall good (map (shkw L) k)) /\
  (forall ts e, arg L ts e -> Forall tok_ok ts -> good (sharg L e)).
Proof.
  assert (WR : forall (a : bool) ts, good ts -> good (if a then in_brackets ts else ts)) by (intros [|] ts H; [apply good_brackets|]; exact H).
  assert (FN : forall a f l k, ident f = true -> Forall good (map (sharg L) l) -> Forall good (map (shkw L) k) -> good (sh a (EFun f l k))).
  { intros a f l k ID HL HK; rewrite show_fun; apply good_open; [exact ID|auto|]; apply good_app; [apply good_sep, Forall_app; auto|apply good_sym, good_nil]. }
  apply grammar_ind; try (intros; solve [auto]).
  - intros t b ts e T H IH F a; inversion F; subst; cbn [show]; apply WR, good_sym, IH; assumption.
  - intros l ts e us ops LT H IH C IHC F a; apply Forall_app in F as (F1 & F2); cbn [show]; apply WR, good_app; auto.
  - intros l t o ts e T H IH F; inversion F; subst; cbn [map List.concat fst snd]; rewrite app_nil_r; apply good_sym, IH; assumption.
  - intros l t o ts e us ops T H IH C IHC F; inversion F as [|? ? F1 F2]; subst; apply Forall_app in F2 as (F3 & F4).
    cbn [map List.concat fst snd]; apply (good_sym _ (_ ++ _)), good_app; auto.
  - intros s H F a; inversion F; subst; apply good_one; [assumption|discriminate].
  - intros s F a; inversion F; subst; apply good_one; [assumption|discriminate].
  - intros ts e HI H F a; apply (index_good _ _ _ H F).
  - intros s g H F a; inversion F; subst; apply good_id; [assumption|apply good_nil].
  - intros ts e H F a; apply (conf_good _ _ _ H F).
  - intros ts e H IH F a; inversion F as [|? ? F1 F2]; subst; apply Forall_app in F2 as (F3 & F4); auto.
  - intros f F a; inversion F; subst; apply FN; [assumption|constructor|constructor].
  - intros f ts l H IH F a; inversion F as [|? ? F1 F2]; subst; inversion F2 as [|? ? F3 F4]; subst; apply Forall_app in F4 as (F5 & F6).
    apply FN; [exact F1|auto|constructor].
  - intros f us k H IH F a; inversion F as [|? ? F1 F2]; subst; inversion F2 as [|? ? F3 F4]; subst; apply Forall_app in F4 as (F5 & F6).
    apply FN; [exact F1|constructor|auto].
  - intros f ts l c us k HA IHA HC HK IHK F a; inversion F as [|? ? F1 F2]; subst; inversion F2 as [|? ? F3 F4]; subst.
    apply Forall_app in F4 as (F5 & F6); apply Forall_app in F6 as (F7 & F8); apply Forall_app in F8 as (F9 & F10).
    apply FN; auto.
  - intros ts e H IH F; constructor; [auto|constructor].
  - intros ts e us l H IH HA IHA F; apply Forall_app in F as (F1 & F2); inversion F2; subst; constructor; auto.
  - intros k g ts e H IH F; inversion F as [|? ? F1 F2]; subst; inversion F2; subst; constructor; [|constructor].
    apply good_id, good_sym, IH; assumption.
  - intros k g ts e c us l H IH HC HK IHK F; inversion F as [|? ? F1 F2]; subst; inversion F2 as [|? ? F3 F4]; subst.
    apply Forall_app in F4 as (F5 & F6); apply Forall_app in F6 as (F7 & F8); constructor; [|auto].
    apply good_id, good_sym, IH; assumption.
  - intros ts e M H IH F; apply sharg_good, IH, F.
  - intros ts e M P H IH F; apply sharg_good, IH, F.
  - intros ts e M H F; apply sharg_good, (num_good _ _ _ _ H F).
  - intros ts e H F; apply sharg_good, (str_good _ _ _ H F).
  - intros ts e H F; apply sharg_good, (lst_good _ _ _ _ H F).
  - intros s g M H F; inversion F; subst; apply sharg_good, good_id; [assumption|apply good_nil].
  - intros ts e M H F; apply sharg_good, (conf_good _ _ _ H F).
  - intros ts e M H IH F; apply sharg_good, IH, F.
  - intros ts e M H F; apply sharg_good, (index_good _ _ _ H F).
Qed.
End Good.

Section GoodWhere.
Variable N : names.
Lemma cond_good :
  (forall ts w, cond N ts w -> Forall tok_ok ts -> forall a, good (wshow a w)) /\
  (forall ts o, cchain N ts o -> Forall tok_ok ts -> good (List.concat (map (fun p => TId (if fst p : bool then "and" else "or") false :: wshow true (snd p)) o))) /\
  (forall ts w, factor N ts w -> Forall tok_ok ts -> forall a, good (wshow a w)) /\
  (forall ts w, catom N ts w -> Forall tok_ok ts -> forall a, good (wshow a w)).
Proof.
  assert (RG : forall ts e, rhs N ts e -> Forall tok_ok ts -> good (show MCmp true e)).
  { intros ts e [us x H|t b H|us x H|s g H1 H2] F.
    - exact (proj1 (proj2 (proj2 (proj2 (shown_good (lang_cmp N))))) _ _ H F true).
    - destruct b; (apply good_id; [reflexivity|apply good_nil]).
    - apply (num_good _ _ _ _ H F).
    - inversion F; subst; apply good_id; [assumption|apply good_nil]. }
  assert (MG : forall ts e, member ts e -> Forall tok_ok ts -> good (show MTop false e)).
  { intros ts e [s|us x H|s g] F; [|apply (num_good _ _ _ _ H F)|].
    - inversion F; subst; apply good_one; [assumption|discriminate].
    - inversion F; subst; apply good_id; [assumption|apply good_nil]. }
  assert (MSG : forall ts l, members ts l -> Forall tok_ok ts -> Forall good (map (show MTop false) l)).
  { induction 1; intros F; apply Forall_app in F as (F1 & F2); [constructor; [eauto|constructor]|].
    inversion F2; subst; constructor; eauto. }
  assert (WD : forall o : bool, ident (if o then "and" else "or") = true) by (intros [|]; reflexivity).
  apply cond_grammar_ind; try (intros; solve [auto]).
  - intros ts w us ops HF IH C IHC F a; apply Forall_app in F as (F1 & F2); cbn [wshow].
    assert (G : good (wshow true w ++ List.concat (map (fun p => TId (if fst p : bool then "and" else "or") false :: wshow true (snd p)) ops))) by (apply good_app; auto).
    destruct a; [apply good_brackets, G|exact G].
  - intros t o ts w K HF IH F; inversion F; subst; cbn [map List.concat fst snd]; rewrite app_nil_r; apply good_id; [apply WD|auto].
  - intros t o ts w us ops K HF IH C IHC F; inversion F as [|? ? F1 F2]; subst; apply Forall_app in F2 as (F3 & F4).
    cbn [map List.concat fst snd]; apply (good_id _ (_ ++ _)); [apply WD|apply good_app; auto].
  - intros t ts w K HF IH F a; inversion F; subst; cbn [wshow]; apply good_id; [reflexivity|auto].
  - intros t b T F a; cbn [wshow]; apply good_id; [destruct b; reflexivity|apply good_nil].
  - intros ls l t c rs r PR HL HC HR F a; apply Forall_app in F as (F1 & F2); inversion F2; subst; cbn [wshow].
    apply good_app; [exact (proj1 (shown_good (lang_cmp N)) _ _ _ HL F1 false)|apply good_sym; eauto].
  - intros ts e PR H F a; exact (proj1 (proj2 (proj2 (proj2 (shown_good (lang_top N))))) _ _ H F true).
  - intros ts l g d h HM HD F a; inversion F as [|? ? F1 F2]; subst; apply Forall_app in F2 as (F3 & F4); cbn [wshow].
    inversion F4 as [|? ? F5 F6]; subst; inversion F6; subst.
    apply good_sym, good_app; [apply good_sep; eauto|]; apply good_sym, good_id; [reflexivity|apply good_id; [assumption|apply good_nil]].
  - intros s g H F a; inversion F; subst; apply good_id; [assumption|apply good_nil].
  - intros ts w H IH F a; inversion F as [|? ? F1 F2]; subst; apply Forall_app in F2 as (F3 & F4); auto.
Qed.
End GoodWhere.
