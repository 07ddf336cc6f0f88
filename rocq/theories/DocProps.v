(** C105: the documentation of math. *)
From Verif Require Import Base BaseProofs DocModel DocSpec DocProofs.
Local Open Scope string_scope.
Local Open Scope list_scope.

Lemma document_ok inc math d : document inc math = Ok d -> exists s, build inc math = Ok s /\ d = entries s /\ NoDup (d_keys (ds s)).
Proof.
  unfold document; destruct (build inc math) as [s|e] eqn:B; [|discriminate]; cbn; intros H; injection H as <-; exists s; split; [reflexivity|split; [reflexivity|]].
  exact (fold_nodup inc (allowed math) (ordered math) {| ds := []; strings := [] |} s (NoDup_nil _) B).
Qed.

(** "Uses" and "Used in" mirror each other, for any math. *)
Theorem C105_mirror inc math d a b : document inc math = Ok d -> In a d -> In b d ->
  (In (e_name a) (e_uses b) <-> In (e_name b) (e_used_in a)).
Proof.
  intros H A B; destruct (document_ok _ _ _ H) as (s & _ & -> & K).
  apply entries_in in A as (n & g & l & I & -> & _); apply entries_in in B as (n' & g' & l' & I' & -> & _); cbn [e_name e_uses e_used_in].
  rewrite !without_spec, uses_in; split.
  - intros ((g0 & l0 & I0 & M) & E); apply d_in_get in I, I0; try exact K; rewrite I in I0; injection I0 as <- <-; split; [exact M|congruence].
  - intros (M & E); split; [exists g, l; auto|congruence].
Qed.
Print Assumptions C105_mirror.

Lemma entry_of_comp inc math d e : distinct math -> in_order math -> document inc math = Ok d -> In e d ->
  exists c, In c math /\ kept (allowed math) c = true /\ e_name e = c_name c /\ e_group e = c_group c /\ e_text e = text_of inc c /\
    (forall b, In b (e_used_in e) <-> noted (allowed math) (ordered math) (c_name c) b /\ b <> c_name c).
Proof.
  intros N O H I; destruct (document_ok _ _ _ H) as (s & B & -> & _); destruct (build_inv _ _ _ N O B) as (K & G & T).
  apply entries_in in I as (n & g & l & I & -> & _); cbn [e_name e_group e_text e_used_in]; apply (d_in_get _ _ _ K) in I.
  destruct (G n g l I) as ((c & IC & KC & <- & <-) & R); exists c; split; [apply ordered_in, IC|split; [exact KC|split; [reflexivity|split; [reflexivity|split; [apply (T c IC KC)|]]]]].
  intros b; rewrite without_spec, R; reflexivity.
Qed.
Lemma comp_entry inc math d c : distinct math -> in_order math -> document inc math = Ok d -> In c math -> kept (allowed math) c = true -> text_of inc c <> None ->
  exists e, In e d /\ e_name e = c_name c /\ e_group e = c_group c /\ e_text e = text_of inc c.
Proof.
  intros N O H I KC TX; destruct (document_ok _ _ _ H) as (s & B & -> & _); destruct (build_inv _ _ _ N O B) as (K & G & T).
  apply ordered_in in I; destruct (T c I KC) as (T1 & T2); destruct (d_get (c_name c) (ds s)) as [[g l]|] eqn:D; [|contradiction].
  destruct (G _ _ _ D) as ((c' & I' & _ & E' & G') & _).
  assert (c' = c). { assert (N' : NoDup (map c_name (ordered math))) by (apply (Permutation_NoDup (Permutation_map c_name (Permutation_sym (ordered_perm math)))), N).
    clear - N' I I' E'. induction (ordered math) as [|x L IH]; [destruct I|]; inversion N' as [|? ? NI N1]; subst.
    destruct I as [->|I], I' as [->|I']; auto; exfalso; apply NI; [rewrite <- E'|rewrite E']; apply in_map; auto. }
  subst c' g; eexists; split; [apply entries_in; exists (c_name c), (c_group c), l; split; [apply d_get_in, D|split; [reflexivity|left; rewrite T2; exact TX]]|].
  cbn; auto.
Qed.
Lemma same_comp math c c' : distinct math -> In c math -> In c' math -> c_name c = c_name c' -> c = c'.
Proof.
  unfold distinct; induction math as [|x L IH]; intros N I I' E; [destruct I|]; inversion N as [|? ? NI N1]; subst.
  destruct I as [->|I], I' as [->|I']; auto; exfalso; apply NI; [rewrite E|rewrite <- E]; apply in_map; auto.
Qed.
Lemma picked_filter (f : eqn -> bool) (P : eqn -> Prop) l : (forall q, P q <-> f q = true) -> forall t, picked P l t <-> t = map q_text (filter f l).
Proof.
  intros F; induction l as [|q l IH]; intros t; cbn [filter].
  - split; [intros H; inversion H; reflexivity|intros ->; constructor].
  - destruct (f q) eqn:E; cbn [map]; split.
    + intros H; inversion H; subst; [f_equal; apply IH; assumption|exfalso; apply H2, F, E].
    + intros ->; constructor; [apply F, E|apply IH; reflexivity].
    + intros H; inversion H; subst; [apply F in H2; congruence|apply IH; assumption].
    + intros ->; constructor; [intros X; apply F in X; congruence|apply IH; reflexivity].
Qed.
Lemma filter_all (l : list eqn) : filter (fun _ => true) l = l.
Proof. induction l as [|q l IH]; [reflexivity|]; cbn; rewrite IH; reflexivity. Qed.
Lemma valid_text ok c t : c_group c <> GParam -> c_group c <> GLookup -> (kept ok c = true /\ text_of Valid c = Some t) <-> applies c /\ equations_that_apply c t.
Proof.
  intros N1 N2; unfold applies, equations_that_apply, by_cases, text_of, kept.
  assert (X : forall P, (P <-> False) -> picked (fun q => P -> q_anywhere q = true) (c_eqs c) t <-> t = map q_text (c_eqs c)).
  { intros P HP; rewrite (picked_filter (fun _ => true)); [|intros q; tauto]; rewrite filter_all; reflexivity. }
  assert (Y : forall P : Prop, P -> picked (fun q => P -> q_anywhere q = true) (c_eqs c) t <-> t = map q_text (filter q_anywhere (c_eqs c))).
  { intros P HP; apply picked_filter; intros q; tauto. }
  assert (Z : existsb q_anywhere (c_eqs c) = true <-> exists q, In q (c_eqs c) /\ q_anywhere q = true) by apply existsb_exists.
  destruct (c_group c) eqn:G; try congruence.
  1, 4: rewrite X by (intuition discriminate); destruct (c_active c) eqn:A, (c_anywhere c) eqn:W; cbn [andb orb];
    (split; [intros (K & E); try discriminate; injection E as <-; repeat split; intros [F|[F|[F|F]]]; discriminate|intros ((A1 & A2 & _) & ->); try discriminate; auto]).
  all: rewrite Y by tauto; destruct (c_active c) eqn:A, (c_anywhere c) eqn:W, (existsb q_anywhere (c_eqs c)) eqn:Q; cbn [andb];
    (split; [intros (K & E); try discriminate; injection E as <-; repeat split; intros _; apply Z; reflexivity|intros ((A1 & A2 & A3) & ->); try discriminate; auto]).
  all: exfalso; assert (false = true) by (apply Z, A3; tauto); discriminate.
Qed.

(** With "valid", exactly the active components that apply somewhere are shown, each with the equations that apply. *)
Theorem C105_valid math d c t : distinct math -> in_order math -> document Valid math = Ok d -> In c math -> ~ is_input c ->
  (shown d c t <-> applies c /\ equations_that_apply c t).
Proof.
  intros N O H I NI; rewrite <- (valid_text (allowed math) c t) by (intros E; apply NI; unfold is_input; auto); split.
  - intros (e & IE & GE & NE & TE); destruct (entry_of_comp _ _ _ _ N O H IE) as (c' & I' & K & E1 & E2 & E3 & _).
    rewrite NE in E1; rewrite (same_comp math c c' N I I' E1); split; [exact K|congruence].
  - intros (K & T); destruct (comp_entry _ _ _ c N O H I K) as (e & IE & E1 & E2 & E3); [congruence|]; exists e; repeat split; congruence.
Qed.
Print Assumptions C105_valid.

(** With "all", every active component that applies somewhere is shown with all its equations. *)
Theorem C105_all_partial math d c : distinct math -> in_order math -> document All math = Ok d -> In c math -> ~ is_input c ->
  c_active c = true -> c_anywhere c = true -> shown d c (all_equations c).
Proof.
  intros N O H I NI A W; assert (T : text_of All c = Some (all_equations c)).
  { unfold text_of, all_equations; destruct (c_group c) eqn:G; try reflexivity; try (exfalso; apply NI; unfold is_input; auto; fail).
    all: rewrite W; rewrite filter_all; reflexivity. }
  assert (K : kept (allowed math) c = true) by (unfold kept; rewrite A; destruct (c_group c); reflexivity).
  destruct (comp_entry _ _ _ c N O H I K) as (e & IE & E1 & E2 & E3); [congruence|]; exists e; repeat split; congruence.
Qed.
Print Assumptions C105_all_partial.

Definition eq1 (t : string) (rs : list string) (b : bool) : eqn := {| q_text := t; q_refs := rs; q_anywhere := b |}.
Definition cm (g : group) (n : string) (a w : bool) (wh : list string) (es : list eqn) : comp :=
  {| c_group := g; c_name := n; c_active := a; c_anywhere := w; c_where := wh; c_eqs := es |}.
Ltac nodup := unfold distinct; cbn; repeat (apply NoDup_cons; [cbn; intuition discriminate|]); apply NoDup_nil.

(** ... but one that applies nowhere in the model at hand is shown without any of its equations. *)
Definition idle : list comp :=
  [cm GParam "cap_max" true true [] [];
   cm GVar "flow" true true [] [eq1 "0 <= flow" [] true; eq1 "flow <= inf" [] true];
   cm GCons "limit" true false ["cap_max"] [eq1 "flow <= cap_max" ["flow"; "cap_max"] false]].
Theorem C105_all_refuted : exists math d c, distinct math /\ in_order math /\ document All math = Ok d /\ In c math /\ c_active c = true /\
  all_equations c <> [] /\ shown d c [] /\ ~ shown d c (all_equations c).
Proof.
  exists idle; eexists; exists (cm GCons "limit" true false ["cap_max"] [eq1 "flow <= cap_max" ["flow"; "cap_max"] false]).
  split; [nodup|split].
  { intros l1 c l2 E c' I X. assert (HO : ordered idle = idle) by reflexivity; rewrite HO in E.
    destruct l1 as [|x1 [|x2 [|x3 [|]]]]; cbn in E; try (destruct I; fail); try discriminate; injection E; intros; subst;
      destruct X as [X|(q & Q & X)]; cbn in I; repeat match goal with H : _ \/ _ |- _ => destruct H | H : False |- _ => destruct H end; subst; cbn in *; intuition (subst; cbn in *; intuition discriminate). }
  split; [vm_compute; reflexivity|split; [right; right; left; reflexivity|split; [reflexivity|split; [discriminate|split]]]].
  - eexists; split; [right; right; left; reflexivity|repeat split].
  - intros (e & I & _ & E & T); repeat (destruct I as [<-|I]); try destruct I; try discriminate.
Qed.
Print Assumptions C105_all_refuted.

(** What is counted as a reference of [c] to [n]: conditions of active components; equations if the component applies somewhere;
    bounds unless the name is a letter of the variable's name; everything in piecewise constraints. *)
Definition counted (c : comp) (n : string) : Prop :=
  match c_group c with
  | GParam | GLookup => False
  | GVar => c_active c = true /\ (In n (c_where c) \/ (names_in_equations c n /\ ~ In n (letters (c_name c))))
  | GPiece => names c n
  | _ => c_active c = true /\ (In n (c_where c) \/ (c_anywhere c = true /\ names_in_equations c n))
  end.
Lemma built_active inc math s c : build inc math = Ok s -> In c math -> c_group c = GVar -> kept (allowed math) c = true -> c_active c = true.
Proof.
  unfold build; intros H I G K; apply ordered_in in I; apply in_split in I as (l1 & l2 & E); rewrite E, fold_left_app in H.
  destruct (fold_left (add inc (allowed math)) l1 (Ok {| ds := []; strings := [] |})) as [s1|e]; [|rewrite fold_err in H; discriminate].
  cbn [fold_left] in H; destruct (add inc (allowed math) (Ok s1) c) as [s2|e] eqn:A; [|rewrite fold_err in H; discriminate].
  unfold add in A; cbn [bind] in A; rewrite G in A; unfold add_variable in A; unfold kept in K; rewrite G in K.
  destruct (c_active c); [reflexivity|]; cbn [orb] in K; apply negb_true_iff in K; rewrite K in A; cbn [negb andb forallb] in A; rewrite K in A; discriminate.
Qed.
Theorem C105_used_in math inc d e : distinct math -> in_order math -> document inc math = Ok d -> In e d ->
  forall b, In b (e_used_in e) <-> b <> e_name e /\ exists c, In c math /\ c_name c = b /\ counted c (e_name e).
Proof.
  intros N O H I b; destruct (entry_of_comp _ _ _ _ N O H I) as (c0 & I0 & K0 & E1 & _ & _ & R); rewrite R, E1; unfold noted.
  destruct (document_ok _ _ _ H) as (s & B & _).
  assert (Q : forall c, In c math -> (kept (allowed math) c = true /\ In (c_name c0) (ref_of c) /\ c_name c <> c_name c0) <-> (counted c (c_name c0) /\ c_name c <> c_name c0)).
  { intros c IC; pose proof (built_active _ _ _ c B IC) as BA; pose proof (in_flat c (c_name c0)) as FL; unfold kept, ref_of, counted, names in *.
    destruct (c_group c); try (cbn; tauto).
    - rewrite in_app_iff, in_difference; cbn [In]; split.
      + intros (K & X & NE); rewrite (BA eq_refl K) in X |- *; split; [|exact NE]; split; [reflexivity|]; destruct X as [X|([X|X] & Y)]; [auto|congruence|tauto].
      + intros ((A & X) & NE); rewrite A; split; [reflexivity|split; [|exact NE]]; tauto.
    - rewrite in_app_iff; destruct (c_anywhere c); cbn [In]; intuition discriminate.
    - rewrite in_app_iff; destruct (c_anywhere c); cbn [In]; intuition discriminate.
    - rewrite in_app_iff; tauto.
    - rewrite in_app_iff; destruct (c_anywhere c); cbn [In]; intuition discriminate.
    - rewrite in_app_iff; destruct (c_anywhere c); cbn [In]; intuition discriminate. }
  split.
  - intros ((c & IC & K & <- & X) & NE); apply (proj1 (ordered_in math c)) in IC; split; [exact NE|]; exists c; split; [exact IC|split; [reflexivity|]]; apply (Q c IC); auto.
  - intros (NE & c & IC & <- & X); split; [|exact NE]; exists c; split; [apply ordered_in, IC|]; destruct (proj2 (Q c IC) (conj X NE)) as (? & ? & ?); auto.
Qed.
Print Assumptions C105_used_in.

(** Inputs are listed exactly if something refers to them. *)
Theorem C105_inputs math inc d c : distinct math -> in_order math -> document inc math = Ok d -> In c math -> is_input c -> c_active c = true ->
  ((exists e, In e d /\ e_name e = c_name c) <-> exists c', In c' math /\ c_name c' <> c_name c /\ counted c' (c_name c)).
Proof.
  intros N O H I IN A; split.
  - intros (e & IE & E); destruct (document_ok _ _ _ H) as (s & B & DE & K).
    assert (X : exists b, In b (e_used_in e)).
    { destruct (build_inv _ _ _ N O B) as (_ & G & T); pose proof IE as IE0; rewrite DE in IE; apply entries_in in IE as (n & g & l & IL & -> & W); cbn in E; subst n.
      apply (d_in_get _ _ _ K) in IL; destruct (G _ _ _ IL) as ((c' & I' & K' & E' & G') & R).
      assert (c = c') by (apply (same_comp math c c' N I); [apply ordered_in, I'|congruence]); subst c'.
      destruct (T c I' K') as (_ & T2); rewrite G' in T2; destruct W as [W|(_ & W)].
      - exfalso; apply W; rewrite T2; unfold text_of; destruct IN as [-> | ->]; reflexivity.
      - destruct l as [|b l]; [contradiction|]; exists b; cbn [e_used_in]; apply without_spec; split; [left; reflexivity|].
        intros ->; destruct (proj1 (R (c_name c)) (or_introl eq_refl)) as (c2 & I2 & K2 & E2 & R2).
        assert (c2 = c) by (apply (same_comp math c2 c N); [apply ordered_in, I2|exact I|exact E2]); subst c2; unfold ref_of in R2; destruct IN as [X|X]; rewrite X in R2; destruct R2. }
    destruct X as (b & X); apply (C105_used_in _ _ _ _ N O H IE) in X as (NE & c' & I' & E' & C'); rewrite E in *; exists c'; split; [exact I'|split; [congruence|exact C']].
  - intros (c' & I' & NE & C'); destruct (document_ok _ _ _ H) as (s & B & -> & K); destruct (build_inv _ _ _ N O B) as (_ & G & T).
    assert (KC : kept (allowed math) c = true) by (unfold kept; destruct IN as [-> | ->]; exact A).
    pose proof (proj2 (ordered_in math c) I) as IO; destruct (T c IO KC) as (T1 & _); destruct (d_get (c_name c) (ds s)) as [[g l]|] eqn:D; [|contradiction].
    destruct (G _ _ _ D) as ((c2 & I2 & K2 & E2 & G2) & R).
    assert (c2 = c) by (apply (same_comp math c2 c N); [apply ordered_in, I2|exact I|exact E2]); subst c2 g.
    assert (L : In (c_name c') l).
    { apply R; exists c'; split; [apply ordered_in, I'|]; pose proof (in_flat c' (c_name c)) as FL; unfold counted, kept, ref_of, names in *; destruct (c_group c'); try contradiction.
      - destruct C' as (C1 & C2); rewrite C1; split; [reflexivity|split; [reflexivity|]]; rewrite in_app_iff, in_difference; cbn [In]; tauto.
      - destruct C' as (C1 & C2); split; [exact C1|split; [reflexivity|]]; rewrite in_app_iff; destruct C2 as [C2|(-> & C2)]; tauto.
      - destruct C' as (C1 & C2); split; [exact C1|split; [reflexivity|]]; rewrite in_app_iff; destruct C2 as [C2|(-> & C2)]; tauto.
      - split; [reflexivity|split; [reflexivity|]]; rewrite in_app_iff; tauto.
      - destruct C' as (C1 & C2); split; [exact C1|split; [reflexivity|]]; rewrite in_app_iff; destruct C2 as [C2|(-> & C2)]; tauto.
      - destruct C' as (C1 & C2); split; [exact C1|split; [reflexivity|]]; rewrite in_app_iff; destruct C2 as [C2|(-> & C2)]; tauto. }
    eexists; split; [apply entries_in; exists (c_name c), (c_group c), l; split; [apply d_get_in, D|split; [reflexivity|right; split; [exact IN|]]]|reflexivity].
    intros ->; destruct L.
Qed.
Print Assumptions C105_inputs.

(** If all components are active, apply somewhere and no bound is a name of one letter, "Used in" lists exactly the components
    whose definitions name the one at hand. *)
Theorem C105_used_in_partial math inc d e : distinct math -> in_order math -> document inc math = Ok d -> In e d ->
  (forall c, In c math -> c_active c = true /\ c_anywhere c = true) ->
  (forall c n, In c math -> c_group c = GVar -> names_in_equations c n -> ~ one_letter n) ->
  (forall c n, In c math -> is_input c -> ~ names c n) ->
  forall b, In b (e_used_in e) <-> b <> e_name e /\ exists c, In c math /\ c_name c = b /\ names c (e_name e).
Proof.
  intros N O H I A L INP b; rewrite (C105_used_in _ _ _ _ N O H I b).
  assert (Q : forall c, In c math -> counted c (e_name e) <-> names c (e_name e)).
  { intros c IC; destruct (A c IC) as (A1 & A2); specialize (L c (e_name e) IC); specialize (INP c (e_name e) IC); unfold counted, names, is_input in *; rewrite A1, A2; destruct (c_group c); try tauto.
    split; [tauto|]; intros [X|X]; split; auto; right; split; auto; intros Y; exact (L eq_refl X (letters_in _ _ Y)). }
  split; intros (NE & c & IC & E & X); (split; [exact NE|]); exists c; (split; [exact IC|split; [exact E|]]); apply (Q c IC), X.
Qed.
Print Assumptions C105_used_in_partial.

(** A bound given by a parameter with a name of one letter is not listed if the letter occurs in the name of the variable; the
    parameter may then be missing from the document altogether. *)
Definition letter : list comp :=
  [cm GParam "p" true true [] []; cm GVar "cap" true true [] [eq1 "0 <= cap" [] true; eq1 "cap <= p" ["p"] true]].
Theorem C105_letter_refuted : exists math d c c', distinct math /\ in_order math /\ document All math = Ok d /\ In c math /\ In c' math /\
  c_active c = true /\ c_active c' = true /\ c_anywhere c' = true /\ names c' (c_name c) /\ forall e, In e d -> e_name e <> c_name c /\ ~ In (c_name c) (e_uses e).
Proof.
  exists letter; eexists; exists (cm GParam "p" true true [] []), (cm GVar "cap" true true [] [eq1 "0 <= cap" [] true; eq1 "cap <= p" ["p"] true]).
  split; [nodup|split; [|split; [vm_compute; reflexivity|]]].
  - intros l1 c l2 E c' I X; assert (HO : ordered letter = letter) by reflexivity; rewrite HO in E; destruct l1 as [|x1 [|x2 [|]]]; cbn in E; try (destruct I; fail); try discriminate.
    injection E; intros; subst; destruct I as [<-|[]]; destruct X as [[]|(q & [] & _)].
  - split; [left; reflexivity|split; [right; left; reflexivity|repeat (split; [reflexivity|])]]; split; [right; eexists; split; [right; left; reflexivity|left; reflexivity]|].
    intros e [<-|[]]; split; [discriminate|cbn; tauto].
Qed.
Print Assumptions C105_letter_refuted.

(** With "valid", "Used in" may list components that are not in the document. *)
Theorem C105_links_refuted : exists math d e b, distinct math /\ document Valid math = Ok d /\ In e d /\ In b (e_used_in e) /\ forall e', In e' d -> e_name e' <> b.
Proof.
  exists idle; eexists; exists {| e_group := GParam; e_name := "cap_max"; e_text := None; e_used_in := ["limit"]; e_uses := [] |}, "limit".
  split; [nodup|split; [vm_compute; reflexivity|]]; split; [left; reflexivity|split; [left; reflexivity|]].
  intros e' [<-|[<-|[]]]; discriminate.
Qed.
Print Assumptions C105_links_refuted.

(** Without deactivated variables and with bounds that name active arrays, the document can always be written. *)
Theorem C105_written_partial math inc : (forall c, In c math -> c_group c = GVar -> c_active c = true /\
    forall n, names_in_equations c n -> exists c', In c' math /\ is_array (c_group c') = true /\ c_active c' = true /\ c_name c' = n) ->
  exists d, document inc math = Ok d.
Proof.
  intros H; unfold document, build.
  assert (AL : forall c', In c' math -> is_array (c_group c') = true -> c_active c' = true -> smem (c_name c') (allowed math) = true).
  { intros c' I G A; apply smem_in, in_map, filter_In; rewrite G, A; auto. }
  assert (X : forall L s, (forall c, In c L -> In c math) -> exists s', fold_left (add inc (allowed math)) L (Ok s) = Ok s').
  { induction L as [|c L IH]; intros s I; [exists s; reflexivity|]; cbn [fold_left].
    assert (A : exists s1, add inc (allowed math) (Ok s) c = Ok s1).
    { unfold add; cbn [bind]; destruct (c_group c) eqn:G; try (eexists; reflexivity).
      destruct (H c (I c (or_introl eq_refl)) G) as (A & B); unfold add_variable; rewrite A; cbn [negb andb].
      assert (F : forallb (fun n => smem n (allowed math)) (c_name c :: flat_map q_refs (c_eqs c)) = true); [|rewrite F; eexists; reflexivity].
      apply forallb_forall; intros n [<-|IN]; [apply AL; [apply I; left; reflexivity|rewrite G; reflexivity|exact A]|].
      apply in_flat in IN; destruct (B n IN) as (c' & I' & G' & A' & <-); apply AL; assumption. }
    destruct A as (s1 & ->); apply IH; intros c1 I1; apply I; right; exact I1. }
  destruct (X (ordered math) {| ds := []; strings := [] |}) as (s & E); [intros c; apply ordered_in|]; rewrite E; eexists; reflexivity.
Qed.
Print Assumptions C105_written_partial.

(** A math with a deactivated variable that is not replaced cannot be documented. *)
Theorem C105_deactivated_refuted : exists math, distinct math /\ in_order math /\ (forall c, In c math -> c_active c = false -> forall c', In c' math -> ~ names c' (c_name c)) /\
  forall inc, document inc math = Err EModel.
Proof.
  exists [cm GVar "unmet_demand" false false [] [eq1 "0 <= unmet_demand" [] true; eq1 "unmet_demand <= inf" [] true]].
  split; [nodup|split; [|split]].
  - intros l1 c l2 E c' I; destruct l1 as [|x [|]]; [destruct I|discriminate|discriminate].
  - intros c [<-|[]] _ c' [<-|[]] [[]|(q & [<-|[<-|[]]] & [])].
  - intros []; reflexivity.
Qed.
Print Assumptions C105_deactivated_refuted.

(** Deactivated components other than piecewise constraints are never shown ... *)
Theorem C105_inactive_partial math inc d c : distinct math -> in_order math -> document inc math = Ok d -> In c math -> c_active c = false -> c_group c <> GPiece ->
  forall e, In e d -> e_name e <> c_name c.
Proof.
  intros N O H I A G e IE E; destruct (entry_of_comp _ _ _ _ N O H IE) as (c' & I' & K & E1 & _).
  assert (c = c') by (apply (same_comp math c c' N I I'); congruence); subst c'; destruct (document_ok _ _ _ H) as (s & B & _).
  pose proof (built_active _ _ _ c B I) as BA; unfold kept in *; destruct (c_group c); try congruence; specialize (BA eq_refl K); congruence.
Qed.
Print Assumptions C105_inactive_partial.
(** ... but deactivated piecewise constraints are, with "all". *)
Theorem C105_inactive_refuted : exists math d c t, distinct math /\ document All math = Ok d /\ In c math /\ c_active c = false /\ shown d c t.
Proof.
  exists [cm GPiece "curve" false true [] [eq1 "y = y_values" ["x"; "y"] true]]; eexists; eexists; eexists; split; [nodup|split; [vm_compute; reflexivity|]].
  split; [left; reflexivity|split; [reflexivity|]]; eexists; split; [left; reflexivity|repeat split].
Qed.
Print Assumptions C105_inactive_refuted.

(** A math meeting the hypotheses of the theorems above. *)
Definition small : list comp :=
  [cm GParam "cap_max" true true [] []; cm GParam "price" true true [] [];
   cm GVar "flow" true true ["price"] [eq1 "0 <= flow" [] true; eq1 "flow <= cap_max" ["cap_max"] true];
   cm GExpr "cost" true true [] [eq1 "flow * price" ["flow"; "price"] true; eq1 "0" [] true];
   cm GObj "min_cost" true true [] [eq1 "sum(cost)" ["cost"] true]].
Example C105_example : distinct small /\ in_order small /\
  document All small = document Valid small /\
  document All small = Ok
    [{| e_group := GParam; e_name := "cap_max"; e_text := None; e_used_in := ["flow"]; e_uses := [] |};
     {| e_group := GParam; e_name := "price"; e_text := None; e_used_in := ["cost"; "flow"]; e_uses := [] |};
     {| e_group := GVar; e_name := "flow"; e_text := Some ["0 <= flow"; "flow <= cap_max"]; e_used_in := ["cost"]; e_uses := ["cap_max"; "price"] |};
     {| e_group := GExpr; e_name := "cost"; e_text := Some ["flow * price"; "0"]; e_used_in := ["min_cost"]; e_uses := ["price"; "flow"] |};
     {| e_group := GObj; e_name := "min_cost"; e_text := Some ["sum(cost)"]; e_used_in := []; e_uses := ["cost"] |}].
Proof.
  split; [nodup|split; [|split; vm_compute; reflexivity]].
  intros l1 c l2 E c' I X; assert (HO : ordered small = small) by reflexivity; rewrite HO in E.
  destruct l1 as [|x1 [|x2 [|x3 [|x4 [|x5 [|]]]]]]; cbn in E; try (destruct I; fail); try discriminate; injection E; intros; subst; cbn in I;
    repeat match goal with H : _ \/ _ |- _ => destruct H | H : False |- _ => destruct H end; subst; destruct X as [X|(q & Q & X)]; cbn in *; intuition (subst; cbn in *; intuition discriminate).
Qed.
