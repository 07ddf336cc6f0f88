(** Lemmas about [DocModel]. *)
From Verif Require Import Base BaseProofs DocModel DocSpec.
Local Open Scope string_scope.
Local Open Scope list_scope.

(** ** Order *)
Lemma of_group_cons g c m : of_group g (c :: m) = if group_eq_dec (c_group c) g then c :: of_group g m else of_group g m.
Proof. unfold of_group; cbn [filter]; destruct (group_eq_dec (c_group c) g); reflexivity. Qed.
Lemma group_cons G c m : NoDup G -> In (c_group c) G ->
  Permutation (flat_map (fun g => of_group g (c :: m)) G) (c :: flat_map (fun g => of_group g m) G).
Proof.
  induction G as [|g G IH]; intros N I; [destruct I|]; inversion N as [|? ? NI N']; subst; cbn [flat_map]; rewrite of_group_cons.
  destruct (group_eq_dec (c_group c) g) as [E|E].
  - cbn [app]; constructor; apply Permutation_app_head.
    assert (X : flat_map (fun g0 => of_group g0 (c :: m)) G = flat_map (fun g0 => of_group g0 m) G); [|rewrite X; reflexivity].
    clear IH I N N'; induction G as [|h G IH']; [reflexivity|]; cbn [flat_map]; rewrite of_group_cons, IH' by (intros X; apply NI; right; exact X).
    destruct (group_eq_dec (c_group c) h) as [E'|]; [exfalso; apply NI; left; congruence|reflexivity].
  - destruct I as [I|I]; [congruence|]; rewrite (IH N' I); apply Permutation_sym, Permutation_middle.
Qed.
Lemma ordered_perm math : Permutation (ordered math) math.
Proof.
  unfold ordered; set (G := [GParam; GLookup; GVar; GExpr; GCons; GPiece; GObj; GPost]).
  assert (N : NoDup G). { unfold G; repeat (apply NoDup_cons; [cbn; intuition discriminate|]); apply NoDup_nil. }
  induction math as [|c m IH].
  - assert (X : flat_map (fun g => of_group g []) G = []) by reflexivity; rewrite X; constructor.
  - rewrite group_cons; [constructor; exact IH|exact N|]; unfold G; destruct (c_group c); cbn; tauto.
Qed.

(** ** References *)
Lemma note_get name d r n : d_get n (note name d r) = match d_get n d with Some (g, l) => Some (g, if String.eqb n r then name :: l else l) | None => None end.
Proof.
  unfold note; destruct (String.eqb n r) eqn:E.
  - apply String.eqb_eq in E; subst r; destruct (d_get n d) as [[g l]|] eqn:G; [apply d_get_set_same|exact G].
  - apply String.eqb_neq in E; destruct (d_get r d) as [[g l]|]; [rewrite d_get_set_other by exact E|]; destruct (d_get n d) as [[? ?]|]; reflexivity.
Qed.
Lemma note_nodup name d r : NoDup (d_keys d) -> NoDup (d_keys (note name d r)).
Proof. intros N; unfold note; destruct (d_get r d) as [[g l]|]; [apply d_nodup_set|]; exact N. Qed.
Lemma update_nodup name rs d : NoDup (d_keys d) -> NoDup (d_keys (update_references name rs d)).
Proof. revert d; induction rs as [|r rs IH]; intros d N; [exact N|]; apply IH, note_nodup, N. Qed.
Lemma update_get name rs d n : match d_get n (update_references name rs d) with
  | Some (g, l) => exists l0, d_get n d = Some (g, l0) /\ forall b, In b l <-> In b l0 \/ (b = name /\ In n rs)
  | None => d_get n d = None end.
Proof.
  revert d; induction rs as [|r rs IH]; intros d; cbn [update_references fold_left].
  - destruct (d_get n d) as [[g l]|]; [exists l; split; [reflexivity|intros b; cbn; tauto]|reflexivity].
  - specialize (IH (note name d r)); unfold update_references in *; destruct (d_get n (fold_left (note name) rs (note name d r))) as [[g l]|].
    + destruct IH as (l0 & G & H); rewrite note_get in G; destruct (d_get n d) as [[g' l']|]; [|discriminate]; injection G as <- <-; exists l'; split; [reflexivity|].
      intros b; rewrite H; destruct (String.eqb n r) eqn:E; cbn [In].
      * apply String.eqb_eq in E; subst r; intuition (subst; auto).
      * apply String.eqb_neq in E; intuition (subst; auto; congruence).
    + rewrite note_get in IH; destruct (d_get n d) as [[g' l']|]; [discriminate|reflexivity].
Qed.
Lemma update_app name a b d : update_references name (a ++ b) d = update_references name b (update_references name a d).
Proof. unfold update_references; apply fold_left_app. Qed.

(** ** One component *)
Definition kept (ok : list string) (c : comp) : bool :=
  match c_group c with GPiece => true | GVar => c_active c || negb (smem (c_name c) ok) | _ => c_active c end.
Definition ref_of (c : comp) : list string :=
  match c_group c with
  | GParam | GLookup => []
  | GVar => (if c_active c then c_where c else []) ++ difference (c_name c :: flat_map q_refs (c_eqs c)) (c_name c)
  | GPiece => c_where c ++ flat_map q_refs (c_eqs c)
  | _ => c_where c ++ if c_anywhere c then flat_map q_refs (c_eqs c) else []
  end.
Definition text_of (inc : include) (c : comp) : option (list string) :=
  match c_group c with
  | GParam | GLookup => None
  | GVar | GPiece => if match inc with All => true | Valid => c_active c && c_anywhere c end then Some (map q_text (c_eqs c)) else None
  | _ => if match inc with All => true | Valid => c_anywhere c && existsb q_anywhere (c_eqs c) && c_active c end
         then Some (map q_text (if c_anywhere c then filter (fun q => match inc with All => true | Valid => q_anywhere q end) (c_eqs c) else [])) else None
  end.
Lemma add_spec inc ok s c s' : add inc ok (Ok s) c = Ok s' ->
  (kept ok c = false /\ s' = s) \/
  (kept ok c = true /\ ds s' = update_references (c_name c) (ref_of c) (d_set (c_name c) (c_group c, []) (ds s)) /\
   (forall g n, string_of g n (strings s') = if group_eq_dec g (c_group c) then if String.eqb n (c_name c) then (if match c_group c with GParam | GLookup => true | _ => false end then string_of g n (strings s) else text_of inc c) else string_of g n (strings s) else string_of g n (strings s))).
Proof.
  unfold add, kept, ref_of, text_of; cbn [bind]; destruct (c_group c) eqn:G; intros H.
  1, 2: injection H as <-; unfold add_input; destruct (c_active c); [right|left; auto]; split; [reflexivity|split]; [unfold add_to_dataset; cbn [ds]; rewrite G; reflexivity|]; intros g n; cbn [add_to_dataset strings]; destruct (group_eq_dec g _), (String.eqb n (c_name c)); reflexivity.
  - unfold add_variable in H; destruct (c_active c) eqn:A; cbn [negb andb orb] in *.
    + right; destruct (forallb _ _); [|discriminate]; injection H as <-; split; [reflexivity|split].
      * unfold generate, set_string; cbn [ds add_to_dataset]; rewrite G, update_app; reflexivity.
      * intros g n; unfold generate, set_string; cbn [strings add_to_dataset string_of]; rewrite G, A; destruct (group_eq_dec g GVar); [|reflexivity]; destruct (String.eqb n (c_name c)); [|reflexivity]; destruct inc; [reflexivity|]; cbn [andb]; rewrite andb_true_r; reflexivity.
    + destruct (smem (c_name c) ok) eqn:M; [injection H as <-; left; auto|]; cbn [forallb] in H; rewrite M in H; discriminate.
  - injection H as <-; unfold add_equations; destruct (c_active c) eqn:A; [right|left; auto]; split; [reflexivity|split]; [unfold generate, set_string; cbn [ds add_to_dataset]; rewrite G; reflexivity|].
    intros g n; unfold generate, set_string; cbn [strings add_to_dataset string_of]; rewrite G, A; destruct (group_eq_dec g _); [|reflexivity]; destruct (String.eqb n (c_name c)); reflexivity.
  - injection H as <-; unfold add_equations; destruct (c_active c) eqn:A; [right|left; auto]; split; [reflexivity|split]; [unfold generate, set_string; cbn [ds add_to_dataset]; rewrite G; reflexivity|].
    intros g n; unfold generate, set_string; cbn [strings add_to_dataset string_of]; rewrite G, A; destruct (group_eq_dec g _); [|reflexivity]; destruct (String.eqb n (c_name c)); reflexivity.
  - injection H as <-; right; split; [reflexivity|split]; [unfold add_piecewise, generate, set_string; cbn [ds add_to_dataset]; rewrite G; reflexivity|].
    intros g n; unfold add_piecewise, generate, set_string; cbn [strings add_to_dataset string_of]; rewrite G, (andb_comm (c_anywhere c)); destruct (group_eq_dec g _); [|reflexivity]; destruct (String.eqb n (c_name c)); reflexivity.
  - injection H as <-; unfold add_equations; destruct (c_active c) eqn:A; [right|left; auto]; split; [reflexivity|split]; [unfold generate, set_string; cbn [ds add_to_dataset]; rewrite G; reflexivity|].
    intros g n; unfold generate, set_string; cbn [strings add_to_dataset string_of]; rewrite G, A; destruct (group_eq_dec g _); [|reflexivity]; destruct (String.eqb n (c_name c)); reflexivity.
  - injection H as <-; unfold add_equations; destruct (c_active c) eqn:A; [right|left; auto]; split; [reflexivity|split]; [unfold generate, set_string; cbn [ds add_to_dataset]; rewrite G; reflexivity|].
    intros g n; unfold generate, set_string; cbn [strings add_to_dataset string_of]; rewrite G, A; destruct (group_eq_dec g _); [|reflexivity]; destruct (String.eqb n (c_name c)); reflexivity.
Qed.
Lemma in_flat c n : In n (flat_map q_refs (c_eqs c)) <-> names_in_equations c n.
Proof. rewrite in_flat_map; reflexivity. Qed.
Lemma letters_in x s : In x (letters s) -> one_letter x.
Proof. induction s as [|a s IH]; cbn; [tauto|]; intros [<-|H]; [exists a; reflexivity|exact (IH H)]. Qed.
Lemma in_difference x l n : In x (difference l n) <-> In x l /\ ~ In x (letters n).
Proof. unfold difference; rewrite filter_In, negb_true_iff, <- not_true_iff_false, smem_in; reflexivity. Qed.
Lemma ref_names c n : In n (ref_of c) -> n = c_name c \/ names c n.
Proof.
  unfold ref_of, names; rewrite <- in_flat.
  destruct (c_group c); try (intros []).
  all: try rewrite in_app_iff; try rewrite in_difference; cbn [In].
  1: destruct (c_active c); cbn [In]; intuition congruence.
  all: try (destruct (c_anywhere c); cbn [In]; tauto); tauto.
Qed.

(** ** All components *)
Section Built.
Variables (inc : include) (ok : list string).
Definition noted (L : list comp) (n b : string) : Prop := exists c, In c L /\ kept ok c = true /\ c_name c = b /\ In n (ref_of c).
Definition inv (L : list comp) (s : st) : Prop :=
  NoDup (d_keys (ds s)) /\
  (forall n g l, d_get n (ds s) = Some (g, l) -> (exists c, In c L /\ kept ok c = true /\ c_name c = n /\ c_group c = g) /\ forall b, In b l <-> noted L n b) /\
  (forall c, In c L -> kept ok c = true -> d_get (c_name c) (ds s) <> None /\ string_of (c_group c) (c_name c) (strings s) = text_of inc c).
Lemma fold_err L e : fold_left (add inc ok) L (Err e) = Err e.
Proof. induction L as [|c L IH]; [reflexivity|]; cbn; exact IH. Qed.
Lemma fold_nodup L : forall s s', NoDup (d_keys (ds s)) -> fold_left (add inc ok) L (Ok s) = Ok s' -> NoDup (d_keys (ds s')).
Proof.
  induction L as [|c L IH]; intros s s' N H; cbn [fold_left] in H; [injection H as <-; exact N|].
  destruct (add inc ok (Ok s) c) as [s1|e] eqn:A; [|rewrite fold_err in H; discriminate].
  refine (IH s1 s' _ H); destruct (add_spec _ _ _ _ _ A) as [(_ & ->)|(_ & -> & _)]; [exact N|apply update_nodup, d_nodup_set, N].
Qed.
Lemma string_init g n (l : list ((group * string) * option (list string))) : (forall g' n' x, In ((g', n'), x) l -> n' <> n) -> string_of g n l = None.
Proof.
  induction l as [|[[g' n'] x] l IH]; intros H; [reflexivity|]; cbn; specialize (IH (fun a b y I => H a b y (or_intror I))).
  destruct (group_eq_dec g g'); [|exact IH]; destruct (String.eqb n n') eqn:E; [apply String.eqb_eq in E; exfalso; exact (H g' n' x (or_introl eq_refl) (eq_sym E))|exact IH].
Qed.
Definition fresh (L : list comp) (s : st) : Prop := forall g n, ~ In n (map c_name L) -> string_of g n (strings s) = None.
Lemma fold_inv L : NoDup (map c_name L) -> (forall l1 c l2, L = l1 ++ c :: l2 -> forall c', In c' l1 -> ~ names c' (c_name c)) ->
  forall s, fold_left (add inc ok) L (Ok {| ds := []; strings := [] |}) = Ok s -> inv L s /\ fresh L s.
Proof.
  induction L as [|c L IH] using rev_ind; intros N O s H.
  - cbn in H; injection H as <-; split; [|intros g n _; reflexivity]; split; [constructor|split; [intros n g l; discriminate|intros c []]].
  - rewrite fold_left_app in H; cbn [fold_left] in H; destruct (fold_left (add inc ok) L (Ok {| ds := []; strings := [] |})) as [s0|e] eqn:F; [|discriminate].
    rewrite map_app in N; cbn [map] in N; pose proof (NoDup_remove_1 _ _ _ N) as N1; pose proof (NoDup_remove_2 _ _ _ N) as N2; rewrite app_nil_r in N1, N2.
    destruct (IH N1) with (s := s0) as ((K & G & T) & FR); [intros l1 c1 l2 E; apply (O l1 c1 (l2 ++ [c])); rewrite E, <- app_assoc; reflexivity|reflexivity|].
    assert (OC : forall c', In c' L -> ~ names c' (c_name c)) by (intros c' I; apply (O L c [] eq_refl c' I)).
    assert (NN : forall c', In c' L -> c_name c' <> c_name c) by (intros c' I E; apply N2; rewrite <- E; apply in_map, I).
    destruct (add_spec _ _ _ _ _ H) as [(KF & ->)|(KT & D & S)].
    + split; [split; [exact K|split]|].
      * intros n g l E; destruct (G n g l E) as ((c1 & I & K1) & R); split; [exists c1; split; [apply in_or_app; left; exact I|exact K1]|].
        intros b; rewrite R; unfold noted; split; intros (c2 & I2 & K2 & X); exists c2; [split; [apply in_or_app; left; exact I2|auto]|].
        apply in_app_or in I2 as [I2|[<-|[]]]; [auto|congruence].
      * intros c1 I K1; apply in_app_or in I as [I|[<-|[]]]; [exact (T c1 I K1)|congruence].
      * intros g n X; apply FR; intros Y; apply X; rewrite map_app; apply in_or_app; left; exact Y.
    + split; [split; [rewrite D; apply update_nodup, d_nodup_set, K|split]|].
      * intros n g l E; pose proof (update_get (c_name c) (ref_of c) (d_set (c_name c) (c_group c, []) (ds s0)) n) as U; rewrite <- D, E in U.
        destruct U as (l0 & G0 & R0); rewrite d_get_set in G0; destruct (String.eqb_spec n (c_name c)) as [->|NE].
        -- injection G0 as <- <-; split; [exists c; split; [apply in_or_app; right; left; reflexivity|auto]|].
           intros b; rewrite R0; unfold noted; split.
           ++ intros [[]|(-> & I)]; exists c; split; [apply in_or_app; right; left; reflexivity|auto].
           ++ intros (c2 & I2 & K2 & E2 & R2); apply in_app_or in I2 as [I2|[<-|[]]]; [exfalso|right; auto].
              destruct (ref_names c2 _ R2) as [X|X]; [exact (NN c2 I2 (eq_sym X))|exact (OC c2 I2 X)].
        -- destruct (G n g l0 G0) as ((c1 & I & K1) & R); split; [exists c1; split; [apply in_or_app; left; exact I|exact K1]|].
           intros b; rewrite R0, R; unfold noted; split.
           ++ intros [(c2 & I2 & X)|(-> & I2)]; [exists c2; split; [apply in_or_app; left; exact I2|exact X]|exists c; split; [apply in_or_app; right; left; reflexivity|auto]].
           ++ intros (c2 & I2 & K2 & E2 & R2); apply in_app_or in I2 as [I2|[<-|[]]]; [left; exists c2; auto|right; auto].
      * intros c1 I K1; apply in_app_or in I as [I|[<-|[]]].
        -- destruct (T c1 I K1) as (T1 & T2); split.
           ++ intros E; pose proof (update_get (c_name c) (ref_of c) (d_set (c_name c) (c_group c, []) (ds s0)) (c_name c1)) as U; rewrite <- D, E in U; rewrite d_get_set_other in U by apply (NN c1 I); exact (T1 U).
           ++ rewrite S; destruct (group_eq_dec _ _); [|exact T2]; destruct (String.eqb_spec (c_name c1) (c_name c)) as [E|_]; [exfalso; exact (NN c1 I E)|exact T2].
        -- split.
           ++ intros E; pose proof (update_get (c_name c) (ref_of c) (d_set (c_name c) (c_group c, []) (ds s0)) (c_name c)) as U; rewrite <- D, E in U; rewrite d_get_set_same in U; discriminate.
           ++ rewrite S; destruct (group_eq_dec _ _) as [_|X]; [|contradiction]; rewrite String.eqb_refl; destruct (c_group c) eqn:GC; try reflexivity; unfold text_of; rewrite GC; apply FR, N2.
      * intros g n X; rewrite S; assert (NL : ~ In n (map c_name L)) by (intros Y; apply X; rewrite map_app; apply in_or_app; left; exact Y).
        assert (NC : n <> c_name c) by (intros ->; apply X; rewrite map_app; apply in_or_app; right; left; reflexivity).
        destruct (group_eq_dec _ _); [|apply FR, NL]; destruct (String.eqb_spec n (c_name c)); [contradiction|apply FR, NL].
Qed.
End Built.

Lemma build_inv inc math s : distinct math -> in_order math -> build inc math = Ok s -> inv inc (allowed math) (ordered math) s.
Proof.
  intros N O H; refine (proj1 (fold_inv _ _ _ _ O s H)).
  apply (Permutation_NoDup (Permutation_map c_name (Permutation_sym (ordered_perm math)))), N.
Qed.
Lemma ordered_in math c : In c (ordered math) <-> In c math.
Proof. split; apply Permutation_in; [|apply Permutation_sym]; apply ordered_perm. Qed.
Lemma entries_in s e : In e (entries s) <-> exists n g l, In (n, (g, l)) (ds s) /\
  e = {| e_group := g; e_name := n; e_text := string_of g n (strings s); e_used_in := without n l; e_uses := without n (uses s n) |} /\
  (string_of g n (strings s) <> None \/ ((g = GParam \/ g = GLookup) /\ l <> [])).
Proof.
  unfold entries; rewrite in_flat_map; split.
  - intros ((n & g & l) & I & H); exists n, g, l; split; [exact I|].
    destruct (string_of g n (strings s)) eqn:T; [destruct H as [<-|[]]; split; [reflexivity|left; discriminate]|].
    destruct g, l; try (destruct H); try contradiction; subst; (split; [reflexivity|right; split; [auto|discriminate]]).
  - intros (n & g & l & I & -> & H); exists (n, (g, l)); split; [exact I|].
    destruct (string_of g n (strings s)); [left; reflexivity|]; destruct H as [H|([-> | ->] & H)]; [contradiction| |]; destruct l; try contradiction; left; reflexivity.
Qed.
Lemma without_spec n l x : In x (without n l) <-> In x l /\ x <> n.
Proof. unfold without; rewrite filter_In, negb_true_iff, String.eqb_neq; reflexivity. Qed.
Lemma uses_in s n x : In x (uses s n) <-> exists g l, In (x, (g, l)) (ds s) /\ In n l.
Proof.
  unfold uses; rewrite in_map_iff; split.
  - intros ((x' & g & l) & E & I); cbn in E; subst x'; apply filter_In in I as (I & M); apply smem_in in M; exists g, l; auto.
  - intros (g & l & I & M); exists (x, (g, l)); split; [reflexivity|]; apply filter_In; split; [exact I|apply smem_in, M].
Qed.
