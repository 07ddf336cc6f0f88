(** Deciding that the alternatives of the shipped math exclude each other, and that its texts are
    accepted. *)
From Coq Require Import QArith Qcanon Lia Permutation.
From Verif Require Import Base BaseProofs LangModel MathText EvalModel EvalSpec BuildModel BuildSpec BuildProofs BuildExpand BuildEqs BuildProps
  HelperModel ShipModel ShipSpec ShipProofs.
From Verif Require CliModel CliProofs.
Local Open Scope nat_scope.
Local Open Scope string_scope.
Local Open Scope list_scope.
Local Arguments String.eqb : simpl never.

(** * Comparing conditions *)
Fixpoint list_eqb {A} (eqb : A -> A -> bool) (l m : list A) : bool :=
  match l, m with [], [] => true | x :: l, y :: m => eqb x y && list_eqb eqb l m | _, _ => false end.
Definition cmp_eqb (a b : cmp) : bool :=
  match a, b with CLt, CLt | CGt, CGt | CEq, CEq | CLe, CLe | CGe, CGe => true | _, _ => false end.
(** Names, numbers, texts and lists of names. *)
Definition name_eqb (a b : expr) : bool := match a, b with EName s, EName t => String.eqb s t | _, _ => false end.
Definition leaf_eqb (a b : expr) : bool :=
  match a, b with
  | EList l, EList m => list_eqb name_eqb l m
  | ENum n s, ENum m t => Bool.eqb n m && String.eqb s t
  | EName s, EName t | EConf s, EConf t | EStr s, EStr t => String.eqb s t
  | EBool a, EBool b => Bool.eqb a b
  | _, _ => false
  end.
(** Also calls with such arguments. *)
Definition term_eqb (a b : expr) : bool :=
  match a, b with
  | EFun f xs ks, EFun g ys ls =>
      String.eqb f g && list_eqb leaf_eqb xs ys && list_eqb (fun x y => String.eqb (fst x) (fst y) && leaf_eqb (snd x) (snd y)) ks ls
  | _, _ => leaf_eqb a b
  end.
Definition atom_eqb (a b : wexpr) : bool :=
  match a, b with
  | WCmp l c r, WCmp l' c' r' => term_eqb l l' && cmp_eqb c c' && term_eqb r r'
  | WName s, WName t => String.eqb s t
  | WFun e, WFun f => term_eqb e f
  | _, _ => false
  end.
Lemma list_eqb_eq {A} (eqb : A -> A -> bool) : (forall x y, eqb x y = true -> x = y) -> forall l m, list_eqb eqb l m = true -> l = m.
Proof.
  intros H; induction l as [|x l IH]; intros [|y m] E; cbn [list_eqb] in E; try discriminate; [reflexivity|].
  apply andb_true_iff in E as (E1 & E2); f_equal; [apply H, E1|apply IH, E2].
Qed.
Lemma leaf_eqb_eq a b : leaf_eqb a b = true -> a = b.
Proof.
  destruct a, b; cbn [leaf_eqb]; try discriminate; rewrite ?andb_true_iff, ?String.eqb_eq, ?Bool.eqb_true_iff; try (intuition congruence).
  intros E; f_equal; revert E; apply list_eqb_eq; intros [] []; cbn [name_eqb]; try discriminate; rewrite String.eqb_eq; congruence.
Qed.
Lemma term_eqb_eq a b : term_eqb a b = true -> a = b.
Proof.
  destruct a, b; try (apply leaf_eqb_eq); cbn [term_eqb]; rewrite !andb_true_iff, String.eqb_eq; intros ((-> & E1) & E2); f_equal.
  - apply (list_eqb_eq leaf_eqb); [apply leaf_eqb_eq|exact E1].
  - revert E2; apply list_eqb_eq; intros (k & x) (l & y); cbn [fst snd]; rewrite andb_true_iff, String.eqb_eq; intros (-> & E); f_equal; apply leaf_eqb_eq, E.
Qed.
Lemma atom_eqb_eq a b : atom_eqb a b = true -> a = b.
Proof.
  destruct a, b; cbn [atom_eqb]; try discriminate.
  - rewrite !andb_true_iff; intros ((E1 & E2) & E3); apply term_eqb_eq in E1, E3; subst; f_equal; destruct c, c0; discriminate || reflexivity.
  - intros E; apply term_eqb_eq in E; congruence.
  - intros E; apply String.eqb_eq in E; congruence.
Qed.

(** * Truth of conditions from the truth of their atoms *)
Fixpoint atoms (w : wexpr) : list wexpr :=
  match w with
  | WBool _ => []
  | WNot w => atoms w
  | WChain w ops => atoms w ++ flat_map (fun x => atoms (snd x)) ops
  | a => [a]
  end.
Fixpoint dedup (l : list wexpr) : list wexpr :=
  match l with [] => [] | a :: r => if existsb (atom_eqb a) r then dedup r else a :: dedup r end.
Definition sigma := list (wexpr * bool).
Fixpoint look (s : sigma) (a : wexpr) : bool :=
  match s with [] => false | (b, v) :: r => if atom_eqb a b then v else look r a end.
Fixpoint truly (s : sigma) (w : wexpr) : bool :=
  match w with
  | WBool b => b
  | WNot w => negb (truly s w)
  | WChain w ops => fold_left (fun v x => if fst x : bool then v && truly s (snd x) else v || truly s (snd x)) ops (truly s w)
  | a => look s a
  end.
Fixpoint assignments (l : list wexpr) : list sigma :=
  match l with [] => [[]] | a :: r => flat_map (fun s => [(a, true) :: s; (a, false) :: s]) (assignments r) end.

(** Two texts for one component, and literals that do not hold together. *)
Definition clash (a b : wexpr) : bool :=
  match a, b with
  | WCmp x CEq (EStr s), WCmp y CEq (EStr t) => term_eqb x y && negb (String.eqb s t)
  | _, _ => false
  end.
Definition clause := list (wexpr * bool).
Definition consistent (ex : list clause) (s : sigma) : bool :=
  forallb (fun x => forallb (fun y => negb (snd x && snd y && clash (fst x) (fst y))) s) s &&
  forallb (fun c => negb (forallb (fun l => Bool.eqb (look s (fst l)) (snd l) && existsb (fun x => atom_eqb (fst l) (fst x)) s) c)) ex.

Definition parsed_wheres (N : names) (l : list (string * string)) : option (list wexpr) := sequence (map (fun t => parse_where_text N (fst t)) l).
(** At most one, or exactly one, of the conditions holds if the first does. *)
Definition count_check (ok : nat -> bool) (ex : list clause) (top : wexpr) (ws : list wexpr) : bool :=
  forallb (fun s => negb (consistent ex s) || negb (truly s top) || ok (List.length (filter (truly s) ws)))
    (assignments (dedup (atoms top ++ flat_map atoms ws))).

Section Truth.
Variable W : wenv.
Variable p : pos.
Definition real (l : list wexpr) : sigma := map (fun a => (a, weval W a p)) l.
Lemma real_in l : In (real l) (assignments l).
Proof.
  induction l as [|a l IH]; [left; reflexivity|]; cbn [assignments]; apply in_flat_map; exists (real l); split; [exact IH|].
  cbn [real map]; destruct (weval W a p); [left|right; left]; reflexivity.
Qed.
Lemma look_real l a : (exists b, In b l /\ atom_eqb a b = true) -> look (real l) a = weval W a p.
Proof.
  induction l as [|b l IH]; intros (x & IN & E); [destruct IN|]; cbn [real map look]; destruct (atom_eqb a b) eqn:EB; [apply atom_eqb_eq in EB; subst; reflexivity|].
  apply IH; destruct IN as [<- |IN]; [congruence|eauto].
Qed.
Definition plain_atom (a : wexpr) : bool := atom_eqb a a.
Lemma dedup_has l a : In a l -> plain_atom a = true -> exists b, In b (dedup l) /\ atom_eqb a b = true.
Proof.
  induction l as [|b l IH]; intros IN R; [destruct IN|]; cbn [dedup]; destruct (existsb (atom_eqb b) l) eqn:EX.
  - destruct IN as [<- |IN]; [|apply IH; assumption]; apply existsb_exists in EX as (x & IX & E); pose proof (atom_eqb_eq _ _ E) as ->; apply IH; assumption.
  - destruct IN as [<- |IN]; [exists b; split; [left; reflexivity|exact R]|]; destruct (IH IN R) as (x & IX & E); exists x; split; [right; exact IX|exact E].
Qed.
Lemma truly_real l : forall w, (forall a, In a (atoms w) -> exists b, In b l /\ atom_eqb a b = true) -> truly (real l) w = weval W w p.
Proof.
  fix IH 1; intros w H; destruct w as [b|x c y|e|it d|s|w|w ops]; cbn [truly weval atoms] in *; try (apply (look_real l (WCmp x c y)), H; left; reflexivity).
  - reflexivity.
  - apply (look_real l (WFun e)), H; left; reflexivity.
  - exact (look_real l (WSubset it d) (H _ (or_introl eq_refl))).
  - apply (look_real l (WName s)), H; left; reflexivity.
  - f_equal; apply IH, H.
  - assert (E0 : truly (real l) w = weval W w p) by (apply IH; intros a IA; apply H, in_or_app; left; exact IA).
    assert (HO : forall a, In a (flat_map (fun x => atoms (snd x)) ops) -> exists b, In b l /\ atom_eqb a b = true) by (intros a IA; apply H, in_or_app; right; exact IA).
    clear H; revert E0 HO; generalize (truly (real l) w) (weval W w); revert ops; fix IL 1; intros [|(b & x) ops] v f E0 HO; cbn [fold_left fst snd]; [exact E0|].
    apply IL; [|intros a IA; apply HO; cbn [flat_map]; apply in_or_app; right; exact IA].
    rewrite E0, (IH x) by (intros a IA; apply HO; cbn [flat_map snd]; apply in_or_app; left; exact IA); destruct b; reflexivity.
Qed.
Lemma clash_false a b : clash a b = true -> weval W a p = true -> weval W b p = true -> False.
Proof.
  destruct a as [|x [] [] | | | | |]; cbn [clash]; try discriminate; destruct b as [|y [] [] | | | | |]; cbn [clash]; try discriminate.
  rewrite andb_true_iff; intros (E & NE); apply term_eqb_eq in E; subst y; cbn [weval compare aeval]; unfold const, same.
  destruct (aeval (cmp_env W) everywhere x p); try discriminate; intros E1 E2; apply String.eqb_eq in E1, E2; rewrite <- E1, <- E2, String.eqb_refl in NE; discriminate.
Qed.
Lemma consistent_real ex l : (forall c, In c ex -> exists k, In k c /\ weval W (fst k) p <> snd k) -> consistent ex (real l) = true.
Proof.
  intros HX; unfold consistent; apply andb_true_iff; split.
  - apply forallb_forall; intros x IX; apply forallb_forall; intros y IY; apply negb_true_iff; apply in_map_iff in IX as (a & <- & _); apply in_map_iff in IY as (b & <- & _); cbn [fst snd].
    destruct (clash a b) eqn:C; [|apply andb_false_r]; rewrite andb_true_r; destruct (weval W a p) eqn:EA; [|reflexivity]; destruct (weval W b p) eqn:EB; [|reflexivity].
    exfalso; exact (clash_false a b C EA EB).
  - apply forallb_forall; intros c IC; apply negb_true_iff; destruct (HX c IC) as (k & IK & NE); apply not_true_iff_false; intros A; apply NE; rewrite forallb_forall in A.
    specialize (A k IK); apply andb_true_iff in A as (A1 & A2); apply eqb_prop in A1; rewrite <- A1; symmetry; apply look_real.
    apply existsb_exists in A2 as (x & IX & E); apply in_map_iff in IX as (b & <- & IB); eauto.
Qed.
Lemma filter_ext_in' {A} (f g : A -> bool) l : (forall x, In x l -> f x = g x) -> filter f l = filter g l.
Proof. induction l as [|x l IH]; intros H; cbn [filter]; [reflexivity|]; rewrite (H x (or_introl eq_refl)), IH; [reflexivity|intros y IY; apply H; right; exact IY]. Qed.
Lemma count_check_sound ok ex top ws : count_check ok ex top ws = true ->
  forallb plain_atom (atoms top ++ flat_map atoms ws) = true ->
  (forall c, In c ex -> exists k, In k c /\ weval W (fst k) p <> snd k) -> weval W top p = true ->
  ok (List.length (filter (fun w => weval W w p) ws)) = true.
Proof.
  intros H PA HX HT; unfold count_check in H; rewrite forallb_forall in H, PA; set (ats := atoms top ++ flat_map atoms ws) in *.
  specialize (H _ (real_in (dedup ats))).
  assert (IN : forall w, (forall a, In a (atoms w) -> In a ats) -> truly (real (dedup ats)) w = weval W w p).
  { intros w HA; apply truly_real; intros a IA; apply dedup_has; [apply HA, IA|apply PA, HA, IA]. }
  rewrite consistent_real in H by exact HX; rewrite (IN top), HT in H by (intros a IA; apply in_or_app; left; exact IA); cbn [negb orb] in H.
  rewrite (filter_ext_in' _ (fun w => weval W w p)) in H; [exact H|].
  intros w IW; apply IN; intros a IA; apply in_or_app; right; apply in_flat_map; eauto.
Qed.
End Truth.

Definition list_check (ok : nat -> bool) (ex : list clause) (N : names) (top : wexpr) (l : list (string * string)) : bool :=
  match parsed_wheres N l with
  | Some ws => forallb plain_atom (atoms top ++ flat_map atoms ws) && count_check ok ex top ws
  | None => false
  end.
Lemma holding_parsed N W p l ws : parsed_wheres N l = Some ws -> holding N W p l = List.length (filter (fun w => weval W w p) ws).
Proof.
  unfold parsed_wheres, holding; revert ws; induction l as [|t l IH]; intros ws H; cbn [map sequence filter] in *; [injection H as <-; reflexivity|].
  destruct (parse_where_text N (fst t)) as [w|]; [|discriminate]; destruct (sequence _) as [r|]; [|discriminate]; cbn [option_map] in H; injection H as <-; cbn [filter].
  specialize (IH r eq_refl); destruct (weval W w p); cbn [List.length]; congruence.
Qed.
Lemma list_check_sound ok ex N top l W p : list_check ok ex N top l = true -> (forall c, In c ex -> exists k, In k c /\ weval W (fst k) p <> snd k) ->
  weval W top p = true -> ok (holding N W p l) = true.
Proof.
  unfold list_check; destruct (parsed_wheres N l) as [ws|] eqn:PW; [|discriminate]; rewrite andb_true_iff; intros (PA & C) HX HT.
  rewrite (holding_parsed _ _ _ _ _ PW); eapply count_check_sound; eassumption.
Qed.

(** * Components *)
Definition most (n : nat) : bool := Nat.leb n 1.
Definition most_check (ex : list clause) (N : names) (top : wexpr) (l : list (string * string)) : bool :=
  most (List.length l) || list_check most ex N top l.
Lemma most_check_sound ex N top l W p : most_check ex N top l = true -> (forall c, In c ex -> exists k, In k c /\ weval W (fst k) p <> snd k) ->
  weval W top p = true -> holding N W p l <= 1.
Proof.
  unfold most_check; rewrite orb_true_iff; intros [H|H] HX HT; [|apply Nat.leb_le, (list_check_sound most ex N top l W p H HX HT)].
  apply Nat.leb_le in H; unfold holding; clear - H.
  assert (L : forall (A : Type) (f : A -> bool) l, List.length (filter f l) <= List.length l) by (intros A f l'; induction l' as [|x l' IH]; cbn; [lia|]; destruct (f x); cbn; lia).
  specialize (L _ (fun t => match parse_where_text N (fst t) with Some w => weval W w p | None => false end) l); lia.
Qed.
Definition component_check (ex : list clause) (m : math_file) (c : component) : bool :=
  match parse_where_text (math_names m) (MathText.c_where c) with
  | Some top => most_check ex (math_names m) top (c_equations c) && forallb (fun x => most_check ex (math_names m) top (snd x)) (c_subs c ++ c_slices c)
  | None => false
  end.

(** No two equations for one entry. *)
Section Apart.
Variable N : names.
Variable U : world.
Variable sets : list string.
Variable top : index -> bool.
Let D := world_data N U.
Lemma add_ones_overlap qs : forall da name, add_ones N U sets top da qs = Broken (TBuild (FOverlap name)) ->
  (exists q f, In q qs /\ In f (indices D sets) /\ selected D sets top q f /\ null (da f) = false) \/
  exists a q b q' c f, qs = a ++ q :: b ++ q' :: c /\ selected D sets top q f /\ selected D sets top q' f.
Proof.
  induction qs as [|q qs IH]; intros da name H; cbn [add_ones] in H; [discriminate|].
  destruct (add_one N U sets top da q) as [d1|t] eqn:AE; cbn [then_] in H.
  - destruct (IH d1 name H) as [(q' & f & IQ & IF & SE & NF)|(a & q1 & b & q2 & c & f & E & S1 & S2)].
    + destruct (sel_dec D sets top q f) as [S1|S1].
      * right; apply in_split in IQ as (b & c & ->); exists [], q, b, q', c, f; auto.
      * left; exists q', f; split; [right; exact IQ|split; [exact IF|split; [exact SE|]]]; destruct (add_one_built N U sets top da q d1 AE) as (_ & K2 & _); rewrite <- (K2 f IF S1); exact NF.
    + right; exists (q :: a), q1, b, q2, c, f; subst; auto.
  - injection H as ->; unfold add_one in AE; fold D in AE; fold (sel D sets top q) in AE; destruct (any_full D _); [|discriminate].
    destruct (existsb _ _) eqn:EX.
    + apply existsb_exists in EX as (f & IF & EX); apply andb_true_iff in EX as (SE & NF); left; exists q, f; split; [left; reflexivity|split; [exact IF|split; [apply sel_spec, SE|apply negb_true_iff, NF]]].
    + destruct (keys_given q); [|discriminate]; unfold evaluate_all in AE; destruct (q_expr q).
      * destruct (deval _ _ _) as [x|]; [|discriminate]; destruct (all_in _ _); [|discriminate]; cbn [then_] in AE; match type of AE with context [existsb ?a ?b] => destruct (existsb a b) end; discriminate.
      * destruct (deval _ _ l) as [x|]; [|discriminate]; destruct (deval _ _ r) as [y|]; [|discriminate]; destruct (_ && _); [|discriminate]; cbn [then_] in AE; match type of AE with context [existsb ?a ?b] => destruct (existsb a b) end; discriminate.
Qed.
End Apart.

(** The conditions of expanded equations come from the texts of the component. *)
Lemma extend_where order slices alts qs rs q w : extend_all order slices alts qs = Done rs -> In q rs -> In w (q_where q) ->
  (exists q', In q' qs /\ In w (q_where q')) \/ exists k l a, d_get k alts = Some l /\ In a l /\ In w (q_where a).
Proof.
  intros H IQ IW; apply extend_all_eq in H as (-> & _); apply in_flat_map in IQ as (q0 & I0 & IQ); apply in_map_iff in IQ as (ch & <- & _).
  unfold variant in IW; destruct (wanted order slices q0) as [|k ks]; [left; eauto|].
  cbn [add_combination q_where] in IW; apply in_app_or in IW as [IW|IW]; [left; eauto|right]; apply in_flat_map in IW as (a & IA & IW); apply picked_in in IA as (k' & l & G & IA); eauto 6.
Qed.
Lemma alternatives_where N pe l qs q w : alternatives_of N pe l qs -> In q qs -> In w (q_where q) -> exists t, In t (map fst l) /\ parse_where_text N t = Some w.
Proof.
  induction 1 as [|we q0 l qs (w0 & PW & EW & _) F IH]; intros IQ IW; [destruct IQ|]; destruct IQ as [<- |IQ].
  - rewrite EW in IW; destruct IW as [<- |[]]; exists (fst we); split; [left; reflexivity|exact PW].
  - destruct (IH IQ IW) as (t & IT & E); exists t; split; [right; exact IT|exact E].
Qed.
Lemma parse_wheres order N valid group c qs q w : parse_equations order N valid group c = Done qs -> In q qs -> In w (q_where q) ->
  exists t, In t (condition_texts c) /\ parse_where_text N t = Some w.
Proof.
  intros H IQ IW; unfold parse_equations in H.
  destruct (expression_list _ _ _ _) as [eqs|] eqn:E1; [|discriminate].
  destruct (expression_dict N (arith_parser valid false) _) as [subs|] eqn:E2; [|discriminate].
  destruct (expression_dict N (slice_parser valid) _) as [slices|] eqn:E3; [|discriminate].
  destruct (extend_all order false subs eqs) as [mid|] eqn:E4; [|discriminate]; cbn [next] in H.
  apply expression_list_alternatives in E1; apply expression_dict_of in E2, E3.
  assert (DG : forall pe d alts k l a, dict_of N pe d alts -> (forall x, In x d -> In x (c_subs c ++ c_slices c)) -> d_get k alts = Some l -> In a l -> In w (q_where a) ->
    exists t, In t (condition_texts c) /\ parse_where_text N t = Some w).
  { intros pe d alts k l a DO SUB G IA IX; destruct (dict_of_get _ _ _ _ _ _ DO G) as (tl & IN & AL); destruct (alternatives_where _ _ _ _ _ _ AL IA IX) as (t & IT & PT).
    exists t; split; [|exact PT]; right; apply in_or_app; right; apply in_flat_map; exists (k, tl); split; [apply SUB, IN|exact IT]. }
  destruct (extend_where _ _ _ _ _ _ _ H IQ IW) as [(q1 & I1 & W1)|(k & l & a & G & IA & IX)].
  - destruct (extend_where _ _ _ _ _ _ _ E4 I1 W1) as [(q0 & I0 & W0)|(k & l & a & G & IA & IX)].
    + destruct (alternatives_where _ _ _ _ _ _ E1 I0 W0) as (t & IT & PT); exists t; split; [right; apply in_or_app; left; exact IT|exact PT].
    + eapply (DG _ _ _ k l a E2); eauto; intros x IN; apply in_or_app; left; exact IN.
  - eapply (DG _ _ _ k l a E3); eauto; intros x IN; apply in_or_app; right; exact IN.
Qed.

Lemma no_overlap ex m order U group c : component_check ex m c = true -> conditions_over m U c ->
  (forall p k, whole U p -> In k ex -> exists l, In l k /\ weval (world_where (math_names m) U) (fst l) p <> snd l) ->
  forall name, build_all order m U group c <> Broken (TBuild (FOverlap name)).
Proof.
  intros CC CO HX name B; unfold component_check in CC; unfold build_all in B; set (N := math_names m) in *; set (D := world_data N U) in *; set (W := world_where N U) in *.
  destruct (parse_where_text N (MathText.c_where c)) as [w|] eqn:PW; [|discriminate].
  destruct (top_level_where_spec D N c w PW) as (top & TL & TS); rewrite TL in B; cbn [lift then_] in B.
  destruct (existsb top _); [|discriminate]; destruct (parse_equations order N (math_valid m) group c) as [qs|f] eqn:PE; cbn [lift then_] in B; [|].
  2:{ injection B as ->; unfold parse_equations in PE.
      destruct (expression_list _ _ _ _); [|discriminate]; destruct (expression_dict N (arith_parser _ false) _); [|discriminate]; destruct (expression_dict N (slice_parser _) _); [|discriminate].
      assert (NF : forall slices alts l, extend_all order slices alts l <> Fail (FOverlap name)).
      { intros slices alts l'; induction l' as [|q l' IH]; cbn [extend_all]; [discriminate|]; unfold extend at 1; destruct (order _) as [|k0 k1]; [|destruct (forallb (fun k => d_mem k alts) (k0 :: k1))]; cbn [next]; try discriminate;
          destruct (extend_all order slices alts l') as [x|e]; cbn [next] in *; try discriminate; exact IH. }
      destruct (extend_all order false l0 l) as [mid|e] eqn:E4; cbn [next] in PE; [exact (NF _ _ _ PE)|injection PE as ->; exact (NF _ _ _ E4)]. }
  apply add_ones_overlap in B as [(q & f & _ & _ & _ & NF)|(a & q & b & q' & r & f & E & S1 & S2)]; [discriminate|].
  destruct S1 as (TF & i & IN & EI & A1), S2 as (_ & j & _ & EJ & A2); apply TS in TF as (_ & i0 & _ & E0 & _ & WT).
  set (p := at_index (d_dims D) i) in *.
  assert (HT : weval W w p = true).
  { rewrite <- (WT w (or_introl eq_refl)); apply (CO (MathText.c_where c) w); [left; reflexivity|exact PW|]; exact (eq_trans EI (eq_sym E0)). }
  assert (AQ' : applies W p q' = true).
  { unfold applies; apply forallb_forall; intros x IX; rewrite <- (A2 x IX); destruct (parse_wheres order N (math_valid m) group c qs q' x PE) as (t & IT & PT);
      [subst qs; rewrite !in_app_iff; right; right; apply in_or_app; right; left; reflexivity|exact IX|].
    apply (CO t x IT PT); exact (eq_trans EI (eq_sym EJ)). }
  assert (AQ : applies W p q = true) by (unfold applies; apply forallb_forall; exact A1).
  apply andb_true_iff in CC as (CE & CS); rewrite forallb_forall in CS.
  assert (WP : whole U p) by (exists i; split; [exact IN|reflexivity]).
  assert (AM : at_most_one W p qs).
  { apply (C36_at_most_one order N (math_valid m) group c qs W p PE).
    - apply (most_check_sound _ _ _ _ W p CE (fun k IK => HX p k WP IK) HT).
    - intros k l IK; apply (most_check_sound _ _ _ _ W p (CS (k, l) IK) (fun k IK => HX p k WP IK) HT). }
  unfold at_most_one in AM; rewrite E, filter_app in AM; cbn [filter] in AM; rewrite AQ in AM; cbn [filter] in AM; rewrite filter_app in AM; cbn [filter] in AM; rewrite AQ' in AM.
  rewrite !app_length in AM; cbn [List.length] in AM; rewrite app_length in AM; cbn [List.length] in AM; lia.
Qed.

(** * Accepted texts *)
Definition refs_ok (m : math_file) (group : string) (c : component) : bool :=
  let N := math_names m in
  let valid := math_valid m in
  let pe := if String.eqb group "constraints" then equation_parser valid else arith_parser valid true in
  match expression_list N pe (String.append group (String ":" (c_name c))) (c_equations c),
        expression_dict N (arith_parser valid false) (c_subs c), expression_dict N (slice_parser valid) (c_slices c), parse_where_text N (MathText.c_where c) with
  | Some eqs, Some subs, Some slices, Some _ =>
      forallb (fun q => forallb (fun s => d_mem s subs) (top_items false (q_expr q)) && forallb (fun s => d_mem s slices) (top_items true (q_expr q)) &&
                        forallb (fun s => smem s (top_items false (q_expr q))) (lookups_of false (q_expr q)) &&
                        forallb (fun s => smem s (top_items true (q_expr q))) (lookups_of true (q_expr q))) eqs &&
      forallb (fun kl => forallb (fun a => forallb (fun s => d_mem s slices) (part_items true (q_expr a)) &&
                                          forallb (fun s => smem s (part_items true (q_expr a))) (lookups_of true (q_expr a))) (snd kl)) subs &&
      forallb (fun k => negb (String.eqb k "") && negb (has_char ":" k)) (d_keys (c_subs c) ++ d_keys (c_slices c))
  | _, _, _, _ => false
  end.
Lemma extend_all_done order (slices : bool) (alts : list (string * list peq)) (qs : list peq) : lists_set order ->
  (forall q k, In q qs -> In k (if slices then find_slices q else find_subs q) -> d_mem k alts = true) -> exists rs, extend_all order slices alts qs = Done rs.
Proof.
  intros OR; induction qs as [|q qs IH]; intros H; cbn [extend_all]; [eauto|].
  destruct IH as (rs & E); [intros q' k IQ; apply H; right; exact IQ|]; rewrite E.
  assert (X : exists a, extend order slices alts q = Done a).
  { unfold extend; destruct (order _) as [|k ks] eqn:EO; [eauto|].
    assert (F : forallb (fun k => d_mem k alts) (k :: ks) = true) by (apply forallb_forall; intros x IX; apply (H q x (or_introl eq_refl)); rewrite <- EO in IX; apply OR, IX).
    rewrite F; eauto. }
  destruct X as (a & ->); cbn [next]; eauto.
Qed.
Lemma refs_accepted m group c order : lists_set order -> refs_ok m group c = true ->
  exists qs, parse_equations order (math_names m) (math_valid m) group c = Done qs.
Proof.
  intros OR; unfold refs_ok, parse_equations.
  destruct (expression_list _ _ _ _) as [eqs|] eqn:E1; [|discriminate].
  destruct (expression_dict _ (arith_parser _ false) _) as [subs|] eqn:E2; [|discriminate].
  destruct (expression_dict _ (slice_parser _) _) as [slices|] eqn:E3; [|discriminate].
  destruct (parse_where_text _ _); [|discriminate]; rewrite !andb_true_iff, !forallb_forall; intros ((HE & HS) & _).
  destruct (extend_all_done order false subs eqs OR) as (mid & EM).
  { intros q k IQ IK; specialize (HE q IQ); rewrite !andb_true_iff, !forallb_forall in HE; apply HE, IK. }
  rewrite EM; cbn [next]; apply (extend_all_done order true slices mid OR).
  intros r k IR IK; apply extend_all_eq in EM as (-> & MM); apply in_flat_map in IR as (q & IQ & IR); apply in_map_iff in IR as (ch & <- & _).
  assert (EX : q_expr (variant order false subs q ch) = q_expr q) by (unfold variant; destruct (wanted order false q); reflexivity).
  unfold find_slices in IK; rewrite EX in IK; apply in_app_or in IK as [IK|IK].
  - specialize (HE q IQ); rewrite !andb_true_iff, !forallb_forall in HE; apply HE, IK.
  - apply in_flat_map in IK as ((n & x) & IN & IK); cbn [snd] in IK.
    assert (FROM : exists kl a, In kl subs /\ In a (snd kl) /\ x = q_expr a).
    { unfold variant in IN; destruct (wanted order false q); [destruct (expression_list_dicts _ _ _ _ _ E1 q IQ) as (Z & _); rewrite Z in IN; destruct IN|].
      cbn [add_combination q_subs] in IN; apply group_of_entry in IN as (a & IA & ->); apply picked_in in IA as (k' & l' & G & IA); exists (k', l'), a; split; [apply d_get_in, G|auto]. }
    destruct FROM as (kl & a & IKL & IA & ->); specialize (HS kl IKL); rewrite forallb_forall in HS; specialize (HS a IA); rewrite andb_true_iff, !forallb_forall in HS; apply HS, IK.
Qed.
Lemma lookups_of_mentions b s x : mentions b s x <-> In s (lookups_of b x).
Proof.
  unfold mentions, within; destruct x as [e|l c r]; cbn [lookups_of]; rewrite ?in_app_iff, !lookups_occurs; reflexivity.
Qed.
Lemma alternatives_expr N pe l qs qs' q : alternatives_of N pe l qs -> alternatives_of N pe l qs' -> In q qs' -> exists q0, In q0 qs /\ q_expr q = q_expr q0.
Proof.
  intros A; revert qs' q; induction A as [|we q0 l qs (w & _ & _ & PE & _) F IH]; intros qs' q A' IQ; inversion A' as [|? q1 ? qs1 (w1 & _ & _ & PE1 & _) F1]; subst; [destruct IQ|].
  destruct IQ as [<- |IQ]; [exists q0; split; [left; reflexivity|congruence]|]; destruct (IH qs1 q F1 IQ) as (q2 & I2 & E); exists q2; split; [right; exact I2|exact E].
Qed.
Lemma refs_given m group c order qs : lists_set order -> refs_ok m group c = true ->
  parse_equations order (math_names m) (math_valid m) group c = Done qs -> forall q, In q qs -> keys_given q = true.
Proof.
  intros OR; unfold refs_ok.
  destruct (expression_list _ _ _ _) as [eqs|] eqn:E1; [|discriminate].
  destruct (expression_dict _ (arith_parser _ false) _) as [subs|] eqn:E2; [|discriminate].
  destruct (expression_dict _ (slice_parser _) _) as [slices|] eqn:E3; [|discriminate].
  destruct (parse_where_text _ _); [|discriminate]; rewrite !andb_true_iff, !forallb_forall; intros ((HE & HS) & HK) PE.
  apply (C37_all_given_partial order (math_names m) (math_valid m) group c qs OR); [|exact PE| |].
  - intros k IK; apply in_or_app in IK; specialize (HK k IK); apply andb_true_iff in HK as (K1 & K2); apply negb_true_iff in K1, K2; split; [intros ->; rewrite String.eqb_refl in K1; discriminate|exact K2].
  - intros eqs' q b s A IQ ME; destruct (alternatives_expr _ _ _ eqs eqs' q (expression_list_alternatives _ _ _ _ _ E1) A IQ) as (q0 & I0 & EQ).
    rewrite EQ in *; apply top_items_refers; apply lookups_of_mentions in ME; specialize (HE q0 I0); rewrite !andb_true_iff, !forallb_forall in HE; destruct HE as ((_ & H1) & H2).
    apply smem_in; destruct b; [apply H2|apply H1]; exact ME.
  - intros k l alts a s IN A IA ME.
    assert (X : exists kl a0, In kl subs /\ In a0 (snd kl) /\ q_expr a = q_expr a0).
    { apply expression_dict_of in E2; clear - E2 IN A IA; induction E2 as [|(k' & l') (k2 & a') d alts' (E & A') F IH]; [destruct IN|]; cbn [fst snd] in *; destruct IN as [EQ|IN].
      - injection EQ as -> ->; destruct (alternatives_expr _ _ _ a' alts a A' A IA) as (a0 & I0 & EQ); exists (k2, a'), a0; split; [left; reflexivity|auto].
      - destruct (IH IN) as (kl & a0 & IK & I0 & EQ); exists kl, a0; split; [right; exact IK|auto]. }
    destruct X as (kl & a0 & IK & I0 & EQ); rewrite EQ in *; apply part_items_within; apply lookups_of_mentions in ME.
    specialize (HS kl IK); rewrite forallb_forall in HS; specialize (HS a0 I0); rewrite andb_true_iff, !forallb_forall in HS; apply smem_in, HS, ME.
Qed.

(** * Exactly one equation *)
Definition exact_list (N : names) (l : list (string * string)) : bool := list_check (Nat.eqb 1) [] N (WBool true) l.
Lemma exact_list_sound N W p l : exact_list N l = true -> holding N W p l = 1.
Proof.
  intros H; unfold exact_list in H; pose proof (list_check_sound _ _ _ _ _ W p H) as E.
  assert (X : Nat.eqb 1 (holding N W p l) = true) by (apply E; [intros c []|reflexivity]); apply Nat.eqb_eq in X; auto.
Qed.
Definition exact_component (m : math_file) (c : component) : bool :=
  exact_list (math_names m) (c_equations c) && forallb (fun x => exact_list (math_names m) (snd x)) (c_subs c ++ c_slices c).
Lemma exact_component_sound order m group c qs W p : exact_component m c = true ->
  parse_equations order (math_names m) (math_valid m) group c = Done qs -> exactly_one W p qs.
Proof.
  intros H PE; apply andb_true_iff in H as (HE & HS); rewrite forallb_forall in HS; apply (C36_exactly_one order (math_names m) (math_valid m) group c qs W p PE).
  - apply exact_list_sound, HE.
  - intros k l IN; apply exact_list_sound, (HS (k, l) IN).
Qed.
Lemma exact_entry order m U group c r w qs : exact_component m c = true -> build_all order m U group c = Built r ->
  (forall s, In s (c_foreach c) -> In s (u_dims U)) -> parse_where_text (math_names m) (MathText.c_where c) = Some w ->
  parse_equations order (math_names m) (math_valid m) group c = Done qs ->
  forall i, applies_to m U c w i -> null (r (map (at_index (u_dims U) i) (c_foreach c))) = false.
Proof.
  intros EX B SUB PW PE i AI; destruct (build_entries order m U group c r w qs B SUB PW PE) as (K & _).
  pose proof (exact_component_sound order m group c qs (world_where (math_names m) U) (at_index (u_dims U) i) EX PE) as ONE; unfold exactly_one in ONE.
  destruct (filter _ qs) as [|q rest] eqn:F; [discriminate|].
  assert (IQ : In q (filter (applies (world_where (math_names m) U) (at_index (u_dims U) i)) qs)) by (rewrite F; left; reflexivity).
  apply filter_In in IQ as (IQ & AQ); destruct (K i q AI IQ AQ) as (wd & v & _ & _ & -> & NF); exact NF.
Qed.
