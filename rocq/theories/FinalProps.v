(** C106: results hold the values of what was solved; deactivated components leave no trace. *)
From Verif Require Import Base BaseProofs FinalModel.
From Coq Require Import QArith.
Local Open Scope string_scope.
Local Open Scope list_scope.

(** ** Specification *)
(** Value of a solved array, by name. *)
Definition active_in (n : string) (a : arr) (l : list item) : Prop := exists i, In i l /\ i_active i = true /\ i_name i = n /\ i_value i = a.
Definition is_solved (m : math) (n : string) (a : arr) : Prop :=
  active_in n a (m_vars m) \/ active_in n a (m_exprs m) \/ active_in n a (m_objs m) \/ exists c, In (c, a) (m_prices m) /\ n = ("shadow_price_" ++ c)%string.
(** [posted m l look n a]: computing the postprocessed arrays [l] one after the other, the array [n] is [a]; each looks up inputs, solved
    arrays and the arrays computed before it. *)
Inductive posted : list post -> (string -> option arr) -> string -> arr -> Prop :=
| posted_here p l look : p_active p = true -> posted (p :: l) look (p_name p) (p_eval p look)
| posted_later p l look look' n a : (forall k, k <> p_name p -> look' k = look k) -> look' (p_name p) = Some (if p_active p then p_eval p look else []) -> posted l look' n a -> posted (p :: l) look n a.
(** What can be looked up at first. *)
Definition at_first (m : math) (look : string -> option arr) : Prop :=
  forall n a, a <> [] -> (look n = Some a <-> is_solved m n a \/ exists i, In i (m_inputs m) /\ i_name i = n /\ i_value i = a).
(** No name is used twice, not even by components that are not active. *)
Definition all_names (m : math) : list string :=
  map i_name (m_vars m) ++ map i_name (m_exprs m) ++ map i_name (m_objs m) ++ map (fun x => ("shadow_price_" ++ fst x)%string) (m_prices m) ++ map i_name (m_inputs m) ++ map p_name (m_posts m).
(** The rule enforced by the schema: no two active components have the same name (names of shadow prices are not part of it). *)
Definition schema_names (m : math) : list string :=
  map i_name (actives (m_vars m)) ++ map i_name (actives (m_exprs m)) ++ map i_name (actives (m_objs m)) ++ map i_name (actives (m_inputs m)) ++ map p_name (filter p_active (m_posts m)).

(** ** Lemmas *)
Lemma get_assign e : forall d n, NoDup (d_keys e) -> d_get n (assign d e) = match d_get n e with Some a => Some a | None => d_get n d end.
Proof.
  induction e as [|[k v] e IH]; intros d n N; [reflexivity|]; inversion N as [|? ? NI N']; subst; cbn [assign fold_left fst snd]; unfold assign in IH; rewrite (IH _ _ N'); cbn [d_get].
  destruct (String.eqb_spec n k) as [->|NE].
  - rewrite (proj2 (d_get_none k e) NI), d_get_set_same; reflexivity.
  - rewrite d_get_set_other by exact NE; reflexivity.
Qed.
Lemma keys_pairs l : d_keys (map pair_of l) = map i_name l.
Proof. unfold d_keys; rewrite map_map; reflexivity. Qed.
Lemma nodup_filter {A B} (f : A -> B) (p : A -> bool) l : NoDup (map f l) -> NoDup (map f (filter p l)).
Proof.
  induction l as [|x l IH]; intros N; [constructor|]; cbn in N; inversion N as [|? ? NI N']; subst; cbn; destruct (p x); [cbn; constructor; [|auto]|auto].
  intros X; apply NI; apply in_map_iff in X as (y & E & Y); apply filter_In in Y as (Y & _); rewrite <- E; apply in_map, Y.
Qed.
Lemma actives_get l n a : NoDup (map i_name l) -> (d_get n (map pair_of (actives l)) = Some a <-> active_in n a l).
Proof.
  intros N; split.
  - intros G; apply d_get_in, in_map_iff in G as (i & E & I); injection E as <- <-; apply filter_In in I as (I & A); exists i; auto.
  - intros (i & I & A & <- & <-); apply d_in_get; [rewrite keys_pairs; apply nodup_filter, N|]; apply in_map_iff; exists i; split; [reflexivity|apply filter_In; auto].
Qed.
Lemma inputs_get l n a : NoDup (map i_name l) -> (d_get n (map pair_of l) = Some a <-> exists i, In i l /\ i_name i = n /\ i_value i = a).
Proof.
  intros N; split.
  - intros G; apply d_get_in, in_map_iff in G as (i & E & I); injection E as <- <-; exists i; auto.
  - intros (i & I & <- & <-); apply d_in_get; [rewrite keys_pairs; exact N|]; apply in_map_iff; exists i; auto.
Qed.
Lemma active_name n a l : active_in n a l -> In n (map i_name l).
Proof. intros (i & I & _ & <- & _); apply in_map, I. Qed.

Lemma nodup_app {A} (a b : list A) : NoDup (a ++ b) -> NoDup a /\ NoDup b /\ forall x, In x a -> ~ In x b.
Proof.
  induction a as [|x a IH]; intros N; [split; [constructor|split; [exact N|intros x []]]|].
  cbn in N; inversion N as [|? ? NI N']; subst; destruct (IH N') as (NA & NB & NC); split; [constructor; [intros X; apply NI, in_or_app; auto|exact NA]|split; [exact NB|]].
  intros y [<-|Y]; [intros X; apply NI, in_or_app; auto|exact (NC y Y)].
Qed.
Definition price_pair (x : string * arr) : string * arr := ((prefix ++ fst x)%string, snd x).
Lemma variables_in m n a : In (n, a) (variables m) -> (exists v, In v (m_vars m) /\ i_name v = n /\ ((i_active v = true /\ i_value v = a) \/ (i_active v = false /\ a = []))).
Proof.
  unfold variables; rewrite in_flat_map; intros (v & I & H); exists v; split; [exact I|]; destruct (i_active v) eqn:A.
  - destruct H as [H|[]]; injection H as <- <-; auto.
  - destruct (smem _ _); [destruct H|]; destruct H as [H|[]]; injection H as <- <-; auto.
Qed.
Lemma variables_nodup m : NoDup (map i_name (m_vars m)) -> NoDup (d_keys (variables m)).
Proof.
  unfold variables; set (f := fun v => _).
  assert (F : forall v, f v = [] \/ exists a, f v = [(i_name v, a)]) by (intros v; unfold f; destruct (i_active v); [right; eexists; reflexivity|]; destruct (smem _ _); [left; reflexivity|right; eexists; reflexivity]).
  clearbody f; induction (m_vars m) as [|v l IH]; intros N; [constructor|]; cbn in N; inversion N as [|? ? NI N']; subst; cbn [flat_map]; unfold d_keys; rewrite map_app; destruct (F v) as [-> | (a & ->)]; cbn [map app fst]; [exact (IH N')|].
  constructor; [|exact (IH N')]; intros X; apply NI; apply in_map_iff in X as ([k b] & E & X); cbn in E; subst k; apply in_flat_map in X as (w & W & X); destruct (F w) as [E|(c & E)]; rewrite E in X; [destruct X|]; destruct X as [X|[]]; injection X as <- _; apply in_map, W.
Qed.
Lemma price_keys d : d_keys (map price_pair d) = map (fun x => ("shadow_price_" ++ fst x)%string) d.
Proof. unfold d_keys; rewrite map_map; reflexivity. Qed.
Lemma price_get d n a : NoDup (map (fun x => ("shadow_price_" ++ fst x)%string) d) -> (d_get n (map price_pair d) = Some a <-> exists c, In (c, a) d /\ n = ("shadow_price_" ++ c)%string).
Proof.
  intros N; split.
  - intros G; apply d_get_in, in_map_iff in G as ([c b] & E & I); unfold price_pair in E; cbn [fst snd] in E; injection E as <- <-; exists c; auto.
  - intros (c & I & ->); apply d_in_get; [rewrite price_keys; exact N|]; apply in_map_iff; exists (c, a); auto.
Qed.

Section Distinct.
Variable m : math.
Hypothesis D : NoDup (all_names m).
Lemma solved_get n a : a <> [] -> (d_get n (solved m) = Some a <-> is_solved m n a).
Proof.
  intros NE; unfold all_names in D.
  apply nodup_app in D as (DV & D1 & XV); apply nodup_app in D1 as (DX & D2 & XX); apply nodup_app in D2 as (DO & D3 & XO); apply nodup_app in D3 as (DP & _ & _).
  unfold solved, is_solved; change (map (fun x => ((prefix ++ fst x)%string, snd x)) (m_prices m)) with (map price_pair (m_prices m)).
  rewrite !get_assign; [|apply variables_nodup, DV|rewrite keys_pairs; apply nodup_filter, DX|rewrite price_keys; exact DP|rewrite keys_pairs; apply nodup_filter, DO].
  pose proof (actives_get (m_objs m) n) as GO; pose proof (price_get (m_prices m) n) as GP; pose proof (actives_get (m_exprs m) n) as GX.
  destruct (d_get n (map pair_of (actives (m_objs m)))) as [b|] eqn:EO.
  { assert (X : active_in n b (m_objs m)) by (apply (GO b DO); reflexivity).
    split.
    - intros E; injection E as <-; tauto.
    - pose proof (active_name _ _ _ X) as NO; intros [H|[H|[H|(c & H & ->)]]].
      + exfalso; apply (XV n (active_name _ _ _ H)); apply in_or_app; right; apply in_or_app; left; exact NO.
      + exfalso; apply (XX n (active_name _ _ _ H)); apply in_or_app; left; exact NO.
      + apply (GO a DO) in H; (exact H || discriminate H).
      + exfalso; apply (XO _ NO); apply in_or_app; left; apply in_map_iff; exists (c, a); auto. }
  destruct (d_get n (map price_pair (m_prices m))) as [b|] eqn:EP.
  { assert (X : exists c, In (c, b) (m_prices m) /\ n = ("shadow_price_" ++ c)%string) by (apply (GP b DP); reflexivity); split.
    - intros E; injection E as <-; tauto.
    - assert (NP : In n (map (fun x => ("shadow_price_" ++ fst x)%string) (m_prices m))) by (destruct X as (c & I & ->); apply in_map_iff; exists (c, b); auto); intros [H|[H|[H|H]]].
      + exfalso; apply (XV n (active_name _ _ _ H)); apply in_or_app; right; apply in_or_app; right; apply in_or_app; left; exact NP.
      + exfalso; apply (XX n (active_name _ _ _ H)); apply in_or_app; right; apply in_or_app; left; exact NP.
      + apply (GO a DO) in H; (exact H || discriminate H).
      + apply (GP a DP) in H; (exact H || discriminate H). }
  destruct (d_get n (map pair_of (actives (m_exprs m)))) as [b|] eqn:EX.
  { assert (X : active_in n b (m_exprs m)) by (apply (GX b DX); reflexivity); split.
    - intros E; injection E as <-; tauto.
    - intros [H|[H|[H|H]]].
      + exfalso; apply (XV n (active_name _ _ _ H)); apply in_or_app; left; exact (active_name _ _ _ X).
      + apply (GX a DX) in H; (exact H || discriminate H).
      + apply (GO a DO) in H; (exact H || discriminate H).
      + apply (GP a DP) in H; (exact H || discriminate H). }
  assert (RV : match d_get n (variables m) with Some a0 => Some a0 | None => d_get n [] end = d_get n (variables m)) by (destruct (d_get n (variables m)); reflexivity).
  rewrite RV; split.
  - intros G; apply d_get_in, variables_in in G as (v & I & E & [(A & V)|(_ & V)]); [left; exists v; auto|congruence].
  - intros [(v & I & A & <- & <-)|[H|[H|H]]]; [|apply (GX a DX) in H; (exact H || discriminate H)|apply (GO a DO) in H; (exact H || discriminate H)|apply (GP a DP) in H; (exact H || discriminate H)].
    apply d_in_get; [apply variables_nodup, DV|]; unfold variables; apply in_flat_map; exists v; split; [exact I|]; rewrite A; left; reflexivity.
Qed.
End Distinct.

Lemma keys_assign d e : forall k, In k (d_keys (assign d e)) <-> In k (d_keys d) \/ In k (d_keys e).
Proof.
  revert d; induction e as [|[n v] e IH]; intros d k; [cbn; tauto|]; change (assign d ((n, v) :: e)) with (assign (d_set n v d) e); rewrite IH.
  assert (X : In k (d_keys ((n, v) :: e)) <-> n = k \/ In k (d_keys e)) by reflexivity; rewrite X, <- (d_mem_keys k (d_set n v d)), <- (d_mem_keys k d); unfold d_mem; rewrite d_get_set.
  destruct (String.eqb_spec k n) as [->|NE]; [intuition|]; destruct (d_get k d); intuition congruence.
Qed.
Lemma solved_keys m n : In n (d_keys (solved m)) -> In n (map i_name (m_vars m) ++ map i_name (m_exprs m) ++ map i_name (m_objs m) ++ map (fun x => ("shadow_price_" ++ fst x)%string) (m_prices m)).
Proof.
  unfold solved; change (map (fun x => ((prefix ++ fst x)%string, snd x)) (m_prices m)) with (map price_pair (m_prices m)).
  assert (A : forall l k, In k (map i_name (actives l)) -> In k (map i_name l)) by (intros l k X; apply in_map_iff in X as (i & E & I); apply filter_In in I as (I & _); rewrite <- E; apply in_map, I).
  rewrite !keys_assign, !keys_pairs, price_keys, !in_app_iff; intros [[[[[]|X]|X]|X]|X].
  - left; unfold d_keys in X; apply in_map_iff in X as ([k a] & E & X); cbn in E; subst k; apply variables_in in X as (v & I & <- & _); apply in_map, I.
  - right; left; apply A, X.
  - tauto.
  - right; right; left; apply A, X.
Qed.
Lemma posts_spec l : (forall p look look', In p l -> (forall n, look n = look' n) -> p_eval p look = p_eval p look') ->
  forall d, NoDup (map p_name l) -> (forall p, In p l -> d_get (p_name p) d = None) ->
  exists ps, add_posts l d = Ok ps /\ d_keys ps = map p_name l /\
    forall look, (forall k, look k = d_get k d) -> forall n a, a <> [] -> (d_get n ps = Some a <-> posted l look n a).
Proof.
  induction l as [|p l IH]; intros EX d N H; [exists []; split; [reflexivity|split; [reflexivity|]]; intros look _ n a _; split; [discriminate|intros X; inversion X]|].
  cbn in N; inversion N as [|? ? NI N']; subst; cbn [add_posts].
  set (v := if p_active p then p_eval p (fun n => d_get n d) else []).
  assert (A : add_post p d = Ok v) by (unfold add_post, v, d_mem; rewrite (H p (or_introl eq_refl)); destruct (p_active p); reflexivity).
  rewrite A; cbn [bind]; destruct (IH (fun q a b I => EX q a b (or_intror I)) (d_set (p_name p) v d) N') as (ps & P & K & G).
  { intros q I; rewrite d_get_set_other; [apply H; right; exact I|]; intros E; apply NI; rewrite <- E; apply in_map, I. }
  rewrite P; cbn [bind]; exists ((p_name p, v) :: ps); split; [reflexivity|split; [cbn; f_equal; exact K|]].
  intros look L n a NE; cbn [d_get].
  assert (EV : p_eval p look = p_eval p (fun n => d_get n d)) by (apply EX; [left; reflexivity|exact L]).
  assert (NP : forall look0 b, ~ posted l look0 (p_name p) b).
  { assert (PN : forall q look0 k b, posted q look0 k b -> In k (map p_name q)) by (intros q look0 k b Y; induction Y; [left; reflexivity|right; assumption]).
    intros look0 b X; exact (NI (PN _ _ _ _ X)). }
  destruct (String.eqb_spec n (p_name p)) as [->|NN].
  - unfold v; split.
    + intros E; injection E as E; destruct (p_active p) eqn:PA; [|congruence]; rewrite <- E, <- EV; apply posted_here, PA.
    + intros X; inversion X as [q l' lk PA|q l' lk lk' n' a' Q1 Q2 Q3]; subst; [rewrite PA, EV; reflexivity|exfalso; exact (NP _ _ Q3)].
  - split.
    + intros E; apply (posted_later p l look (fun k => d_get k (d_set (p_name p) v d))).
      * intros k KN; rewrite d_get_set_other by exact KN; symmetry; apply L.
      * rewrite d_get_set_same; unfold v; rewrite EV; reflexivity.
      * apply (G (fun k => d_get k (d_set (p_name p) v d))); auto.
    + intros X; inversion X as [q l' lk PA|q l' lk lk' n' a' Q1 Q2 Q3]; subst; [contradiction|].
      apply (G lk'); auto; intros k; rewrite d_get_set; destruct (String.eqb_spec k (p_name p)) as [->|KN]; [rewrite Q2; unfold v; rewrite EV; reflexivity|rewrite Q1 by exact KN; apply L].
Qed.
Lemma filter_values d n a : NoDup (d_keys d) -> (d_get n (filter has_values d) = Some a <-> d_get n d = Some a /\ a <> []).
Proof.
  intros N; assert (N' : NoDup (d_keys (filter has_values d))) by (unfold d_keys; apply nodup_filter, N); split.
  - intros G; apply d_get_in, filter_In in G as (I & V); split; [apply d_in_get; assumption|]; intros ->; discriminate.
  - intros (G & NE); apply d_in_get; [exact N'|]; apply filter_In; split; [apply d_get_in, G|]; unfold has_values; cbn; destruct a; [contradiction|reflexivity].
Qed.
Lemma assign_nodup d e : NoDup (d_keys d) -> NoDup (d_keys (assign d e)).
Proof. revert d; induction e as [|x e IH]; intros d N; [exact N|]; apply IH, d_nodup_set, N. Qed.

(** If no name is used twice, not even by deactivated components, the results hold exactly the values of active variables,
    expressions and objectives, the shadow prices, and the active postprocessed arrays, each computed from these values, the inputs
    and the postprocessed arrays before it. *)
Theorem C106_results_partial m : NoDup (all_names m) ->
  (forall p look look', In p (m_posts m) -> (forall n, look n = look' n) -> p_eval p look = p_eval p look') ->
  exists r look, load_results m = Ok r /\ at_first m look /\
    forall n a, d_get n r = Some a <-> a <> [] /\ (is_solved m n a \/ posted (m_posts m) look n a).
Proof.
  intros D EX; pose proof D as D0; unfold all_names in D.
  assert (S : NoDup ((map i_name (m_vars m) ++ map i_name (m_exprs m) ++ map i_name (m_objs m) ++ map (fun x => ("shadow_price_" ++ fst x)%string) (m_prices m)) ++ map i_name (m_inputs m) ++ map p_name (m_posts m))) by (rewrite <- !app_assoc; exact D).
  apply nodup_app in S as (_ & S & XS); apply nodup_app in S as (DI & DP & XI).
  pose (d := assign (solved m) (inputs m)).
  assert (GD : forall k, d_get k d = match d_get k (inputs m) with Some a => Some a | None => d_get k (solved m) end) by (intros k; unfold d; apply get_assign; unfold inputs; rewrite keys_pairs; exact DI).
  destruct (posts_spec (m_posts m) EX d DP) as (ps & P & K & G).
  { intros p I; rewrite GD.
    assert (N1 : d_get (p_name p) (inputs m) = None) by (apply d_get_none; unfold inputs; rewrite keys_pairs; intros X; apply (XI _ X), in_map, I).
    rewrite N1; apply d_get_none; intros X; apply (XS _ (solved_keys m _ X)), in_or_app; right; apply in_map, I. }
  exists (filter has_values (assign (solved m) ps)), (fun k => d_get k d); split; [unfold load_results; fold d; rewrite P; reflexivity|split].
  - intros n a NE; rewrite GD; unfold inputs; destruct (d_get n (map pair_of (m_inputs m))) as [b|] eqn:E.
    + assert (X : exists i, In i (m_inputs m) /\ i_name i = n /\ i_value i = b) by (apply (inputs_get _ _ _ DI), E); split.
      * intros Y; injection Y as <-; right; exact X.
      * intros [Y|Y]; [|apply (inputs_get _ _ _ DI) in Y; rewrite E in Y; exact Y].
        exfalso; apply (solved_get m D0 n a NE), d_get_some_key in Y; apply (XS _ (solved_keys m _ Y)), in_or_app; left; destruct X as (i & I & <- & _); apply in_map, I.
    + rewrite (solved_get m D0 n a NE); split; [tauto|]; intros [Y|Y]; [exact Y|]; apply (inputs_get _ _ _ DI) in Y; rewrite E in Y; discriminate Y.
  - intros n a; rewrite filter_values by (apply assign_nodup; unfold solved; apply assign_nodup, assign_nodup, assign_nodup, assign_nodup; constructor).
    rewrite get_assign by (rewrite K; exact DP); specialize (G _ (fun k => eq_refl) n a).
    split.
    + intros (E & NE); split; [exact NE|]; destruct (d_get n ps) as [b|] eqn:B; [right; apply (G NE), E|left; apply (solved_get m D0 n a NE), E].
    + intros (NE & [Y|Y]); (split; [|exact NE]).
      * apply (solved_get m D0 n a NE) in Y; assert (N1 : d_get n ps = None) by (apply d_get_none; rewrite K; intros X; apply d_get_some_key in Y; apply (XS _ (solved_keys m _ Y)), in_or_app; right; exact X); rewrite N1; exact Y.
      * apply (G NE) in Y; rewrite Y; reflexivity.
Qed.
Print Assumptions C106_results_partial.

Definition it (n : string) (a : bool) (v : arr) : item := {| i_name := n; i_active := a; i_value := v |}.
Definition one (q : Q) : arr := [([], q)].
Definition getter (n : string) (look : string -> option arr) : arr := match look n with Some a => a | None => [] end.
Ltac nodup := cbn; repeat (apply NoDup_cons; [cbn; intuition discriminate|]); apply NoDup_nil.

(** A deactivated postprocessed array with the name of an active variable removes the variable from the results. *)
Theorem C106_deactivated_refuted : exists m n a r, NoDup (schema_names m) /\ a <> [] /\ is_solved m n a /\ load_results m = Ok r /\ d_get n r = None.
Proof.
  exists {| m_inputs := []; m_vars := [it "flow" true (one 3); it "cap" true (one 4)]; m_exprs := []; m_objs := [it "cost" true (one 7)];
            m_posts := [{| p_name := "flow"; p_active := false; p_eval := fun _ => [] |}]; m_prices := [] |}, "flow", (one 3), [("cap", one 4); ("cost", one 7)].
  split; [nodup|split; [discriminate|split; [left; eexists; split; [left; reflexivity|repeat split]|split; reflexivity]]].
Qed.
Print Assumptions C106_deactivated_refuted.
(** An active postprocessed array that takes the name of a deactivated variable makes loading of results fail. *)
Theorem C106_replaced_refuted : exists m, NoDup (schema_names m) /\ load_results m = Err EBackend /\ m_prices m = [].
Proof.
  exists {| m_inputs := []; m_vars := [it "flow" true (one 3); it "total" false []]; m_exprs := []; m_objs := [];
            m_posts := [{| p_name := "total"; p_active := true; p_eval := getter "flow" |}]; m_prices := [] |}.
  split; [nodup|split; reflexivity].
Qed.
Print Assumptions C106_replaced_refuted.
(** A deactivated parameter with the name of an active variable hides the solution from postprocessed arrays. *)
Theorem C106_hidden_refuted : exists m n r, NoDup (schema_names m) /\ is_solved m n (one 3) /\ load_results m = Ok r /\
  m_posts m = [{| p_name := "copy"; p_active := true; p_eval := getter n |}] /\ d_get n r = Some (one 3) /\ d_get "copy" r = Some (one 100).
Proof.
  exists {| m_inputs := [it "cap" false (one 100)]; m_vars := [it "cap" true (one 3)]; m_exprs := []; m_objs := [];
            m_posts := [{| p_name := "copy"; p_active := true; p_eval := getter "cap" |}]; m_prices := [] |}, "cap", [("cap", one 3); ("copy", one 100)].
  split; [nodup|split; [left; eexists; split; [left; reflexivity|repeat split]|repeat split]].
Qed.
Print Assumptions C106_hidden_refuted.
(** A variable called like a shadow price is replaced by the shadow price. *)
Theorem C106_price_refuted : exists m n a b r, NoDup (schema_names m) /\ active_in n a (m_vars m) /\ load_results m = Ok r /\ d_get n r = Some b /\ a <> b.
Proof.
  exists {| m_inputs := []; m_vars := [it "shadow_price_limit" true (one 3)]; m_exprs := []; m_objs := []; m_posts := []; m_prices := [("limit", one 5)] |},
    "shadow_price_limit", (one 3), (one 5), [("shadow_price_limit", one 5)].
  split; [nodup|split; [eexists; split; [left; reflexivity|repeat split]|repeat split; discriminate]].
Qed.
Print Assumptions C106_price_refuted.

Definition usual : math :=
  {| m_inputs := [it "price" true (one 2); it "old" false (one 9)]; m_vars := [it "flow" true (one 3); it "gone" false []; it "idle" true []]; m_exprs := [it "cost" true (one 6); it "off" false (one 8)];
     m_objs := [it "min_cost" true (one 6)]; m_prices := [("limit", one 5)];
     m_posts := [{| p_name := "twice"; p_active := true; p_eval := fun look => getter "flow" look ++ getter "price" look |}; {| p_name := "none"; p_active := false; p_eval := getter "flow" |};
                 {| p_name := "again"; p_active := true; p_eval := getter "twice" |}] |}.
Example C106_example : NoDup (all_names usual) /\
  (forall p look look', In p (m_posts usual) -> (forall n, look n = look' n) -> p_eval p look = p_eval p look') /\
  load_results usual = Ok [("flow", one 3); ("cost", one 6); ("shadow_price_limit", one 5); ("min_cost", one 6);
                           ("twice", [([], 3); ([], 2)]); ("again", [([], 3); ([], 2)])].
Proof.
  split; [nodup|split; [|reflexivity]]; intros p look look' [<-|[<-|[<-|[]]]] E; cbn; unfold getter; rewrite ?E; reflexivity.
Qed.
