(** References, choices and the expansion of equations. *)
From Coq Require Import QArith Qcanon Lia.
From Verif Require Import Base BaseProofs LangModel EvalModel MathText BuildModel BuildSpec.
From Verif Require CliModel CliProofs.
Local Open Scope nat_scope.
Local Open Scope string_scope.
Local Open Scope list_scope.
Local Arguments String.eqb : simpl never.

(** * Induction over the parts of an expression *)
Definition part (x e : expr) : Prop :=
  match e with
  | EList l => In x l
  | EIndex _ sl => In x (map snd sl)
  | EFun _ args kws => In x args \/ In x (map snd kws)
  | ESign _ e => x = e
  | EChain e ops => x = e \/ In x (map snd ops)
  | _ => False
  end.
Lemma expr_parts (P : expr -> Prop) : (forall e, (forall x, part x e -> P x) -> P e) -> forall e, P e.
Proof.
  intros H; fix IH 1; intros e; apply H; destruct e as [| | | | | | |l|n sl|f args kws|n e|e ops]; cbn [part];
    try (intros x []; fail).
  - induction l as [|y l IL]; intros x IN; [destruct IN|destruct IN as [E|IN]]; [rewrite <- E; apply IH|apply IL, IN].
  - induction sl as [|[d y] l IL]; intros x IN; [destruct IN|destruct IN as [E|IN]]; [rewrite <- E; change (P y); apply IH|apply IL, IN].
  - intros x [HA|HK].
    + revert x HA; induction args as [|y l IL]; intros x IN; [destruct IN|destruct IN as [E|IN]]; [rewrite <- E; apply IH|apply IL, IN].
    + revert x HK; induction kws as [|[d y] l IL]; intros x IN; [destruct IN|destruct IN as [E|IN]]; [rewrite <- E; change (P y); apply IH|apply IL, IN].
  - intros x E; rewrite E; apply IH.
  - intros x [E|HO]; [rewrite E; apply IH|].
    revert x HO; induction ops as [|[d y] l IL]; intros x IN; [destruct IN|destruct IN as [E|IN]]; [rewrite <- E; change (P y); apply IH|apply IL, IN].
Qed.

Lemma in_pairs {A B} (P : B -> Prop) (l : list (A * B)) : (exists x, In x (map snd l) /\ P x) <-> exists k x, In (k, x) l /\ P x.
Proof.
  split.
  - intros (x & IN & HP); apply in_map_iff in IN as ((k & y) & <- & IN); eauto.
  - intros (k & x & IN & HP); exists x; split; [apply in_map_iff; exists (k, x); auto|exact HP].
Qed.
Lemma in_flat_snd {A B} (f : B -> list string) (l : list (A * B)) s :
  In s (flat_map (fun x => f (snd x)) l) <-> exists k x, In (k, x) l /\ In s (f x).
Proof.
  rewrite in_flat_map; split.
  - intros ((k & x) & IN & HS); eauto.
  - intros (k & x & IN & HS); exists (k, x); auto.
Qed.

Lemma snd_in {A B} (k : A) (x : B) l : In (k, x) l -> In x (map snd l).
Proof. intros H; apply in_map_iff; exists (k, x); auto. Qed.

Lemma items_occurs sl s e : In s (items sl e) <-> occurs sl s false e.
Proof.
  induction e as [e IH] using expr_parts; destruct e as [| | | | |r|r|l|n ix|f args kws|n e|e ops]; cbn [items part] in *;
    try (split; [intros []|intros X; inversion X]; fail).
  - destruct sl; cbn [In]; split; try (intros []; fail).
    + intros X; inversion X; discriminate.
    + intros [-> |[]]; constructor; reflexivity.
    + intros X; inversion X; auto.
  - destruct sl; cbn [In]; split; try (intros []; fail).
    + intros [-> |[]]; apply oc_slice; reflexivity.
    + intros X; inversion X; auto.
    + intros X; inversion X; discriminate.
  - destruct sl.
    + rewrite in_flat_snd; split.
      * intros (k & x & IN & HS); apply (oc_index _ _ _ _ k x); [reflexivity|exact IN|apply IH; [eapply snd_in, IN|exact HS]].
      * intros X; inversion X; subst; do 2 eexists; split; [eassumption|]; apply IH; [eapply snd_in; eassumption|assumption].
    + split; [intros []|intros X; inversion X; discriminate].
  - rewrite in_app_iff, in_flat_map, in_flat_snd; split.
    + intros [(x & IN & HS)|(k & x & IN & HS)].
      * eapply oc_arg; [exact IN|apply IH; auto].
      * eapply oc_kw; [exact IN|apply IH; [right; eapply snd_in, IN|exact HS]].
    + intros X; inversion X; subst.
      * left; eexists; split; [eassumption|apply IH; auto].
      * right; do 2 eexists; split; [eassumption|apply IH; [right; eapply snd_in; eassumption|assumption]].
  - rewrite in_app_iff, in_flat_snd; split.
    + intros [HS|(k & x & IN & HS)].
      * apply oc_first, IH; auto.
      * eapply oc_next; [exact IN|apply IH; [right; eapply snd_in, IN|exact HS]].
    + intros X; inversion X; subst.
      * left; apply IH; auto.
      * right; do 2 eexists; split; [eassumption|apply IH; [right; eapply snd_in; eassumption|assumption]].
Qed.
Lemma lookups_occurs sl s e : In s (lookups sl e) <-> exists b, occurs sl s b e.
Proof.
  induction e as [e IH] using expr_parts; destruct e as [| | | | |r|r|l|n ix|f args kws|n e|e ops]; cbn [lookups part] in *;
    try (split; [intros []|intros (b' & X); inversion X]; fail).
  - destruct sl; cbn [In]; split; try (intros []; fail).
    + intros (b & X); inversion X; discriminate.
    + intros [-> |[]]; exists false; constructor; reflexivity.
    + intros (b & X); inversion X; auto.
  - destruct sl; cbn [In]; split; try (intros []; fail).
    + intros [-> |[]]; exists false; apply oc_slice; reflexivity.
    + intros (b & X); inversion X; auto.
    + intros (b & X); inversion X; discriminate.
  - destruct sl.
    + rewrite in_flat_snd; split.
      * intros (k & x & IN & HS); apply IH in HS as (b & HS); [|eapply snd_in, IN]; exists b; apply (oc_index _ _ _ _ k x); auto.
      * intros (b & X); inversion X; subst; do 2 eexists; split; [eassumption|]; apply IH; [eapply snd_in; eassumption|eauto].
    + split; [intros []|intros (b & X); inversion X; discriminate].
  - rewrite in_app_iff, in_flat_map, in_flat_snd; split.
    + intros [(x & IN & HS)|(k & x & IN & HS)].
      * apply IH in HS as (b & HS); [|auto]; exists b; eapply oc_arg; eassumption.
      * apply IH in HS as (b & HS); [|right; eapply snd_in, IN]; exists b; eapply oc_kw; eassumption.
    + intros (b & X); inversion X; subst.
      * left; eexists; split; [eassumption|apply IH; eauto].
      * right; do 2 eexists; split; [eassumption|apply IH; [right; eapply snd_in; eassumption|eauto]].
  - rewrite (IH e eq_refl); split.
    + intros (b & X); exists true; eapply oc_sign, X.
    + intros (b & X); inversion X; subst; eauto.
  - rewrite in_app_iff, in_flat_snd; split.
    + intros [HS|(k & x & IN & HS)].
      * apply IH in HS as (b & HS); [|auto]; exists b; apply oc_first, HS.
      * apply IH in HS as (b & HS); [|right; eapply snd_in, IN]; exists b; eapply oc_next; eassumption.
    + intros (b & X); inversion X; subst.
      * left; apply IH; eauto.
      * right; do 2 eexists; split; [eassumption|apply IH; [right; eapply snd_in; eassumption|eauto]].
Qed.

(** * Dictionaries of alternatives *)
Lemma d_mem_get {V} k (d : list (string * V)) : d_mem k d = true <-> exists v, d_get k d = Some v.
Proof. unfold d_mem; destruct (d_get k d) as [v|]; split; [eauto|reflexivity|discriminate|intros (v & X); discriminate]. Qed.

(** All choices, as numbers. *)
Fixpoint choices {A} (alts : list (string * list A)) (ks : list string) : list (list nat) :=
  match ks with
  | [] => [[]]
  | k :: ks => flat_map (fun n => map (cons n) (choices alts ks))
                 (seq 0 (List.length (match d_get k alts with Some l => l | None => [] end)))
  end.
Lemma choices_in {A} (alts : list (string * list A)) ks : forall ch, In ch (choices alts ks) <-> choice alts ks ch.
Proof.
  induction ks as [|k ks IH]; intros ch; cbn [choices].
  - split; [intros [<- |[]]; constructor|intros X; inversion X; left; reflexivity].
  - rewrite in_flat_map; split.
    + intros (n & IN & IM); apply in_map_iff in IM as (c & <- & IC); apply in_seq in IN as (_ & LT).
      destruct (d_get k alts) as [l|] eqn:G; [|cbn in LT; lia].
      constructor; [eauto|apply IH, IC].
    + intros X; inversion X as [|k' n ks' c (l & G & LT) F]; subst; exists n; rewrite G; split.
      * apply in_seq; lia.
      * apply in_map, IH, F.
Qed.
Lemma nodup_flat_map_cons {A} (l : list A) (r : list (list A)) : NoDup l -> NoDup r -> NoDup (flat_map (fun n => map (cons n) r) l).
Proof.
  intros NL NR; induction NL as [|n l NI NL IH]; [constructor|]; cbn [flat_map].
  assert (NM : NoDup (map (cons n) r)).
  { clear - NR; induction NR as [|c r NI NR IH]; [constructor|]; cbn [map]; constructor; [|exact IH].
    intros IN; apply in_map_iff in IN as (c' & E & IN); injection E as ->; auto. }
  assert (DJ : forall x, In x (map (cons n) r) -> ~ In x (flat_map (fun n => map (cons n) r) l)).
  { intros x IN IF; apply in_map_iff in IN as (c & <- & _); apply in_flat_map in IF as (m & IM & IN); apply in_map_iff in IN as (c' & E & _).
    injection E as -> _; auto. }
  revert NM DJ; generalize (map (cons n) r); intros a NA; induction NA as [|x a NX NA IA]; intros DJ; cbn [app]; [exact IH|].
  constructor; [|apply IA; intros y IY; apply DJ; right; exact IY].
  rewrite in_app_iff; intros [X|X]; [auto|apply (DJ x); [left; reflexivity|exact X]].
Qed.
Lemma choices_nodup {A} (alts : list (string * list A)) ks : NoDup (choices alts ks).
Proof. induction ks as [|k ks IH]; cbn [choices]; [constructor; [intros []|constructor]|]; apply nodup_flat_map_cons; [apply seq_NoDup|exact IH]. Qed.

Lemma flat_map_map {A B C} (f : A -> B) (g : B -> list C) l : flat_map g (map f l) = flat_map (fun x => g (f x)) l.
Proof. induction l as [|x l IH]; cbn [map flat_map]; congruence. Qed.
Lemma map_flat_map {A B C} (f : B -> C) (g : A -> list B) l : map f (flat_map g l) = flat_map (fun x => map f (g x)) l.
Proof. induction l as [|x l IH]; cbn [flat_map map]; [reflexivity|]; rewrite map_app, IH; reflexivity. Qed.
Lemma flat_map_ext_in {A B} (f g : A -> list B) l : (forall x, In x l -> f x = g x) -> flat_map f l = flat_map g l.
Proof. induction l as [|x l IH]; intros H; cbn [flat_map]; [reflexivity|]; rewrite (H x (or_introl eq_refl)), IH; [reflexivity|intros y IY; apply H; right; exact IY]. Qed.
Lemma nth_seq {A B} (l : list A) (f : A -> list B) :
  flat_map f l = flat_map (fun n => match nth_error l n with Some a => f a | None => [] end) (seq 0 (List.length l)).
Proof.
  induction l as [|x l IH]; [reflexivity|]; cbn [flat_map List.length seq nth_error].
  f_equal; rewrite IH, <- seq_shift, flat_map_map; reflexivity.
Qed.

(** The product of alternatives, by choices. *)
Lemma product_choices {A} (alts : list (string * list A)) ks : (forall k, In k ks -> d_mem k alts = true) ->
  CliModel.product (map (fun k => match d_get k alts with Some l => l | None => [] end) ks) = map (picked alts ks) (choices alts ks).
Proof.
  induction ks as [|k ks IH]; intros H; [reflexivity|]; cbn [map CliModel.product choices].
  rewrite IH by (intros k' IK; apply H; right; exact IK).
  pose proof (H k (or_introl eq_refl)) as M; apply d_mem_get in M as (l & G); rewrite G.
  rewrite map_flat_map, nth_seq; apply flat_map_ext_in; intros n IN; apply in_seq in IN as (_ & LT); cbn [Nat.add] in LT.
  destruct (nth_error l n) as [a|] eqn:EN; [|apply nth_error_None in EN; lia].
  rewrite !map_map; apply map_ext; intros ch; cbn [picked]; rewrite G, EN; reflexivity.
Qed.

(** * Expansion *)
Section Expand.
Variable order : list string -> list string.

Definition wanted (slices : bool) (q : peq) : list string := order (if slices then find_slices q else find_subs q).
Definition variant (slices : bool) (alts : list (string * list peq)) (q : peq) (ch : list nat) : peq :=
  match wanted slices q with [] => q | ks => add_combination slices q (picked alts ks ch) end.

Lemma extend_eq slices alts q qs : extend order slices alts q = Done qs ->
  qs = map (variant slices alts q) (choices alts (wanted slices q)) /\ (forall k, In k (wanted slices q) -> d_mem k alts = true).
Proof.
  unfold extend, variant; fold (wanted slices q); destruct (wanted slices q) as [|k ks] eqn:EK.
  - intros H; injection H as <-; split; [reflexivity|intros k []].
  - rewrite <- EK; destruct (forallb _ _) eqn:F; [|discriminate]; intros H; injection H as <-.
    rewrite forallb_forall in F; split; [|exact F].
    rewrite product_choices by exact F; rewrite map_map; reflexivity.
Qed.
Lemma extend_all_eq slices alts : forall qs rs, extend_all order slices alts qs = Done rs ->
  rs = flat_map (fun q => map (variant slices alts q) (choices alts (wanted slices q))) qs /\
  forall q, In q qs -> forall k, In k (wanted slices q) -> d_mem k alts = true.
Proof.
  induction qs as [|q qs IH]; intros rs H; cbn [extend_all] in H.
  - injection H as <-; split; [reflexivity|intros q []].
  - destruct (extend order slices alts q) as [a|] eqn:EX; [|discriminate]; cbn [next] in H.
    destruct (extend_all order slices alts qs) as [b|] eqn:EA; [|discriminate]; cbn [next] in H; injection H as <-.
    apply extend_eq in EX as (-> & M); destruct (IH _ eq_refl) as (-> & MA); split; [reflexivity|].
    intros q' [<- |IN]; [exact M|apply MA, IN].
Qed.

(** Counting the variants that apply. *)
Section Count.
Variable W : wenv.
Variable p : pos.
Definition count (l : list peq) : nat := List.length (filter (applies W p) l).
Fixpoint counts (alts : list (string * list peq)) (ks : list string) : nat :=
  match ks with [] => 1 | k :: ks => count (match d_get k alts with Some l => l | None => [] end) * counts alts ks end.
Definition bnat (b : bool) : nat := if b then 1 else 0.

Lemma count_app a b : count (a ++ b) = count a + count b.
Proof. unfold count; rewrite filter_app, app_length; reflexivity. Qed.
Lemma count_cons q l : count (q :: l) = bnat (applies W p q) + count l.
Proof. unfold count; cbn [filter]; destruct (applies W p q); reflexivity. Qed.
Lemma applies_add slices q comb : applies W p (add_combination slices q comb) = applies W p q && forallb (applies W p) comb.
Proof.
  unfold applies, add_combination; cbn [q_where]; rewrite forallb_app; f_equal.
  induction comb as [|a comb IH]; cbn [flat_map forallb]; [reflexivity|]; rewrite forallb_app, IH; reflexivity.
Qed.
Definition total {A} (f : A -> bool) (l : list A) : nat := List.length (filter f l).
Lemma total_map {A B} (f : B -> bool) (g : A -> B) l : total f (map g l) = total (fun x => f (g x)) l.
Proof. unfold total; induction l as [|x l IH]; cbn [map filter]; [reflexivity|]; destruct (f (g x)); cbn [List.length]; rewrite IH; reflexivity. Qed.
Lemma total_and {A} (b : bool) (f : A -> bool) l : total (fun x => b && f x) l = bnat b * total f l.
Proof. unfold total; destruct b; cbn [andb bnat]; [rewrite Nat.mul_1_l; reflexivity|]; induction l; cbn [filter]; [reflexivity|exact IHl]. Qed.
Lemma total_ext {A} (f g : A -> bool) l : (forall x, In x l -> f x = g x) -> total f l = total g l.
Proof.
  intros H; unfold total; f_equal; induction l as [|x l IH]; cbn [filter]; [reflexivity|].
  rewrite (H x (or_introl eq_refl)), IH by (intros y IY; apply H; right; exact IY); reflexivity.
Qed.
Lemma total_product ls : total (forallb (applies W p)) (CliModel.product ls) = fold_right (fun l n => count l * n) 1 ls.
Proof.
  induction ls as [|l ls IH]; [reflexivity|]; cbn [CliModel.product fold_right]; rewrite <- IH; clear IH.
  induction l as [|a l IL]; [reflexivity|]; cbn [flat_map]; unfold total in *; rewrite filter_app, app_length.
  change (List.length (filter _ (map (cons a) _))) with (total (forallb (applies W p)) (map (cons a) (CliModel.product ls))).
  rewrite total_map, (total_ext _ (fun x => applies W p a && forallb (applies W p) x)) by reflexivity.
  rewrite total_and, count_cons, IL; unfold total; lia.
Qed.
Lemma variants_count slices alts q : (forall k, In k (wanted slices q) -> d_mem k alts = true) ->
  count (map (variant slices alts q) (choices alts (wanted slices q))) = bnat (applies W p q) * counts alts (wanted slices q).
Proof.
  intros M; unfold variant; destruct (wanted slices q) as [|k ks] eqn:EK.
  - cbn [choices map counts]; rewrite count_cons; unfold count; cbn [filter List.length]; lia.
  - rewrite <- EK in *; rewrite <- (map_map (picked alts (wanted slices q)) (add_combination slices q)), <- product_choices by exact M.
    unfold count; change (List.length (filter (applies W p) (map ?f ?l))) with (total (applies W p) (map f l)); rewrite total_map.
    rewrite (total_ext _ (fun c => applies W p q && forallb (applies W p) c)) by (intros c _; apply applies_add).
    rewrite total_and, total_product; f_equal; clear.
    induction (wanted slices q) as [|k ks IH]; [reflexivity|]; cbn [map fold_right counts]; rewrite IH; reflexivity.
Qed.
Lemma counts_most alts ks : (forall k l, d_get k alts = Some l -> at_most_one W p l) -> counts alts ks <= 1.
Proof.
  intros H; induction ks as [|k ks IH]; cbn [counts]; [lia|].
  assert (C : count (match d_get k alts with Some l => l | None => [] end) <= 1).
  { destruct (d_get k alts) as [l|] eqn:G; [apply (H k l G)|cbn; lia]. }
  nia.
Qed.
Lemma counts_exact alts ks : (forall k l, d_get k alts = Some l -> exactly_one W p l) -> (forall k, In k ks -> d_mem k alts = true) -> counts alts ks = 1.
Proof.
  intros H; induction ks as [|k ks IH]; intros M; cbn [counts]; [reflexivity|].
  pose proof (M k (or_introl eq_refl)) as G; apply d_mem_get in G as (l & G); rewrite G, IH by (intros; apply M; right; assumption).
  unfold count; rewrite (H k l G : List.length _ = 1); reflexivity.
Qed.
Lemma extend_all_most slices alts qs rs : extend_all order slices alts qs = Done rs ->
  (forall k l, d_get k alts = Some l -> at_most_one W p l) -> at_most_one W p qs -> at_most_one W p rs.
Proof.
  intros H HA; apply extend_all_eq in H as (-> & M); unfold at_most_one; fold (count qs).
  change (List.length (filter (applies W p) ?l)) with (count l).
  enough (count (flat_map (fun q => map (variant slices alts q) (choices alts (wanted slices q))) qs) <= count qs) by lia.
  induction qs as [|q qs IH]; [cbn; lia|]; cbn [flat_map]; rewrite count_app, count_cons, variants_count by (apply M; left; reflexivity).
  pose proof (counts_most alts (wanted slices q) HA); specialize (IH (fun q' IN => M q' (or_intror IN))); nia.
Qed.
Lemma extend_all_exact slices alts qs rs : extend_all order slices alts qs = Done rs ->
  (forall k l, d_get k alts = Some l -> exactly_one W p l) -> exactly_one W p qs -> exactly_one W p rs.
Proof.
  intros H HA; apply extend_all_eq in H as (-> & M); unfold exactly_one; fold (count qs).
  change (List.length (filter (applies W p) ?l)) with (count l).
  enough (count (flat_map (fun q => map (variant slices alts q) (choices alts (wanted slices q))) qs) = count qs) by lia.
  induction qs as [|q qs IH]; [reflexivity|]; cbn [flat_map]; rewrite count_app, count_cons, variants_count by (apply M; left; reflexivity).
  rewrite (counts_exact alts (wanted slices q) HA) by (apply M; left; reflexivity).
  rewrite (IH (fun q' IN => M q' (or_intror IN))); lia.
Qed.
End Count.
End Expand.
