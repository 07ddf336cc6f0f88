(** The helper function [defined] searching several dimensions (part of C65). *)
From Verif Require Import Base BaseProofs LangModel EvalModel BuildProofs HelperModel HelperSpec HelperProofs HelperLocal HelperLaws HelperMore HelperProps.
Local Open Scope string_scope.
Local Open Scope list_scope.
Local Arguments String.eqb : simpl never.

(** [defined(d1=[...], d2=[...], ..., within=v, how=...)]. *)
Definition c_defined_in (ms : list (string * list string)) (within : string) (how : string) : expr :=
  EFun "defined" [] (map (fun m => (fst m, EList (map EStr (snd m)))) ms ++ [("within", EName within); ("how", EStr how)]).
(** A combination of the model with the members [f] of the dimensions [ds] and the member [l] of [v]. *)
Definition occurs (D : denv) (ds : list string) (f : string -> string) (v l : string) : Prop :=
  exists q, inside D (a_dims (n_matrix D)) q /\ (forall d, In d ds -> q d = f d) /\ q v = l /\ a_at (n_matrix D) q = Boo true.
(** [f] picks one of the named members of each dimension. *)
Definition picks (ms : list (string * list string)) (f : string -> string) : Prop := forall d l, In (d, l) ms -> In (f d) l.

Lemma filter_all {A} (f : A -> bool) l : (forall x, In x l -> f x = true) -> filter f l = l.
Proof. induction l as [|x l IH]; intros H; [reflexivity|]; cbn [filter]; rewrite (H x (or_introl eq_refl)), IH; [reflexivity|intros y Y; apply H; right; exact Y]. Qed.
Lemma filter_no {A} (f : A -> bool) l : (forall x, In x l -> f x = false) -> filter f l = [].
Proof. induction l as [|x l IH]; intros H; [reflexivity|]; cbn [filter]; rewrite (H x (or_introl eq_refl)), IH; [reflexivity|intros y Y; apply H; right; exact Y]. Qed.

Lemma defined_in_call D w ms v how : ~ In "within" (map fst ms) -> ~ In "how" (map fst ms) ->
  deval D w (c_defined_in ms v how) =
  if String.eqb how "all" then h_defined D v true ms
  else if String.eqb how "any" then h_defined D v false ms else None.
Proof.
  intros N1 N2; unfold c_defined_in; cbn [deval map fst snd]; change (ignores "defined") with false; cbv iota; unfold call.
  repeat match goal with |- context [if String.eqb "defined" ?s then _ else _] =>
    let b := eval vm_compute in (String.eqb "defined" s) in
    change (String.eqb "defined" s) with b; cbv iota end.
  rewrite map_app, map_map; cbn [map fst snd]; unfold bind, arg; cbn [bind_pos app].
  set (kws := map (fun x : string * list string => _) ms).
  assert (K : forall x, In x kws -> smem (fst x) ["within"; "how"] = false).
  { intros x X; unfold kws in X; apply in_map_iff in X as ([d l] & <- & I); cbn [fst]; destruct (smem d ["within"; "how"]) eqn:E; [|reflexivity]; apply smem_in in E.
    pose proof (in_map fst _ _ I) as J; cbn [fst] in J; destruct E as [<-|[<-|[]]]; contradiction. }
  rewrite !filter_app, (filter_no _ kws K), (filter_all (fun k => negb (smem (fst k) ["within"; "how"])) kws) by (intros x X; rewrite (K x X); reflexivity).
  cbn [filter fst app negb]; change (smem "within" ["within"; "how"]) with true; change (smem "how" ["within"; "how"]) with true; cbn [negb app map fst forallb smem existsb all_in].
  change (String.eqb "within" "within") with true; change (String.eqb "how" "how") with true; change (String.eqb "how" "within") with false; cbn [orb andb negb].
  unfold get_name; cbn [d_get]; change (String.eqb "within" "within") with true; change (String.eqb "how" "how") with true; change (String.eqb "how" "within") with false; cbv iota; cbn [name_of fst snd]; rewrite app_nil_r.
  assert (A : all_some (map (fun k : string * (expr * option darr) => option_map (fun s => (fst k, s)) (names_of (fst (snd k)))) kws) = Some ms).
  { unfold kws; clear; induction ms as [|[d l] ms IH]; [reflexivity|]; cbn [map fst snd names_of all_some].
    assert (B : all_some (map name_of (map EStr l)) = Some l) by (induction l as [|m l IHl]; [reflexivity|]; cbn [map all_some name_of]; rewrite IHl; reflexivity).
    rewrite B; cbn [option_map]; rewrite IH; reflexivity. }
  rewrite A; reflexivity.
Qed.

Lemma known_occurs D ks p :
  sound D -> (forall k, In k ks -> In k (a_dims (n_matrix D)) /\ In (p k) (n_labels D k)) ->
  existsb (fun r => is_true (a_at (n_matrix D) r)) (spread D (without ks (a_dims (n_matrix D))) p) = true <->
  exists q, inside D (a_dims (n_matrix D)) q /\ (forall k, In k ks -> q k = p k) /\ a_at (n_matrix D) q = Boo true.
Proof.
  intros SD HK; set (M := n_matrix D) in *; rewrite existsb_spread; split.
  - intros (q & HQ & HT); exists q.
    assert (QK : forall k, In k ks -> q k = p k) by (intros k I; apply (spread_length_ok D _ _ q HQ); rewrite without_in; tauto).
    split; [|split; [exact QK|destruct (a_at M q) as [| | |[]|]; try discriminate; reflexivity]].
    intros x Hx; destruct (in_dec string_dec x ks) as [I|N]; [rewrite QK by exact I; apply HK; exact I|].
    apply (spread_labels D _ _ q x HQ), without_in; split; assumption.
  - intros (q & HI & QK & HT); set (ds := without ks (a_dims M)).
    exists (puts p ds (map q ds)); split.
    + unfold spread; apply in_map, CliProofs.product_in.
      assert (HD : forall x, In x ds -> In (q x) (n_labels D x)) by (intros x X; apply HI; apply without_in in X; apply X).
      clear -HD; induction ds as [|y l IH]; cbn [map]; constructor; [apply HD; left; reflexivity|apply IH; intros x X; apply HD; right; exact X].
    + assert (E : a_at M (puts p ds (map q ds)) = a_at M q).
      { apply (proj2 (proj2 (proj2 (proj2 (proj2 SD))))); intros x Hx; destruct (in_dec string_dec x ds) as [I|N].
        - apply (puts_in ds (map q ds) p x (fun y l => l = q y)); [|exact I]; clear; induction ds as [|y l IH]; cbn [map]; constructor; [reflexivity|exact IH].
        - rewrite puts_other by exact N; symmetry; apply QK; destruct (in_dec string_dec x ks) as [I|N']; [exact I|]; exfalso; apply N, without_in; split; assumption. }
      rewrite E, HT; reflexivity.
Qed.

(** [how=any] holds where the model has a combination of named members, one of each dimension, with the member of [v];
    [how=all] where it has every such combination. *)
Theorem C65_defined_in D w ms v how r p :
  sound D -> NoDup (map fst ms) -> ~ In "within" (map fst ms) -> ~ In "how" (map fst ms) -> ~ In v (map fst ms) -> In (p v) (n_labels D v) ->
  deval D w (c_defined_in ms v how) = Some r ->
  (how = "any" /\ (a_at r p = Boo true <-> exists f, picks ms f /\ occurs D (map fst ms) f v (p v))) \/
  (how = "all" /\ (a_at r p = Boo true <-> forall f, picks ms f -> occurs D (map fst ms) f v (p v))).
Proof.
  intros SD ND N1 N2 NV HL; rewrite (defined_in_call D w ms v how N1 N2); intros HR.
  set (ds := map fst ms) in *.
  (* positions chosen and choices of members *)
  assert (CH : forall q, In q (chosen ms p) -> picks ms q /\ (forall x, ~ In x ds -> q x = p x)).
  { intros q Q; unfold chosen in Q; apply in_map_iff in Q as (ls & <- & Q); apply CliProofs.product_in in Q; fold ds; split; [|intros x X; apply puts_other; exact X].
    intros d l I; assert (F : Forall2 (fun y x => forall l, In (y, l) ms -> In x l) ds ls).
    { unfold ds; assert (G : forall sub, (forall y l1 l2, In (y, l1) sub -> In (y, l2) ms -> l1 = l2) -> forall ls, Forall2 (fun x l => In x l) ls (map snd sub) -> Forall2 (fun y x => forall l, In (y, l) ms -> In x l) (map fst sub) ls).
      { induction sub as [|[y k] sub IH]; intros U ls' F; cbn [map fst snd] in *; inversion F as [|x0 l0 xs0 ys0 H1 H2]; subst; constructor.
        - intros l0 J; rewrite <- (U y k l0 (or_introl eq_refl) J); exact H1.
        - apply IH; [intros z l1 l2 J; apply U; right; exact J|exact H2]. }
      apply G; [|exact Q]; intros y l1 l2 J1 J2; clear -ND J1 J2; unfold ds in ND; induction ms as [|[z k] ms' IH]; [destruct J1|]; cbn [map fst] in ND; inversion ND as [|? ? NI ND']; subst.
      destruct J1 as [E1|J1], J2 as [E2|J2]; [congruence| | |exact (IH ND' J1 J2)]; exfalso; apply NI; [injection E1 as -> _; exact (in_map fst _ _ J2)|injection E2 as -> _; exact (in_map fst _ _ J1)]. }
    apply (puts_in ds ls p d (fun y x => forall l, In (y, l) ms -> In x l) F (in_map fst _ _ I) l I). }
  assert (HC : forall f, picks ms f -> exists q, In q (chosen ms p) /\ forall d, In d ds -> q d = f d).
  { intros f PF; exists (puts p ds (map f ds)); split.
    - unfold chosen; fold ds; apply in_map, CliProofs.product_in; unfold ds; clear -PF; induction ms as [|[d l] ms' IH]; cbn [map fst snd]; constructor; [apply (PF d l); left; reflexivity|apply IH; intros d' l' I; apply (PF d' l'); right; exact I].
    - intros d I; apply (puts_in ds (map f ds) p d (fun y l => l = f y)); [|exact I]; clear; induction ds as [|y l IH]; cbn [map]; constructor; [reflexivity|exact IH]. }
  assert (K : forall all, h_defined D v all ms = Some r ->
    (forall q, In q (chosen ms p) -> (existsb (fun r => is_true (a_at (n_matrix D) r)) (spread D (without (ds ++ [v]) (a_dims (n_matrix D))) q) = true <-> occurs D ds q v (p v))) /\
    a_at r p = Boo (if all then forallb (fun q => existsb (fun r => is_true (a_at (n_matrix D) r)) (spread D (without (ds ++ [v]) (a_dims (n_matrix D))) q)) (chosen ms p)
                    else existsb (fun q => existsb (fun r => is_true (a_at (n_matrix D) r)) (spread D (without (ds ++ [v]) (a_dims (n_matrix D))) q)) (chosen ms p))).
  { intros all H; unfold h_defined in H; fold ds in H; destruct (all_in (ds ++ [v]) (a_dims (n_matrix D))) eqn:E1; [|discriminate].
    destruct (forallb _ ms) eqn:E2; [|discriminate]; cbn [andb] in H; injection H as <-; cbn [a_at]; split; [|reflexivity].
    rewrite all_in_spec in E1; rewrite forallb_forall in E2; intros q Q; destruct (CH q Q) as (P & O).
    rewrite known_occurs; [|exact SD|].
    - unfold occurs; split; intros (z & Z1 & Z2 & Z3); exists z.
      + split; [exact Z1|split; [intros d I; apply Z2, in_or_app; left; exact I|split; [rewrite <- (O v NV); apply Z2, in_or_app; right; left; reflexivity|exact Z3]]].
      + destruct Z3 as (Z3 & Z4); split; [exact Z1|split; [|exact Z4]]; intros k I; apply in_app_or in I as [I|[<-|[]]]; [apply Z2; exact I|rewrite (O v NV); exact Z3].
    - intros k I; split; [apply E1; exact I|]; apply in_app_or in I as [I|[<-|[]]]; [|rewrite (O v NV); exact HL].
      unfold ds in I; apply in_map_iff in I as ([d l] & <- & I); cbn [fst]; specialize (E2 _ I); cbn [fst snd] in E2; rewrite all_in_spec in E2; apply E2; exact (P d l I). }
  assert (OE : forall f q, (forall d, In d ds -> q d = f d) -> occurs D ds q v (p v) -> occurs D ds f v (p v)).
  { intros f q E (z & Z1 & Z2 & Z3); exists z; split; [exact Z1|split; [intros d I; rewrite Z2, E by exact I; reflexivity|exact Z3]]. }
  destruct (String.eqb how "all") eqn:E1; [apply String.eqb_eq in E1; right|destruct (String.eqb how "any") eqn:E2; [apply String.eqb_eq in E2; left|discriminate]].
  - split; [exact E1|]; destruct (K true HR) as (KO & ->); split.
    + intros H f PF; injection H as H; rewrite forallb_forall in H; destruct (HC f PF) as (q & Q & E); apply (OE f q E), KO; [exact Q|apply H; exact Q].
    + intros H; f_equal; apply forallb_forall; intros q Q; apply KO; [exact Q|apply H; apply CH; exact Q].
  - split; [exact E2|]; destruct (K false HR) as (KO & ->); split.
    + intros H; injection H as H; apply existsb_exists in H as (q & Q & H); exists q; split; [apply CH; exact Q|apply KO; assumption].
    + intros (f & PF & H); f_equal; apply existsb_exists; destruct (HC f PF) as (q & Q & E); exists q; split; [exact Q|]; apply KO; [exact Q|]; apply (OE q f); [intros d I; symmetry; apply E; exact I|exact H].
Qed.
Print Assumptions C65_defined_in.

(** Two carriers: at node n1 technology a has heat and b has el; at n2 a has el. *)
Definition ex_E : denv :=
  {| n_labels := fun d => if String.eqb d "carriers" then ["el"; "heat"] else ex_labels d; n_array := ex_array; n_default := fun _ => Miss; n_config := fun _ => Miss;
     n_ref := fun _ _ => None; n_slice := fun _ => None; n_odd := fun _ _ _ => Miss;
     n_calendar := fun _ _ => Miss; n_carrier := fun _ => {| a_dims := []; a_at := const (Boo true) |};
     n_matrix := {| a_dims := ["nodes"; "techs"; "carriers"];
                    a_at := fun p => Boo (if String.eqb (p "nodes") "n1" then (String.eqb (p "techs") "a" && String.eqb (p "carriers") "heat") || (String.eqb (p "techs") "b" && String.eqb (p "carriers") "el")
                                          else String.eqb (p "techs") "a" && String.eqb (p "carriers") "el") |} |}.
Lemma ex_E_sound : sound ex_E.
Proof.
  destruct ex_sound as (NL & A & B & C & G & _).
  split; [intros d; cbn [n_labels ex_E]; destruct (String.eqb d "carriers"); [repeat constructor; cbn; intuition discriminate|exact (NL d)]|].
  split; [exact A|]. split; [discriminate|]. split; [discriminate|]. split; [intros s p q H; reflexivity|].
  intros p q H; cbn in *; rewrite !(H "nodes"), !(H "techs"), !(H "carriers"); auto.
Qed.
Definition ex_ms : list (string * list string) := [("techs", ["a"; "b"]); ("carriers", ["el"])].
Example C65_defined_in_example :
  NoDup (map fst ex_ms) /\ ~ In "within" (map fst ex_ms) /\ ~ In "how" (map fst ex_ms) /\ ~ In "nodes" (map fst ex_ms) /\
  value ex_E no_mask (c_defined_in ex_ms "nodes" "any") (ex_at [("nodes", "n1")]) = Some (Boo true) /\
  value ex_E no_mask (c_defined_in ex_ms "nodes" "all") (ex_at [("nodes", "n1")]) = Some (Boo false) /\
  value ex_E no_mask (c_defined_in [("techs", ["a"]); ("carriers", ["el"])] "nodes" "all") (ex_at [("nodes", "n2")]) = Some (Boo true) /\
  value ex_E no_mask (c_defined_in ex_ms "nodes" "each") (ex_at [("nodes", "n1")]) = None.
Proof. split; [repeat constructor; cbn; intuition discriminate|]; split; [cbn; intuition discriminate|]; split; [cbn; intuition discriminate|]; split; [cbn; intuition discriminate|]; vm_compute; repeat split. Qed.

(** The formula that the documentation shows for [defined] (helper_functions.py:247-256, 348-362): a conjunction with
    one part per searched dimension, each saying that some, or every, named member of that dimension is defined in the
    member of [v], whatever the members of the other dimensions. *)
Definition part_shown (D : denv) (v l how : string) (m : string * list string) : Prop :=
  if String.eqb how "all" then Forall (fun x => occurs D [fst m] (fun _ => x) v l) (snd m)
  else Exists (fun x => occurs D [fst m] (fun _ => x) v l) (snd m).
Definition shown (D : denv) (ms : list (string * list string)) (v l how : string) : Prop := Forall (part_shown D v l how) ms.

(** What holds in the model holds in the formula, for [any]; the formula holds at n1 of [ex_E] although no technology a
    with carrier el exists there. *)
Theorem C65_defined_shown D w ms v r p :
  sound D -> NoDup (map fst ms) -> ~ In "within" (map fst ms) -> ~ In "how" (map fst ms) -> ~ In v (map fst ms) -> In (p v) (n_labels D v) ->
  deval D w (c_defined_in ms v "any") = Some r -> a_at r p = Boo true -> shown D ms v (p v) "any".
Proof.
  intros SD ND N1 N2 NV HL HR HT; destruct (C65_defined_in D w ms v "any" r p SD ND N1 N2 NV HL HR) as [(_ & H)|(H & _)]; [|discriminate].
  apply H in HT as (f & PF & q & Q1 & Q2 & Q3 & Q4); apply Forall_forall; intros [d l] I; unfold part_shown; cbn [fst snd]; change (String.eqb "any" "all") with false; cbv iota.
  apply Exists_exists; exists (f d); split; [exact (PF d l I)|]; exists q; repeat split; try assumption; intros x [<-|[]]; apply Q2, (in_map fst _ _ I).
Qed.
Print Assumptions C65_defined_shown.

Theorem C65_defined_shown_refuted : exists D ms v how p, sound D /\ NoDup (map fst ms) /\ In (p v) (n_labels D v) /\
  value D no_mask (c_defined_in ms v how) p = Some (Boo false) /\ shown D ms v (p v) how.
Proof.
  exists ex_E, [("techs", ["a"]); ("carriers", ["el"])], "nodes", "any", (ex_at [("nodes", "n1")]).
  split; [exact ex_E_sound|]; split; [cbn [map fst]; apply NoDup_cons; [cbn; intuition discriminate|apply NoDup_cons; [cbn; tauto|apply NoDup_nil]]|].
  split; [cbn; left; reflexivity|]. split; [vm_compute; reflexivity|].
  assert (IN : forall t c, In t ["a"; "b"] -> In c ["el"; "heat"] -> inside ex_E (a_dims (n_matrix ex_E)) (ex_at [("nodes", "n1"); ("techs", t); ("carriers", c)])).
  { intros t c T C d [<-|[<-|[<-|[]]]]; [vm_compute; left; reflexivity|destruct T as [<-|[<-|[]]]; vm_compute; auto|exact C]. }
  constructor; [|constructor; [|constructor]]; unfold part_shown; change (String.eqb "any" "all") with false; cbv iota; apply Exists_cons_hd.
  - exists (ex_at [("nodes", "n1"); ("techs", "a"); ("carriers", "heat")]); split; [apply IN; cbn; auto|]; split; [intros d [<-|[]]; reflexivity|split; reflexivity].
  - exists (ex_at [("nodes", "n1"); ("techs", "b"); ("carriers", "el")]); split; [apply IN; cbn; auto|]; split; [intros d [<-|[]]; reflexivity|split; reflexivity].
Qed.
Print Assumptions C65_defined_shown_refuted.
