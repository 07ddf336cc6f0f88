(** C101: the default of an input holds wherever nothing is given; C102: inputs have the type the math declares. *)
From Verif Require Import Base BaseProofs KindModel KindSpec KindProofs.
From Coq Require Import QArith.
Local Open Scope string_scope.
Local Open Scope list_scope.

(** ** Examples: three of the inputs of math/base.yaml (493-501, 506-509, and a parameter), and one of the user's. *)
Definition ex_P : py :=
  {| to_text := fun c => match c with Int 1 => "1" | _ => "?" end;
     to_float := fun s => if String.eqb s "nan" then Some Gap else if String.eqb s "5" then Some (Num 5) else if String.eqb s "inf" then Some (Inf false) else None;
     to_int := fun s => if String.eqb s "5" then Some 5%Z else None;
     to_time := fun f c => match c with Text s => if String.eqb s "2005-01-01" then Some 0%Z else None | _ => None end |}.
Definition ex_F : formats := {| f_time := "ISO8601"; f_date := "ISO8601" |}.
Definition cyclic : decl := {| d_active := true; d_kind := KFlag; d_default := Flag true |}.
Definition include : decl := {| d_active := true; d_kind := KFlag; d_default := Flag false |}.
Definition unit_of : decl := {| d_active := true; d_kind := KText; d_default := Text "absolute" |}.
Definition cap : decl := {| d_active := true; d_kind := KNumber; d_default := Inf false |}.
Definition ex_m : math :=
  {| m_parameters := [("flow_cap_max", cap)]; m_lookups := [("cyclic_storage", cyclic); ("include_storage", include); ("sink_unit", unit_of)]; m_dimensions := [] |}.
Definition ex_ds : data :=
  [("flow_cap_max", [(["battery"], Text "5"); (["hydro"], Gap); (["old"], Int 3)]);
   ("cyclic_storage", [(["battery"], Flag true); (["hydro"], Gap); (["old"], Gap)]);
   ("note", [(["battery"], Int 1); (["hydro"], Text "x"); (["old"], Gap)])].
Definition ex_there (p : place) : bool := negb (if list_eq_dec string_dec p ["old"] then true else false).
Lemma ex_plain : plain ex_P.
Proof.
  intros s c; cbn; destruct (String.eqb s "nan"); [intros E; injection E as <-; left; reflexivity|]; destruct (String.eqb s "5"); [intros E; injection E as <-; right; left; eauto|].
  destruct (String.eqb s "inf"); [intros E; injection E as <-; right; right; eauto|discriminate].
Qed.
Lemma declares n d : d_get n (m_parameters ex_m) = Some d /\ d_get n (m_lookups ex_m) = None \/ d_get n (m_parameters ex_m) = None /\ d_get n (m_lookups ex_m) = Some d -> d_active d = true -> d_kind d <> KWhole -> declared ex_m n d.
Proof. intros H A W; split; [exact A|split; [reflexivity|split; [exact W|exact H]]]. Qed.
Lemma ex_cyclic : declared ex_m "cyclic_storage" cyclic. Proof. apply declares; [right; split; reflexivity|reflexivity|discriminate]. Qed.
Lemma ex_unit : declared ex_m "sink_unit" unit_of. Proof. apply declares; [right; split; reflexivity|reflexivity|discriminate]. Qed.
Lemma ex_cap : declared ex_m "flow_cap_max" cap. Proof. apply declares; [left; split; reflexivity|reflexivity|discriminate]. Qed.
Lemma ex_include : declared ex_m "include_storage" include. Proof. apply declares; [right; split; reflexivity|reflexivity|discriminate]. Qed.
Lemma ex_note : undeclared ex_m "note". Proof. intros d [E|[E|E]]; vm_compute in E; discriminate. Qed.
Lemma ex_fits : fits ex_m ex_ds.
Proof.
  split; [cbn; repeat (apply NoDup_cons; [cbn; intuition discriminate|]); apply NoDup_nil|].
  intros n [<-|[<-|[<-|[]]]]; [left; eexists; exact ex_cap|left; eexists; exact ex_cyclic|right; exact ex_note].
Qed.

(** ** C102: types *)
(** A value of the declared type is kept as it is, and a missing one stays missing unless the input is boolean. *)
Theorem C102_kept P F m f ds ds' n d p :
  plain P -> fits m ds -> clean P F m f ds = Ok ds' -> declared m n d -> f p = true ->
  (is_of (d_kind d) (given ds n p) \/ given ds n p = Gap /\ d_kind d <> KFlag) -> given ds' n p = given ds n p.
Proof.
  intros PL FI H DE FP G; pose proof (clean_get _ _ _ _ _ _ n PL FI H) as C.
  destruct (d_get n ds) as [a|] eqn:A; [|unfold given; rewrite C, A; reflexivity].
  assert (GV : given ds n p = value_at p a) by (unfold given; rewrite A; reflexivity); rewrite GV in *.
  unfold value_at in *; destruct (at_place p a) as [c|] eqn:AP.
  - destruct (clean_value _ _ _ _ _ _ _ _ _ _ _ PL FI H DE A AP FP) as (c' & E & V & _); rewrite V.
    destruct G as [G|(-> & G)]; [rewrite (convert_of _ _ _ _ G) in E|rewrite convert_gap in E; [|exact G|apply DE]]; injection E as <-; reflexivity.
  - destruct C as (a1 & T & C); unfold given; rewrite C; unfold typed in T; rewrite (find_declared _ _ _ DE) in T; pose proof (convert_all_at _ _ _ _ _ p T) as E; rewrite AP in E.
    destruct (no_value (empty_out f a1)); [reflexivity|]; unfold value_at; rewrite empty_at, E; reflexivity.
Qed.
Print Assumptions C102_kept.

(** Every value of a declared input has the declared type, or is missing if the input is not boolean. *)
Theorem C102_typed P F m f ds ds' n d a p c :
  plain P -> fits m ds -> clean P F m f ds = Ok ds' -> declared m n d -> In (n, a) ds' -> In (p, c) a ->
  is_of (d_kind d) c \/ (c = Gap /\ d_kind d <> KFlag).
Proof.
  intros PL FI H DE IA IC; destruct (clean_once _ _ _ _ _ _ PL (fits_sane _ _ FI) H) as (ds1 & U & ->); apply drop_in, in_map_iff in IA as ((n' & a1) & E & I); injection E as -> <-; cbn [fst snd] in IC.
  destruct (update_in _ _ _ _ _ _ _ U I) as (a0 & I0 & T); pose proof (typed_empty P F m n a0 a1 f PL) as TE; unfold typed in T, TE; rewrite (find_declared _ _ _ DE) in T, TE.
  specialize (TE (fun d' E => ltac:(injection E as <-; apply DE)) T); destruct (convert_all_in _ _ _ _ _ _ TE IC) as (c0 & _ & E); cbn [snd] in E.
  destruct (convert_kind _ _ _ _ _ PL E) as [O|(O & K & _)]; auto.
Qed.
Print Assumptions C102_typed.

(** Opening the data again changes nothing. *)
Lemma bool_empty f a : bool_array (empty_out f a) = bool_array a.
Proof.
  destruct (bool_array a) eqn:B; unfold empty_out; rewrite B.
  - unfold bool_array in *; rewrite forallb_forall in *; intros x X; apply in_map_iff in X as (y & <- & Y); cbn [snd]; destruct (f (fst y)); [exact (B y Y)|reflexivity].
  - unfold bool_array in *; clear - B; induction a as [|x r IH]; [discriminate|]; cbn [map forallb fst snd] in *; destruct (snd x) eqn:E; try (destruct (f (fst x)); reflexivity).
    cbn [andb] in B; rewrite (IH B); apply andb_false_r.
Qed.
Lemma empty_again f a : empty_out f (empty_out f a) = empty_out f a.
Proof.
  unfold empty_out at 1; rewrite bool_empty; unfold empty_out; rewrite map_map; apply map_ext; intros x; cbn [fst snd]; destruct (f (fst x)); reflexivity.
Qed.
Theorem C102_again P F m f ds ds' : plain P -> fits m ds -> clean P F m f ds = Ok ds' -> clean P F m f ds' = Ok ds'.
Proof.
  intros PL FI H; pose proof (fits_sane _ _ FI) as SA; destruct (clean_once _ _ _ _ _ _ PL SA H) as (ds1 & U & E).
  assert (FX : update_types P F m ds' = Ok ds').
  { unfold clean in H; rewrite U in H; cbn in H; rewrite <- E in H; exact H. }
  assert (MX : map (fun x => (fst x, empty_out f (snd x))) ds' = ds').
  { rewrite E; unfold drop_empty; generalize ds1; clear; intros l; induction l as [|[n a] l IH]; [reflexivity|]; cbn [map filter fst snd]; destruct (negb (no_value (empty_out f a))); [cbn [map fst snd]; rewrite IH, empty_again; reflexivity|exact IH]. }
  assert (DX : drop_empty ds' = ds').
  { rewrite E; unfold drop_empty; clear; induction (map (fun x : string * arr => (fst x, empty_out f (snd x))) ds1) as [|x l IH]; [reflexivity|]; cbn [filter]; destruct (negb (no_value (snd x))) eqn:N; [cbn [filter]; rewrite N, IH; reflexivity|exact IH]. }
  unfold clean; rewrite FX; cbn; rewrite MX, DX; exact FX.
Qed.
Print Assumptions C102_again.

(** Opening fails exactly if some value has no counterpart in the declared type. *)
Theorem C102_refused P F m f ds : plain P -> fits m ds ->
  (exists e, clean P F m f ds = Err e) <-> exists n d a p c, declared m n d /\ In (n, a) ds /\ In (p, c) a /\ unreadable P F (d_kind d) c.
Proof.
  intros PL FI; pose proof (clean_ok P F m f ds PL (fits_sane _ _ FI)) as K; split.
  - intros (e & H).
    assert (X : ~ forall n a, In (n, a) ds -> exists a', typed P F m n a a') by (intros A; apply K in A as (ds' & A); congruence).
    assert (Y : forall l, incl l ds -> (exists n d a p c, declared m n d /\ In (n, a) ds /\ In (p, c) a /\ unreadable P F (d_kind d) c) \/ forall n a, In (n, a) l -> exists a', typed P F m n a a').
    { induction l as [|[n a] l IH]; intros IN; [right; intros n a []|]; destruct (IH (fun x X => IN x (or_intror X))) as [L|R]; [left; exact L|].
      assert (I : In (n, a) ds) by (apply IN; left; reflexivity).
      destruct (proj2 FI n (in_map fst _ _ I)) as [(d & DE)|UN].
      - destruct (convert_all P F (d_kind d) a) as [a'|e'] eqn:C.
        + right; intros n' b [E|J]; [injection E as <- <-; exists a'; unfold typed; rewrite (find_declared _ _ _ DE); exact C|apply R, J].
        + left; exists n, d, a; assert (W : exists x, In x a /\ unreadable P F (d_kind d) (snd x)).
          { clear - C; revert e' C; induction a as [|[p c] r IH]; intros e' C; [discriminate|]; cbn in C; destruct (convert P F (d_kind d) c) as [c'|e1] eqn:E.
            - cbn in C; destruct (convert_all P F (d_kind d) r) as [r'|e2]; [discriminate|]; destruct (IH _ eq_refl) as (x & J & V); exists x; split; [right; exact J|exact V].
            - exists (p, c); split; [left; reflexivity|]; apply convert_fails; eauto. }
          destruct W as ([p c] & J & V); exists p, c; auto.
      - right; intros n' b [E|J]; [injection E as <- <-; exists a; unfold typed; rewrite (find_undeclared _ _ UN); reflexivity|apply R, J]. }
    destruct (Y ds (fun x I => I)) as [L|R]; [exact L|contradiction].
  - intros (n & d & a & p & c & DE & IA & IC & UR); destruct (clean P F m f ds) as [ds'|e] eqn:E; [exfalso|eauto].
    assert (T : exists a', typed P F m n a a') by (apply K; eauto).
    destruct T as (a' & T); unfold typed in T; rewrite (find_declared _ _ _ DE) in T; exact (proj1 (convert_all_ok P F (d_kind d) a) (ex_intro _ a' T) (p, c) IC UR).
Qed.
Print Assumptions C102_refused.

(** Inputs that the math does not declare, or has switched off, keep what was given. *)
Theorem C102_undeclared P F m f ds ds' n p :
  plain P -> fits m ds -> clean P F m f ds = Ok ds' -> undeclared m n -> f p = true -> given ds' n p = given ds n p.
Proof.
  intros PL FI H UN FP; pose proof (clean_get _ _ _ _ _ _ n PL FI H) as C; unfold given; destruct (d_get n ds) as [a|] eqn:A; [|rewrite C; reflexivity].
  destruct C as (a1 & T & C); unfold typed in T; rewrite (find_undeclared _ _ UN) in T; subst a1; rewrite C.
  assert (E : value_at p (empty_out f a) = value_at p a) by (unfold value_at; rewrite empty_at; destruct (at_place p a); cbn; [rewrite FP|]; reflexivity).
  rewrite <- E; destruct (no_value (empty_out f a)) eqn:N; [|reflexivity]; unfold value_at; destruct (at_place p (empty_out f a)) eqn:AP; [rewrite (no_value_at _ _ _ N AP)|]; reflexivity.
Qed.
Print Assumptions C102_undeclared.

Example C102_example :
  plain ex_P /\ fits ex_m ex_ds /\ declared ex_m "flow_cap_max" cap /\ undeclared ex_m "note" /\ ex_there ["battery"] = true /\
  clean ex_P ex_F ex_m ex_there ex_ds =
  Ok [("flow_cap_max", [(["battery"], Num 5); (["hydro"], Gap); (["old"], Gap)]);
      ("cyclic_storage", [(["battery"], Flag true); (["hydro"], Flag false); (["old"], Flag false)]);
      ("note", [(["battery"], Int 1); (["hydro"], Text "x"); (["old"], Gap)])] /\
  clean ex_P ex_F ex_m ex_there [("flow_cap_max", [(["battery"], Text "much")])] = Err EValue /\
  unreadable ex_P ex_F (d_kind cap) (Text "much").
Proof.
  split; [exact ex_plain|split; [exact ex_fits|split; [exact ex_cap|split; [exact ex_note|split; [reflexivity|split; [vm_compute; reflexivity|split; [vm_compute; reflexivity|]]]]]]].
  exists "much"; split; reflexivity.
Qed.

(** A switch given as text counts as on, whatever the text says: a table whose columns hold texts and booleans gives
    "False" as text. *)
Theorem C102_text_refuted : exists P F m f ds ds' n d p,
  plain P /\ fits m ds /\ clean P F m f ds = Ok ds' /\ declared m n d /\ d_kind d = KFlag /\ f p = true /\
  given ds n p = Text "False" /\ holds m ds' n p = true.
Proof.
  exists ex_P, ex_F, ex_m, (fun _ => true), [("include_storage", [(["battery"], Text "False")])], [("include_storage", [(["battery"], Flag true)])], "include_storage", include, ["battery"].
  split; [exact ex_plain|]; split.
  - split; [cbn; apply NoDup_cons; [intros []|apply NoDup_nil]|intros n [<-|[]]; left; eexists; exact ex_include].
  - split; [vm_compute; reflexivity|]; split; [exact ex_include|]; repeat split; reflexivity.
Qed.
Print Assumptions C102_text_refuted.

(** ** C101: defaults *)
Lemma used_value P F m f ds ds' n d p :
  plain P -> fits m ds -> clean P F m f ds = Ok ds' -> declared m n d -> f p = true -> (forall a, d_get n ds = Some a -> at_place p a <> None) ->
  match d_get n ds with
  | None => used m ds' n p = d_default d
  | Some a => exists c', convert P F (d_kind d) (given ds n p) = Ok c' /\ used m ds' n p = match c' with Gap => d_default d | c => c end
  end.
Proof.
  intros PL FI H DE FP AP.
  assert (DF : default_of m n = d_default d) by (destruct DE as (_ & _ & _ & [(A & B)|(A & B)]); unfold default_of; rewrite A; [|rewrite B]; reflexivity).
  assert (NO : d_get n ds' = None -> used m ds' n p = d_default d).
  { intros E; unfold used; rewrite DF; unfold input; rewrite E; destruct DE as (_ & _ & _ & [(A & B)|(A & B)]); rewrite A; [reflexivity|rewrite B; destruct (d_default d); reflexivity]. }
  pose proof (clean_get _ _ _ _ _ _ n PL FI H) as C; destruct (d_get n ds) as [a|] eqn:A; [|apply NO, C].
  assert (GV : given ds n p = value_at p a) by (unfold given; rewrite A; reflexivity); rewrite GV.
  specialize (AP a eq_refl); unfold value_at; destruct (at_place p a) as [c|] eqn:AC; [|contradiction].
  destruct (clean_value _ _ _ _ _ _ _ _ _ _ _ PL FI H DE A AC FP) as (c' & E & V & _); exists c'; split; [exact E|].
  unfold given in V; destruct (d_get n ds') as [a'|] eqn:A'; [|subst c'; apply NO; reflexivity].
  unfold used; rewrite DF; unfold input; rewrite A', V; destruct c'; reflexivity.
Qed.

(** Where nothing is given for an input its default is used, unless it is a boolean with another default than false
    that is given for something else. *)
Theorem C101_default_partial P F m f ds ds' n d p :
  plain P -> fits m ds -> clean P F m f ds = Ok ds' -> declared m n d -> f p = true -> (forall a, d_get n ds = Some a -> at_place p a <> None) ->
  given ds n p = Gap -> d_kind d <> KFlag \/ d_default d = Flag false \/ d_get n ds = None -> used m ds' n p = d_default d.
Proof.
  intros PL FI H DE FP AP G K; pose proof (used_value _ _ _ _ _ _ _ _ _ PL FI H DE FP AP) as U; destruct (d_get n ds) as [a|] eqn:A; [|exact U].
  destruct U as (c' & E & ->); rewrite G in E; destruct K as [K|[K|K]]; [| |discriminate].
  - rewrite convert_gap in E by (exact K || apply DE); injection E as <-; reflexivity.
  - rewrite K; destruct DE as (_ & _ & W & _); destruct (d_kind d); cbn in E; try (injection E as <-; reflexivity); contradiction.
Qed.
Print Assumptions C101_default_partial.

(** What is given in the declared type is used as it is. *)
Theorem C101_given P F m f ds ds' n d p :
  plain P -> fits m ds -> clean P F m f ds = Ok ds' -> declared m n d -> f p = true -> is_of (d_kind d) (given ds n p) -> used m ds' n p = given ds n p.
Proof.
  intros PL FI H DE FP G; assert (AP : forall a, d_get n ds = Some a -> at_place p a <> None).
  { intros a A N; unfold given, value_at in G; rewrite A, N in G; destruct (d_kind d); cbn in G; repeat match goal with H : _ \/ _ |- _ => destruct H | H : exists _, _ |- _ => destruct H end; discriminate. }
  pose proof (used_value _ _ _ _ _ _ _ _ _ PL FI H DE FP AP) as U; destruct (d_get n ds) as [a|] eqn:A.
  - destruct U as (c' & E & ->); rewrite (convert_of _ _ _ _ G) in E; injection E as <-; destruct (given ds n p); try reflexivity.
    destruct (d_kind d); cbn in G; repeat match goal with H : _ \/ _ |- _ => destruct H | H : exists _, _ |- _ => destruct H end; discriminate.
  - unfold given in G; rewrite A in G; destruct (d_kind d); cbn in G; repeat match goal with H : _ \/ _ |- _ => destruct H | H : exists _, _ |- _ => destruct H end; discriminate.
Qed.
Print Assumptions C101_given.

(** What is given elsewhere does not matter here, with the same exception. *)
Theorem C101_others_partial P F m f ds1 ds2 ds1' ds2' n d p :
  plain P -> fits m ds1 -> fits m ds2 -> clean P F m f ds1 = Ok ds1' -> clean P F m f ds2 = Ok ds2' -> declared m n d -> f p = true -> same_at n p ds1 ds2 ->
  d_kind d <> KFlag \/ d_default d = Flag false \/ (d_get n ds1 <> None /\ d_get n ds2 <> None) -> used m ds1' n p = used m ds2' n p.
Proof.
  intros PL F1 F2 H1 H2 DE FP (G & A1 & A2) K.
  pose proof (used_value _ _ _ _ _ _ _ _ _ PL F1 H1 DE FP A1) as U1; pose proof (used_value _ _ _ _ _ _ _ _ _ PL F2 H2 DE FP A2) as U2.
  destruct (d_get n ds1) as [a1|] eqn:E1, (d_get n ds2) as [a2|] eqn:E2.
  - destruct U1 as (c1 & C1 & ->), U2 as (c2 & C2 & ->); rewrite G, C2 in C1; injection C1 as <-; reflexivity.
  - rewrite U2; refine (C101_default_partial P F m f ds1 ds1' n d p PL F1 H1 DE FP _ _ _); [rewrite E1; exact A1|rewrite G; unfold given; rewrite E2; reflexivity|destruct K as [K|[K|(_ & K)]]; [auto|auto|contradiction]].
  - rewrite U1; symmetry; refine (C101_default_partial P F m f ds2 ds2' n d p PL F2 H2 DE FP _ _ _); [rewrite E2; exact A2|rewrite <- G; unfold given; rewrite E1; reflexivity|destruct K as [K|[K|(K & _)]]; [auto|auto|contradiction]].
  - congruence.
Qed.
Print Assumptions C101_others_partial.

(** The exception: cyclic_storage is on by default (base.yaml:499-501); switching it on for the battery switches it off
    for hydro, for which nothing is given. *)
Definition ex_none : data := [("flow_cap_max", [(["battery"], Int 5); (["hydro"], Int 5)])].
Definition ex_some : data := ex_none ++ [("cyclic_storage", [(["battery"], Flag true); (["hydro"], Gap)])].
Lemma ex_none_fits : fits ex_m ex_none.
Proof. split; [cbn; apply NoDup_cons; [intros []|apply NoDup_nil]|intros n [<-|[]]; left; eexists; exact ex_cap]. Qed.
Lemma ex_some_fits : fits ex_m ex_some.
Proof. split; [cbn; apply NoDup_cons; [cbn; intuition discriminate|apply NoDup_cons; [intros []|apply NoDup_nil]]|intros n [<-|[<-|[]]]; left; eexists; [exact ex_cap|exact ex_cyclic]]. Qed.
Theorem C101_others_refuted : exists P F m f ds1 ds2 ds1' ds2' n d p,
  plain P /\ fits m ds1 /\ fits m ds2 /\ clean P F m f ds1 = Ok ds1' /\ clean P F m f ds2 = Ok ds2' /\ declared m n d /\ f p = true /\ same_at n p ds1 ds2 /\
  d_default d = Flag true /\ given ds2 n p = Gap /\ used m ds1' n p = Flag true /\ used m ds2' n p = Flag false.
Proof.
  exists ex_P, ex_F, ex_m, (fun _ => true), ex_none, ex_some, [("flow_cap_max", [(["battery"], Num 5); (["hydro"], Num 5)])], [("flow_cap_max", [(["battery"], Num 5); (["hydro"], Num 5)]); ("cyclic_storage", [(["battery"], Flag true); (["hydro"], Flag false)])], "cyclic_storage", cyclic, ["hydro"].
  split; [exact ex_plain|]; split; [exact ex_none_fits|]; split; [exact ex_some_fits|]; split; [vm_compute; reflexivity|]; split; [vm_compute; reflexivity|]; split; [exact ex_cyclic|]; split; [reflexivity|]; split.
  - split; [reflexivity|]; split; [intros a A; vm_compute in A; discriminate|intros a A; vm_compute in A; injection A as <-; vm_compute; discriminate].
  - repeat split; vm_compute; reflexivity.
Qed.
Print Assumptions C101_others_refuted.

(** The name of an input as a condition: where nothing is given it does not hold, if the input has no default, is a
    parameter, or a boolean with default false. *)
Theorem C101_condition_partial P F m f ds ds' n d p :
  plain P -> fits m ds -> clean P F m f ds = Ok ds' -> declared m n d -> f p = true -> (forall a, d_get n ds = Some a -> at_place p a <> None) ->
  given ds n p = Gap -> (d_get n (m_parameters m) <> None /\ d_kind d = KNumber) \/ d_default d = Gap \/ d_default d = Flag false -> holds m ds' n p = false.
Proof.
  intros PL FI H DE FP AP G K; unfold holds, input; pose proof (clean_get _ _ _ _ _ _ n PL FI H) as C.
  assert (NO : match match d_get n (m_parameters m), d_get n (m_lookups m) with None, Some d => d_default d | _, _ => Gap end with Gap | Inf _ => false | Flag b => b | _ => true end = false).
  { destruct DE as (_ & _ & _ & [(A & B)|(A & B)]); rewrite A; [reflexivity|rewrite B]; destruct K as [(K & _)|[K|K]]; [contradiction| |]; rewrite K; reflexivity. }
  destruct (d_get n ds) as [a|] eqn:A; [|rewrite C; exact NO].
  assert (GV : value_at p a = Gap) by (unfold given in G; rewrite A in G; exact G); specialize (AP a eq_refl); unfold value_at in GV; destruct (at_place p a) as [c|] eqn:AC; [subst c|contradiction].
  destruct (clean_value _ _ _ _ _ _ _ _ _ _ _ PL FI H DE A AC FP) as (c' & E & V & _); unfold given in V; destruct (d_get n ds') as [a'|]; [|exact NO]; rewrite V.
  destruct (d_kind d) eqn:KD; cbn in E; try (injection E as <-; reflexivity); discriminate.
Qed.
Print Assumptions C101_condition_partial.

(** A lookup with a default: as long as nobody gives it, its name holds everywhere; once the battery has a sink unit it
    no longer holds for hydro. *)
Theorem C101_condition_refuted : exists P F m f ds1 ds2 ds1' ds2' n d p,
  plain P /\ fits m ds1 /\ fits m ds2 /\ clean P F m f ds1 = Ok ds1' /\ clean P F m f ds2 = Ok ds2' /\ declared m n d /\ f p = true /\ same_at n p ds1 ds2 /\
  d_kind d = KText /\ given ds2 n p = Gap /\ holds m ds1' n p = true /\ holds m ds2' n p = false.
Proof.
  exists ex_P, ex_F, ex_m, (fun _ => true), ex_none, [("sink_unit", [(["battery"], Text "per_cap"); (["hydro"], Gap)])], [("flow_cap_max", [(["battery"], Num 5); (["hydro"], Num 5)])], [("sink_unit", [(["battery"], Text "per_cap"); (["hydro"], Gap)])], "sink_unit", unit_of, ["hydro"].
  split; [exact ex_plain|]; split; [exact ex_none_fits|]; split; [split; [cbn; apply NoDup_cons; [intros []|apply NoDup_nil]|intros n [<-|[]]; left; eexists; exact ex_unit]|]; split; [vm_compute; reflexivity|]; split; [vm_compute; reflexivity|]; split; [exact ex_unit|]; split; [reflexivity|]; split.
  - split; [reflexivity|]; split; [intros a A; vm_compute in A; discriminate|intros a A; vm_compute in A; injection A as <-; vm_compute; discriminate].
  - repeat split; vm_compute; reflexivity.
Qed.
Print Assumptions C101_condition_refuted.

Example C101_example :
  fits ex_m ex_ds /\ declared ex_m "flow_cap_max" cap /\ declared ex_m "include_storage" include /\ given ex_ds "flow_cap_max" ["hydro"] = Gap /\ given ex_ds "include_storage" ["hydro"] = Gap /\
  match clean ex_P ex_F ex_m ex_there ex_ds with
  | Ok ds' => used ex_m ds' "flow_cap_max" ["hydro"] = Inf false /\ used ex_m ds' "flow_cap_max" ["battery"] = Num 5 /\ used ex_m ds' "include_storage" ["hydro"] = Flag false /\
              used ex_m ds' "sink_unit" ["hydro"] = Text "absolute" /\ holds ex_m ds' "flow_cap_max" ["hydro"] = false /\ holds ex_m ds' "flow_cap_max" ["battery"] = true
  | Err _ => False
  end.
Proof. split; [exact ex_fits|split; [exact ex_cap|split; [exact ex_include|]]]; vm_compute; repeat split. Qed.
