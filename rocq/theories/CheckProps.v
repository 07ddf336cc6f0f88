(** C104: data given in YAML is accepted exactly if it is sound. *)
From Verif Require Import Base CheckModel.
From Coq Require Import QArith.
Local Open Scope string_scope.
Local Open Scope list_scope.

(** ** Specification *)
(** A coordinate between the given limits. *)
Definition number_between (lim : Z) (c : coord) : Prop :=
  exists q, (c = CFloat q \/ exists z, c = CInt z /\ q = inject_Z z) /\ inject_Z (- lim) <= q <= inject_Z lim.
(** A node has a position on the globe, or none. *)
Definition positioned (lat lon : coord) : Prop := (lat = CNone /\ lon = CNone) \/ (number_between 90 lat /\ number_between 180 lon).
(** Written alike: both with a point or both without. *)
Definition alike (lat lon : coord) : Prop := match lat, lon with CInt _, CFloat _ | CFloat _, CInt _ => False | _, _ => True end.
(** All entries of an index are labels, or all are lists of labels. *)
Definition plain_index (l : list entry) : Prop := forall e, In e l -> exists x, e = One x.
Definition list_index (l : list entry) : Prop := forall e, In e l -> exists x, e = Many x /\ x <> [].

Lemma range_spec lim c : in_range lim c = true <-> c = CNone \/ number_between lim c.
Proof.
  unfold number_between; destruct c as [|z|q| |b]; cbn [in_range].
  - split; auto.
  - rewrite andb_true_iff, !Z.leb_le; split.
    + intros (A & B); right; exists (inject_Z z); split; [right; eauto|]; rewrite <- !Zle_Qle; auto.
    + intros [E|(q & [E|(z' & E & ->)] & A & B)]; try discriminate; injection E as <-; rewrite <- Zle_Qle in A, B; auto.
  - rewrite andb_true_iff, !Qle_bool_iff; split.
    + intros (A & B); right; exists q; auto.
    + intros [E|(q' & [E|(z' & E & ->)] & A & B)]; try discriminate; injection E as <-; auto.
  - split; [discriminate|]; intros [E|(q' & [E|(z' & E & ->)] & A & B)]; discriminate.
  - split; [discriminate|]; intros [E|(q' & [E|(z' & E & ->)] & A & B)]; discriminate.
Qed.
Lemma between_not lim c : number_between lim c -> c <> CNone.
Proof. intros (q & [->|(z & -> & _)] & _); discriminate. Qed.

(** What is accepted is a position or none; every position written alike is accepted. *)
Theorem C104_coordinates_partial lat lon : check_node lat lon = Ok tt <-> positioned lat lon /\ alike lat lon.
Proof.
  unfold check_node, positioned; destruct (in_range 90 lat && in_range 180 lon) eqn:R.
  - apply andb_prop in R as (R1 & R2); apply range_spec in R1, R2.
    split.
    + destruct (Nat.eqb (type_of lat) (type_of lon)) eqn:T; [|discriminate]; intros _; apply Nat.eqb_eq in T; destruct R1 as [->|R1], R2 as [->|R2]; try (split; [left; auto|exact I]).
      * destruct (proj2 (range_spec 180 lon) (or_intror R2)); apply between_not in R2; destruct lon; try discriminate; contradiction.
      * apply between_not in R1; destruct lat; try discriminate; contradiction.
      * split; [right; auto|]; destruct lat, lon; try exact I; discriminate.
    + intros (P & A); assert (T : type_of lat = type_of lon).
      { destruct P as [(-> & ->)|((q & E1 & _) & (q' & E2 & _))]; [reflexivity|].
        destruct E1 as [->|(z & -> & _)], E2 as [->|(z' & -> & _)]; cbn in A; try contradiction; reflexivity. }
      rewrite T, Nat.eqb_refl; reflexivity.
  - split; [discriminate|]; intros (P & _); exfalso.
    assert (X : in_range 90 lat && in_range 180 lon = true); [|congruence].
    apply andb_true_iff; rewrite !range_spec; tauto.
Qed.
Print Assumptions C104_coordinates_partial.

(** A position with a whole degree for one coordinate and a fraction for the other is refused. *)
Theorem C104_coordinates_refuted : exists lat lon, positioned lat lon /\ check_node lat lon = Err EValue.
Proof.
  exists (CInt 54), (CFloat (5 # 2)); split; [|reflexivity]; right; split.
  - exists (inject_Z 54); split; [right; eauto|split; discriminate].
  - exists (5 # 2); split; [left; reflexivity|split; discriminate].
Qed.
Print Assumptions C104_coordinates_refuted.

Lemma same_size_spec {A} (dec : forall a b : A, {a = b} + {a <> b}) l : same_size dec l = true <-> NoDup l.
Proof.
  unfold same_size; rewrite Nat.eqb_eq; split.
  - intros E; induction l as [|a l IH]; [constructor|]; cbn [nodup List.length] in E; destruct (in_dec dec a l) as [I|N].
    + exfalso; pose proof (NoDup_incl_length (NoDup_nodup dec l) (fun x X => proj1 (nodup_In dec l x) X)); lia.
    + cbn [List.length] in E; injection E as E; constructor; [exact N|exact (IH E)].
  - intros N; rewrite nodup_fixed_point by exact N; reflexivity.
Qed.
Lemma forall_one l : forallb (fun e => match e with One _ => true | Many _ => false end) l = true <-> plain_index l.
Proof.
  rewrite forallb_forall; unfold plain_index; split; intros H e I; specialize (H e I); [destruct e; [eauto|discriminate]|destruct H as (x & ->); reflexivity].
Qed.
Lemma tuples_many l : list_index l -> exists ts, tuples l = Some ts /\ l = map Many ts.
Proof.
  induction l as [|e l IH]; intros H; [exists []; split; reflexivity|].
  destruct (IH (fun x X => H x (or_intror X))) as (ts & T & E); destruct (H e (or_introl eq_refl)) as (x & -> & _); exists (x :: ts); cbn; rewrite T, E; split; reflexivity.
Qed.
Lemma nodup_many ts : NoDup (map Many ts) <-> NoDup ts.
Proof.
  split; [apply NoDup_map_inv|]; intros N; induction N as [|t ts NI N IH]; cbn; constructor; [|exact IH]; rewrite in_map_iff; intros (x & E & I); injection E as ->; contradiction.
Qed.

(** Lists of labels: accepted exactly if there is one and none is repeated.  Lists of lists: exactly if there is one, none is
    repeated, and no label is repeated within one. *)
Theorem C104_index_partial l :
  (plain_index l -> check_index l = Ok tt <-> l <> [] /\ NoDup l) /\
  (list_index l -> check_index l = Ok tt <-> l <> [] /\ NoDup l /\ forall x, In (Many x) l -> NoDup x).
Proof.
  split; intros H.
  - destruct l as [|e l]; [split; [discriminate|intros (X & _); contradiction]|]; set (m := e :: l) in *; assert (ME : m <> []) by discriminate.
    assert (CI : check_index m = if same_size entry_eq_dec m then Ok tt else Err EValue).
    { unfold check_index, m; fold m; assert (B : forallb check_inner m = true) by (apply forallb_forall; intros x X; destruct (H x X) as (y & ->); reflexivity); rewrite B; unfold check_unique; rewrite (proj2 (forall_one m) H); reflexivity. }
    rewrite CI; rewrite <- (same_size_spec entry_eq_dec); destruct (same_size entry_eq_dec m); split; auto; intros; try discriminate; destruct H0; discriminate.
  - destruct l as [|e l]; [split; [discriminate|intros (X & _); contradiction]|]; set (m := e :: l) in *; assert (ME : m <> []) by discriminate.
    destruct (tuples_many m H) as (ts & T & E).
    assert (F : forallb (fun e => match e with One _ => true | Many _ => false end) m = false) by (destruct (H e (or_introl eq_refl)) as (x & -> & _); reflexivity).
    assert (CI : check_index m = if forallb check_inner m then if same_size (list_eq_dec ilabel_eq_dec) ts then Ok tt else Err EValue else Err EValue).
    { unfold check_index, m; fold m; destruct (forallb check_inner m); [|reflexivity]; unfold check_unique; rewrite F, T; reflexivity. }
    assert (IN : forallb check_inner m = true <-> forall x, In (Many x) m -> NoDup x).
    { rewrite forallb_forall; split.
      - intros A x X; specialize (A _ X); cbn in A; destruct x; [discriminate|]; apply (same_size_spec ilabel_eq_dec), A.
      - intros A x X; destruct (H x X) as (y & -> & Y); cbn; destruct y; [contradiction|]; apply same_size_spec, (A _ X). }
    rewrite CI, <- IN; rewrite E at 3; rewrite nodup_many, <- (same_size_spec (list_eq_dec ilabel_eq_dec)).
    destruct (forallb check_inner m), (same_size (list_eq_dec ilabel_eq_dec) ts); intuition (try discriminate; auto).
Qed.
Print Assumptions C104_index_partial.

(** An entry with the same label in two dimensions, such as a matrix over nodes and nodes, is refused although no entry
    is repeated. *)
Theorem C104_index_refuted : exists l, list_index l /\ NoDup l /\ l <> [] /\ check_index l = Err EValue.
Proof.
  exists [Many [LStr "A"; LStr "A"]; Many [LStr "A"; LStr "B"]]; split; [|split; [|split; [discriminate|reflexivity]]].
  - intros e [<-|[<-|[]]]; eexists; split; try reflexivity; discriminate.
  - apply NoDup_cons; [intros [E|[]]; discriminate|apply NoDup_cons; [intros []|apply NoDup_nil]].
Qed.
Print Assumptions C104_index_refuted.

Example C104_example :
  check_node (CFloat (109 # 2)) (CFloat (5 # 2)) = Ok tt /\ check_node (CInt 54) (CInt (-3)) = Ok tt /\ check_node CNone CNone = Ok tt /\ check_node (CInt 54) CNone = Err EValue /\
  check_node (CInt 95) (CInt 3) = Err EValue /\ check_node CNan CNan = Err EValue /\
  check_index [One (LStr "a"); One (LStr "b"); One (LNum 1)] = Ok tt /\ check_index [One (LStr "a"); One (LStr "a")] = Err EValue /\
  check_index [Many [LStr "a"; LStr "el"]; Many [LStr "b"; LStr "el"]] = Ok tt /\ check_index [Many [LStr "a"; LStr "el"]; Many [LStr "a"; LStr "el"]] = Err EValue /\
  check_index [One (LNum 1); Many [LStr "a"]] = Err EType /\ check_index [One (LStr "ab"); Many [LStr "a"; LStr "b"]] = Err EValue.
Proof. repeat split; reflexivity. Qed.
