(** Proofs about the loading of data tables. *)
From Verif Require Import Base AttrDictModel BaseProofs DataModel DataSpec DataProofs TableModel TableSpec.
Local Open Scope string_scope.
Local Open Scope list_scope.

(** ** Lists *)
Lemma list_by_place {A} (d : A) l : l = map (fun a => nth a l d) (seq 0 (List.length l)).
Proof.
  induction l as [|x l IH]; [reflexivity|]. cbn [List.length seq map nth]. f_equal.
  rewrite <- seq_shift, map_map. exact IH.
Qed.
Lemma combine_by_place {A B} (d : A) (e : B) l m : List.length m = List.length l ->
  combine l m = map (fun j => (nth j l d, nth j m e)) (seq 0 (List.length l)).
Proof.
  revert m. induction l as [|x l IH]; intros [|y m] L; try discriminate; [reflexivity|].
  cbn [combine List.length seq map nth]. f_equal. rewrite <- seq_shift, map_map. apply IH. now injection L.
Qed.
Lemma flat_map_map {A B C} (g : A -> B) (h : B -> list C) l : flat_map h (map g l) = flat_map (fun x => h (g x)) l.
Proof. induction l as [|x l IH]; [reflexivity|]. cbn. now rewrite IH. Qed.
Lemma map_flat {A B C} (g : B -> C) (h : A -> list B) l : map g (flat_map h l) = flat_map (fun x => map g (h x)) l.
Proof. induction l as [|x l IH]; [reflexivity|]. cbn. now rewrite map_app, IH. Qed.
Lemma flat_ext {A B} (g h : A -> list B) l : (forall x, In x l -> g x = h x) -> flat_map g l = flat_map h l.
Proof. intros E. induction l as [|x l IH]; [reflexivity|]. cbn. rewrite E by now left. rewrite IH; [reflexivity|]. intros y Y. apply E. now right. Qed.
Lemma filter_map {A B} (P : B -> bool) (g : A -> B) l : filter P (map g l) = map g (filter (fun x => P (g x)) l).
Proof. induction l as [|x l IH]; [reflexivity|]. cbn. destruct (P (g x)); cbn; now rewrite IH. Qed.
Lemma filter_both {A} (P Q : A -> bool) l : filter P (filter Q l) = filter (fun x => Q x && P x) l.
Proof. induction l as [|x l IH]; [reflexivity|]. cbn. destruct (Q x); cbn; destruct (P x); cbn; now rewrite IH. Qed.
Lemma filter_all {A} (P : A -> bool) l : (forall x, In x l -> P x = true) -> filter P l = l.
Proof. intros E. induction l as [|x l IH]; [reflexivity|]. cbn. rewrite E by now left. rewrite IH; [reflexivity|]. intros y Y. apply E. now right. Qed.
Lemma nodup_same {A B} (g : A -> B) l x y : NoDup (map g l) -> In x l -> In y l -> g x = g y -> x = y.
Proof.
  induction l as [|z l IH]; cbn; intros N X Y E; [contradiction|]. inversion N; subst.
  destruct X as [<-|X], Y as [<-|Y]; trivial.
  - exfalso. apply H1. rewrite E. now apply in_map.
  - exfalso. apply H1. rewrite <- E. now apply in_map.
  - now apply IH.
Qed.
Lemma smem_true s l : smem s l = true <-> In s l.
Proof.
  unfold smem. rewrite existsb_exists. split.
  - intros (x & X & E). apply String.eqb_eq in E. now subst.
  - intros X. exists s. split; [trivial|apply String.eqb_refl].
Qed.
Lemma smem_false s l : smem s l = false <-> ~ In s l.
Proof. rewrite <- smem_true. destruct (smem s l); split; intros E; try discriminate; trivial; now contradiction E. Qed.
Lemma twice_false l : twice l = false -> NoDup l.
Proof.
  induction l as [|x l IH]; cbn; intros T; [constructor|]. apply orb_false_iff in T. destruct T as [E T]. constructor; [|now apply IH].
  intros X. assert (existsb (fun y => if list_eq_dec string_dec x y then true else false) l = true) as E'.
  { apply existsb_exists. exists x. split; [trivial|]. now destruct (list_eq_dec string_dec x x). }
  rewrite E in E'. discriminate E'.
Qed.
Lemma twice_true l : twice l = true -> ~ NoDup l.
Proof.
  induction l as [|x l IH]; cbn; intros T N; [discriminate T|]. inversion N; subst. apply orb_true_iff in T. destruct T as [T|T]; [|now apply IH].
  apply existsb_exists in T. destruct T as (y & Y & E). destruct (list_eq_dec string_dec x y); [subst; contradiction|discriminate E].
Qed.
Lemma twice_names_some l : twice_names (map Some l) = false -> NoDup l.
Proof.
  induction l as [|x l IH]; cbn; intros T; [constructor|]. apply orb_false_iff in T. destruct T as [E T]. constructor; [|now apply IH].
  intros X. assert (existsb (fun y : option string => match y with Some b => String.eqb x b | None => false end) (map Some l) = true) as E'.
  { apply existsb_exists. exists (Some x). split; [now apply in_map|apply String.eqb_refl]. }
  rewrite E in E'. discriminate E'.
Qed.
Lemma combine_app {A B} (a b : list A) (c d : list B) : List.length a = List.length c -> combine (a ++ b) (c ++ d) = combine a c ++ combine b d.
Proof. revert c. induction a as [|x a IH]; intros [|y c] L; try discriminate; [reflexivity|]. cbn. rewrite IH; [reflexivity|]. now injection L. Qed.
Lemma combine_map_same {A B} (q : A -> B) l : combine l (map q l) = map (fun d => (d, q d)) l.
Proof. induction l as [|x l IH]; [reflexivity|]. cbn. now rewrite IH. Qed.

Lemma Forall2_length {A B} (R : A -> B -> Prop) l m : Forall2 R l m -> List.length l = List.length m.
Proof. induction 1; cbn; congruence. Qed.
Lemma NoDup_app_remove_r {A} (a b : list A) : NoDup (a ++ b) -> NoDup a.
Proof. induction a as [|x a IH]; cbn; intros N; [constructor|]. inversion N; subst. constructor; [|now apply IH]. intros X. apply H1. apply in_app_iff. now left. Qed.

(** ** Naming the levels *)
Lemma name_axis_ok m l ns l' : name_axis m l ns = (l', Ok tt) ->
  match ns with Some ds => l' = map Some ds /\ List.length l = List.length ds | None => l' = l end.
Proof.
  unfold name_axis. destruct ns as [ds|]; [|intros E; now injection E].
  destruct (Nat.eqb _ _) eqn:L; cbn [negb]; [|intros E; discriminate E].
  destruct (names_fit _ _); intros E; [|discriminate E]. injection E as <-. split; [trivial|]. now apply Nat.eqb_eq.
Qed.
Lemma name_levels_ok t f f' : name_levels t f = (f', Ok tt) ->
  f_header f' = f_header f /\ f_body f' = f_body f /\
  (forall ds, t_cols t = Some ds -> f_cols f' = map Some ds /\ List.length (f_cols f) = List.length ds) /\
  (forall ds, t_rows t = Some ds -> f_rows f' = map Some ds /\ List.length (f_rows f) = List.length ds).
Proof.
  unfold name_levels. destruct (name_axis (t_rename t) (f_cols f) (t_cols t)) as [c [[]|e]] eqn:C; cbn [fst snd]; [|intros E; discriminate E].
  destruct (name_axis (t_rename t) (f_rows f) (t_rows t)) as [r [[]|e]] eqn:R; cbn [fst snd]; [|intros E; discriminate E].
  intros E. injection E as <-. cbn. apply name_axis_ok in C. apply name_axis_ok in R. repeat split; intros.
  - rewrite H in C. apply C.
  - rewrite H in C. apply C.
  - rewrite H in R. apply R.
  - rewrite H in R. apply R.
Qed.

(** ** The entries of a frame by place *)
Definition places (f : frame) : list (nat * nat) :=
  flat_map (fun a => map (fun j => (a, j)) (seq 0 (List.length (f_header f)))) (seq 0 (List.length (f_body f))).
Definition part (o : option (list string)) (l : list string) : list string := match o with Some _ => l | None => [] end.
Definition entry (t : table) (f : frame) (p : nat * nat) : list string * cell :=
  let r := nth (fst p) (f_body f) ([], []) in
  (part (t_rows t) (fst r) ++ part (t_cols t) (nth (snd p) (f_header f) []), nth (snd p) (snd r) NaN).
Lemma places_in f a j : In (a, j) (places f) <-> a < List.length (f_body f) /\ j < List.length (f_header f).
Proof.
  unfold places. rewrite in_flat_map. split.
  - intros (x & X & Y). apply in_map_iff in Y. destruct Y as (y & E & Y). injection E as -> ->. apply in_seq in X, Y. lia.
  - intros [A J]. exists a. split; [apply in_seq; lia|]. apply in_map. apply in_seq. lia.
Qed.
Lemma places_nodup f : NoDup (places f).
Proof.
  unfold places. generalize (seq_NoDup (List.length (f_body f)) 0). generalize (seq 0 (List.length (f_body f))).
  induction l as [|a l IH]; cbn; intros N; [constructor|]. inversion N; subst.
  assert (forall (x y : list (nat * nat)), NoDup x -> NoDup y -> (forall z, In z x -> ~ In z y) -> NoDup (x ++ y)) as APP.
  { induction x as [|z x IHx]; cbn; intros y NX NY D; [trivial|]. inversion NX; subst. constructor.
    - intros Z. apply in_app_or in Z. destruct Z as [Z|Z]; [contradiction|]. now apply (D z (or_introl eq_refl)).
    - apply IHx; trivial. intros w W. apply D. now right. }
  apply APP.
  - apply FinFun.Injective_map_NoDup; [|apply seq_NoDup]. intros x y E. now injection E.
  - now apply IH.
  - intros z Z Y. apply in_map_iff in Z. destruct Z as (j & <- & _). apply in_flat_map in Y. destruct Y as (b & B & Y).
    apply in_map_iff in Y. destruct Y as (j' & E & _). injection E as -> _. contradiction.
Qed.

Lemma row_in f a : a < List.length (f_body f) -> In (nth a (f_body f) ([], [])) (f_body f).
Proof. apply nth_In. Qed.

Section Tidy.
  Variables (t : table) (f : frame) (s : series).
  Hypothesis REG : forall r cs, In (r, cs) (f_body f) -> List.length cs = List.length (f_header f).
  Hypothesis TIDY : tidy t f = Ok s.
  Hypothesis SQC : t_cols t = None -> List.length (f_header f) = 1.
  Hypothesis SQR : t_rows t = None -> List.length (f_body f) = 1.
  Hypothesis SIDE : t_rows t <> None \/ t_cols t <> None.

  Lemma stacked : t_rows t <> None -> t_cols t <> None ->
    flat_map (fun r => map (fun hc => (fst r ++ fst hc, snd hc)) (combine (f_header f) (snd r))) (f_body f) = map (entry t f) (places f).
  Proof.
    clear SQC SQR SIDE TIDY. intros R C. rewrite (list_by_place ([], []) (f_body f)) at 1. rewrite flat_map_map. unfold places. rewrite map_flat.
    apply flat_ext. intros a A. apply in_seq in A. assert (a < List.length (f_body f)) as A' by lia. pose proof (row_in f a A') as B.
    destruct (nth a (f_body f) ([], [])) as [r cs] eqn:E. rewrite (combine_by_place [] NaN) by (apply (REG _ _ B)).
    rewrite !map_map. apply map_ext. intros j. unfold entry. cbn [fst snd]. rewrite E. cbn [fst snd].
    destruct (t_rows t); [|congruence]. destruct (t_cols t); [|congruence]. reflexivity.
  Qed.
  (** Every entry that is not missing stays; nothing is invented. *)
  Lemma tidy_places : exists keep, s_entries s = map (entry t f) (filter keep (places f)) /\
    (forall p, In p (places f) -> snd (entry t f p) <> NaN -> keep p = true).
  Proof.
    revert TIDY. unfold tidy. destruct (t_cols t) as [cs|] eqn:C; [destruct (t_rows t) as [rs|] eqn:R|].
    - destruct (twice _); [discriminate|]. intros E. injection E as <-. cbn [s_entries]. rewrite stacked by congruence. rewrite filter_map.
      eexists. split; [reflexivity|]. intros p _ N. cbn beta. destruct (snd (entry t f p)); trivial. now contradiction N.
    - rewrite (proj2 (Nat.eqb_eq _ _) (SQR eq_refl) : one (f_body f) = true). intros E. injection E as <-. cbn [s_entries]. exists (fun _ => true). split; [|trivial].
      rewrite filter_all by trivial. unfold places. rewrite (SQR eq_refl). cbn [seq flat_map]. rewrite app_nil_r, map_map.
      destruct (f_body f) as [|[r cells] [|]] eqn:B; try (specialize (SQR eq_refl); discriminate).
      cbn [snd]. rewrite (combine_by_place [] NaN) by (apply (REG r); now left).
      apply map_ext. intros j. unfold entry. cbn [fst snd]. rewrite R, C, B. reflexivity.
    - rewrite (proj2 (Nat.eqb_eq _ _) (SQC eq_refl) : one (f_header f) = true). intros E. injection E as <-. cbn [s_entries]. exists (fun _ => true). split; [|trivial].
      rewrite filter_all by trivial. unfold places. rewrite (SQC eq_refl). cbn [seq]. rewrite map_flat.
      rewrite (list_by_place ([], []) (f_body f)) at 1. rewrite map_map.
      assert (forall (g : nat -> list string * cell) l, map g l = flat_map (fun x => [g x]) l) as M1.
      { intros g l. induction l as [|x l IH]; [reflexivity|]. cbn. now rewrite IH. }
      rewrite M1. apply flat_ext. intros a A. cbn [map]. unfold entry. cbn [fst snd]. rewrite C. cbn [part]. rewrite app_nil_r.
      destruct (t_rows t) eqn:R.
      + cbn [part]. do 2 f_equal. now destruct (snd (nth a (f_body f) ([], []))).
      + destruct SIDE; congruence.
  Qed.

  Hypothesis ROWS : forall ds, t_rows t = Some ds -> f_rows f = map Some ds.
  Hypothesis COLS : forall ds, t_cols t = Some ds -> f_cols f = map Some ds.
  Lemma tidy_names : s_names s = map Some (own_dims t).
  Proof.
    revert TIDY. unfold tidy, own_dims, row_dims, col_dims. destruct (t_cols t) as [cs|] eqn:C; [destruct (t_rows t) as [rs|] eqn:R|].
    - destruct (twice _); [discriminate|]. intros E. injection E as <-. cbn. now rewrite (ROWS _ eq_refl), (COLS _ eq_refl), map_app.
    - rewrite (proj2 (Nat.eqb_eq _ _) (SQR eq_refl) : one (f_body f) = true). intros E. injection E as <-. cbn. now rewrite (COLS _ eq_refl).
    - rewrite (proj2 (Nat.eqb_eq _ _) (SQC eq_refl) : one (f_header f) = true). intros E. injection E as <-. cbn.
      destruct (t_rows t) as [rs|] eqn:R; [|destruct SIDE; congruence]. cbn. now rewrite (ROWS _ eq_refl), app_nil_r.
  Qed.
End Tidy.

(** ** Selecting *)
Lemma d_get_nodup {V} (d : string) (v : V) l : NoDup (map fst l) -> In (d, v) l -> d_get d l = Some v.
Proof.
  induction l as [|[k w] l IH]; cbn; intros N X; [contradiction|]. inversion N; subst. destruct X as [E|X].
  - injection E as -> ->. now rewrite String.eqb_refl.
  - destruct (String.eqb d k) eqn:E; [|now apply IH]. apply String.eqb_eq in E. subst. exfalso. apply H1. now apply (in_map fst) in X.
Qed.
Lemma d_get_found {V} (d : string) (v : V) l : d_get d l = Some v -> In (d, v) l.
Proof.
  induction l as [|[k w] l IH]; cbn; [discriminate|]. destruct (String.eqb d k) eqn:E; [|auto].
  apply String.eqb_eq in E. subst. intros X. injection X as ->. now left.
Qed.
Lemma wanted_picked t ns ls : NoDup (map fst (t_select t)) ->
  (forallb (fun nl => wanted (t_select t) (fst nl) (snd nl)) (combine (map Some ns) ls) = true <-> picked t (combine ns ls)).
Proof.
  intros N. unfold picked. revert ls. induction ns as [|n ns IH]; intros [|l ls]; cbn [map combine forallb]; try (split; [intros _ d w x _ []|reflexivity]).
  rewrite andb_true_iff, IH. cbn [fst snd wanted]. split.
  - intros [W H] d w x D [E|X]; [|now apply (H d w x)]. injection E as -> ->. rewrite (d_get_nodup _ _ _ N D) in W. now apply smem_true.
  - intros H. split.
    + destruct (d_get n (t_select t)) as [w|] eqn:G; [|trivial]. apply smem_true. apply (H n w l); [now apply d_get_found|now left].
    + intros d w x D X. apply (H d w x D). now right.
Qed.

(** ** Dropping *)
Definition kept (t : table) : list string := filter (fun d => negb (smem d (t_drop t))) (own_dims t).
Definition project (t : table) (ls : list string) : list string :=
  map snd (filter (fun nl : string * string => negb (smem (fst nl) (t_drop t))) (combine (own_dims t) ls)).
Lemma kept_in t d : In d (kept t) <-> kept_dim t d.
Proof. unfold kept, kept_dim. rewrite filter_In, negb_true_iff, smem_false. tauto. Qed.
Lemma project_some t (ls ns : list string) : map snd (filter (fun nl => negb (dropped (t_drop t) (fst nl))) (combine (map Some ns) ls)) =
  map snd (filter (fun nl => negb (smem (fst nl) (t_drop t))) (combine ns ls)).
Proof.
  revert ls. induction ns as [|n ns IH]; intros [|l ls]; trivial. cbn [map combine filter fst dropped].
  destruct (smem n (t_drop t)); cbn [negb map]; now rewrite IH.
Qed.
Lemma combine_snd {A B} (a : list A) (b : list B) : List.length a = List.length b -> map snd (combine a b) = b.
Proof. revert b. induction a as [|x a IH]; intros [|y b] L; try discriminate; trivial. cbn. rewrite IH; [reflexivity|]. now injection L. Qed.
Lemma drop_levels_ok t s s' : s_names s = map Some (own_dims t) ->
  (forall e, In e (s_entries s) -> List.length (own_dims t) = List.length (fst e)) ->
  drop_levels (t_drop t) s = Ok s' ->
  s_names s' = map Some (kept t) /\ s_entries s' = map (fun e => (project t (fst e), snd e)) (s_entries s).
Proof.
  intros NM LN. unfold drop_levels, kept, project. destruct (t_drop t) as [|d0 dr] eqn:D.
  - intros E. injection E as <-. split.
    + rewrite filter_all; trivial.
    + rewrite <- (map_id (s_entries s)) at 1. apply map_ext_in. intros [ls c] X. cbn [fst snd]. f_equal. rewrite filter_all by trivial. symmetry.
      apply combine_snd. apply (LN _ X).
  - rewrite <- D. destruct (existsb _ _); [discriminate|]. destruct (existsb _ _); [discriminate|]. destruct (forallb _ _); [discriminate|].
    intros E. injection E as <-. cbn [s_names s_entries]. rewrite NM. split.
    + now rewrite filter_map.
    + apply map_ext. intros [ls c]. cbn [fst snd]. now rewrite project_some.
Qed.
Lemma project_is t (q : pos) (ls ns : list string) : List.length ns = List.length ls ->
  (map snd (filter (fun nl => negb (smem (fst nl) (t_drop t))) (combine ns ls)) = map q (filter (fun d => negb (smem d (t_drop t))) ns) <->
   forall d l, In (d, l) (combine ns ls) -> ~ In d (t_drop t) -> l = q d).
Proof.
  revert ls. induction ns as [|n ns IH]; intros [|l ls] L; try discriminate; cbn [combine filter fst].
  - split; [intros _ d l []|reflexivity].
  - destruct (smem n (t_drop t)) eqn:E; cbn [negb map snd].
    + rewrite IH by now injection L. apply smem_true in E. split; intros H d x; [intros [X|X] N|intros X]; [|now apply H|now apply H; right].
      injection X as -> ->. contradiction.
    + apply smem_false in E. split.
      * intros H. injection H as -> H. assert (List.length ns = List.length ls) as L' by now injection L. pose proof (proj1 (IH ls L') H) as H'. clear H. rename H' into H. intros d x [X|X] N; [now injection X as -> <-|now apply H].
      * intros H. f_equal; [now apply H; [left|]|]. apply IH; [now injection L|]. intros d x X. apply H. now right.
Qed.

Lemma project_length t (ns ls : list string) : List.length ns = List.length ls ->
  List.length (filter (fun nl : string * string => negb (smem (fst nl) (t_drop t))) (combine ns ls)) = List.length (filter (fun d => negb (smem d (t_drop t))) ns).
Proof.
  revert ls. induction ns as [|n ns IH]; intros [|l ls] LE; try discriminate; trivial. cbn [combine filter fst]. injection LE as LE.
  destruct (smem n (t_drop t)); cbn; now rewrite (IH _ LE).
Qed.

(** ** Adding *)
Lemma add_levels_ok adds : forall s s', add_levels adds s = Ok s' ->
  s_names s' = rev (map (fun a => Some (fst a)) adds) ++ s_names s /\
  (forall ls c, In (ls, c) (s_entries s') <-> exists xs l0, ls = rev xs ++ l0 /\ Forall2 (fun a x => In x (snd a)) adds xs /\ In (l0, c) (s_entries s)) /\
  (NoDup (map fst (s_entries s')) -> NoDup (map fst (s_entries s))).
Proof.
  induction adds as [|[d items] adds IH]; intros s s'; cbn [add_levels].
  - intros E. injection E as <-. cbn. repeat split; trivial.
    + intros X. exists [], ls. repeat split; trivial.
    + intros (xs & l0 & -> & F & X). now inversion F.
  - destruct items as [|i0 items]; [discriminate|]. intros E. destruct (IH _ _ E) as (N & M & U). cbn [s_names s_entries] in *. split; [|split].
    + rewrite N. cbn [map rev fst]. now rewrite <- app_assoc.
    + intros ls c. rewrite M. split.
      * intros (xs & l0 & -> & F & X). apply in_flat_map in X. destruct X as (i & I & X). apply in_map_iff in X. destruct X as ([l1 c1] & E1 & X).
        injection E1 as <- ->. exists (i :: xs), l1. cbn [rev]. rewrite <- app_assoc. repeat split; [|trivial]. now constructor.
      * intros (xs & l0 & -> & F & X). inversion F as [|a i adds' xs' I F' E1 E2]; subst. exists xs', (i :: l0). cbn [rev]. rewrite <- app_assoc.
        repeat split; [trivial|]. apply in_flat_map. exists i. split; [exact I|]. apply in_map_iff. now exists (l0, c).
    + intros V. apply U in V. cbn [flat_map] in V. rewrite map_app, map_map in V. apply NoDup_app_remove_r in V. cbn [fst] in V.
      rewrite <- (map_map fst (cons i0)) in V. now apply NoDup_map_inv in V.
Qed.
Lemma added_is (q : pos) adds xs : rev xs = map q (rev (map fst adds)) -> List.length xs = List.length adds ->
  Forall2 (fun (a : string * list string) x => In x (snd a)) adds xs -> forall d items, In (d, items) adds -> In (q d) items.
Proof.
  intros E _ F. assert (xs = map q (map fst adds)) as ->. { rewrite <- (rev_involutive xs), E, <- map_rev, rev_involutive. reflexivity. }
  clear E. induction adds as [|[d items] adds IH]; cbn; [intros ? ? []|]. inversion F; subst. intros d' items' [X|X]; [now injection X as <- <-|now apply IH].
Qed.
Lemma added_all (q : pos) (adds : list (string * list string)) : (forall d items, In (d, items) adds -> In (q d) items) ->
  Forall2 (fun (a : string * list string) x => In x (snd a)) adds (map q (map fst adds)).
Proof. induction adds as [|[d items] adds IH]; cbn; intros H; [constructor|]. constructor; [apply H; now left|]. apply IH. intros ? ? X. apply H. now right. Qed.

(** ** The dataset *)
Lemma level_of_split d ns : In d ns -> exists a b, ns = a ++ d :: b /\ level_of d (map Some ns) = List.length a /\ ~ In d a.
Proof.
  induction ns as [|n ns IH]; cbn; intros X; [contradiction|]. destruct (String.eqb n d) eqn:E.
  - apply String.eqb_eq in E. subst. exists [], ns. repeat split; trivial. intros [].
  - destruct X as [->|X]; [rewrite String.eqb_refl in E; discriminate E|]. destruct (IH X) as (a & b & -> & L & N). exists (n :: a), b. cbn. rewrite L. repeat split; trivial.
    intros [->|Y]; [rewrite String.eqb_refl in E; discriminate E|contradiction].
Qed.
Lemma without_mid {A} (a b : list A) x : without (List.length a) (a ++ x :: b) = a ++ b.
Proof.
  unfold without. rewrite firstn_app, Nat.sub_diag, firstn_all. cbn [firstn]. rewrite app_nil_r.
  rewrite skipn_app, skipn_all2 by lia. replace (S (List.length a) - List.length a) with 1 by lia. reflexivity.
Qed.
Lemma dims_some (l : list string) : map (fun kn => dim_name (one (map Some l)) (fst kn) (snd kn)) (combine (seq 0 (List.length (map Some l))) (map Some l)) = l.
Proof.
  generalize (one (map Some l)) as b, 0 as k. induction l as [|x l IH]; intros b k; [reflexivity|]. cbn [map List.length seq combine fst snd dim_name]. now rewrite IH.
Qed.
Lemma without_map {A B} (g : A -> B) k l : without k (map g l) = map g (without k l).
Proof. unfold without. now rewrite map_app, firstn_map, skipn_map. Qed.

Section Dataset.
  Variables (s : series) (N : list string).
  Hypothesis NM : s_names s = map Some N.
  Hypothesis ND : NoDup N.
  Hypothesis INP : In "inputs" N.
  Hypothesis LN : forall e, In e (s_entries s) -> List.length (fst e) = List.length N.
  Hypothesis U : NoDup (map fst (s_entries s)).
  Notation k := (level_of "inputs" (map Some N)).

  Lemma dims_are : dims_left s = without k N.
  Proof. unfold dims_left. rewrite NM, without_map. apply dims_some. Qed.
  Lemma dims_mem d : In d (dims_left s) <-> In d N /\ d <> "inputs".
  Proof.
    rewrite dims_are. destruct (level_of_split _ _ INP) as (a & b & E & L & _). rewrite L. rewrite E at 1. rewrite without_mid.
    assert (~ In "inputs" (a ++ b)) as X. { rewrite E in ND. now apply NoDup_remove_2 in ND. }
    rewrite E. rewrite !in_app_iff. cbn [In]. split.
    - intros D. split; [tauto|]. intros ->. apply X. now apply in_app_iff.
    - intros [[D|[D|D]] NE]; [now left| |now right]. now contradiction NE.
  Qed.
  (** An index is a place. *)
  Lemma index_place i (p : pos) ls : List.length ls = List.length N ->
    (nth k ls "" = i /\ without k ls = map p (without k N) <-> ls = map (place i p) N).
  Proof.
    intros L. destruct (level_of_split _ _ INP) as (a & b & E & K & _). rewrite K.
    assert (~ In "inputs" (a ++ b)) as X. { rewrite E in ND. now apply NoDup_remove_2 in ND. }
    assert (forall l, (forall x, In x l -> In x (a ++ b)) -> map (place i p) l = map p l) as SAME.
    { intros l H. apply map_ext_in. intros x Y. unfold place. apply upd_other. intros ->. apply X. now apply H. }
    assert (map (place i p) N = map p a ++ i :: map p b) as M.
    { rewrite E, map_app. cbn [map]. unfold place at 2. rewrite upd_same, !SAME; trivial; intros x Y; apply in_app_iff; tauto. }
    rewrite M, E, without_mid, map_app. split.
    - intros [HI W]. destruct (nth_split ls "" (n := List.length a)) as (l1 & l2 & E1 & L1).
      { rewrite L, E, app_length. cbn. lia. }
      rewrite HI in E1. rewrite E1 in W. rewrite <- L1 in W. rewrite without_mid in W.
      assert (l1 = map p a /\ l2 = map p b) as [-> ->].
      { assert (List.length l1 = List.length (map p a)) as LE by (rewrite map_length; exact L1).
        clear -W LE. revert LE W. generalize (map p a) as u. induction l1 as [|x l1 IH]; intros [|y u] LE W; try discriminate; cbn in W; [now split|].
        injection W as -> W. injection LE as LE. destruct (IH _ LE W) as [-> ->]. now split. }
      exact E1.
    - intros ->. replace (List.length a) with (List.length (map p a)) by apply map_length. split.
      + rewrite app_nth2 by lia. now rewrite Nat.sub_diag.
      + apply without_mid.
  Qed.
  Lemma found_is i (p : pos) c : c <> NaN -> (found i (map p (dims_left s)) s = c <-> In (map (place i p) N, c) (s_entries s)).
  Proof.
    intros NC. unfold found. rewrite dims_are, NM. destruct (find _ _) as [e|] eqn:F.
    - apply find_some in F. destruct F as [X F]. apply andb_true_iff in F. destruct F as [F1 F2]. apply String.eqb_eq in F1.
      destruct (list_eq_dec _ _ _) as [F3|]; [|discriminate F2].
      destruct e as [ls c']. cbn [fst snd] in *. assert (ls = map (place i p) N) as E by (apply index_place; [apply (LN _ X)|now split]). split.
      + intros <-. now rewrite <- E.
      + intros Y. assert ((ls, c') = (map (place i p) N, c)) as Z by (apply (nodup_same fst (s_entries s)); trivial). now injection Z.
    - split; [intros <-; contradiction|]. intros X. exfalso. pose proof (find_none _ _ F _ X) as H. cbn [fst] in H.
      destruct (proj2 (index_place i p (map (place i p) N) ltac:(apply map_length)) eq_refl) as [A B].
      rewrite A, B, String.eqb_refl in H. destruct (list_eq_dec _ _ _); [discriminate H|congruence].
  Qed.
  Lemma coords_has d ls c : In (ls, c) (s_entries s) -> forall q, ls = map q N -> In d (dims_left s) -> member (to_dataset s) d (q d).
  Proof.
    intros X q E D. unfold member. cbn [to_dataset coords]. pose proof D as D'. apply (In_nth _ _ "") in D'. destruct D' as (j & J & JD).
    exists (nodup string_dec (map (fun e => nth j (without (level_of "inputs" (s_names s)) (fst e)) "") (s_entries s))). split.
    - apply in_map_iff. exists (j, d). split; [reflexivity|]. rewrite (combine_by_place 0 "") by now rewrite seq_length.
      apply in_map_iff. exists j. rewrite seq_length. rewrite seq_nth by trivial. split; [now rewrite JD|apply in_seq; lia].
    - apply nodup_In. apply in_map_iff. exists (ls, c). split; [|trivial]. cbn [fst]. rewrite NM, E, without_map, <- dims_are. rewrite (nth_indep _ "" (q "")) by now rewrite map_length. rewrite map_nth. now rewrite JD.
  Qed.
  Lemma dataset_holds i p c : c <> NaN -> (holds (to_dataset s) i p c <-> In (map (place i p) N, c) (s_entries s)).
  Proof.
    intros NC. unfold holds. split.
    - intros (a & X & W & A). cbn [to_dataset vars] in X. apply in_map_iff in X. destruct X as (i' & E & _). injection E as -> <-. cbn [a_dims a_at] in *.
      now apply found_is.
    - intros X. eexists. split; [|split].
      + cbn [to_dataset vars]. apply in_map_iff. exists i. split; [reflexivity|]. apply nodup_In. apply in_map_iff. exists (map (place i p) N, c). split; [|trivial].
        cbn [fst]. rewrite NM. apply (proj2 (index_place i p (map (place i p) N) ltac:(apply map_length)) eq_refl).
      + cbn [a_dims]. intros d D. replace (p d) with (place i p d) by (unfold place; apply upd_other; now apply dims_mem). now apply (coords_has d _ c X).
      + cbn [a_at]. now apply found_is.
  Qed.
  Lemma dataset_dims i a : In (i, a) (vars (to_dataset s)) -> a_dims a = dims_left s.
  Proof. cbn [to_dataset vars]. intros X. apply in_map_iff in X. destruct X as (i' & E & _). now injection E as _ <-. Qed.
End Dataset.

(** ** All steps *)
Lemma part_length o l (n : nat) : (forall ds, o = Some ds -> List.length l = List.length ds) -> List.length (part o l) = List.length (listed o).
Proof. destruct o as [ds|]; cbn; intros H; [now apply H|reflexivity]. Qed.
Lemma accepted_side t : table_valid t = true -> t_rows t <> None \/ t_cols t <> None.
Proof.
  unfold table_valid. destruct (t_rows t); [left; congruence|]. destruct (t_cols t); [right; congruence|]. cbn. discriminate.
Qed.
Lemma bind_ok {A B} (r : result A) (g : A -> result B) b : bind r g = Ok b -> exists a, r = Ok a /\ g a = Ok b.
Proof. destruct r as [a|e]; cbn; [eauto|discriminate]. Qed.
Lemma checked_ok s s' : checked s = Ok s' -> s' = s /\ existsb (named "inputs") (s_names s) = true /\ NoDup (map fst (s_entries s)) /\ twice_names (s_names s) = false.
Proof.
  unfold checked. destruct (existsb (named "inputs") _); cbn [negb]; [|discriminate]. destruct (twice _) eqn:T; [discriminate|].
  destruct (twice_names _); [discriminate|]. destruct (existsb _ _); [discriminate|]. intros E. injection E as <-. repeat split; trivial. now apply twice_false.
Qed.
Lemma named_some d l : existsb (named d) (map Some l) = true <-> In d l.
Proof.
  rewrite existsb_exists. split.
  - intros (x & X & E). apply in_map_iff in X. destruct X as (y & <- & Y). cbn in E. apply String.eqb_eq in E. now subst.
  - intros X. exists (Some d). split; [now apply in_map|apply String.eqb_refl].
Qed.

Section Load.
  Variables (strict : bool) (t : table) (f : frame) (ds : dset).
  Hypothesis OKT : accepted t.
  Hypothesis REG : regular f.
  Hypothesis SQ : squared t f.
  Hypothesis LOAD : snd (load strict t f) = Ok ds.
  Notation names := (rev (map fst (t_add t)) ++ kept t).

  Lemma load_final : exists s keep,
    ds = to_dataset s /\ s_names s = map Some names /\ NoDup names /\ In "inputs" names /\
    (forall e, In e (s_entries s) -> List.length (fst e) = List.length names) /\ NoDup (map fst (s_entries s)) /\
    (forall ls c, In (ls, c) (s_entries s) <-> exists xs p, In p (filter keep (places f)) /\ ls = rev xs ++ project t (fst (entry t f p)) /\ c = snd (entry t f p) /\
       Forall2 (fun (a : string * list string) x => In x (snd a)) (t_add t) xs) /\
    (forall p, In p (places f) -> keep p = true -> picked t (combine (own_dims t) (fst (entry t f p)))) /\
    (forall p, In p (places f) -> snd (entry t f p) <> NaN -> picked t (combine (own_dims t) (fst (entry t f p))) -> keep p = true) /\
    NoDup (map (fun p => project t (fst (entry t f p))) (filter keep (places f))) /\
    (forall p, In p (places f) -> List.length (own_dims t) = List.length (fst (entry t f p))).
  Proof.
    destruct OKT as (TV & NR & NC & NA & NS). destruct REG as [RB RH]. destruct SQ as [QC QR].
    unfold load in LOAD. cbn [snd] in LOAD. destruct (name_levels t f) as [f' n] eqn:NL. cbn [fst snd] in LOAD.
    apply bind_ok in LOAD. destruct LOAD as ([] & -> & L). clear LOAD. apply bind_ok in L. destruct L as (s1 & T & L).
    apply bind_ok in L. destruct L as (s2 & SE & L). apply bind_ok in L. destruct L as (s3 & DR & L). apply bind_ok in L. destruct L as (s4 & AD & L).
    apply bind_ok in L. destruct L as (s5 & CH & L). injection L as <-.
    apply name_levels_ok in NL. destruct NL as (HE & BE & CE & RE).
    assert (forall p, entry t f' p = entry t f p) as EN by (intros p; unfold entry; now rewrite HE, BE).
    assert (places f' = places f) as PL by (unfold places; now rewrite HE, BE).
    assert (forall p, In p (places f) -> List.length (own_dims t) = List.length (fst (entry t f p))) as LEN.
    { intros [a j] P. apply places_in in P. destruct P as [A J]. unfold entry. cbn [fst snd]. rewrite app_length. unfold own_dims. rewrite app_length. f_equal.
      - symmetry. apply part_length; [exact 0|]. intros d D. pose proof (row_in f a A) as B. destruct (nth a (f_body f) ([], [])) as [r cs]. cbn [fst].
        rewrite (proj1 (RB _ _ B)). now apply RE.
      - symmetry. apply part_length; [exact 0|]. intros d D. rewrite (RH _ (nth_In _ [] J)). now apply CE. }
    destruct (tidy_places t f' s1) as (keep & E1 & K1).
    { intros r cs. rewrite BE, HE. apply RB. }
    { exact T. } { rewrite HE. exact QC. } { rewrite BE. exact QR. } { now apply accepted_side. }
    assert (s_names s1 = map Some (own_dims t)) as N1.
    { apply (tidy_names t f' s1 T). - rewrite HE. exact QC. - rewrite BE. exact QR. - now apply accepted_side. - intros d D. now apply RE. - intros d D. now apply CE. }
    rewrite PL in E1, K1. assert (map (entry t f') (filter keep (places f)) = map (entry t f) (filter keep (places f))) as EE by (apply map_ext; exact EN).
    rewrite EE in E1. clear EE.
    unfold select_labels in SE. destruct (present _ _ _); [|discriminate SE]. injection SE as <-. rewrite N1, E1 in *.
    rewrite filter_map, filter_both in DR. set (keep2 := fun p => _) in DR.
    apply (drop_levels_ok t) in DR; [destruct DR as [N3 E3]|reflexivity|].
    2: { cbn [s_entries]. intros e X. apply in_map_iff in X. destruct X as (p & <- & X). apply filter_In in X. now apply LEN. }
    cbn [s_entries] in E3. rewrite map_map in E3. destruct (add_levels_ok _ _ _ AD) as (N4 & M4 & U4). rewrite N3 in N4.
    apply checked_ok in CH. destruct CH as (-> & IN & UN & TW).
    assert (s_names s4 = map Some names) as N4'. { rewrite N4, map_app, map_rev, map_map. reflexivity. }
    rewrite N4' in IN, TW. apply named_some in IN. apply twice_names_some in TW.
    assert (forall e, In e (s_entries s4) -> List.length (fst e) = List.length names) as L4.
    { intros [ls c] X. apply M4 in X. destruct X as (xs & l0 & -> & F & X). rewrite E3 in X. apply in_map_iff in X. destruct X as (p & E & X). injection E as <- <-.
      cbn [fst]. rewrite !app_length, !rev_length, map_length. rewrite <- (Forall2_length _ _ _ F). f_equal. unfold project, kept. rewrite map_length.
      apply project_length. apply filter_In in X. now apply LEN. }
    exists s4, keep2. split; [trivial|]. split; [exact N4'|]. split; [exact TW|]. split; [exact IN|]. split; [exact L4|]. split; [exact UN|].
    split; [|split; [|split; [|split; [|exact LEN]]]].
    - intros ls c. rewrite M4, E3. split.
      + intros (xs & l0 & -> & F & X). apply in_map_iff in X. destruct X as (p & E & X). injection E as <- <-. exists xs, p. repeat split; trivial.
      + intros (xs & p & X & -> & -> & F). exists xs, (project t (fst (entry t f p))). repeat split; trivial. apply in_map_iff. now exists p.
    - intros p P K. unfold keep2 in K. apply andb_true_iff in K. destruct K as [_ K]. now apply wanted_picked in K.
    - intros p P NN PK. unfold keep2. apply andb_true_iff. split; [apply K1; [trivial|now rewrite EN]|]. now apply wanted_picked.
    - apply U4 in UN. rewrite E3, map_map in UN. exact UN.
  Qed.

  Lemma load_names_length r h a j c : entry_at f a j r h c -> List.length (row_dims t) = List.length (part (t_rows t) r).
  Proof.
    intros (cs & B & _). unfold load in LOAD. cbn [snd] in LOAD. destruct (name_levels t f) as [f' n] eqn:NL. cbn [fst snd] in LOAD.
    apply bind_ok in LOAD. destruct LOAD as ([] & -> & _). apply name_levels_ok in NL. destruct NL as (_ & _ & _ & RE).
    symmetry. apply part_length; [exact 0|]. intros d D. destruct REG as [RB _]. apply nth_error_In in B. rewrite (proj1 (RB _ _ B)). now apply RE.
  Qed.

  (** Places and entries. *)
  Lemma entry_at_place a j r h c : entry_at f a j r h c -> In (a, j) (places f) /\ entry t f (a, j) = (part (t_rows t) r ++ part (t_cols t) h, c).
  Proof.
    intros (cs & B & H & C). split.
    - apply places_in. split; [apply nth_error_Some|apply nth_error_Some]; congruence.
    - unfold entry. cbn [fst snd]. rewrite (nth_error_nth _ _ _ B). cbn [fst snd]. now rewrite (nth_error_nth _ _ _ H), (nth_error_nth _ _ _ C).
  Qed.
  Lemma place_entry_at p : In p (places f) -> exists r h, entry_at f (fst p) (snd p) r h (snd (entry t f p)) /\ fst (entry t f p) = part (t_rows t) r ++ part (t_cols t) h.
  Proof.
    destruct p as [a j]. intros P. apply places_in in P. destruct P as [A J]. unfold entry. cbn [fst snd].
    pose proof (row_in f a A) as B. destruct (nth a (f_body f) ([], [])) as [r cs] eqn:E. exists r, (nth j (f_header f) []). split; [|reflexivity].
    exists cs. cbn [snd]. split; [|split].
    - rewrite (nth_error_nth' _ ([], []) A). now rewrite E.
    - now apply nth_error_nth'.
    - apply nth_error_nth'. destruct REG as [RB _]. rewrite (proj2 (RB _ _ B)). exact J.
  Qed.
  Lemma labels_entry r h : List.length (row_dims t) = List.length (part (t_rows t) r) -> combine (own_dims t) (part (t_rows t) r ++ part (t_cols t) h) = labels_of t r h.
  Proof.
    intros L. unfold own_dims, labels_of. rewrite combine_app by exact L. unfold row_dims, col_dims, part. f_equal; [now destruct (t_rows t)|now destruct (t_cols t)].
  Qed.

  Lemma kept_nodup : NoDup (kept t).
  Proof.
    destruct load_final as (s & keep & _ & _ & ND & _). clear -ND. revert ND. induction (rev (map fst (t_add t))) as [|x l IH]; cbn; intros N; [trivial|]. inversion N; subst. auto.
  Qed.
  (** A cell belongs at labels [q] exactly if its index is made of them. *)
  Lemma lands_index (q : pos) r h : List.length (own_dims t) = List.length (part (t_rows t) r ++ part (t_cols t) h) ->
    List.length (row_dims t) = List.length (part (t_rows t) r) ->
    (lands t (labels_of t r h) q <-> project t (part (t_rows t) r ++ part (t_cols t) h) = map q (kept t) /\ forall d items, In (d, items) (t_add t) -> In (q d) items).
  Proof.
    intros L LR. unfold lands. rewrite <- labels_entry by exact LR. revert L. generalize (part (t_rows t) r ++ part (t_cols t) h) as ls. intros ls L.
    assert ((forall d, kept_dim t d -> In (d, q d) (combine (own_dims t) ls)) <-> project t ls = map q (kept t)) as H; [|tauto].
    unfold project, kept. rewrite project_is by exact L. split.
    - intros H d l X ND. assert (kept_dim t d) as KD. { split; [now apply in_combine_l in X|exact ND]. }
      specialize (H d KD). pose proof kept_nodup as NK. unfold kept in NK. revert NK X H ND. clear. revert ls.
      induction (own_dims t) as [|n ns IH]; intros [|x ls]; cbn [combine]; intros NK X H ND; try contradiction.
      cbn [filter] in NK. destruct X as [E|X], H as [E'|H].
      + injection E as -> ->. now injection E'.
      + injection E as -> ->. exfalso. destruct (smem d (t_drop t)) eqn:SM; [apply smem_true in SM; contradiction|]. cbn [negb] in NK. inversion NK; subst.
        apply H2. apply filter_In. split; [now apply in_combine_l in H|]. now rewrite SM.
      + injection E' as -> ->. exfalso. destruct (smem d (t_drop t)) eqn:SM; [apply smem_true in SM; contradiction|]. cbn [negb] in NK. inversion NK; subst.
        apply H1. apply filter_In. split; [now apply in_combine_l in X|]. now rewrite SM.
      + apply (IH ls); trivial. destruct (negb (smem n (t_drop t))); [now inversion NK|trivial].
    - intros H d [D ND]. revert L H D ND. clear. revert ls. induction (own_dims t) as [|n ns IH]; intros [|x ls] L H D ND; try discriminate; try contradiction.
      destruct D as [->|D].
      + left. f_equal. now apply H; [left|].
      + right. apply IH; trivial; [now injection L|]. intros d' l' X. apply H. now right.
  Qed.

  Lemma load_holds i p c : c <> NaN ->
    (holds ds i p c <-> exists a j r h, entry_at f a j r h c /\ picked t (labels_of t r h) /\ lands t (labels_of t r h) (place i p)).
  Proof.
    intros NC. destruct load_final as (s & keep & DS & NM & ND & INP & LN & U & M & K1 & K2 & _ & LEN).
    rewrite DS, (dataset_holds s _ NM ND INP LN U i p c NC), M. split.
    - intros (xs & [a j] & X & E & -> & F). apply filter_In in X. destruct X as [P K]. destruct (place_entry_at _ P) as (r & h & AT & EL). cbn [fst snd] in AT.
      exists a, j, r, h. split; [exact AT|]. pose proof (load_names_length _ _ _ _ _ AT) as LR. specialize (LEN _ P).
      rewrite EL in LEN, E. specialize (K1 _ P K). rewrite EL, labels_entry in K1 by exact LR. split; [exact K1|]. apply lands_index; trivial.
      rewrite map_app in E. assert (rev xs = map (place i p) (rev (map fst (t_add t))) /\ project t (part (t_rows t) r ++ part (t_cols t) h) = map (place i p) (kept t)) as [E1 E2].
      { assert (List.length (rev xs) = List.length (map (place i p) (rev (map fst (t_add t))))) as LE.
        { rewrite map_length, !rev_length, map_length. symmetry. apply (Forall2_length _ _ _ F). }
        revert E LE. generalize (rev xs) as u, (map (place i p) (rev (map fst (t_add t)))) as v. clear.
        induction u as [|x u IH]; intros [|y v] E LE; try discriminate; cbn in E; [now split|]. injection E as -> E. injection LE as LE. destruct (IH _ E LE) as [-> ?]. now split. }
      split; [exact E2|]. apply (added_is (place i p) (t_add t) xs E1); [|exact F]. symmetry. apply (Forall2_length _ _ _ F).
    - intros (a & j & r & h & AT & PK & LA). destruct (entry_at_place _ _ _ _ _ AT) as [P E]. pose proof (load_names_length _ _ _ _ _ AT) as LR.
      specialize (LEN _ P). rewrite E in LEN. cbn [fst] in LEN. apply lands_index in LA; trivial. destruct LA as [L1 L2].
      exists (map (place i p) (map fst (t_add t))), (a, j). split; [|split; [|split]].
      + apply filter_In. split; [exact P|]. apply K2; [exact P|now rewrite E|]. rewrite E. cbn [fst]. now rewrite labels_entry.
      + rewrite E. cbn [fst]. rewrite L1, map_app. f_equal. now rewrite !map_rev.
      + now rewrite E.
      + now apply added_all.
  Qed.
  Lemma load_once a j r h c a' j' r' h' c' q q' : c <> NaN -> c' <> NaN -> entry_at f a j r h c -> entry_at f a' j' r' h' c' ->
    picked t (labels_of t r h) -> picked t (labels_of t r' h') -> lands t (labels_of t r h) q -> lands t (labels_of t r' h') q' ->
    (forall d, kept_dim t d -> q d = q' d) -> a = a' /\ j = j'.
  Proof.
    intros NC NC' AT AT' PK PK' LA LA' Q. destruct load_final as (s & keep & _ & _ & _ & _ & _ & _ & _ & _ & K2 & U & LEN).
    destruct (entry_at_place _ _ _ _ _ AT) as [P E]. destruct (entry_at_place _ _ _ _ _ AT') as [P' E'].
    pose proof (load_names_length _ _ _ _ _ AT) as LR. pose proof (load_names_length _ _ _ _ _ AT') as LR'.
    pose proof (LEN _ P) as L. pose proof (LEN _ P') as L'. rewrite E in L. rewrite E' in L'. cbn [fst] in L, L'.
    apply lands_index in LA; trivial. apply lands_index in LA'; trivial.
    assert ((a, j) = (a', j')) as X; [|now injection X].
    apply (nodup_same (fun p => project t (fst (entry t f p))) (filter keep (places f)) _ _ U).
    - apply filter_In. split; [exact P|]. apply K2; [exact P|now rewrite E|]. rewrite E. cbn [fst]. now rewrite labels_entry.
    - apply filter_In. split; [exact P'|]. apply K2; [exact P'|now rewrite E'|]. rewrite E'. cbn [fst]. now rewrite labels_entry.
    - rewrite E, E'. cbn [fst]. destruct LA as [-> _], LA' as [-> _]. apply map_ext_in. intros d D. apply Q. now apply kept_in.
  Qed.
  Lemma load_dims i a d : In (i, a) (vars ds) -> (In d (a_dims a) <-> (kept_dim t d \/ added_dim t d) /\ d <> "inputs").
  Proof.
    destruct load_final as (s & keep & DS & NM & ND & INP & _). intros X. rewrite DS in X. rewrite (dataset_dims s _ _ X), (dims_mem s _ NM ND INP).
    rewrite in_app_iff, <- in_rev, kept_in. unfold added_dim. tauto.
  Qed.
End Load.

Lemma load_unprotected strict t f ds i a : snd (load strict t f) = Ok ds -> In (i, a) (vars ds) -> ~ In i protected_names.
Proof.
  unfold load. cbn [snd]. intros L. apply bind_ok in L. destruct L as ([] & _ & L). apply bind_ok in L. destruct L as (s1 & _ & L).
  apply bind_ok in L. destruct L as (s2 & _ & L). apply bind_ok in L. destruct L as (s3 & _ & L). apply bind_ok in L. destruct L as (s4 & _ & L).
  apply bind_ok in L. destruct L as (s & CH & L). injection L as <-. unfold checked in CH.
  destruct (existsb (named "inputs") _); cbn [negb] in CH; [|discriminate CH]. destruct (twice _); [discriminate CH|].
  destruct (twice_names _); [discriminate CH|]. destruct (existsb _ _) eqn:E in CH; [discriminate CH|]. injection CH as <-.
  cbn [to_dataset vars]. intros X. apply in_map_iff in X. destruct X as (i' & E' & X). injection E' as -> _. apply nodup_In in X. apply in_map_iff in X.
  destruct X as (e & <- & X). intros P. apply smem_true in P.
  assert (existsb (fun e => smem (nth (level_of "inputs" (s_names s4)) (fst e) "") protected_names) (s_entries s4) = true) as Y by (apply existsb_exists; now exists e).
  congruence.
Qed.

(** ** Several tables *)
Definition untouched (t : table) : Prop := forall d, In d (own_dims t) -> renamed (t_rename t) (Some d) = Some d.
Lemma names_fit_same ds : names_fit (map Some ds) ds = true.
Proof. induction ds as [|d ds IH]; [reflexivity|]. cbn. now rewrite String.eqb_refl, IH. Qed.
Lemma name_axis_again m l ns l' : name_axis m l ns = (l', Ok tt) -> (forall d, In d (listed ns) -> renamed m (Some d) = Some d) -> name_axis m l' ns = (l', Ok tt).
Proof.
  unfold name_axis. destruct ns as [ds|].
  - destruct (Nat.eqb _ _) eqn:L; cbn [negb]; [|intros E; discriminate E].
    destruct (names_fit _ _); intros E; [|discriminate E]. injection E as <-. intros R. rewrite map_length, Nat.eqb_refl. cbn [negb].
    assert (map (renamed m) (map Some ds) = map Some ds) as ->. { rewrite map_map. apply map_ext_in. intros d D. now apply R. }
    now rewrite names_fit_same.
  - intros E _. injection E as <- E. now rewrite E.
Qed.
Lemma name_levels_again t f f' : name_levels t f = (f', Ok tt) -> untouched t -> name_levels t f' = (f', Ok tt).
Proof.
  unfold name_levels. intros E UN. destruct (name_axis (t_rename t) (f_cols f) (t_cols t)) as [c rc] eqn:C. cbn [fst snd] in E.
  destruct rc as [[]|e]; [|discriminate E]. destruct (name_axis (t_rename t) (f_rows f) (t_rows t)) as [r rr] eqn:R. cbn [fst snd] in E. injection E as <- ->. cbn [f_rows f_cols f_header f_body].
  rewrite (name_axis_again _ _ _ _ C) by (intros d D; apply UN; apply in_app_iff; now right). cbn [fst snd].
  rewrite (name_axis_again _ _ _ _ R) by (intros d D; apply UN; apply in_app_iff; now left). reflexivity.
Qed.
(** Two definitions that name the levels in the same way. *)
Definition alike (t u : table) : Prop := t_rows t = t_rows u /\ t_cols t = t_cols u /\ t_rename t = t_rename u.
Lemma alike_names t u f : alike t u -> name_levels t f = name_levels u f.
Proof. intros (R & C & M). unfold name_levels. now rewrite R, C, M. Qed.
Lemma load_again strict t u f : alike t u -> untouched t -> snd (name_levels t f) = Ok tt -> load strict u (fst (load strict t f)) = load strict u f.
Proof.
  intros A UN OKN. unfold load at 2. cbn [fst]. destruct (name_levels t f) as [f' r] eqn:N. cbn [fst snd] in *. subst r.
  unfold load. rewrite <- !(alike_names t u) by exact A. rewrite N. now rewrite (name_levels_again _ _ _ N UN).
Qed.
Lemma load_ok_names strict t f ds : snd (load strict t f) = Ok ds -> snd (name_levels t f) = Ok tt.
Proof. unfold load. cbn [snd]. intros E. apply bind_ok in E. destruct E as ([] & E & _). exact E. Qed.

Lemma load_all_alone strict : forall ts dfs0 dfs out,
  (forall df f, d_get df dfs = Some f -> exists f0, d_get df dfs0 = Some f0 /\ (f = f0 \/ exists t, f = fst (load strict t f0) /\ snd (name_levels t f0) = Ok tt /\ untouched t /\
     forall n' t', In (n', (df, t')) ts -> alike t t')) ->
  (forall n t df, In (n, (df, t)) ts -> untouched t) ->
  (forall n t n' t' df, In (n, (df, t)) ts -> In (n', (df, t')) ts -> alike t t') ->
  snd (load_all strict ts dfs) = Ok out ->
  Forall2 (fun d o => fst d = fst o /\ exists f, d_get (fst (snd d)) dfs0 = Some f /\ snd (load strict (snd (snd d)) f) = Ok (snd o)) ts out.
Proof.
  induction ts as [|[n [df t]] ts IH]; intros dfs0 dfs out INV UN AL; cbn [load_all snd].
  - intros E. injection E as <-. constructor.
  - destruct (d_get df dfs) as [f|] eqn:G; [|cbn; discriminate].
    destruct (INV _ _ G) as (f0 & G0 & W).
    assert (load strict t f = load strict t f0) as SAME.
    { destruct W as [->|(t0 & -> & N0 & U0 & A0)]; [reflexivity|]. apply load_again; trivial. apply (A0 n). now left. }
    rewrite SAME. destruct (snd (load strict t f0)) as [ds|e] eqn:L; [|cbn; discriminate]. cbn [fst snd].
    intros E. apply bind_ok in E. destruct E as (o & E & X). injection X as <-. constructor.
    + cbn [fst snd]. split; [trivial|]. exists f0. now split.
    + apply (IH dfs0) in E; trivial.
      * intros df' f' G'. destruct (string_dec df' df) as [->|NE].
        { rewrite d_get_set_same in G'. injection G' as <-. exists f0. split; [trivial|]. right. exists t. split; [trivial|]. split; [now apply load_ok_names in L|].
          split; [apply (UN n t df); now left|]. intros n' t' Y. apply (AL n t n' t' df); [now left|now right]. }
        { rewrite d_get_set_other in G' by exact NE. destruct (INV _ _ G') as (f1 & G1 & W1). exists f1. split; [trivial|]. destruct W1 as [->|(t0 & H1 & H2 & H3 & H4)]; [now left|].
          right. exists t0. repeat split; trivial; intros; apply (H4 n' t'); now right. }
      * intros n' t' df' Y. apply (UN n' t' df'). now right.
      * intros n1 t1 n2 t2 df' Y1 Y2. apply (AL n1 t1 n2 t2 df'); now right.
Qed.

(** ** The loaded dataset is well-formed *)
Lemma nodup_filter_names {A} (g : A -> bool) l : NoDup l -> NoDup (filter g l).
Proof. apply filter_nodup. Qed.
Lemma load_proper strict t f ds : accepted t -> regular f -> squared t f -> snd (load strict t f) = Ok ds ->
  proper_dset ds /\ forall i a, In (i, a) (vars ds) -> NoDup (a_dims a).
Proof.
  intros A R Q L. destruct (load_final strict t f ds A R Q L) as (s & keep & -> & NM & ND & INP & _).
  assert (NoDup (dims_left s)) as NDL.
  { rewrite (dims_are s _ NM). destruct (level_of_split _ _ INP) as (a & b & E & K & _). rewrite K, E, without_mid. rewrite E in ND. now apply NoDup_remove_1 in ND. }
  split; [constructor|].
  - cbn [to_dataset coords]. rewrite map_map. cbn [fst]. rewrite combine_snd by now rewrite seq_length. exact NDL.
  - cbn [to_dataset vars]. rewrite map_map. cbn [fst]. rewrite map_id. apply NoDup_nodup.
  - cbn [to_dataset vars]. intros n a X. apply in_map_iff in X. destruct X as (i & E & _). injection E as _ <-. intros p q AG. cbn [a_at a_dims] in *. f_equal.
    apply map_ext_in. exact AG.
  - intros i a X. now rewrite (dataset_dims s _ _ X).
Qed.

(** ** Technologies at nodes *)
Lemma any_entry ds a outer n : proper a -> NoDup (map fst (coords ds)) -> NoDup (a_dims a) -> incl outer (a_dims a) ->
  (forall d, In d outer -> member ds d (n d)) ->
  (any_over ds (filter (fun d => negb (smem d outer)) (a_dims a)) (fun p => negb (is_nan (a_at a p))) n = true <->
   exists p, within ds (a_dims a) p /\ (forall d, In d outer -> p d = n d) /\ a_at a p <> NaN).
Proof.
  intros PR NC ND INC MEM. rewrite any_over_spec.
  - split.
    + intros (j & O & W & V). exists j. assert (forall d, In d outer -> j d = n d) as OUT.
      { intros d D. apply O. rewrite filter_In. intros [_ F]. rewrite (proj2 (smem_true d outer) D) in F. discriminate F. }
      split; [|split; [exact OUT|]].
      * intros d D. destruct (smem d outer) eqn:SM.
        { apply smem_true in SM. rewrite OUT by exact SM. now apply MEM. }
        { apply member_in; [exact NC|]. apply W. apply filter_In. now rewrite SM. }
      * intros E. rewrite E in V. discriminate V.
    + intros (p & W & O & V). exists (fun d => if smem d (a_dims a) then p d else n d). split; [|split].
      * intros d D. destruct (smem d (a_dims a)) eqn:SM; [|trivial]. apply O. destruct (smem d outer) eqn:SO; [now apply smem_true|].
        exfalso. apply D. apply filter_In. rewrite SO. split; [now apply smem_true|trivial].
      * intros d D. apply filter_In in D. destruct D as [D _]. rewrite (proj2 (smem_true _ _) D). apply member_in; [exact NC|]. now apply W.
      * rewrite (PR _ p); [destruct (a_at a p); trivial; now contradiction V|]. intros d D. now rewrite (proj2 (smem_true _ _) D).
  - now apply filter_nodup.
  - intros j k E. f_equal. f_equal. apply PR. intros d _. apply E.
Qed.

Section Nodes.
  Variable ds : dset.
  Hypothesis PD : proper_dset ds.
  Hypothesis DN : forall i a, In (i, a) (vars ds) -> NoDup (a_dims a).

  Lemma has_data_spec n t : In n (members ds "nodes") -> In t (members ds "techs") -> (has_data ds n t = true <-> data_at ds n t).
  Proof.
    intros MN MT. unfold has_data, data_at. rewrite existsb_exists. split.
    - intros ([i a] & X & V). apply filter_In in X. destruct X as [X O]. unfold over_node_techs in O. cbn [snd] in *. apply andb_true_iff in O. destruct O as [ON OT].
      apply smem_true in ON, OT. apply any_entry in V.
      + destruct V as (p & W & O & V). exists i, a, p. repeat split; trivial; [now rewrite (O "nodes") by (now left)|now rewrite (O "techs") by (right; now left)].
      + apply (pd_proper ds PD i a X). + apply PD. + now apply (DN i). + intros d [<-|[<-|[]]]; trivial.
      + intros d [<-|[<-|[]]]; apply member_in; try apply PD; trivial.
    - intros (i & a & p & X & ON & OT & W & PN & PT & V). exists (i, a). split.
      + apply filter_In. split; [trivial|]. unfold over_node_techs. cbn [snd]. now rewrite (proj2 (smem_true _ _) ON), (proj2 (smem_true _ _) OT).
      + cbn [snd]. apply any_entry.
        * apply (pd_proper ds PD i a X). * apply PD. * now apply (DN i). * intros d [<-|[<-|[]]]; trivial.
        * intros d [<-|[<-|[]]]; apply member_in; try apply PD; trivial.
        * exists p. repeat split; trivial. intros d [<-|[<-|[]]]; cbn; trivial.
  Qed.
  Lemma data_members n t : data_at ds n t -> In n (members ds "nodes") /\ In t (members ds "techs").
  Proof.
    intros (i & a & p & X & ON & OT & W & PN & PT & V). split; (apply member_in; [apply PD|]).
    - rewrite <- PN. now apply W. - rewrite <- PT. now apply W.
  Qed.

  Definition nodes_go (techs links : list string) := fix go (ns : list string) : result dict :=
       match ns with
       | [] => Ok []
       | n :: r =>
           let here := filter (has_data ds n) (members ds "techs") in
           if existsb (fun t => negb (smem t techs)) here then Err EKey
           else if existsb (fun t => smem t links) here then Err EModel
           else bind (go r) (fun o => Ok ((n, VDict [("techs", VDict (map (fun t => (t, VNone)) here))]) :: o))
       end.
  Definition fine (techs links : list string) (n : string) : Prop := forall t, In t (filter (has_data ds n) (members ds "techs")) -> In t techs /\ ~ In t links.
  Lemma nodes_go_ok techs links ns d : nodes_go techs links ns = Ok d ->
    (forall n, In n ns -> fine techs links n) /\ d = map (fun n => (n, VDict [("techs", VDict (map (fun t => (t, VNone)) (filter (has_data ds n) (members ds "techs"))))])) ns.
  Proof.
    revert d. induction ns as [|n ns IH]; intros d; cbn [nodes_go].
    - intros E. injection E as <-. split; [intros n []|trivial].
    - destruct (existsb _ _) eqn:E1; [discriminate|]. destruct (existsb _ _) eqn:E2 in |- *; [discriminate|].
      intros E. apply bind_ok in E. destruct E as (o & G & E). injection E as <-. destruct (IH _ G) as [F ->]. split; [|reflexivity].
      intros m [<-|M]; [|now apply F]. intros t T. split.
      + destruct (smem t techs) eqn:S1; [now apply smem_true|]. exfalso. assert (existsb (fun t => negb (smem t techs)) (filter (has_data ds n) (members ds "techs")) = true) as Y; [|congruence].
        apply existsb_exists. exists t. now rewrite S1.
      + intros LK. assert (existsb (fun t => smem t links) (filter (has_data ds n) (members ds "techs")) = true) as Y; [|congruence].
        apply existsb_exists. exists t. split; [trivial|now apply smem_true].
  Qed.
  Lemma nodes_go_total techs links ns : (forall n, In n ns -> fine techs links n) -> exists d, nodes_go techs links ns = Ok d.
  Proof.
    induction ns as [|n ns IH]; intros F; cbn [nodes_go]; [eauto|].
    destruct (existsb _ _) eqn:E1.
    { exfalso. apply existsb_exists in E1. destruct E1 as (t & T & N). destruct (F n (or_introl eq_refl) t T) as [X _]. apply smem_true in X. rewrite X in N. discriminate N. }
    destruct (existsb _ _) eqn:E2 in |- *.
    { exfalso. apply existsb_exists in E2. destruct E2 as (t & T & N). destruct (F n (or_introl eq_refl) t T) as [_ X]. apply smem_true in N. contradiction. }
    destruct IH as [d ->]; [intros m M; apply F; now right|]. cbn. eauto.
  Qed.
  Lemma no_node_data : existsb over_node_techs (vars ds) = false -> forall n t, ~ data_at ds n t.
  Proof.
    intros E n t (i & a & p & X & ON & OT & _). assert (existsb over_node_techs (vars ds) = true) as Y; [|congruence].
    apply existsb_exists. exists (i, a). split; [trivial|]. unfold over_node_techs. cbn [snd]. now rewrite (proj2 (smem_true _ _) ON), (proj2 (smem_true _ _) OT).
  Qed.
  Lemma fine_spec techs links n : In n (members ds "nodes") -> (fine techs links n <-> forall t, data_at ds n t -> In t techs /\ ~ In t links).
  Proof.
    intros MN. unfold fine. split; intros F t T.
    - apply F. apply filter_In. destruct (data_members _ _ T) as [_ MT]. split; [trivial|]. now apply has_data_spec.
    - apply filter_In in T. destruct T as [MT T]. apply F. now apply has_data_spec.
  Qed.
  Lemma node_dict_total techs links : (forall n t, data_at ds n t -> In t techs /\ ~ In t links) <-> exists d, node_dict techs links ds = Ok d.
  Proof.
    unfold node_dict. destruct (existsb over_node_techs (vars ds)) eqn:E; cbn [negb].
    - change (fix go (ns : list string) : result dict := _) with (nodes_go techs links). split.
      + intros F. apply nodes_go_total. intros n N. apply fine_spec; trivial. intros t. apply F.
      + intros [d G]. apply nodes_go_ok in G. destruct G as [F _]. intros n t T. destruct (data_members _ _ T) as [MN _]. apply (proj1 (fine_spec techs links n MN)); [now apply F|trivial].
    - split; [eauto|]. intros _ n t T. now apply no_node_data in T.
  Qed.
  Lemma node_dict_lists techs links d : node_dict techs links ds = Ok d -> forall n t, lists_tech d n t <-> data_at ds n t.
  Proof.
    unfold node_dict. destruct (existsb over_node_techs (vars ds)) eqn:E; cbn [negb].
    - change (fix go (ns : list string) : result dict := _) with (nodes_go techs links). intros G n t. apply nodes_go_ok in G. destruct G as [_ ->].
      unfold lists_tech. rewrite d_get_map_names. split.
      + intros (x & y & X & Y & T). destruct (smem n (members ds "nodes")) eqn:MN; [|discriminate X]. injection X as <-. cbn in Y. injection Y as <-.
        rewrite map_map, map_id in T. apply filter_In in T. apply smem_true in MN. now apply has_data_spec.
      + intros T. destruct (data_members _ _ T) as [MN MT]. rewrite (proj2 (smem_true _ _) MN). do 2 eexists. split; [reflexivity|]. split; [reflexivity|].
        rewrite map_map, map_id. apply filter_In. split; [trivial|]. now apply has_data_spec.
    - intros G n t. injection G as <-. split; [intros (x & y & X & _); discriminate X|]. intros T. now apply no_node_data in T.
  Qed.

  (** ** Lookups *)
  Lemma lookup_dict_gives param dim d : dim <> "techs" -> lookup_dict param dim ds = Ok d -> NoDup (members ds "techs") ->
    forall t l, gives d t param l <-> entry_for ds param dim t l.
  Proof.
    intros ND. unfold lookup_dict. destruct (d_get param (vars ds)) as [a|] eqn:G.
    2: { intros E _ t l. injection E as <-. split; [intros (x & X & _); discriminate X|]. intros (a & p & X & _). apply (d_get_nodup _ _ _ (pd_vars ds PD)) in X. congruence. }
    pose proof (d_get_found _ _ _ G) as X. destruct (smem "techs" (a_dims a)) eqn:DT; [|discriminate]. destruct (smem dim (a_dims a)) eqn:DD; [|discriminate]. cbn [negb orb].
    apply smem_true in DT, DD. intros E NT t l. injection E as <-.
    set (labels := fun t => filter (fun l => any_over ds (filter (fun d => negb (smem d ["techs"; dim])) (a_dims a)) (fun p => negb (is_nan (a_at a p))) (upd (at_tech t) dim l)) (members ds dim)).
    assert (forall t l, In t (members ds "techs") -> (In l (labels t) <-> entry_for ds param dim t l)) as LB.
    { intros u m MT. unfold labels. rewrite filter_In. split.
      - intros [MM V]. apply any_entry in V.
        + destruct V as (p & W & O & V). exists a, p. repeat split; trivial.
          * rewrite (O "techs") by now left. rewrite upd_other by congruence. reflexivity.
          * rewrite (O dim) by (right; now left). apply upd_same.
        + apply (pd_proper ds PD param a X). + apply PD. + now apply (DN param). + intros x [<-|[<-|[]]]; trivial.
        + intros x [<-|[<-|[]]]; (apply member_in; [apply PD|]); [rewrite upd_other by congruence; exact MT|rewrite upd_same; exact MM].
      - intros (b & p & Y & W & PT & PL & V). assert (b = a) as -> by (apply (d_get_nodup _ _ _ (pd_vars ds PD)) in Y; congruence).
        assert (In m (members ds dim)) as MM. { rewrite <- PL. apply member_in; [apply PD|]. now apply W. }
        split; [exact MM|]. apply any_entry.
        + apply (pd_proper ds PD param a X). + apply PD. + now apply (DN param). + intros x [<-|[<-|[]]]; trivial.
        + intros x [<-|[<-|[]]]; (apply member_in; [apply PD|]); [rewrite upd_other by congruence; exact MT|rewrite upd_same; exact MM].
        + exists p. split; [exact W|]. split; [|exact V]. intros x [<-|[<-|[]]]; [rewrite upd_other by congruence; exact PT|rewrite upd_same; exact PL]. }
    set (out := fun t : string => match labels t with [] => [] | [l] => [(t, VDict [(param, VStr l)])] | _ => [(t, VDict [(param, VList (map VStr (labels t)))])] end).
    change (flat_map _ _) with (flat_map out (members ds "techs")).
    assert (forall ts, NoDup ts -> d_get t (flat_map out ts) = if smem t ts then match labels t with [] => None | [l] => Some (VDict [(param, VStr l)]) | _ => Some (VDict [(param, VList (map VStr (labels t)))]) end else None) as GET.
    { induction ts as [|u ts IH]; intros NTS; [reflexivity|]. inversion NTS; subst. cbn [flat_map smem existsb]. fold (smem t ts). unfold out at 1.
      destruct (String.eqb t u) eqn:E; cbn [orb].
      - apply String.eqb_eq in E. subst u. assert (smem t ts = false) as SM by now apply smem_false. destruct (labels t) as [|l1 [|l2 ls]]; cbn [app d_get]; rewrite ?String.eqb_refl; trivial.
        rewrite (IH H2), SM. reflexivity.
      - destruct (labels u) as [|l1 [|l2 ls]]; cbn [app d_get]; rewrite ?E; now apply IH. }
    unfold gives. rewrite (GET _ NT). split.
    - intros (x & Y & Z). destruct (smem t (members ds "techs")) eqn:MT; [|discriminate Y]. apply smem_true in MT. apply LB; [exact MT|].
      destruct (labels t) as [|l1 [|l2 ls]]; [discriminate Y| |].
      + injection Y as <-. cbn in Z. rewrite String.eqb_refl in Z. destruct Z as [Z|(vs & Z & _)]; [injection Z as ->; now left|discriminate Z].
      + injection Y as <-. cbn [d_get] in Z. rewrite String.eqb_refl in Z. destruct Z as [Z|(vs & Z & V)]; [discriminate Z|]. injection Z as <-.
        change (In (VStr l) (map VStr (l1 :: l2 :: ls))) in V. apply in_map_iff in V. destruct V as (m & Em & M). now injection Em as ->.
    - intros EF. assert (In t (members ds "techs")) as MT.
      { destruct EF as (b & p & Y & W & PT & _). assert (b = a) as -> by (apply (d_get_nodup _ _ _ (pd_vars ds PD)) in Y; congruence).
        rewrite <- PT. apply member_in; [apply PD|]. now apply W. }
      rewrite (proj2 (smem_true _ _) MT). apply LB in EF; [|exact MT]. destruct (labels t) as [|l1 [|l2 ls]] eqn:LS; [contradiction| |].
      + destruct EF as [->|[]]. eexists. split; [reflexivity|]. left. cbn. now rewrite String.eqb_refl.
      + eexists. split; [reflexivity|]. right. exists (map VStr (l1 :: l2 :: ls)). split; [cbn [d_get]; now rewrite String.eqb_refl|]. now apply in_map.
  Qed.
End Nodes.
