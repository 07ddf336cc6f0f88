From Verif Require Import Base BaseProofs DataModel DataSpec.
Local Open Scope string_scope.
Local Open Scope list_scope.
Local Arguments String.eqb : simpl never.

Lemma upd_same i d m : upd i d m d = m.
Proof. unfold upd; rewrite String.eqb_refl; reflexivity. Qed.
Lemma upd_other i d m x : x <> d -> upd i d m x = i x.
Proof. intros N; unfold upd; destruct (String.eqb_spec x d); [contradiction|reflexivity]. Qed.

Lemma member_in ds d m : NoDup (map fst (coords ds)) -> (member ds d m <-> In m (members ds d)).
Proof.
  intros ND; unfold member, members; split.
  - intros [l [I J]]; rewrite (d_in_get _ _ _ ND I); exact J.
  - destruct (d_get d (coords ds)) as [l|] eqn:G; [|intros []]; intros J; exists l; split; [apply d_get_in; exact G|exact J].
Qed.

(** [any_over] finds a position that differs on the given dimensions only. *)
Lemma any_over_spec ds dims f i : NoDup dims -> (forall j k, (forall d, j d = k d) -> f j = f k) ->
  (any_over ds dims f i = true <-> exists j, (forall d, ~ In d dims -> j d = i d) /\ (forall d, In d dims -> In (j d) (members ds d)) /\ f j = true).
Proof.
  intros ND FE; revert i; induction dims as [|d r IH]; intros i.
  - simpl; split; [intros E; exists i; split; [auto|split; [intros d []|exact E]]|].
    intros [j [A [_ FJ]]]; rewrite <- FJ; apply FE; intros x; symmetry; apply A; auto.
  - inversion ND as [|? ? NI ND']; subst; simpl; rewrite existsb_exists; split.
    + intros [m [M E]]; apply (IH ND') in E; destruct E as [j [A [B FJ]]]; exists j; split; [|split; [|exact FJ]].
      * intros x N; rewrite A by tauto; apply upd_other; intros ->; apply N; left; reflexivity.
      * intros x [<-|I]; [rewrite A by exact NI; rewrite upd_same; exact M|apply B; exact I].
    + intros [j [A [B E]]]; exists (j d); split; [apply B; left; reflexivity|]; apply (IH ND'); exists j; split; [|split; [|exact E]].
      * intros x N; destruct (String.eqb_spec x d) as [->|NE]; [rewrite upd_same; reflexivity|rewrite upd_other by exact NE; apply A; intros [<-|I]; [congruence|contradiction]].
      * intros x I; apply B; right; exact I.
Qed.

Lemma def_dims_nodup : NoDup def_dims.
Proof. unfold def_dims; repeat constructor; simpl; intuition discriminate. Qed.
Lemma filter_nodup {A} (p : A -> bool) l : NoDup l -> NoDup (filter p l).
Proof. apply NoDup_filter. Qed.

(** ** Dropping undefined members *)
Definition depends (def : pos -> bool) : Prop := forall i j, agree def_dims i j -> def i = def j.

Lemma depends_ext def : depends def -> forall j k, (forall d, j d = k d) -> def j = def k.
Proof. intros D j k E; apply D; intros d _; apply E. Qed.

Section Drop.
Variable def : pos -> bool.
Hypothesis D : depends def.

(** A member is used if some defined position has it. *)
Definition used (ds : dset) (d m : string) : Prop :=
  exists j, j d = m /\ (forall x, In x def_dims -> x <> d -> In (j x) (members ds x)) /\ def j = true.

Lemma any_used ds d m : In d def_dims ->
  (any_over ds (filter (fun x => negb (String.eqb x d)) def_dims) def (upd origin d m) = true <-> used ds d m).
Proof using D.
  intros I; rewrite any_over_spec by (try apply filter_nodup, def_dims_nodup; apply depends_ext; exact D).
  assert (F : forall x, In x (filter (fun x => negb (String.eqb x d)) def_dims) <-> In x def_dims /\ x <> d).
  { intros x; rewrite filter_In; destruct (String.eqb_spec x d); simpl; intuition congruence. }
  split.
  - intros [j [A [B E]]]; exists j; split; [|split; [|exact E]].
    + rewrite A by (rewrite F; tauto); apply upd_same.
    + intros x X N; apply B, F; auto.
  - intros [j [A [B E]]].
    exists (fun x => if smem x def_dims then j x else upd origin d m x); split; [|split].
    + intros x X; destruct (smem x def_dims) eqn:S; [|reflexivity]; apply smem_in in S.
      destruct (String.eqb_spec x d) as [->|N]; [rewrite upd_same; exact A|exfalso; apply X, F; auto].
    + intros x X; apply F in X; destruct X as [X N]; rewrite (proj2 (smem_in x def_dims) X); apply B; assumption.
    + rewrite <- E; apply D; intros x X; rewrite (proj2 (smem_in x def_dims) X); reflexivity.
Qed.

Lemma drop_dim_members d ds x : In d def_dims ->
  members (drop_dim def d ds) x = if String.eqb x d then filter (fun m => any_over ds (filter (fun x => negb (String.eqb x d)) def_dims) def (upd origin d m)) (members ds d) else members ds x.
Proof using.
  intros I; unfold members, drop_dim; cbn [coords].
  induction (coords ds) as [|[c l] cs IH]; simpl; [destruct (String.eqb x d); reflexivity|].
  destruct (String.eqb_spec c d) as [->|N]; simpl.
  - destruct (String.eqb_spec x d) as [->|N']; [rewrite String.eqb_refl; reflexivity|exact IH].
  - destruct (String.eqb_spec x c) as [->|N'].
    + destruct (String.eqb_spec c d); [contradiction|reflexivity].
    + destruct (String.eqb_spec x d) as [->|N2]; [|exact IH].
      destruct (String.eqb_spec d c); [congruence|exact IH].
Qed.

Lemma drop_dim_in d ds x m : In d def_dims ->
  (In m (members (drop_dim def d ds) x) <-> In m (members ds x) /\ (x = d -> used ds d m)).
Proof using D.
  intros I; rewrite drop_dim_members by exact I; destruct (String.eqb_spec x d) as [->|N].
  - rewrite filter_In, any_used by exact I; tauto.
  - tauto.
Qed.

(** Dropping one dimension does not change which positions are defined within the coordinates. *)
Definition live (ds : dset) (j : pos) : Prop := (forall x, In x def_dims -> In (j x) (members ds x)) /\ def j = true.

Lemma drop_dim_live d ds j : In d def_dims -> (live (drop_dim def d ds) j <-> live ds j).
Proof using D.
  intros I; unfold live; split; intros [A E]; (split; [|exact E]); intros x X.
  - specialize (A x X); apply drop_dim_in in A; tauto.
  - apply drop_dim_in; [exact I|]; split; [apply A; exact X|]; intros ->; exists j; split; [reflexivity|split; [|exact E]]; intros y Y _; apply A; exact Y.
Qed.

Lemma used_live ds d m : In d def_dims -> In m (members ds d) -> (used ds d m <-> exists j, live ds j /\ j d = m).
Proof using.
  intros I M; split.
  - intros [j [A [B E]]]; exists j; split; [split; [|exact E]|exact A].
    intros x X; destruct (String.eqb_spec x d) as [->|N]; [rewrite A; exact M|apply B; assumption].
  - intros [j [[A E] B]]; exists j; split; [exact B|split; [|exact E]]; intros x X _; apply A; exact X.
Qed.

Lemma drop_dims_in dims : incl dims def_dims -> forall ds x m,
  (In m (members (fold_left (fun ds d => drop_dim def d ds) dims ds) x) <->
   In m (members ds x) /\ (In x dims -> exists j, live ds j /\ j x = m)).
Proof using D.
  induction dims as [|d r IH]; intros I ds x m; simpl; [tauto|].
  assert (ID : In d def_dims) by (apply I; left; reflexivity).
  rewrite IH by (intros y Y; apply I; right; exact Y); rewrite drop_dim_in by exact ID; split.
  - intros [[M U] L]; split; [exact M|]; intros [<-|X].
    + apply used_live; auto.
    + destruct (L X) as [j [LJ E]]; exists j; split; [apply (drop_dim_live d); assumption|exact E].
  - intros [M L]; split; [split; [exact M|]|].
    + intros ->; apply used_live; [exact ID|exact M|apply L; left; reflexivity].
    + intros X; destruct (L (or_intror X)) as [j [LJ E]]; exists j; split; [apply drop_dim_live; assumption|exact E].
Qed.

Lemma drop_members ds x m : 
  (In m (members (drop_undefined def ds) x) <-> In m (members ds x) /\ (In x def_dims -> exists j, live ds j /\ j x = m)).
Proof using D.
  change (members (drop_undefined def ds) x) with (members (fold_left (fun ds d => drop_dim def d ds) def_dims ds) x).
  apply drop_dims_in; intros y Y; exact Y.
Qed.

Lemma drop_coords_names ds : map fst (coords (drop_undefined def ds)) = map fst (coords ds).
Proof using.
  change (coords (drop_undefined def ds)) with (coords (fold_left (fun ds d => drop_dim def d ds) def_dims ds)).
  assert (G : forall dims ds, map fst (coords (fold_left (fun ds d => drop_dim def d ds) dims ds)) = map fst (coords ds)).
  { induction dims as [|d r IH]; intros ds0; simpl; [reflexivity|]; rewrite IH; unfold drop_dim; cbn [coords]; rewrite map_map.
    apply map_ext; intros [c l]; simpl; destruct (String.eqb c d); reflexivity. }
  apply G.
Qed.

Lemma fold_vars dims ds : vars (fold_left (fun ds d => drop_dim def d ds) dims ds) = vars ds.
Proof using. revert ds; induction dims as [|d r IH]; intros ds; simpl; [reflexivity|]; rewrite IH; reflexivity. Qed.

Lemma drop_vars ds n a : n <> "definition_matrix" ->
  (In (n, a) (vars (drop_undefined def ds)) <-> In (n, a) (vars ds) /\
    all_over (drop_undefined def ds) (a_dims a) (fun i => is_nan (a_at a i)) origin = false).
Proof using.
  intros N; unfold drop_undefined at 1; cbv zeta; cbn [vars]; rewrite filter_In, fold_vars; cbn [snd].
  assert (S : forall (l : list (string * array)) w, In (n, a) (d_set "definition_matrix" w l) <-> In (n, a) l).
  { intros l w; induction l as [|[k v] l IH]; simpl; [split; [intros [E|[]]; congruence|tauto]|].
    destruct (String.eqb_spec "definition_matrix" k) as [<-|NE]; simpl; [|rewrite IH; tauto].
    split; (intros [E|I]; [congruence|tauto]). }
  rewrite S, negb_true_iff.
  assert (AO : forall c1 c2 dims f i, (forall x, members c1 x = members c2 x) -> any_over c1 dims f i = any_over c2 dims f i).
  { intros c1 c2 dims f i E; revert i; induction dims as [|d r IH]; intros i; simpl; [reflexivity|]; rewrite E.
    induction (members c2 d) as [|m ms IHm]; simpl; [reflexivity|]; rewrite IH, IHm; reflexivity. }
  unfold all_over; rewrite (AO (drop_undefined def ds) (fold_left (fun ds d => drop_dim def d ds) def_dims ds)) by reflexivity.
  reflexivity.
Qed.

Lemma drop_matrix ds i a : In ("definition_matrix", a) (vars (drop_undefined def ds)) -> NoDup (map fst (vars ds)) -> a_at a i = Bo (def i).
Proof using.
  intros I ND; unfold drop_undefined in I; cbv zeta in I; cbn [vars] in I; apply filter_In in I; destruct I as [I _]; rewrite fold_vars in I.
  apply d_in_get in I; [|apply d_nodup_set; exact ND]; rewrite d_get_set_same in I; injection I as <-; reflexivity.
Qed.
End Drop.

(** ** Cleaning *)
Lemma non_dims_in dims x : In x (filter (fun d => negb (smem d dims)) def_dims) <-> In x def_dims /\ ~ In x dims.
Proof.
  rewrite filter_In, negb_true_iff; split; intros [A B]; (split; [exact A|]).
  - intros I; apply smem_in in I; congruence.
  - destruct (smem x dims) eqn:S; [apply smem_in in S; contradiction|reflexivity].
Qed.

Lemma mask_spec ds def a i : depends def -> 
  a_at (mask ds def a) i = a_at a i \/ ((a_at (mask ds def a) i = NaN \/ a_at (mask ds def a) i = Bo false)).
Proof.
  intros _; unfold mask; cbn [a_at]; destruct (any_over _ _ _ _), (a_bool a); auto; destruct (is_nan (a_at a i)); auto.
Qed.

(** A position of an array is relevant if it extends to a live position. *)
Lemma mask_any ds def a i : depends def -> within ds (filter (fun d => smem d (a_dims a)) def_dims) i -> NoDup (map fst (coords ds)) ->
  (any_over ds (filter (fun d => negb (smem d (a_dims a))) def_dims) def i = true <->
   exists j, agree (a_dims a) i j /\ live def ds j).
Proof.
  intros DE WI ND; rewrite any_over_spec by (try apply filter_nodup, def_dims_nodup; apply depends_ext; exact DE).
  assert (WI' : forall x, In x def_dims -> In x (a_dims a) -> In (i x) (members ds x)).
  { intros x X Y; apply member_in; [exact ND|]; apply WI, filter_In; split; [exact X|apply smem_in; exact Y]. }
  split.
  - intros [j [A [B E]]]; exists (fun x => if smem x (a_dims a) then i x else j x); split.
    + intros x X; rewrite (proj2 (smem_in x _) X); reflexivity.
    + split.
      * intros x X; destruct (smem x (a_dims a)) eqn:S; [apply WI'; [exact X|apply smem_in; exact S]|].
        apply B, non_dims_in; split; [exact X|]; intros Y; apply smem_in in Y; congruence.
      * rewrite <- E; apply DE; intros x X; destruct (smem x (a_dims a)) eqn:S; [|reflexivity].
        symmetry; apply A; intros Y; apply non_dims_in in Y; apply smem_in in S; tauto.
  - intros [j [A [B E]]]; exists (fun x => if smem x (filter (fun d => negb (smem d (a_dims a))) def_dims) then j x else i x); split; [|split].
    + intros x X; destruct (smem x _) eqn:S; [apply smem_in in S; contradiction|reflexivity].
    + intros x X; rewrite (proj2 (smem_in x _) X); apply B; apply non_dims_in in X; tauto.
    + rewrite <- E; apply DE; intros x X; destruct (smem x _) eqn:S; [reflexivity|].
      apply A; destruct (smem x (a_dims a)) eqn:SA; [apply smem_in; exact SA|].
      exfalso; assert (Y : In x (filter (fun d => negb (smem d (a_dims a))) def_dims)).
      { apply non_dims_in; split; [exact X|]; intros Z; apply smem_in in Z; congruence. }
      apply smem_in in Y; congruence.
Qed.

(** ** Adding to the dataset *)
Lemma join_in a b x : In x (join a b) <-> In x a \/ In x b.
Proof.
  unfold join; rewrite in_app_iff, filter_In, negb_true_iff; split; [tauto|].
  intros [H|H]; [auto|]; destruct (smem x a) eqn:S; [left; apply smem_in; exact S|auto].
Qed.

Lemma here_within ds dims i : NoDup (map fst (coords ds)) -> (here ds dims i = true <-> within ds dims i).
Proof.
  intros ND; unfold here, within; rewrite forallb_forall; split; intros H d I; specialize (H d I).
  - apply member_in; [exact ND|apply smem_in; exact H].
  - apply member_in in H; [apply smem_in; exact H|exact ND].
Qed.

Lemma read_holds ds n i c : NoDup (map fst (coords ds)) -> NoDup (map fst (vars ds)) -> c <> NaN ->
  (read ds n i = c <-> holds ds n i c).
Proof.
  intros NC NV N; unfold read, holds; split.
  - destruct (d_get n (vars ds)) as [a|] eqn:G; [|congruence]; destruct (here ds (a_dims a) i) eqn:H; [|congruence].
    intros E; exists a; split; [apply d_get_in; exact G|split; [apply here_within; assumption|exact E]].
  - intros [a [I [W E]]]; rewrite (d_in_get _ _ _ NV I), (proj2 (here_within ds _ i NC) W); exact E.
Qed.

Lemma d_get_map_names {V} (f : string -> V) l n : d_get n (map (fun x => (x, f x)) l) = if smem n l then Some (f n) else None.
Proof.
  induction l as [|x l IH]; simpl; [reflexivity|]; unfold smem; simpl; destruct (String.eqb_spec n x) as [->|N]; [reflexivity|exact IH].
Qed.

Lemma add_members new old d m : In m (members (add_to_dataset new old) d) <-> In m (members new d) \/ In m (members old d).
Proof.
  unfold members at 1, add_to_dataset; cbn [coords]; rewrite (d_get_map_names (fun d => join (members new d) (members old d))).
  destruct (smem d _) eqn:S; [apply join_in|]; split; [intros []|].
  assert (N : ~ In d (join (map fst (coords new)) (map fst (coords old)))) by (intros I; apply smem_in in I; congruence).
  rewrite join_in in N; unfold members; intros [H|H]; exfalso; apply N.
  - left; destruct (d_get d (coords new)) as [l|] eqn:G; [eapply d_get_some_key; exact G|destruct H].
  - right; destruct (d_get d (coords old)) as [l|] eqn:G; [eapply d_get_some_key; exact G|destruct H].
Qed.

Lemma add_read new old n i : proper_dset new -> proper_dset old -> 
  (forall d, In d (dims_of new n) \/ In d (dims_of old n) -> In (i d) (members new d) \/ In (i d) (members old d)) ->
  read (add_to_dataset new old) n i = if is_nan (read new n i) then read old n i else read new n i.
Proof.
  intros PN PO W.
  assert (G : d_get n (vars (add_to_dataset new old)) = if smem n (var_names new old) then Some
     {| a_dims := join (dims_of new n) (dims_of old n); a_bool := bool_of new n && bool_of old n;
        a_at := fun i => let c := read new n i in if is_nan c then read old n i else c |} else None).
  { unfold add_to_dataset; cbn [vars].
    apply (d_get_map_names (fun n => {| a_dims := join (dims_of new n) (dims_of old n); a_bool := bool_of new n && bool_of old n;
       a_at := fun i => let c := read new n i in if is_nan c then read old n i else c |})). }
  unfold read at 1; rewrite G; destruct (smem n (var_names new old)) eqn:S; cbn [a_dims a_at].
  - assert (H : here (add_to_dataset new old) (join (dims_of new n) (dims_of old n)) i = true).
    { unfold here; apply forallb_forall; intros d I; apply smem_in, add_members, W; apply join_in in I; exact I. }
    rewrite H; reflexivity.
  - assert (N : ~ In n (var_names new old)) by (intros I; apply smem_in in I; congruence).
    unfold var_names in N; rewrite join_in in N; unfold read.
    assert (G1 : d_get n (vars new) = None) by (apply d_get_none; intros I; apply N; auto).
    assert (G2 : d_get n (vars old) = None) by (apply d_get_none; intros I; apply N; auto).
    rewrite G1, G2; reflexivity.
Qed.
