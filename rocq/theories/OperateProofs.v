(** Lemmas about the receding-horizon mode. *)
From Coq Require Import QArith Sorted.
From Verif Require Import Base BaseProofs OperateModel OperateSpec.
Local Open Scope list_scope.
Local Open Scope Z_scope.

(** ** Lists *)
Lemma sel_map {V} (key : V -> Z) lo hi l : map key (sel key lo hi l) = sel idZ lo hi (map key l).
Proof.
  unfold sel, idZ; induction l as [|x l IH]; simpl; [reflexivity|].
  destruct ((match lo with Some a => a <=? key x | None => true end) && (match hi with Some b => key x <=? b | None => true end));
    simpl; rewrite IH; reflexivity.
Qed.
Lemma combine_fst {A B} (l : list A) (m : list B) : List.length m = List.length l -> map fst (combine l m) = l.
Proof.
  revert m; induction l as [|a l IH]; intros [|b m] H; simpl in *; try discriminate; [reflexivity|].
  f_equal; apply IH; lia.
Qed.
Lemma filter_ext_in' {A} (f g : A -> bool) l : (forall x, In x l -> f x = g x) -> filter f l = filter g l.
Proof.
  induction l as [|a l IH]; intros H; simpl; [reflexivity|].
  rewrite (H a (or_introl eq_refl)), IH; [reflexivity|intros x I; apply H; right; exact I].
Qed.
Lemma filter_filter' {A} (f g : A -> bool) l : filter f (filter g l) = filter (fun x => f x && g x) l.
Proof.
  induction l as [|a l IH]; simpl; [reflexivity|].
  destruct (g a) eqn:G; simpl; [destruct (f a); simpl; rewrite IH; reflexivity|].
  rewrite Bool.andb_false_r; exact IH.
Qed.
Lemma filter_all {A} (f : A -> bool) l : (forall x, In x l -> f x = true) -> filter f l = l.
Proof.
  induction l as [|a l IH]; intros H; simpl; [reflexivity|].
  rewrite (H a (or_introl eq_refl)), IH; [reflexivity|intros x I; apply H; right; exact I].
Qed.
Lemma filter_none {A} (f : A -> bool) l : (forall x, In x l -> f x = false) -> filter f l = [].
Proof.
  induction l as [|a l IH]; intros H; simpl; [reflexivity|].
  rewrite (H a (or_introl eq_refl)), IH; [reflexivity|intros x I; apply H; right; exact I].
Qed.
(** In an ordered list, cutting at a value splits the list. *)
Lemma ordered_split a b ts : ordered ts -> a <= b ->
  filter (fun t => (a <=? t) && (t <? b)) ts ++ filter (fun t => b <=? t) ts = filter (fun t => a <=? t) ts.
Proof.
  intros S L; induction S as [|t ts S IH F]; simpl; [reflexivity|].
  destruct (Z.leb_spec b t) as [B|B].
  - assert (E : (t <? b) = false) by (apply Z.ltb_ge; exact B); rewrite E, Bool.andb_false_r.
    assert (A : (a <=? t) = true) by (apply Z.leb_le; lia); rewrite A.
    rewrite Forall_forall in F.
    rewrite filter_none; [|intros x I; specialize (F x I); apply Bool.andb_false_iff; right; apply Z.ltb_ge; lia].
    simpl; f_equal; rewrite !filter_all; [reflexivity| |]; intros x I; specialize (F x I); apply Z.leb_le; lia.
  - assert (E : (t <? b) = true) by (apply Z.ltb_lt; exact B); rewrite E, Bool.andb_true_r.
    destruct (a <=? t); simpl; rewrite IH; reflexivity.
Qed.
(** Cutting off the end of an ordered list keeps a front part. *)
Lemma ordered_front {V} (key : V -> Z) h l : StronglySorted (fun x y => key x < key y) l ->
  exists r, l = sel key None (Some h) l ++ r /\ forall x, In x r -> h < key x.
Proof.
  unfold sel; induction 1 as [|x l S IH F]; simpl; [exists []; split; [reflexivity|intros x []]|].
  destruct (Z.leb_spec (key x) h) as [B|B].
  - destruct IH as [r [E H]]; exists r; split; [simpl; f_equal; exact E|exact H].
  - exists (x :: l); rewrite Forall_forall in F; split.
    + rewrite filter_none; [reflexivity|]; intros y I; apply Z.leb_gt; specialize (F y I); lia.
    + intros y [<-|I]; [exact B|specialize (F y I); lia].
Qed.
Lemma last_in (l : list Z) d : l <> [] -> In (last l d) l.
Proof.
  induction l as [|a l IH]; intros H; [congruence|]; destruct l as [|b l]; [left; reflexivity|].
  right; apply IH; discriminate.
Qed.
Lemma ordered_le_last ts t d : ordered ts -> In t ts -> t <= last ts d.
Proof.
  intros S; induction S as [|a ts S IH F]; intros I; [destruct I|].
  destruct ts as [|b ts]; [destruct I as [<-|[]]; simpl; lia|].
  destruct I as [<-|I]; [|exact (IH I)].
  rewrite Forall_forall in F; pose proof (F (last (b :: ts) d)) as H; cbn [last] in *.
  assert (X : In (last (b :: ts) d) (b :: ts)) by (apply last_in; discriminate); specialize (H X); cbn [last] in H; lia.
Qed.
Lemma ordered_hd ts t : ordered ts -> In t ts -> hd 0 ts <= t.
Proof.
  intros S I; destruct S as [|a ts S F]; [destruct I|]; destruct I as [<-|I]; simpl; [lia|].
  rewrite Forall_forall in F; specialize (F t I); lia.
Qed.

Lemma last_cons (a : Z) l d : last (a :: l) d = last l a.
Proof.
  revert a d; induction l as [|b l IH]; intros a d; [reflexivity|].
  change (last (a :: b :: l) d) with (last (b :: l) d); rewrite !IH; reflexivity.
Qed.

Lemma filter_sorted (f : Z -> bool) l : StronglySorted Z.lt l -> StronglySorted Z.lt (filter f l).
Proof.
  induction 1 as [|t l S IH F]; simpl; [constructor|].
  destruct (f t); [|exact IH]; constructor; [exact IH|].
  rewrite Forall_forall in *; intros x I; apply filter_In in I; apply F, I.
Qed.

(** ** Windows *)
Inductive consecutive (d : Z) : Z -> list Z -> Prop :=
| co_nil w : consecutive d w []
| co_cons w ws : consecutive d (w + d) ws -> consecutive d w ((w + d) :: ws).
Lemma consecutive_seq first d n k : consecutive d (first + Z.of_nat k * d) (map (fun i => first + Z.of_nat i * d) (seq (S k) n)).
Proof.
  revert k; induction n as [|n IH]; intros k; cbn [seq map]; [constructor|].
  replace (first + Z.of_nat (S k) * d) with (first + Z.of_nat k * d + d) by lia.
  apply co_cons; replace (first + Z.of_nat k * d + d) with (first + Z.of_nat (S k) * d) by lia; apply IH.
Qed.
Lemma wss_shape first lst d : 0 < d -> first <= lst ->
  exists ws, windowsteps first lst d = first :: ws /\ consecutive d first ws.
Proof.
  intros D L; unfold windowsteps.
  assert (P : 0 <= (lst - first) / d) by (apply Z.div_pos; lia).
  destruct (Z.to_nat ((lst - first) / d + 1)) as [|n] eqn:E; [lia|].
  exists (map (fun i => first + Z.of_nat i * d) (seq 1 n)); split.
  - simpl; f_equal; lia.
  - pose proof (consecutive_seq first d n 0) as H; replace (first + Z.of_nat 0 * d) with first in H by lia; exact H.
Qed.
Lemma wss_in first lst d w : 0 < d -> first <= lst ->
  (In w (windowsteps first lst d) <-> exists n, 0 <= n /\ w = first + n * d /\ w <= lst).
Proof.
  intros D L; unfold windowsteps; rewrite in_map_iff; split.
  - intros [i [<- H]]; apply in_seq in H; exists (Z.of_nat i); split; [lia|split; [reflexivity|]].
    assert (Z.of_nat i <= (lst - first) / d) by lia.
    assert (Z.of_nat i * d <= (lst - first) / d * d) by (apply Z.mul_le_mono_nonneg_r; lia).
    pose proof (Z.mul_div_le (lst - first) d D); lia.
  - intros [n [N [-> B]]]; exists (Z.to_nat n); split; [rewrite Z2Nat.id by lia; reflexivity|].
    apply in_seq; simpl; assert (n <= (lst - first) / d); [apply Z.div_le_lower_bound; lia|].
    assert (0 <= (lst - first) / d) by (apply Z.div_pos; lia); lia.
Qed.
Lemma wss_last first lst d : 0 < d -> first <= lst -> lst < last (windowsteps first lst d) 0 + d.
Proof.
  intros D L; unfold windowsteps.
  assert (P : 0 <= (lst - first) / d) by (apply Z.div_pos; lia).
  replace (Z.to_nat ((lst - first) / d + 1)) with (S (Z.to_nat ((lst - first) / d))) by lia.
  rewrite seq_S, map_app; cbn [map]; rewrite last_last, Nat.add_0_l.
  rewrite Z2Nat.id by exact P; pose proof (Z.mod_pos_bound (lst - first) d D); pose proof (Z.div_mod (lst - first) d ltac:(lia)); lia.
Qed.

Section Operate.
Variable ts : list Z.
Variable par look : list (string * (Z -> Z)).
Variable init_frac cap : level.
Variables window horizon : Z.
Variable R : Type.
Variable storage : R -> option level.
Variable solver : table -> table -> level -> nat -> list R.
Hypothesis solver_len : forall p l i n, List.length (solver p l i n) = n.
Hypothesis ORD : ordered ts.
Hypothesis NE : ts <> [].
Hypothesis WPOS : 0 < window.
Hypothesis HOR : window <= horizon.
Hypothesis PAR : NoDup (map fst par).

Notation first := (first ts).
Notation final := (final ts).
Notation H := (horizon_ts ts final horizon).
Notation build := (build ts par look init_frac horizon).
Notation solve := (solve R solver).

Lemma first_in : In first ts.
Proof. unfold OperateModel.first; destruct ts; [congruence|left; reflexivity]. Qed.
Lemma first_final : first <= final.
Proof. apply ordered_le_last; [exact ORD|exact first_in]. Qed.
Lemma H_looks w : H w = looks_at ts horizon w.
Proof.
  unfold horizon_ts, sel, looks_at, horizonstep, ts_offset, idZ; apply filter_ext_in'; intros t I.
  f_equal; pose proof (ordered_le_last ts t 0 ORD I) as L; fold final in L.
  destruct (Z.leb_spec t (Z.min (w + horizon) (final + 1) - 1)); destruct (Z.ltb_spec t (w + horizon)); lia.
Qed.

(** The state after solving the window that starts at [w]. *)
Definition solved (w : Z) (it : list (Z * R)) (b : backend) : Prop :=
  b_par b = tab par (H w) /\ b_inputs b = tab par (H w) /\ b_len b = List.length (H w) /\ it = combine (H w) (solve b) /\
  (look = [] -> b_look b = []).

Lemma solved_fst w it b : solved w it b -> map fst it = H w.
Proof. intros [_ [_ [L [-> _]]]]; apply combine_fst; unfold OperateModel.solve; rewrite solver_len; exact L. Qed.
Lemma solved_build w : solved w (combine (H w) (solve (build w))) (build w).
Proof. repeat split; intros ->; reflexivity. Qed.

Lemma tab_keys l steps : map fst (tab l steps) = map fst l.
Proof. unfold tab; rewrite map_map; reflexivity. Qed.
Lemma values_eqb_eq a b : values_eqb a b = true -> a = b.
Proof. unfold values_eqb; destruct (list_eq_dec Z.eq_dec a b); congruence. Qed.

Lemma update_params_spec new : forall b,
  b_par b = b_inputs b -> NoDup (map fst (b_par b)) ->
  (forall n v, In (n, v) new -> In n (map fst (b_par b))) ->
  let b' := update_params new b in
  b_par b' = b_inputs b' /\ map fst (b_par b') = map fst (b_par b) /\ b_len b' = b_len b /\ b_look b' = b_look b /\ b_init b' = b_init b /\
  b_par b' = fold_left (fun a nv => d_set (fst nv) (snd nv) a) new (b_par b).
Proof.
  induction new as [|[n v] new IH]; intros b E ND I; simpl; [repeat split; auto|].
  assert (K : d_mem n (b_par b) = true) by (apply d_mem_keys; apply (I n v); left; reflexivity).
  rewrite K; simpl.
  assert (KS : map fst (d_set n v (b_par b)) = map fst (b_par b)) by (apply d_keys_set_in, (I n v); left; reflexivity).
  destruct (d_get n (b_inputs b)) as [old|] eqn:G; [destruct (values_eqb v old) eqn:Q|]; simpl.
  - apply values_eqb_eq in Q; subst old.
    assert (S : d_set n v (b_par b) = b_par b) by (apply d_set_self; rewrite E; exact G).
    rewrite S; apply IH; [exact E|exact ND|intros n' v' I'; apply (I n' v'); right; exact I'].
  - set (b1 := {| b_len := b_len b; b_par := d_set n v (b_par b); b_inputs := d_set n v (b_inputs b); b_look := b_look b; b_init := b_init b |}).
    destruct (IH b1) as [A1 [A2 [A3 [A4 [A5 A6]]]]].
    + simpl; rewrite E; reflexivity.
    + simpl; rewrite KS; exact ND.
    + simpl; intros n' v' I'; rewrite KS; apply (I n' v'); right; exact I'.
    + simpl in *; repeat split; auto; rewrite A2; exact KS.
  - set (b1 := {| b_len := b_len b; b_par := d_set n v (b_par b); b_inputs := d_set n v (b_inputs b); b_look := b_look b; b_init := b_init b |}).
    destruct (IH b1) as [A1 [A2 [A3 [A4 [A5 A6]]]]].
    + simpl; rewrite E; reflexivity.
    + simpl; rewrite KS; exact ND.
    + simpl; intros n' v' I'; rewrite KS; apply (I n' v'); right; exact I'.
    + simpl in *; repeat split; auto; rewrite A2; exact KS.
Qed.

Lemma set_all_same (new old : table) : map fst new = map fst old -> NoDup (map fst old) ->
  fold_left (fun a nv => d_set (fst nv) (snd nv) a) new old = new.
Proof.
  intros E ND.
  assert (G : forall done todo rest : list (string * list Z), map fst todo = map fst rest -> NoDup (map fst (done ++ rest)) ->
    fold_left (fun a nv => d_set (fst nv) (snd nv) a) todo (done ++ rest) = done ++ todo).
  { intros done todo; revert done; induction todo as [|[n v] todo IH]; intros done [|[m u] rest] Em N; try discriminate; simpl; [reflexivity|].
    injection Em as -> Em.
    assert (S : d_set m v (done ++ (m, u) :: rest) = (done ++ [(m, v)]) ++ rest).
    { rewrite map_app in N; simpl in N; apply NoDup_remove_2 in N.
      assert (N' : ~ In m (map fst done)) by (intros I; apply N, in_or_app; left; exact I).
      clear -N'; induction done as [|[a b] done IHd]; simpl; [rewrite String.eqb_refl; reflexivity|].
      destruct (String.eqb_spec m a) as [->|Q]; [exfalso; apply N'; left; reflexivity|].
      f_equal; apply IHd; intros I; apply N'; right; exact I. }
    rewrite S, IH; [rewrite <- app_assoc; reflexivity|exact Em|].
    rewrite <- app_assoc; simpl; rewrite map_app in *; simpl in *; exact N. }
  exact (G [] new old E ND).
Qed.

(** The problem solved for the next window: its own parameter values. *)
Definition next_backend (w : Z) (iter : list (Z * R)) (b : backend) : backend :=
  if Nat.eqb (List.length (H w)) (List.length iter) then update_params (tab par (H w)) b else build w.
Lemma next_backend_spec w0 w it b : solved w0 it b ->
  let b1 := next_backend w it b in
  b_par b1 = tab par (H w) /\ b_inputs b1 = tab par (H w) /\ b_len b1 = List.length (H w) /\ (look = [] -> b_look b1 = []) /\
  (b_init b1 = b_init b \/ b_init b1 = init_frac).
Proof.
  intros Sv; unfold next_backend; destruct (Nat.eqb_spec (List.length (H w)) (List.length it)) as [E|E].
  - pose proof (solved_fst _ _ _ Sv) as F; destruct Sv as [P [I [L [It Lk]]]].
    assert (LL : b_len b = List.length (H w)).
    { rewrite L, <- F, map_length; symmetry; exact E. }
    destruct (update_params_spec (tab par (H w)) b) as [A1 [A2 [A3 [A4 [A5 A6]]]]].
    + rewrite P, I; reflexivity.
    + rewrite P, tab_keys; exact PAR.
    + intros n v Hn; rewrite P, tab_keys; apply (in_map fst) in Hn; rewrite tab_keys in Hn; exact Hn.
    + cbn zeta; rewrite <- A1, A6, P, set_all_same; [|rewrite !tab_keys; reflexivity|rewrite tab_keys; exact PAR].
      repeat split; [rewrite A3; exact LL|rewrite A4; exact Lk|left; exact A5].
  - repeat split; [intros ->; reflexivity|right; reflexivity].
Qed.

(** The history of a run: every window solved with its own data, and the initial storage
    taken from the part kept of the window before. *)
Inductive history : Z -> list (Z * R) -> backend -> list Z -> list (list (Z * R)) -> list (Z * R) -> Z -> Prop :=
| h_end w it b : solved w it b -> history w it b [] [] it w
| h_step w it b b' it' ws ps fin z :
    solved w it b ->
    (has_storage R storage it = true ->
       exists l, recalculate cap R storage (sel fst None (Some (w + window - ts_offset)) it) = Ok l /\ b_init b' = l) ->
    (has_storage R storage it = false -> b_init b' = b_init b \/ b_init b' = init_frac) ->
    history (w + window) it' b' ws ps fin z ->
    history w it b ((w + window) :: ws) (sel fst None (Some (w + window - ts_offset)) it :: ps) fin z.

Definition storeless : Prop := forall p l i n x, In x (solver p l i n) -> storage x = None.
Lemma storeless_solved w it b : storeless -> solved w it b -> has_storage R storage it = false.
Proof.
  intros N Sv; destruct Sv as [_ [_ [_ [-> _]]]]; unfold has_storage; destruct (existsb _ _) eqn:X; [|reflexivity].
  apply existsb_exists in X; destruct X as [[t x] [I X]]; apply in_combine_r in I; cbn [snd] in X; unfold OperateModel.solve in I; rewrite (N _ _ _ _ _ I) in X; discriminate.
Qed.
Lemma loop_history ws : forall w it b acc, consecutive window w ws -> solved w it b ->
  (forall w', w' = w \/ In w' ws -> exists t, In t ts /\ decides window w' t) \/ storeless ->
  exists ps fin b' z, loop ts par look init_frac cap horizon R storage solver ws it b acc = Ok (acc ++ ps, fin, b') /\
    history w it b ws ps fin z /\ z = last ws w.
Proof.
  induction ws as [|w' ws IH]; intros w it b acc C Sv G; inversion C as [|? ? C']; subst.
  - exists [], it, b, w; simpl; rewrite app_nil_r; split; [reflexivity|split; [constructor; exact Sv|reflexivity]].
  - cbn [loop]; cbv zeta.
    change (if Nat.eqb (List.length (H (w + window))) (List.length it) then update_params (tab par (H (w + window))) b else build (w + window))
      with (next_backend (w + window) it b).
    pose proof (next_backend_spec w (w + window) it b Sv) as NB; cbv zeta in NB.
    set (b1 := next_backend (w + window) it b) in *.
    assert (G' : (forall w', w' = w + window \/ In w' ws -> exists t, In t ts /\ decides window w' t) \/ storeless).
    { destruct G as [G|G]; [left|right; exact G]; intros w' [->|I]; apply G; right; [left; reflexivity|right; exact I]. }
    assert (KNE : has_storage R storage it = true -> sel fst None (Some (w + window - ts_offset)) it <> []).
    { intros HS; destruct G as [G|G]; [|rewrite (storeless_solved _ _ _ G Sv) in HS; discriminate]; destruct (G w (or_introl eq_refl)) as [t [It D]]; unfold decides in D.
      assert (X : In t (map fst (sel fst None (Some (w + window - ts_offset)) it))); [|intros E; rewrite E in X; destruct X].
      rewrite sel_map, (solved_fst _ _ _ Sv), H_looks; unfold sel, idZ, ts_offset, looks_at.
      apply filter_In; split; [apply filter_In; split; [exact It|]|]; apply Bool.andb_true_iff; split; try reflexivity;
        first [apply Z.leb_le; lia|apply Z.ltb_lt; lia]. }
    destruct (has_storage R storage it) eqn:HS.
    + assert (RC : exists l, recalculate cap R storage (sel fst None (Some (w + window - ts_offset)) it) = Ok l).
      { unfold recalculate; destruct (rev (sel fst None (Some (w + window - ts_offset)) it)) as [|[t x] r] eqn:E; [|eauto].
        exfalso; apply (KNE eq_refl); rewrite <- (rev_involutive (sel _ _ _ _)), E; reflexivity. }
      destruct RC as [l RC]; rewrite RC; cbn [bind].
      set (b2 := {| b_len := b_len b1; b_par := b_par b1; b_inputs := b_inputs b1; b_look := b_look b1; b_init := l |}).
      destruct (IH (w + window) (combine (H (w + window)) (solve b2)) b2 (acc ++ [sel fst None (Some (w + window - ts_offset)) it])) as [ps [fin [b' [z [E [Hh Ez]]]]]].
      * exact C'.
      * destruct NB as [N1 [N2 [N3 [N4 N5]]]]; repeat split; auto.
      * exact G'.
      * exists (sel fst None (Some (w + window - ts_offset)) it :: ps), fin, b', z.
        unfold OperateModel.first, OperateModel.final in *; rewrite E, <- app_assoc; split; [reflexivity|split].
        -- econstructor; [exact Sv| | |exact Hh]; [intros _; exists l; split; [exact RC|reflexivity]|intros X; rewrite HS in X; discriminate].
        -- rewrite Ez, last_cons; reflexivity.
    + cbn [bind].
      destruct (IH (w + window) (combine (H (w + window)) (solve b1)) b1 (acc ++ [sel fst None (Some (w + window - ts_offset)) it])) as [ps [fin [b' [z [E [Hh Ez]]]]]].
      * exact C'.
      * destruct NB as [N1 [N2 [N3 [N4 N5]]]]; repeat split; auto.
      * exact G'.
      * exists (sel fst None (Some (w + window - ts_offset)) it :: ps), fin, b', z.
        unfold OperateModel.first, OperateModel.final in *; rewrite E, <- app_assoc; split; [reflexivity|split].
        -- econstructor; [exact Sv| | |exact Hh]; [intros X; rewrite HS in X; discriminate|intros _; destruct NB as [_ [_ [_ [_ N5]]]]; exact N5].
        -- rewrite Ez, last_cons; reflexivity.
Qed.

(** ** Coverage *)
Definition stitched (ps : list (list (Z * R))) (fin : list (Z * R)) (z : Z) : list (Z * R) :=
  List.concat ps ++ sel fst (Some z) None fin.

Lemma stitched_times w it b ws ps fin z : history w it b ws ps fin z -> final < z + window ->
  map fst (stitched ps fin z) = filter (fun t => w <=? t) ts.
Proof.
  unfold stitched; induction 1 as [w it b Sv|w it b b' it' ws ps fin z Sv St Sn Hh IH]; intros L.
  - simpl; rewrite sel_map, (solved_fst _ _ _ Sv), H_looks; unfold sel, idZ, looks_at.
    rewrite filter_filter'; apply filter_ext_in'; intros t It.
    pose proof (ordered_le_last ts t 0 ORD It) as B; fold final in B.
    assert (E : (t <? w + horizon) = true) by (apply Z.ltb_lt; lia); rewrite E.
    destruct (w <=? t); reflexivity.
  - simpl; rewrite <- app_assoc, map_app, IH by exact L.
    rewrite sel_map, (solved_fst _ _ _ Sv), H_looks; unfold sel, idZ, looks_at.
    rewrite filter_filter', <- (ordered_split w (w + window)) by (try exact ORD; lia).
    f_equal; apply filter_ext_in'; intros t It; unfold ts_offset.
    destruct (Z.leb_spec w t); destruct (Z.leb_spec t (w + window - 1)); destruct (Z.ltb_spec t (w + horizon)); destruct (Z.ltb_spec t (w + window)); simpl; lia.
Qed.

Lemma sel_in {V} (key : V -> Z) lo hi l x : In x (sel key lo hi l) -> In x l /\
  match lo with Some a => a <= key x | None => True end /\ match hi with Some c => key x <= c | None => True end.
Proof.
  unfold sel; rewrite filter_In, Bool.andb_true_iff; intros [I [A B]]; split; [exact I|split].
  - destruct lo; [apply Z.leb_le; exact A|exact Logic.I].
  - destruct hi; [apply Z.leb_le; exact B|exact Logic.I].
Qed.
Lemma solved_in w it b t x : solved w it b -> In (t, x) it -> In t ts /\ w <= t.
Proof.
  intros Sv I; apply (in_map fst) in I; rewrite (solved_fst _ _ _ Sv), H_looks in I; simpl in I.
  apply filter_In in I; destruct I as [I B]; apply Bool.andb_true_iff in B; destruct B as [B _]; apply Z.leb_le in B; auto.
Qed.
Lemma stitched_source w it b ws ps fin z : history w it b ws ps fin z -> final < z + window ->
  forall t x, In (t, x) (stitched ps fin z) ->
  exists w' it' b', (w' = w \/ In w' ws) /\ decides window w' t /\ solved w' it' b' /\ In (t, x) it' /\
    (storeless -> b_init b = init_frac -> b_init b' = init_frac).
Proof.
  unfold stitched; induction 1 as [w it b Sv|w it b b' it' ws ps fin z Sv St Sn Hh IH]; intros L t x I.
  - simpl in I; apply sel_in in I; destruct I as [I [A _]]; simpl in A.
    exists w, it, b; split; [left; reflexivity|split; [|split; [exact Sv|split; [exact I|auto]]]].
    destruct (solved_in _ _ _ _ _ Sv I) as [It _]; pose proof (ordered_le_last ts t 0 ORD It) as B; fold final in B; unfold decides; lia.
  - simpl in I; rewrite <- app_assoc in I; apply in_app_or in I; destruct I as [I|I].
    + apply sel_in in I; destruct I as [I [_ A]]; simpl in A; unfold ts_offset in A.
      exists w, it, b; split; [left; reflexivity|split; [|split; [exact Sv|split; [exact I|auto]]]].
      destruct (solved_in _ _ _ _ _ Sv I) as [_ B]; unfold decides; lia.
    + destruct (IH L t x I) as [w' [it2 [b2 [W Rest]]]]; exists w', it2, b2.
      split; [right; destruct W as [->|W]; [left; reflexivity|right; exact W]|]; destruct Rest as [R1 [R2 [R3 R4]]]; split; [exact R1|split; [exact R2|split; [exact R3|]]].
      intros N B; apply R4; [exact N|]; destruct (Sn (storeless_solved _ _ _ N Sv)) as [->| ->]; [exact B|reflexivity].
Qed.

(** ** The whole run *)
Lemma window_start_iff w : window_start ts window w <-> In w (wss ts window).
Proof.
  unfold wss; rewrite wss_in by (try exact WPOS; exact first_final); unfold window_start, OperateModel.first, OperateModel.final.
  split.
  - intros [f [l [n [E1 [E2 [N [-> B]]]]]]]; exists n; destruct ts as [|a r]; [congruence|].
    injection E1 as <-; subst l; simpl hd; split; [exact N|split; [reflexivity|]].
    rewrite last_cons in B |- *; exact B.
  - intros [n [N [-> B]]]; exists (hd 0 ts), (last ts 0), n; destruct ts as [|a r]; [congruence|].
    simpl hd in *; split; [reflexivity|split; [rewrite !last_cons; reflexivity|auto]].
Qed.
Hypothesis GAP : no_gap ts window \/ storeless.
Lemma run_history : first + window <= final ->
  exists ws ps fin z, wss ts window = first :: ws /\
    history first (combine (H first) (solve (build first))) (build first) ws ps fin z /\ final < z + window /\
    solve_operate ts par look init_frac cap window horizon R storage solver = Ok (stitched ps fin z).
Proof.
  intros TWO; destruct (wss_shape first final window WPOS first_final) as [ws [E C]].
  assert (E' : wss ts window = first :: ws) by exact E.
  destruct (loop_history ws first (combine (H first) (solve (build first))) (build first) [] C (solved_build first)) as [ps [fin [b' [z [EL [Hh Ez]]]]]].
  { destruct GAP as [G|G]; [left|right; exact G]; intros w' I; apply G, window_start_iff; rewrite E'; destruct I as [->|I]; [left; reflexivity|right; exact I]. }
  assert (WN : ws <> []).
  { assert (X : In (first + window) (wss ts window)).
    { unfold wss; apply wss_in; [exact WPOS|exact first_final|]; exists 1; lia. }
    rewrite E' in X; destruct X as [X|X]; [lia|]; intros ->; destruct X. }
  exists ws, ps, fin, z; split; [exact E'|split; [exact Hh|split]].
  - pose proof (wss_last first final window WPOS first_final) as L; rewrite E, last_cons in L; rewrite Ez; exact L.
  - unfold solve_operate; cbv zeta; rewrite E'; cbn [tl].
    unfold OperateModel.first, OperateModel.final in *; rewrite EL; cbn [bind app].
    assert (RV : rev ws = z :: tl (rev ws)).
    { destruct ws as [|a ws'] using rev_ind; [congruence|]; rewrite rev_app_distr in *; simpl.
      rewrite last_last in Ez; rewrite Ez; reflexivity. }
    rewrite RV; unfold stitched; rewrite concat_app; cbn [List.concat]; rewrite app_nil_r; reflexivity.
Qed.

Lemma run_covers : first + window <= final ->
  exists r, solve_operate ts par look init_frac cap window horizon R storage solver = Ok r /\ map fst r = ts /\
    forall t x, In (t, x) r -> exists w b, window_start ts window w /\ decides window w t /\
      In (t, x) (combine (looks_at ts horizon w)
        (solver (tab par (looks_at ts horizon w)) (b_look b) (b_init b) (List.length (looks_at ts horizon w)))) /\
      (look = [] -> b_look b = []) /\ (storeless -> b_init b = init_frac).
Proof.
  intros TWO; destruct (run_history TWO) as [ws [ps [fin [z [EW [Hh [L EO]]]]]]].
  exists (stitched ps fin z); split; [exact EO|split].
  - rewrite (stitched_times _ _ _ _ _ _ _ Hh L); apply filter_all; intros t It; apply Z.leb_le.
    apply (ordered_hd ts t ORD It).
  - intros t x I; destruct (stitched_source _ _ _ _ _ _ _ Hh L t x I) as [w [it [b [W [D [Sv [It NS]]]]]]].
    exists w, b; split; [apply window_start_iff; rewrite EW; destruct W as [->|W]; [left; reflexivity|right; exact W]|split; [exact D|]].
    destruct Sv as [P [In2 [Ln [E Lk]]]]; subst it; unfold OperateModel.solve in It; rewrite P, Ln, !H_looks in It; split; [exact It|split; [exact Lk|intros X; apply NS; [exact X|reflexivity]]].
Qed.

(** ** Storage *)
Variable d : string.
Variable netR : R -> Q.
Variable keepR : R -> Q.
Definition levR (x : R) : Q := match storage x with Some l => l d | None => 0%Q end.
Definition lev (tx : Z * R) : Q := levR (snd tx).
Definition net (tx : Z * R) : Q := netR (snd tx).
Definition fac_window (x y : Z * R) (k : Q) : Prop := k = keepR (snd x).
Definition fac_run (x y : Z * R) (k : Q) : Prop :=
  (opens ts window (fst y) /\ k = 1%Q) \/ (~ opens ts window (fst y) /\ k = keepR (snd x)).
Hypothesis NOGAP : no_gap ts window.
Hypothesis CAP : ~ (cap d == 0)%Q.
Hypothesis HAS : forall p l i n x, In x (solver p l i n) -> storage x <> None.
(** Initial levels that are met; the windows that are solved balance from them and lead to such levels. *)
Variable met : OperateModel.level -> Prop.
Hypothesis MET : met init_frac.
Hypothesis BAL : forall p l i w, met i -> window_start ts window w ->
  balanced_from levR netR (fun x y k => k = keepR x) (i d * cap d)%Q (solver p l i (List.length (looks_at ts horizon w))).
Hypothesis KEEP : forall p l i w x v, met i -> window_start ts window w -> In x (solver p l i (List.length (looks_at ts horizon w))) ->
  storage x = Some v -> met (fun d => if Qeq_bool (cap d) 0 then 0%Q else (v d / cap d)%Q).

Lemma balance_combine (l : list Z) : forall (m : list R) t x, balance levR netR (fun a b k => k = keepR a) x m ->
  balance lev net fac_window (t, x) (combine l m).
Proof.
  induction l as [|s l IH]; intros m t x B; simpl; [constructor|].
  destruct m as [|y m]; [constructor|]; inversion B as [|? ? ? k F E B']; subst.
  econstructor; [reflexivity|exact E|apply IH; exact B'].
Qed.
Lemma balance_front {X} (lv nt : X -> Q) f x l r : balance lv nt f x (l ++ r) -> balance lv nt f x l.
Proof.
  revert x; induction l as [|y l IH]; intros x B; simpl in *; [constructor|].
  inversion B as [|? ? ? k F E B']; subst; econstructor; [exact F|exact E|apply IH; exact B'].
Qed.
Lemma balance_impl {X} (lv nt : X -> Q) (f g : X -> X -> Q -> Prop) x l :
  (forall a b k, In b l -> f a b k -> g a b k) -> balance lv nt f x l -> balance lv nt g x l.
Proof.
  intros I B; revert I; induction B as [x|x y l k F E B IH]; intros I; [constructor|].
  econstructor; [apply I; [left; reflexivity|exact F]|exact E|apply IH; intros a b c J; apply I; right; exact J].
Qed.
Lemma balance_app {X} (lv nt : X -> Q) f x l r y : balance lv nt f x l -> last (x :: l) x = y -> balance lv nt f y r ->
  balance lv nt f x (l ++ r).
Proof.
  intros B; revert y; induction B as [x|x z l k F E B IH]; intros y L Br; simpl in *; [subst; exact Br|].
  econstructor; [exact F|exact E|apply (IH y); [|exact Br]].
  destruct l; [exact L|]; simpl in *; clear -L.
  revert L; generalize x0; intros u; rename l into m; revert u; induction m as [|v m IHm]; intros u L; [exact L|apply (IHm v); exact L].
Qed.

Lemma opens_unique w w' t : window_start ts window w -> window_start ts window w' -> decides window w t -> decides window w' t -> w = w'.
Proof.
  rewrite !window_start_iff; unfold wss; rewrite !wss_in by (try exact WPOS; exact first_final).
  intros [n [N [-> _]]] [m [M [-> _]]] [A B] [C D]; assert (n = m) by nia; subst; reflexivity.
Qed.

Lemma H_sorted w : StronglySorted Z.lt (H w).
Proof.
  apply filter_sorted; exact ORD.
Qed.
Lemma key_sorted {V} (key : V -> Z) l : StronglySorted Z.lt (map key l) -> StronglySorted (fun x y => key x < key y) l.
Proof.
  induction l as [|x l IH]; simpl; intros S; [constructor|]; inversion S as [|? ? S' F]; subst; constructor; [apply IH; exact S'|].
  rewrite Forall_forall in *; intros y I; apply F, in_map; exact I.
Qed.

(** A front part of the solution of one window, within its decision window. *)
Lemma front_balanced w it b p r : window_start ts window w -> solved w it b -> met (b_init b) -> it = p ++ r ->
  (forall t x, In (t, x) p -> t < w + window) ->
  balanced_from lev net fac_run (b_init b d * cap d)%Q p.
Proof.
  intros WS Sv MB E UP.
  pose proof (BAL (b_par b) (b_look b) (b_init b) w MB WS) as B.
  assert (BL : b_len b = List.length (looks_at ts horizon w)) by (rewrite <- H_looks; apply Sv); rewrite <- BL in B.
  pose proof (solved_fst _ _ _ Sv) as FT.
  assert (SS : StronglySorted (fun x y : Z * R => fst x < fst y) it) by (apply key_sorted; rewrite FT; apply H_sorted).
  assert (IB : balanced_from lev net fac_window (b_init b d * cap d)%Q it).
  { destruct Sv as [_ [_ [_ [-> _]]]]; unfold OperateModel.solve; destruct (H w) as [|t l]; [exact Logic.I|].
    destruct (solver _ _ _ _) as [|x m]; [exact Logic.I|]; destruct B as [B1 B2]; split; [exact B1|apply balance_combine; exact B2]. }
  destruct p as [|[t0 x0] p]; [exact Logic.I|]; subst it; destruct IB as [B1 B2]; split; [exact B1|].
  apply balance_front in B2; apply (balance_impl _ _ fac_window); [|exact B2].
  intros a [t x] k I F; right; split; [|exact F]; intros [w' [WS' [D' M]]]; cbn [fst] in *.
  assert (T0 : In t0 ts /\ w <= t0) by (apply (solved_in w _ b t0 x0 Sv); left; reflexivity).
  assert (LT : t0 < t).
  { simpl in SS; inversion SS as [|? ? _ FA]; subst; rewrite Forall_forall in FA.
    apply (FA (t, x)); apply in_or_app; left; exact I. }
  assert (D : decides window w t) by (split; [lia|apply (UP t x); right; exact I]).
  assert (w = w') by (apply (opens_unique w w' t); assumption); subst w'.
  specialize (M t0 (proj1 T0) (proj2 T0)); lia.
Qed.

Lemma solved_storage w it b : solved w it b -> it <> [] -> has_storage R storage it = true.
Proof.
  intros Sv N; destruct it as [|[t x] it]; [congruence|]; simpl.
  destruct (storage x) eqn:E; [reflexivity|exfalso].
  destruct Sv as [_ [_ [_ [E2 _]]]].
  assert (I : In (t, x) (combine (H w) (solve b))) by (rewrite <- E2; left; reflexivity).
  apply in_combine_r in I; apply (HAS _ _ _ _ _ I E).
Qed.

Lemma front_in (it : list (Z * R)) h t x : In (t, x) (sel fst None (Some h) it) -> t <= h.
Proof. intros I; apply sel_in in I; simpl in I; apply I. Qed.

Lemma stitched_balanced w it b ws ps fin z : history w it b ws ps fin z -> final < z + window ->
  (forall w', w' = w \/ In w' ws -> window_start ts window w') -> met (b_init b) ->
  balanced_from lev net fac_run (b_init b d * cap d)%Q (stitched ps fin z).
Proof.
  unfold stitched; induction 1 as [w it b Sv|w it b b' it' ws ps fin z Sv St Sn Hh IH]; intros L WS MB.
  - simpl.
    assert (E : sel fst (Some w) None it = it).
    { unfold sel; apply filter_all; intros [t x] I; cbn [fst]; destruct (solved_in _ _ _ _ _ Sv I) as [_ B].
      apply Bool.andb_true_iff; split; [apply Z.leb_le; exact B|reflexivity]. }
    rewrite E; apply (front_balanced w it b it []); [apply WS; left; reflexivity|exact Sv|exact MB|symmetry; apply app_nil_r|].
    intros t x I; destruct (solved_in _ _ _ _ _ Sv I) as [It _]; pose proof (ordered_le_last ts t 0 ORD It) as B; fold final in B; lia.
  - assert (WSw : window_start ts window w) by (apply WS; left; reflexivity).
    assert (SS : StronglySorted (fun x y : Z * R => fst x < fst y) it).
    { apply key_sorted; rewrite (solved_fst _ _ _ Sv); apply H_sorted. }
    destruct (ordered_front fst (w + window - ts_offset) it SS) as [r [ES _]].
    set (p := sel fst None (Some (w + window - ts_offset)) it) in *.
    assert (BP : balanced_from lev net fac_run (b_init b d * cap d)%Q p).
    { apply (front_balanced w it b p r); [exact WSw|exact Sv|exact MB|exact ES|].
      intros t x I; apply front_in in I; unfold ts_offset in I; lia. }
    assert (PNE : p <> []).
    { destruct (NOGAP w WSw) as [t [It D]]; unfold decides in D.
      assert (X : In t (map fst p)); [|intros E; rewrite E in X; destruct X].
      unfold p; rewrite sel_map, (solved_fst _ _ _ Sv), H_looks; unfold sel, idZ, ts_offset, looks_at.
      apply filter_In; split; [apply filter_In; split; [exact It|]|]; apply Bool.andb_true_iff; split; try reflexivity;
        first [apply Z.leb_le; lia|apply Z.ltb_lt; lia]. }
    assert (INE : it <> []) by (intros E; apply PNE; unfold p; rewrite E; reflexivity).
    destruct (St (solved_storage _ _ _ Sv INE)) as [l [RC BI]].
    cbn [List.concat]; rewrite <- app_assoc.
    assert (MB' : met (b_init b')).
    { rewrite BI; unfold recalculate in RC; fold p in RC; destruct (exists_last PNE) as [l0 [[t x] E]]; rewrite E, rev_unit in RC; injection RC as <-.
      assert (IX : In x (solver (b_par b) (b_look b) (b_init b) (List.length (looks_at ts horizon w)))).
      { assert (BL : b_len b = List.length (looks_at ts horizon w)) by (rewrite <- H_looks; apply Sv); rewrite <- BL.
        assert (IX : In (t, x) it) by (rewrite ES; apply in_or_app; left; rewrite E; apply in_or_app; right; left; reflexivity).
        destruct Sv as [_ [_ [_ [E2 _]]]]; rewrite E2 in IX; apply in_combine_r in IX; exact IX. }
      destruct (storage x) as [v|] eqn:ST; [|exfalso; apply (HAS _ _ _ _ _ IX ST)].
      exact (KEEP _ _ _ w x v MB WSw IX ST). }
    assert (IHB := IH L ltac:(intros w' [->|I]; apply WS; right; [left; reflexivity|right; exact I]) MB').
    pose proof (stitched_times _ _ _ _ _ _ _ Hh L) as TT; unfold stitched in TT.
    set (q := List.concat ps ++ sel fst (Some z) None fin) in *.
    destruct p as [|p0 p']; [congruence|].
    destruct BP as [B1 B2]; split; [exact B1|].
    apply (balance_app _ _ _ _ _ _ (last (p0 :: p') p0) B2 eq_refl).
    destruct q as [|q0 q']; [constructor|]; destruct IHB as [C1 C2].
    apply (bal_cons lev net fac_run (last (p0 :: p') p0) q0 q' 1%Q); [|rewrite C1|exact C2].
    + left; split; [|reflexivity].
      assert (IN : In (fst q0) (filter (fun t => w + window <=? t) ts)) by (rewrite <- TT; left; reflexivity).
      apply filter_In in IN; destruct IN as [I0 G0]; apply Z.leb_le in G0.
      assert (MIN : forall t', In t' ts -> w + window <= t' -> fst q0 <= t').
      { intros t' I' G'.
        assert (X : In t' (filter (fun t => w + window <=? t) ts)) by (apply filter_In; split; [exact I'|apply Z.leb_le; exact G']).
        assert (SF : StronglySorted Z.lt (filter (fun t => w + window <=? t) ts)).
        { apply filter_sorted; exact ORD. }
        rewrite <- TT in X, SF; simpl in X, SF; destruct X as [->|X]; [lia|].
        inversion SF as [|? ? _ FA]; subst; rewrite Forall_forall in FA; specialize (FA t' X); lia. }
      exists (w + window); split; [apply WS; right; left; reflexivity|split; [|exact MIN]].
      destruct (NOGAP (w + window) ltac:(apply WS; right; left; reflexivity)) as [t [It D]]; unfold decides in *.
      specialize (MIN t It ltac:(lia)); lia.
    + unfold recalculate in RC.
      assert (RL : exists t x l', rev (p0 :: p') = (t, x) :: l' /\ last (p0 :: p') p0 = (t, x)).
      { destruct (exists_last PNE) as [l0 [[t x] E]]; rewrite E; exists t, x, (rev l0); split; [apply rev_unit|apply last_last]. }
      destruct RL as [t [x [l' [RV LA]]]]; rewrite RV in RC; injection RC as RC; rewrite LA, BI, <- RC.
      unfold lev at 1; cbn [snd]; unfold levR.
      destruct (storage x) as [lv|] eqn:ST.
      * destruct (Qeq_bool (cap d) 0) eqn:QC; [exfalso; apply CAP, Qeq_bool_iff; exact QC|].
        field; exact CAP.
      * exfalso.
        assert (IX : In (t, x) it).
        { rewrite ES; apply in_or_app; left; apply in_rev; rewrite RV; left; reflexivity. }
        destruct Sv as [_ [_ [_ [E2 _]]]]; rewrite E2 in IX; apply in_combine_r in IX; apply (HAS _ _ _ _ _ IX ST).
Qed.

Lemma run_balanced : first + window <= final ->
  exists r, solve_operate ts par look init_frac cap window horizon R storage solver = Ok r /\ map fst r = ts /\
    balanced_from lev net fac_run (init_frac d * cap d)%Q r.
Proof.
  intros TWO; destruct (run_history TWO) as [ws [ps [fin [z [EW [Hh [L EO]]]]]]].
  exists (stitched ps fin z); split; [exact EO|split].
  - rewrite (stitched_times _ _ _ _ _ _ _ Hh L); apply filter_all; intros t It; apply Z.leb_le; apply (ordered_hd ts t ORD It).
  - apply (stitched_balanced _ _ _ _ _ _ _ Hh L); [|exact MET].
    intros w' I; apply window_start_iff; rewrite EW; destruct I as [->|I]; [left; reflexivity|right; exact I].
Qed.
End Operate.
