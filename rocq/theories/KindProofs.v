From Verif Require Import Base BaseProofs KindModel KindSpec.
From Coq Require Import QArith.
Local Open Scope string_scope.
Local Open Scope list_scope.

Lemma convert_kind P F k c c' : plain P -> convert P F k c = Ok c' -> is_of k c' \/ (c' = Gap /\ k <> KFlag /\ k <> KWhole).
Proof.
  intros PL H; destruct k, c as [|s|q|z|n|b|t]; cbn in H;
    try (injection H as <-; solve [left; cbn; eauto | left; left; cbn; eauto | left; right; cbn; eauto | right; repeat split; try discriminate; reflexivity]); try discriminate;
    try (destruct (to_int P s) as [z|]; [injection H as <-; left; cbn; eauto|discriminate]);
    try (match type of H with context [to_time ?a ?b ?c] => destruct (to_time a b c) as [z'|] end; [injection H as <-; left; cbn; eauto|discriminate]).
  destruct (to_float P s) as [x|] eqn:E; [|discriminate]; injection H as <-; destruct (PL _ _ E) as [->|I]; [right; repeat split; discriminate|left; exact I].
Qed.
Lemma convert_of P F k c : is_of k c -> convert P F k c = Ok c.
Proof. destruct k; cbn; intros H; repeat match goal with H : _ \/ _ |- _ => destruct H | H : exists _, _ |- _ => destruct H end; subst; reflexivity. Qed.
Lemma convert_gap P F k : k <> KFlag -> k <> KWhole -> convert P F k Gap = Ok Gap.
Proof. destruct k; try reflexivity; intros; contradiction. Qed.
Lemma convert_again P F k c c' : plain P -> convert P F k c = Ok c' -> convert P F k c' = Ok c'.
Proof. intros PL H; destruct (convert_kind P F k c c' PL H) as [I|(-> & A & B)]; [apply convert_of, I|apply convert_gap; assumption]. Qed.
Lemma convert_fails P F k c : (exists e, convert P F k c = Err e) <-> unreadable P F k c.
Proof.
  destruct k, c as [|s|q|z|n|b|t]; cbn.
  all: repeat match goal with
    | |- context [match to_float ?R ?s with _ => _ end] => let E := fresh "E" in destruct (to_float R s) eqn:E
    | |- context [match to_int ?R ?s with _ => _ end] => let E := fresh "E" in destruct (to_int R s) eqn:E
    | |- context [match to_time ?R ?f ?x with _ => _ end] => let E := fresh "E" in destruct (to_time R f x) eqn:E
    end.
  all: split; intros H.
  all: repeat match goal with
    | H : exists _, _ |- _ => destruct H
    | H : _ /\ _ |- _ => destruct H
    | H : _ \/ _ |- _ => destruct H
    end; try discriminate; try contradiction; try congruence; eauto.
  all: try (exfalso; solve [congruence | match goal with H : ~ _ |- _ => apply H; eauto end]).
  all: try (repeat split; solve [discriminate | intros (y & ?); discriminate | reflexivity | assumption]).
  all: try (right; left; eauto; fail); try (right; right; eauto; fail).
  all: try match goal with |- _ /\ _ => split; [discriminate|split; [intros (y & ?); discriminate|try reflexivity; assumption]] end.
Qed.

Lemma convert_all_at P F k a a' p : convert_all P F k a = Ok a' ->
  match at_place p a with Some c => exists c', convert P F k c = Ok c' /\ at_place p a' = Some c' | None => at_place p a' = None end.
Proof.
  revert a'; induction a as [|[q c] r IH]; intros a' H; cbn in H.
  - injection H as <-; reflexivity.
  - destruct (convert P F k c) as [c'|e] eqn:E; [|discriminate]; cbn in H; destruct (convert_all P F k r) as [r'|e] eqn:R; [|discriminate]; injection H as <-; cbn [at_place].
    destruct (list_eq_dec string_dec p q); [eauto|exact (IH r' eq_refl)].
Qed.
Lemma convert_all_in P F k a a' x : convert_all P F k a = Ok a' -> In x a' -> exists c, In (fst x, c) a /\ convert P F k c = Ok (snd x).
Proof.
  revert a'; induction a as [|[q c] r IH]; intros a' H I; cbn in H.
  - injection H as <-; destruct I.
  - destruct (convert P F k c) as [c'|e] eqn:E; [|discriminate]; cbn in H; destruct (convert_all P F k r) as [r'|e] eqn:R; [|discriminate]; injection H as <-.
    destruct I as [<-|I]; [exists c; split; [left; reflexivity|exact E]|destruct (IH r' eq_refl I) as (c0 & I0 & E0); exists c0; split; [right; exact I0|exact E0]].
Qed.
Lemma convert_all_fix P F k a : (forall x, In x a -> convert P F k (snd x) = Ok (snd x)) -> convert_all P F k a = Ok a.
Proof. induction a as [|[q c] r IH]; intros H; [reflexivity|]; cbn; pose proof (H _ (or_introl eq_refl)) as E; cbn [snd] in E; rewrite E; cbn; rewrite IH by (intros x X; apply H; right; exact X); reflexivity. Qed.
Lemma convert_all_ok P F k a : (exists a', convert_all P F k a = Ok a') <-> forall x, In x a -> ~ unreadable P F k (snd x).
Proof.
  induction a as [|[q c] r IH]; cbn; [split; [intros _ x []|eauto]|]; split.
  - intros (a' & H) x [<-|I]; cbn [snd].
    + rewrite <- convert_fails; intros (e & E); rewrite E in H; discriminate.
    + destruct (convert P F k c) as [c'|e]; [|discriminate]; cbn in H; apply IH; [|exact I]; destruct (convert_all P F k r) as [r'|e]; [eauto|discriminate].
  - intros H; pose proof (H _ (or_introl eq_refl)) as E; cbn [snd] in E; rewrite <- convert_fails in E; destruct (convert P F k c) as [c'|e]; [|exfalso; apply E; eauto]; cbn.
    destruct (proj2 IH (fun x X => H x (or_intror X))) as (r' & ->); cbn; eauto.
Qed.

Lemma find_declared m n d : declared m n d -> find m n = Ok (Some d).
Proof. intros (A & B & _ & [(C & D)|(C & D)]); unfold find, active_in; rewrite B, C, D, A; reflexivity. Qed.
Lemma find_undeclared m n : undeclared m n -> find m n = Ok None.
Proof.
  intros U; unfold find, active_in.
  destruct (d_get n (m_lookups m)) as [d1|] eqn:E1; [rewrite (U d1) by auto|]; (destruct (d_get n (m_parameters m)) as [d2|] eqn:E2; [rewrite (U d2) by auto|]);
  (destruct (d_get n (m_dimensions m)) as [d3|] eqn:E3; [rewrite (U d3) by auto|]); reflexivity.
Qed.

(** The array of a name after the update of types. *)
Definition typed (P : py) (F : formats) (m : math) (n : string) (a a' : arr) : Prop :=
  match find m n with Ok (Some d) => convert_all P F (d_kind d) a = Ok a' | Ok None => a' = a | Err _ => False end.
Lemma update_names P F m ds ds' : update_types P F m ds = Ok ds' -> map fst ds' = map fst ds.
Proof.
  revert ds'; induction ds as [|[n a] r IH]; intros ds' H; cbn in H; [injection H as <-; reflexivity|].
  destruct (find m n) as [o|e]; [|discriminate]; cbn in H; destruct (match o with Some d => _ | None => _ end) as [a'|e]; [|discriminate]; cbn in H.
  destruct (update_types P F m r) as [r'|e]; [|discriminate]; injection H as <-; cbn; rewrite (IH r' eq_refl); reflexivity.
Qed.
Lemma update_get P F m ds ds' n : update_types P F m ds = Ok ds' ->
  match d_get n ds with Some a => exists a', typed P F m n a a' /\ d_get n ds' = Some a' | None => d_get n ds' = None end.
Proof.
  revert ds'; induction ds as [|[k a] r IH]; intros ds' H; cbn in H; [injection H as <-; reflexivity|].
  destruct (find m k) as [o|e] eqn:FK; [|discriminate]; cbn in H; destruct (match o with Some d => _ | None => _ end) as [a'|e] eqn:C; [|discriminate]; cbn in H.
  destruct (update_types P F m r) as [r'|e]; [|discriminate]; injection H as <-; cbn [d_get].
  destruct (String.eqb n k) eqn:E; [|exact (IH r' eq_refl)]; apply String.eqb_eq in E as ->; exists a'; split; [|reflexivity].
  unfold typed; rewrite FK; destruct o; [exact C|injection C as <-; reflexivity].
Qed.
Lemma update_in P F m ds ds' n a' : update_types P F m ds = Ok ds' -> In (n, a') ds' -> exists a, In (n, a) ds /\ typed P F m n a a'.
Proof.
  revert ds'; induction ds as [|[k a] r IH]; intros ds' H I; cbn in H; [injection H as <-; destruct I|].
  destruct (find m k) as [o|e] eqn:FK; [|discriminate]; cbn in H; destruct (match o with Some d => _ | None => _ end) as [b|e] eqn:C; [|discriminate]; cbn in H.
  destruct (update_types P F m r) as [r'|e]; [|discriminate]; injection H as <-; destruct I as [E|I].
  - injection E as <- <-; exists a; split; [left; reflexivity|]; unfold typed; rewrite FK; destruct o; [exact C|injection C as <-; reflexivity].
  - destruct (IH r' eq_refl I) as (x & X & T); exists x; split; [right; exact X|exact T].
Qed.
Lemma update_fix P F m ds : (forall n a, In (n, a) ds -> typed P F m n a a) -> update_types P F m ds = Ok ds.
Proof.
  induction ds as [|[n a] r IH]; intros H; [reflexivity|]; cbn; pose proof (H n a (or_introl eq_refl)) as T; unfold typed in T.
  destruct (find m n) as [[d|]|e]; [| |destruct T]; cbn; [rewrite T; cbn|]; rewrite IH by (intros k b I; apply H; right; exact I); reflexivity.
Qed.
Lemma update_ok P F m ds : (exists ds', update_types P F m ds = Ok ds') <-> forall n a, In (n, a) ds -> exists a', typed P F m n a a'.
Proof.
  induction ds as [|[k a] r IH]; cbn; [split; [intros _ n a []|eauto]|]; split.
  - intros (ds' & H); destruct (find m k) as [o|e] eqn:FK; [|discriminate]; cbn in H; destruct (match o with Some d => _ | None => _ end) as [b|e] eqn:C; [|discriminate]; cbn in H.
    intros n x [E|I]; [injection E as <- <-; exists b; unfold typed; rewrite FK; destruct o; [exact C|injection C as <-; reflexivity]|].
    apply (proj1 IH); [|exact I]; destruct (update_types P F m r) as [r'|e]; [eauto|discriminate].
  - intros H; destruct (H k a (or_introl eq_refl)) as (b & T); unfold typed in T; destruct (find m k) as [[d|]|e]; [| |destruct T]; cbn; [rewrite T; cbn|];
      destruct (proj2 IH (fun n x I => H n x (or_intror I))) as (r' & ->); cbn; eauto.
Qed.

Lemma empty_at f a p : at_place p (empty_out f a) = option_map (fun c => if f p then c else if bool_array a then Flag false else Gap) (at_place p a).
Proof.
  unfold empty_out; generalize (bool_array a) as B; intros B; induction a as [|[q c] r IH]; [reflexivity|]; cbn [map at_place fst snd].
  destruct (list_eq_dec string_dec p q) as [->|]; [reflexivity|exact IH].
Qed.
Lemma bool_kind P F k a a' : plain P -> convert_all P F k a = Ok a' -> k <> KWhole -> (bool_array a' = true -> a' = [] \/ k = KFlag) /\ (k = KFlag -> bool_array a' = true).
Proof.
  intros PL H W; split.
  - intros B; destruct a' as [|x r]; [left; reflexivity|right]; unfold bool_array in B; cbn [forallb] in B; apply andb_prop in B as (B & _).
    destruct (convert_all_in _ _ _ _ _ x H (or_introl eq_refl)) as (c & _ & E); destruct (convert_kind _ _ _ _ _ PL E) as [I|(G & _)]; [|rewrite G in B; discriminate].
    destruct (snd x); try discriminate; destruct k; cbn in I; try reflexivity; repeat match goal with H : _ \/ _ |- _ => destruct H | H : exists _, _ |- _ => destruct H end; discriminate.
  - intros ->; unfold bool_array; apply forallb_forall; intros x X; destruct (convert_all_in _ _ _ _ _ x H X) as (c & _ & E); cbn in E; injection E as <-; reflexivity.
Qed.
Lemma typed_empty P F m n a a' f : plain P -> (forall d, find m n = Ok (Some d) -> d_kind d <> KWhole) -> typed P F m n a a' -> typed P F m n (empty_out f a') (empty_out f a').
Proof.
  intros PL W T; unfold typed in *; destruct (find m n) as [[d|]|e]; [|reflexivity|destruct T]; specialize (W d eq_refl).
  destruct (bool_kind P F _ _ _ PL T W) as (B1 & B2).
  apply convert_all_fix; intros x X; unfold empty_out in X; apply in_map_iff in X as (y & <- & Y); cbn [fst snd].
  destruct (convert_all_in _ _ _ _ _ y T Y) as (c & _ & E); destruct (f (fst y)); [exact (convert_again _ _ _ _ _ PL E)|].
  destruct (bool_array a') eqn:B; [destruct (B1 eq_refl) as [-> | ->]; [destruct Y|reflexivity]|].
  apply convert_gap; [intros K; discriminate (B2 K)|exact W].
Qed.

Lemma filter_get {V} (f : string * V -> bool) l n : NoDup (map fst l) -> d_get n (filter f l) = match d_get n l with Some v => if f (n, v) then Some v else None | None => None end.
Proof.
  induction l as [|[k v] r IH]; intros ND; [reflexivity|]; cbn [map fst] in ND; inversion ND as [|? ? NI ND']; subst; cbn [filter d_get].
  destruct (String.eqb n k) eqn:E; [apply String.eqb_eq in E as ->; destruct (f (k, v)) eqn:G; cbn [d_get]; [rewrite String.eqb_refl; reflexivity|]|destruct (f (k, v)); cbn [d_get]; [rewrite E|]; apply IH, ND'].
  rewrite IH by exact ND'; destruct (d_get k r) as [w|] eqn:D; [|reflexivity]; exfalso; apply NI; clear -D; induction r as [|[k' v'] r IH]; [discriminate|]; cbn [d_get] in D; cbn; destruct (String.eqb k k') eqn:E; [left; symmetry; apply String.eqb_eq, E|right; apply IH, D].
Qed.
Lemma map_get {V W} (g : V -> W) l n : d_get n (map (fun x => (fst x, g (snd x))) l) = option_map g (d_get n l).
Proof. induction l as [|[k v] r IH]; [reflexivity|]; cbn [map fst snd d_get]; destruct (String.eqb n k); [reflexivity|exact IH]. Qed.

Definition sane (m : math) (ds : data) : Prop := forall n d, In n (map fst ds) -> find m n = Ok (Some d) -> d_kind d <> KWhole.
Lemma fits_sane m ds : fits m ds -> sane m ds.
Proof. intros (_ & H) n d I E; destruct (H n I) as [(d' & D)|U]; [rewrite (find_declared _ _ _ D) in E; injection E as <-; apply D|rewrite (find_undeclared _ _ U) in E; discriminate]. Qed.

Lemma drop_in ds x : In x (drop_empty ds) -> In x ds.
Proof. unfold drop_empty; rewrite filter_In; tauto. Qed.

(** Cleaning is: types once, emptying out, dropping; the second update of types changes nothing. *)
Lemma clean_once P F m f ds ds' : plain P -> sane m ds -> clean P F m f ds = Ok ds' ->
  exists ds1, update_types P F m ds = Ok ds1 /\ ds' = drop_empty (map (fun x => (fst x, empty_out f (snd x))) ds1).
Proof.
  intros PL SA H; unfold clean in H; destruct (update_types P F m ds) as [ds1|e] eqn:U; [|discriminate]; cbn in H; exists ds1; split; [reflexivity|].
  rewrite update_fix in H; [injection H as <-; reflexivity|]; intros n a I; apply drop_in, in_map_iff in I as ((n' & a1) & E & J); injection E as <- <-; cbn [fst snd].
  destruct (update_in _ _ _ _ _ _ _ U J) as (a0 & I0 & T); refine (typed_empty _ _ _ _ _ _ _ PL _ T); intros d; apply SA, (in_map fst _ _ I0).
Qed.
Lemma clean_ok P F m f ds : plain P -> sane m ds -> (exists ds', clean P F m f ds = Ok ds') <-> forall n a, In (n, a) ds -> exists a', typed P F m n a a'.
Proof.
  intros PL SA; rewrite <- update_ok; unfold clean; split.
  - intros (ds' & H); destruct (update_types P F m ds) as [ds1|e]; [eauto|discriminate].
  - intros (ds1 & U); rewrite U; cbn; eexists; apply update_fix; intros n a I; apply drop_in, in_map_iff in I as ((n' & a1) & E & J); injection E as <- <-; cbn [fst snd].
    destruct (update_in _ _ _ _ _ _ _ U J) as (a0 & I0 & T); refine (typed_empty _ _ _ _ _ _ _ PL _ T); intros d; apply SA, (in_map fst _ _ I0).
Qed.
Lemma clean_get P F m f ds ds' n : plain P -> fits m ds -> clean P F m f ds = Ok ds' ->
  match d_get n ds with
  | Some a => exists a1, typed P F m n a a1 /\ d_get n ds' = if no_value (empty_out f a1) then None else Some (empty_out f a1)
  | None => d_get n ds' = None
  end.
Proof.
  intros PL FI H; destruct (clean_once _ _ _ _ _ _ PL (fits_sane _ _ FI) H) as (ds1 & U & ->); unfold drop_empty.
  assert (ND : NoDup (map fst (map (fun x : string * arr => (fst x, empty_out f (snd x))) ds1))) by (rewrite map_map; cbn [fst]; change (fun x : string * arr => fst x) with (@fst string arr); rewrite (update_names _ _ _ _ _ U); apply FI).
  rewrite (filter_get _ _ _ ND), map_get; pose proof (update_get _ _ _ _ _ n U) as G; destruct (d_get n ds) as [a|].
  - destruct G as (a1 & T & ->); exists a1; split; [exact T|]; cbn [option_map snd]; destruct (no_value (empty_out f a1)); reflexivity.
  - rewrite G; reflexivity.
Qed.
Lemma no_value_at a p c : no_value a = true -> at_place p a = Some c -> c = Gap.
Proof.
  intros N; unfold no_value in N; rewrite forallb_forall in N; intros A; assert (In (p, c) a).
  { induction a as [|[q x] r IH]; [discriminate|]; cbn [at_place] in A; destruct (list_eq_dec string_dec p q) as [->|]; [injection A as <-; left; reflexivity|right; apply IH; [intros y Y; apply N; right; exact Y|exact A]]. }
  specialize (N _ H); cbn [snd] in N; destruct c; try discriminate; reflexivity.
Qed.
(** The value of a declared input at a place. *)
Lemma clean_value P F m f ds ds' n d a p c : plain P -> fits m ds -> clean P F m f ds = Ok ds' -> declared m n d -> d_get n ds = Some a -> at_place p a = Some c -> f p = true ->
  exists c', convert P F (d_kind d) c = Ok c' /\ given ds' n p = c' /\ (d_get n ds' = None -> d_kind d <> KFlag).
Proof.
  intros PL FI H DE G A FP; pose proof (clean_get _ _ _ _ _ _ n PL FI H) as C; rewrite G in C; destruct C as (a1 & T & C).
  unfold typed in T; rewrite (find_declared _ _ _ DE) in T; pose proof (convert_all_at _ _ _ _ _ p T) as E; rewrite A in E; destruct E as (c' & E & A1); exists c'; split; [exact E|].
  assert (A2 : at_place p (empty_out f a1) = Some c') by (rewrite empty_at, A1; cbn; rewrite FP; reflexivity).
  unfold given; rewrite C; destruct (no_value (empty_out f a1)) eqn:N.
  - pose proof (no_value_at _ _ _ N A2) as ->; split; [reflexivity|]; intros _ K; rewrite K in E; cbn in E; discriminate.
  - unfold value_at; rewrite A2; split; [reflexivity|discriminate].
Qed.
