(** Lemmas about settings and their arrays. *)
From Coq Require Import Lia.
From Verif Require Import Base BaseProofs AttrDictModel NodeModel DataModel DataSpec DataProofs DataMore TableModel TableProofs InputModel InputSpec.
Local Open Scope string_scope.
Local Open Scope list_scope.

Lemma lists_is v l : lists v l <-> l = listify v.
Proof. split; [now destruct 1|]. intros ->. destruct v; constructor. Qed.
Lemma entry_is v c : as_entry v c <-> cell_of v = Ok c.
Proof. split; [now destruct 1|]. destruct v; cbn; intros E; try discriminate E; injection E as <-; constructor. Qed.
Lemma each_ok {A B} (f : A -> result B) l ys : each f l = Ok ys <-> Forall2 (fun x y => f x = Ok y) l ys.
Proof.
  revert ys. induction l as [|x l IH]; intros ys; cbn [each].
  - split; [intros E; injection E as <-; constructor|]. now inversion 1.
  - split.
    + destruct (f x) as [y|] eqn:F; cbn [bind]; [|discriminate]. destruct (each f l) as [zs|] eqn:G; cbn [bind]; [|discriminate].
      intros E. injection E as <-. constructor; [trivial|]. now apply IH.
    + inversion 1; subst. rewrite H2. cbn [bind]. rewrite (proj2 (IH _) H4). reflexivity.
Qed.
Lemma texts_ok v ls : texts_of v = Ok ls <-> labels v ls.
Proof.
  unfold texts_of, labels. rewrite each_ok, lists_is. generalize (listify v) as l. intros l. revert ls. induction l as [|x l IH]; intros ls; split.
  - now inversion 1.
  - destruct ls; [constructor|discriminate].
  - inversion 1; subst. cbn. f_equal; [destruct x; cbn in H2; try discriminate H2; now injection H2 as <-|]. now apply IH.
  - destruct ls as [|s ls]; [discriminate|]. intros E. cbn in E. injection E as E1 E. subst x. constructor; [reflexivity|]. now apply IH.
Qed.
Lemma forall2_nth {A B} (R : A -> B -> Prop) l m : Forall2 R l m -> forall k,
  (forall x, nth_error l k = Some x -> exists y, nth_error m k = Some y /\ R x y) /\
  (forall y, nth_error m k = Some y -> exists x, nth_error l k = Some x /\ R x y).
Proof.
  induction 1 as [|x y l m XY F IH]; intros k; [split; intros z; destruct k; discriminate|].
  destruct k as [|k]; [split; cbn; intros z E; injection E as <-; eauto|]. apply IH.
Qed.
Lemma data_list_ok data n cs : data_list data n = Ok cs ->
  List.length cs = n /\ forall k c, k < n -> (nth_error cs k = Some c <-> datum data k c).
Proof.
  assert (forall v, (forall l, v <> VList l) -> bind (cell_of v) (fun c => Ok (repeat c n)) = Ok cs ->
    List.length cs = n /\ forall k c, k < n -> (nth_error cs k = Some c <-> datum v k c)) as PLAIN.
  { intros v NL. destruct (cell_of v) as [c0|] eqn:C; cbn [bind]; [|discriminate]. intros E. injection E as <-. split; [apply repeat_length|].
    intros k c K. split.
    - intros E. apply nth_error_In, repeat_spec in E. subst. constructor. now apply entry_is.
    - inversion 1; subst; [|now contradiction (NL l)]. apply entry_is in H0. rewrite C in H0. injection H0 as <-.
      destruct (nth_error (repeat c0 n) k) eqn:N; [apply nth_error_In, repeat_spec in N; now subst|].
      apply nth_error_None in N. rewrite repeat_length in N. lia. }
  destruct data; try (apply PLAIN; discriminate). cbn [data_list]. destruct (Nat.eqb_spec (List.length l) n) as [L|]; [|discriminate].
  rewrite each_ok. intros F. split; [rewrite <- L; symmetry; now apply Forall2_length in F|]. intros k c K.
  pose proof (forall2_nth _ _ _ F k) as [FW BW]. split.
  - intros E. destruct (BW _ E) as (x & X & CX). apply (da_each _ _ x); [trivial|now apply entry_is].
  - intros A. inversion A as [? ? ? B|? ? x ? X B]; subst; [inversion B|]. destruct (FW _ X) as (y & Y & CY). apply entry_is in B. rewrite B in CY. now injection CY as <-.
Qed.
Lemma repeated_false l : repeated l = false -> NoDup l.
Proof.
  induction l as [|x l IH]; cbn; intros R; [constructor|]. apply orb_false_iff in R. destruct R as [S R]. constructor; [now apply smem_false|now apply IH].
Qed.

(** What was prepared, in the terms of the specification: the [k]-th index item and its entry. *)
Definition item_says (v : validated) (p : pos) (c : cell) : Prop :=
  exists k, nth_error (v_index v) k = Some (map p (v_dims v)) /\ datum (v_data v) k c.
Lemma lookup_get (lookups : list (string * string)) name dim : NoDup (map fst lookups) -> (d_get name lookups = Some dim <-> In (name, dim) lookups).
Proof. intros NL. split; [apply d_get_found|now apply d_get_nodup]. Qed.

(** the three kinds of settings *)
Inductive kind (lookups : list (string * string)) (name : string) (raw : val) (v : validated) : Prop :=
| k_plain : plain lookups name raw -> v = {| v_data := raw; v_index := [[]]; v_dims := [] |} -> kind lookups name raw v
| k_label dim ls : labelled lookups name dim raw -> labels raw ls ->
    v = {| v_data := VBool true; v_index := map (fun l => [l]) ls; v_dims := [dim] |} -> kind lookups name raw v
| k_index d items : raw = VDict d -> indexed d (v_data v) items (v_dims v) ->
    Forall2 labels items (v_index v) -> kind lookups name raw v.
Lemma kinds lookups bc name raw v : NoDup (map fst lookups) -> prepare lookups bc name raw = Ok v -> kind lookups name raw v.
Proof.
  intros NL E.
  assert ((forall d, raw <> VDict d) -> raw <> VNone ->
    match d_get name lookups with
    | Some dim => bind (texts_of raw) (fun ls => Ok {| v_data := VBool true; v_index := map (fun l => [l]) ls; v_dims := [dim] |})
    | None => unindexed raw
    end = Ok v -> kind lookups name raw v) as REST.
  { clear E. intros ND NN. destruct (d_get name lookups) as [dim|] eqn:G.
    - destruct (texts_of raw) as [ls|] eqn:T; cbn [bind]; [|discriminate]. intros X. injection X as <-.
      eapply k_label; [|apply texts_ok; exact T|reflexivity]. split; [now apply lookup_get|now split].
    - assert (forall dim, ~ In (name, dim) lookups) as GN. { intros dim X. apply lookup_get in X; [congruence|trivial]. }
      intros X. destruct raw; cbn [unindexed] in X; try discriminate X; injection X as <-; apply k_plain; trivial;
        try (now left); right; repeat split; try discriminate; trivial. }
  destruct raw; try (apply REST; [discriminate|discriminate|exact E]).
  - injection E as <-. apply k_plain; [now left|reflexivity].
  - clear REST. cbn [prepare] in E. destruct (d_get "data" d) as [data|] eqn:D; [|discriminate E]. destruct (d_get "index" d) as [index|] eqn:X; [|discriminate E].
    destruct (each texts_of (listify index)) as [items|] eqn:T; cbn [bind] in E; [|discriminate E].
    destruct (negb bc && _); [discriminate E|]. destruct (d_get "dims" d) as [dims|] eqn:M; [|discriminate E].
    destruct (texts_of dims) as [ds|] eqn:DS; cbn [bind] in E; [|discriminate E]. injection E as <-.
    apply k_index with (d := d) (items := listify index); [trivial| |].
    + split; cbn [v_data v_dims]; [now apply d_get_found|exists index; split; [now apply d_get_found|now apply lists_is]|].
      exists dims. split; [now apply d_get_found|now apply texts_ok].
    + cbn [v_index]. apply each_ok in T. revert T. generalize (listify index). intros l. revert items. induction l as [|x l IH]; intros items T; inversion T; subst; constructor; [now apply texts_ok|now apply IH].
Qed.

Lemma labels_unique w a b : labels w a -> labels w b -> a = b.
Proof.
  unfold labels. rewrite !lists_is. intros A B. rewrite <- B in A. clear -A. revert b A.
  induction a as [|x a IH]; intros [|y b] A; try discriminate; trivial. cbn in A. injection A as -> A. f_equal. now apply IH.
Qed.
Lemma indexed_unique d data data' items items' dims dims' : NoDup (d_keys d) ->
  indexed d data items dims -> indexed d data' items' dims' -> data = data' /\ items = items' /\ dims = dims'.
Proof.
  intros ND [D1 (i1 & I1 & L1) (m1 & M1 & S1)] [D2 (i2 & I2 & L2) (m2 & M2 & S2)].
  assert (forall k x y, In (k, x) d -> In (k, y) d -> x = y) as U.
  { intros k x y A B. apply (d_get_nodup _ _ _ ND) in A. apply (d_get_nodup _ _ _ ND) in B. congruence. }
  rewrite (U _ _ _ I2 I1) in L2. rewrite (U _ _ _ M2 M1) in S2. apply lists_is in L1, L2. subst.
  repeat split; [eapply U; eassumption|]. eapply labels_unique; eassumption.
Qed.

Lemma says_item lookups bc name raw v p c : NoDup (map fst lookups) -> proper_setting raw -> prepare lookups bc name raw = Ok v ->
  (says lookups name raw p c <-> item_says v p c).
Proof.
  intros NL PS E. destruct (kinds _ _ _ _ _ NL E) as [PL V|dim ls LA LB V|d items R IX F]; clear E.
  - unfold item_says. rewrite V. cbn. split.
    + intros SA. inversion SA as [raw' p' c' A B|raw' dim ls p' A B C|d data items dims k it p' c' A B C D]; subst.
      * exists 0. split; [reflexivity|]. now constructor.
      * destruct PL as [->|(N & _)]; [|destruct A as (A & _); now contradiction (N dim)]. now destruct A as (_ & N & _).
      * destruct PL as [N|(_ & _ & N)]; [discriminate N|now contradiction (N d)].
    + intros (k & K & D). constructor; [trivial|]. inversion D; subst; trivial.
      destruct PL as [N|(_ & N & _)]; [discriminate N|now contradiction (N l)].
  - unfold item_says. rewrite V. cbn. split.
    + intros SA. inversion SA as [raw' p' c' A B|raw' dim' ls' p' A B C|d data items dims k it p' c' A B C D]; subst.
      * destruct LA as (X & Y & _). destruct A as [N|(N & _)]; [contradiction|now contradiction (N dim)].
      * rewrite (labels_unique _ _ _ LB B). destruct LA as (X & _), A as (X' & _). apply lookup_get in X, X'; trivial. rewrite X in X'. injection X' as <-.
        apply (in_map (fun l => [l])), In_nth_error in C. destruct C as [k K]. exists k. split; [exact K|]. constructor. constructor.
      * destruct LA as (_ & _ & N). now contradiction (N d).
    + intros (k & K & D). assert (In (p dim) ls) as X.
      { apply nth_error_In, in_map_iff in K. destruct K as (x & X & Y). now injection X as ->. }
      inversion D as [? ? ? Q|]; subst. inversion Q; subst. now apply (sa_label lookups name raw dim ls).
  - unfold item_says. split.
    + subst raw. intros SA. inversion SA as [raw' p' c' A B|raw' dim' ls' p' A B C|d' data items' dims k it p' c' A B C D]; subst.
      * destruct A as [N|(_ & _ & N)]; [discriminate N|now contradiction (N d)].
      * destruct A as (_ & _ & N). now contradiction (N d).
      * destruct (indexed_unique _ _ _ _ _ _ _ (PS d eq_refl) IX A) as (-> & -> & ->). exists k. split; [|trivial].
        destruct (proj1 (forall2_nth _ _ _ F k) _ B) as (y & Y & LY). rewrite Y. f_equal. eapply labels_unique; eassumption.
    + intros (k & K & D). destruct (proj2 (forall2_nth _ _ _ F k) _ K) as (it & T & L). rewrite R. eapply sa_index; eassumption.
Qed.
Lemma over_dims lookups bc name raw v ds : NoDup (map fst lookups) -> proper_setting raw -> prepare lookups bc name raw = Ok v ->
  (over lookups name raw ds <-> ds = v_dims v).
Proof.
  intros NL PS E. destruct (kinds _ _ _ _ _ NL E) as [PL V|dim ls LA LB V|d items R IX F]; clear E.
  - rewrite V. cbn. split; [|intros ->; now constructor]. intros OV. inversion OV as [raw' A|raw' dim A|d data items dims A]; subst; trivial.
    + destruct A as (X & Y & _), PL as [N|(N & _)]; [contradiction|now contradiction (N dim)].
    + destruct PL as [N|(_ & _ & N)]; [discriminate N|now contradiction (N d)].
  - rewrite V. cbn. split; [|intros ->; now constructor]. intros OV. inversion OV as [raw' A|raw' dim' A|d data items dims A]; subst.
    + destruct LA as (X & Y & _), A as [N|(N & _)]; [contradiction|now contradiction (N dim)].
    + destruct LA as (X & _), A as (X' & _). apply lookup_get in X, X'; trivial. congruence.
    + destruct LA as (_ & _ & N). now contradiction (N d).
  - subst raw. split; [|intros ->; now econstructor; eassumption]. intros OV. inversion OV as [raw' A|raw' dim' A|d' data items' dims A]; subst.
    + destruct A as [N|(_ & _ & N)]; [discriminate N|now contradiction (N d)].
    + destruct A as (_ & _ & N). now contradiction (N d).
    + now destruct (indexed_unique _ _ _ _ _ _ _ (PS d eq_refl) IX A) as (_ & _ & ->).
Qed.

(** ** One array *)
Lemma find_entry ls (es : list (list string * cell)) c : NoDup (map fst es) -> c <> NaN -> (lookup_entry ls es = c <-> In (ls, c) es).
Proof.
  intros N NN. unfold lookup_entry. split.
  - destruct (find _ es) as [[l x]|] eqn:F; [|congruence]. apply find_some in F. cbn [fst] in F. destruct F as [X F].
    destruct (list_eq_dec string_dec l ls) as [L|]; [|discriminate F]. intros <-. cbn. now subst.
  - intros X. destruct (find _ es) as [[l x]|] eqn:F.
    + apply find_some in F. cbn [fst] in F. destruct F as [Y F]. destruct (list_eq_dec string_dec l ls) as [->|]; [|discriminate F].
      pose proof (nodup_same fst es (ls, c) (ls, x) N X Y eq_refl) as Q. now injection Q as <-.
    + pose proof (find_none _ _ F _ X) as Q. cbn [fst] in Q. destruct (list_eq_dec string_dec ls ls); [discriminate Q|contradiction].
Qed.
Lemma combine_nth_error {A B} (l : list A) (m : list B) x y : In (x, y) (combine l m) <-> exists k, nth_error l k = Some x /\ nth_error m k = Some y.
Proof.
  revert m. induction l as [|a l IH]; intros [|b m]; cbn; try (split; [intros []|intros (k & A1 & A2); destruct k; (discriminate A1 || discriminate A2)]).
  rewrite IH. split.
  - intros [E|(k & K)]; [injection E as <- <-; now exists 0|now exists (S k)].
  - intros ([|k] & K1 & K2); [left; cbn in *; congruence|right; now exists k].
Qed.
Lemma combine_fst {A B} (l : list A) (m : list B) : List.length l = List.length m -> map fst (combine l m) = l.
Proof. revert m. induction l as [|a l IH]; intros [|b m] L; try discriminate; trivial. cbn. f_equal. apply IH. now injection L. Qed.

Section Array.
  Variables (name : string) (v : validated) (ds : dset).
  Hypothesis E : to_array name v = Ok ds.
  Hypothesis D : v_dims v <> [].

  Lemma array_dims n : dims_of ds n = if String.eqb n name then v_dims v else [].
  Proof.
    unfold to_array in E. destruct (v_dims v) as [|d0 dr] eqn:V; [contradiction|]. rewrite <- V in *.
    destruct (data_list _ _); cbn [bind] in E; [|discriminate E]. destruct (negb _); [discriminate E|]. destruct (twice _); [discriminate E|]. destruct (repeated _); [discriminate E|].
    injection E as <-. unfold dims_of. cbn. now destruct (String.eqb n name).
  Qed.
  Lemma array_proper : proper_dset ds.
  Proof.
    unfold to_array in E. destruct (v_dims v) as [|d0 dr] eqn:V; [contradiction|]. rewrite <- V in *.
    destruct (data_list _ _); cbn [bind] in E; [|discriminate E]. destruct (negb _); [discriminate E|]. destruct (twice _); [discriminate E|]. destruct (repeated _) eqn:R; [discriminate E|].
    injection E as <-. split; cbn [coords vars].
    - rewrite map_map. cbn [fst]. rewrite combine_snd by (now rewrite seq_length). now apply repeated_false.
    - repeat constructor. intros [].
    - intros n b [X|[]]. injection X as <- <-. intros i j A. cbn in *. f_equal. apply map_ext_in. exact A.
  Qed.
  Lemma array_names n : In n (map fst (vars ds)) <-> n = name.
  Proof.
    unfold to_array in E. destruct (v_dims v) as [|d0 dr] eqn:V; [contradiction|]. rewrite <- V in *.
    destruct (data_list _ _); cbn [bind] in E; [|discriminate E]. destruct (negb _); [discriminate E|]. destruct (twice _); [discriminate E|]. destruct (repeated _) eqn:R; [discriminate E|].
    injection E as <-. cbn. intuition.
  Qed.
  Lemma array_coords d : In d (map fst (coords ds)) <-> In d (v_dims v).
  Proof.
    unfold to_array in E. destruct (v_dims v) as [|d0 dr] eqn:V; [contradiction|]. rewrite <- V in *.
    destruct (data_list _ _); cbn [bind] in E; [|discriminate E]. destruct (negb _); [discriminate E|]. destruct (twice _); [discriminate E|]. destruct (repeated _) eqn:R; [discriminate E|].
    injection E as <-. cbn [coords]. rewrite map_map. cbn [fst]. rewrite combine_snd by (now rewrite seq_length). tauto.
  Qed.
  Lemma array_member j d m : nth_error (v_dims v) j = Some d -> In m (members ds d) -> exists i, In i (v_index v) /\ nth j i "" = m.
  Proof.
    intros J M. apply member_in in M; [|apply array_proper]. destruct M as (l & L & X).
    pose proof (pd_coords _ array_proper) as PD.
    unfold to_array in E. destruct (v_dims v) as [|d0 dr] eqn:V; [contradiction|]. rewrite <- V in *.
    destruct (data_list _ _); cbn [bind] in E; [|discriminate E]. destruct (negb _); [discriminate E|]. destruct (twice _); [discriminate E|]. destruct (repeated _) eqn:R; [discriminate E|].
    injection E as <-. cbn [coords] in *. apply in_map_iff in L. destruct L as ([j' d'] & Q & C). cbn [fst snd] in Q. injection Q as -> <-.
    apply combine_nth_error in C. destruct C as (k & K1 & K2).
    assert (k < List.length (v_dims v)) as KL by (apply nth_error_Some; congruence).
    apply (nth_error_nth _ _ 0) in K1. rewrite seq_nth in K1 by exact KL. cbn in K1. subst j'.
    assert (k = j) as ->.
    { apply repeated_false in R. eapply NoDup_nth_error; [exact R|exact KL|congruence]. }
    apply nodup_In, in_map_iff in X. destruct X as (i & <- & I1). now exists i.
  Qed.
  Lemma array_read p c : c <> NaN -> (read ds name p = c <-> item_says v p c).
  Proof.
    intros N. unfold to_array in E. destruct (v_dims v) as [|d0 dr] eqn:V; [contradiction|]. rewrite <- V in *.
    destruct (data_list _ _) as [cs|] eqn:DL; cbn [bind] in E; [|discriminate E]. destruct (negb _) eqn:LN; [discriminate E|]. destruct (twice _) eqn:T; [discriminate E|].
    destruct (repeated _) eqn:R; [discriminate E|]. apply negb_false_iff in LN. rewrite forallb_forall in LN.
    destruct (data_list_ok _ _ _ DL) as [LC DC]. apply twice_false in T.
    assert (forall c, c <> NaN -> (lookup_entry (map p (v_dims v)) (combine (v_index v) cs) = c <-> item_says v p c)) as AT.
    { intros x X. rewrite find_entry by (trivial; now rewrite combine_fst). rewrite combine_nth_error. unfold item_says. split.
      - intros (k & K1 & K2). exists k. split; [trivial|]. apply DC; [|trivial]. apply nth_error_Some. congruence.
      - intros (k & K1 & K2). exists k. split; [trivial|]. apply DC; [|trivial]. apply nth_error_Some. congruence. }
    injection E as <-. unfold read. cbn [vars d_get]. rewrite String.eqb_refl. cbn [a_dims a_at].
    destruct (here _ _ p) eqn:H; [now apply AT|]. split; [congruence|]. intros IS. exfalso.
    destruct IS as (k & K & _). unfold here in H.
    assert (forallb (fun d => smem (p d) (members {| coords := map (fun jd => (snd jd, nodup string_dec (map (fun i => nth (fst jd) i "") (v_index v))))
                               (combine (seq 0 (List.length (v_dims v))) (v_dims v)); vars := [(name, {| a_dims := v_dims v; a_bool := forallb is_bool cs;
                                    a_at := fun p => lookup_entry (map p (v_dims v)) (combine (v_index v) cs) |})] |} d)) (v_dims v) = true) as H'; [|congruence].
    apply forallb_forall. intros d X. apply smem_true. apply In_nth_error in X. destruct X as [j J].
    unfold members. cbn [coords].
    rewrite (d_get_nodup d (nodup string_dec (map (fun i => nth j i "") (v_index v)))).
    - apply nodup_In. apply in_map_iff. exists (map p (v_dims v)). split; [|now apply nth_error_In in K].
      apply nth_error_nth. rewrite nth_error_map, J. reflexivity.
    - rewrite map_map. cbn [fst]. rewrite combine_snd by (now rewrite seq_length). now apply repeated_false.
    - apply in_map_iff. exists (j, d). split; [reflexivity|]. apply combine_nth_error. exists j. split; [|trivial].
      assert (j < List.length (v_dims v)) as JL by (apply nth_error_Some; congruence).
      rewrite (nth_error_nth' _ 0) by (now rewrite seq_length). now rewrite seq_nth.
  Qed.
End Array.

(** ** Putting arrays together *)
Lemma add_dims new old n d : In d (dims_of (add_to_dataset new old) n) <-> In d (dims_of new n) \/ In d (dims_of old n).
Proof.
  unfold dims_of at 1. unfold add_to_dataset. cbn [vars]. rewrite (d_get_map_names (fun n => {| a_dims := join (dims_of new n) (dims_of old n); a_bool := bool_of new n && bool_of old n;
       a_at := fun i => let c := read new n i in if is_nan c then read old n i else c |})).
  destruct (smem n (var_names new old)) eqn:S; cbn [a_dims]; [apply join_in|]. apply smem_false in S. unfold var_names in S. rewrite join_in in S.
  unfold dims_of. assert (d_get n (vars new) = None) as -> by (apply d_get_none; tauto). assert (d_get n (vars old) = None) as -> by (apply d_get_none; tauto). cbn. tauto.
Qed.
Lemma add_names new old n : In n (map fst (vars (add_to_dataset new old))) <-> In n (map fst (vars new)) \/ In n (map fst (vars old)).
Proof. unfold add_to_dataset. cbn [vars]. rewrite map_map. cbn [fst]. rewrite map_id. apply join_in. Qed.
Lemma add_coords new old d : In d (map fst (coords (add_to_dataset new old))) <-> In d (map fst (coords new)) \/ In d (map fst (coords old)).
Proof. unfold add_to_dataset. cbn [coords]. rewrite map_map. cbn [fst]. rewrite map_id. apply join_in. Qed.
Lemma read_none ds n p : ~ In n (map fst (vars ds)) -> read ds n p = NaN.
Proof. intros N. unfold read. now rewrite (proj2 (d_get_none _ _) N). Qed.
Lemma read_here ds n p : read ds n p <> NaN -> forall d, In d (dims_of ds n) -> In (p d) (members ds d).
Proof.
  unfold read, dims_of. destruct (d_get n (vars ds)) as [a|]; [|intros []; trivial]. unfold here. destruct (forallb _ _) eqn:F; [|intros N; now contradiction N].
  intros _ d D. rewrite forallb_forall in F. now apply smem_true, F.
Qed.
Lemma forallb_ext_in {A} (f g : A -> bool) l : (forall x, In x l -> f x = g x) -> forallb f l = forallb g l.
Proof. intros E. induction l as [|x l IH]; [reflexivity|]. cbn. rewrite E by now left. rewrite IH; [reflexivity|]. intros y Y. apply E. now right. Qed.
Lemma is_nan_spec c : is_nan c = true <-> c = NaN.
Proof. destruct c; cbn; split; congruence. Qed.
(** an entry of the whole is one of the parts *)
Lemma add_read_part new old n p c : c <> NaN -> read (add_to_dataset new old) n p = c ->
  read new n p = c \/ (read new n p = NaN /\ read old n p = c).
Proof.
  intros N. unfold read at 1. unfold add_to_dataset at 1. cbn [vars]. rewrite (d_get_map_names (fun n => {| a_dims := join (dims_of new n) (dims_of old n); a_bool := bool_of new n && bool_of old n;
       a_at := fun i => let c := read new n i in if is_nan c then read old n i else c |})).
  destruct (smem n (var_names new old)); [|congruence]. cbn [a_dims a_at]. destruct (here _ _ p); [|congruence]. cbv zeta.
  destruct (is_nan (read new n p)) eqn:I; [|now left]. apply is_nan_spec in I. intros E. now right.
Qed.
Lemma add_read_new new old n p c : proper_dset new -> proper_dset old -> c <> NaN -> read new n p = c ->
  (forall d, In d (dims_of old n) -> In (p d) (members new d) \/ In (p d) (members old d)) -> read (add_to_dataset new old) n p = c.
Proof.
  intros PN PO N E W. rewrite add_read; trivial.
  - rewrite E. destruct (is_nan c) eqn:I; trivial. apply is_nan_spec in I. contradiction.
  - intros d [D|D]; [left; apply (read_here new n); congruence|now apply W].
Qed.
Lemma add_read_old new old n p c : proper_dset new -> proper_dset old -> c <> NaN -> read old n p = c -> read new n p = NaN ->
  (forall d, In d (dims_of new n) -> In (p d) (members new d) \/ In (p d) (members old d)) -> read (add_to_dataset new old) n p = c.
Proof.
  intros PN PO N E E' W. rewrite add_read; trivial.
  - rewrite E'. exact E.
  - intros d [D|D]; [now apply W|]. right. apply (read_here old n); congruence.
Qed.

(** ** A dictionary of definitions *)
Section Defs.
  Variables (lookups : list (string * string)) (bc : bool) (dim : string).

  (** [L] lists what has been added: name, item, prepared setting. *)
  Record built (ds : dset) (L : list (string * string * validated)) : Prop := {
    bu_proper : proper_dset ds;
    bu_names : forall n, In n (map fst (vars ds)) <-> exists i v, In (n, i, v) L;
    bu_dims : forall n d, In d (dims_of ds n) <-> exists i v, In (n, i, v) L /\ (d = dim \/ In d (v_dims v));
    bu_coords : forall d, In d (map fst (coords ds)) <-> exists n i v, In (n, i, v) L /\ (d = dim \/ In d (v_dims v));
    bu_sound : forall n p c, c <> NaN -> read ds n p = c -> exists v, In (n, p dim, v) L /\ item_says v p c;
    bu_full : forall n p c v, c <> NaN -> In (n, p dim, v) L -> item_says v p c ->
       (forall d, In d (dims_of ds n) -> d = dim \/ In d (v_dims v)) -> read ds n p = c
  }.
  Lemma built_nothing : built no_data [].
  Proof.
    split; cbn.
    - split; cbn; [constructor|constructor|intros ? ? []].
    - intros n. split; [intros []|intros (? & ? & [])].
    - intros n d. split; [intros []|intros (? & ? & [] & _)].
    - intros d. split; [intros []|intros (? & ? & ? & [] & _)].
    - intros n p c N E. contradiction N. now rewrite <- E.
    - intros ? ? ? ? ? [].
  Qed.
  Lemma inject_says item v p c : item_says (inject dim item v) p c <-> item = p dim /\ item_says v p c.
  Proof.
    unfold item_says, inject. cbn. split.
    - intros (k & K & D). rewrite nth_error_map in K. destruct (nth_error (v_index v) k) as [i|] eqn:N; [|discriminate K]. injection K as -> ->.
      split; [trivial|]. now exists k.
    - intros (-> & k & K & D). exists k. split; [|trivial]. rewrite nth_error_map, K. reflexivity.
  Qed.
  Lemma built_add ds L name item v a : built ds L -> ~ (exists w, In (name, item, w) L) -> to_array name (inject dim item v) = Ok a ->
    built (add_to_dataset a ds) ((name, item, v) :: L).
  Proof.
    intros B NEW A. assert (v_dims (inject dim item v) <> []) as ND by discriminate.
    pose proof (array_proper _ _ _ A ND) as AP. pose proof (bu_proper _ _ B) as BP.
    assert (forall n d, In d (dims_of a n) <-> n = name /\ (d = dim \/ In d (v_dims v))) as AD.
    { intros n d. rewrite (array_dims _ _ _ A ND). destruct (String.eqb_spec n name); cbn; intuition. }
    assert (forall n p, n <> name -> read a n p = NaN) as OTHER.
    { intros n p N. apply read_none. now rewrite (array_names _ _ _ A ND). }
    split.
    - now apply add_proper.
    - intros n. rewrite add_names, (array_names _ _ _ A ND), (bu_names _ _ B). split.
      + intros [->|(i & w & W)]; [exists item, v; now left|exists i, w; now right].
      + intros (i & w & [W|W]); [injection W as -> -> ->; now left|right; now exists i, w].
    - intros n d. rewrite add_dims, AD, (bu_dims _ _ B). split.
      + intros [(-> & D)|(i & w & W & D)]; [exists item, v; split; [now left|trivial]|exists i, w; split; [now right|trivial]].
      + intros (i & w & [W|W] & D); [injection W as -> -> ->; left; now split|right; now exists i, w].
    - intros d. rewrite add_coords, (array_coords _ _ _ A ND), (bu_coords _ _ B). cbn [inject v_dims In]. split.
      + intros [D|(n & i & w & W & D)]; [exists name, item, v; split; [now left|intuition]|exists n, i, w; split; [now right|trivial]].
      + intros (n & i & w & [W|W] & D); [injection W as -> -> ->; left; intuition|right; now exists n, i, w].
    - intros n p c N R. apply add_read_part in R; [|trivial]. destruct R as [R|[_ R]].
      + destruct (String.eqb_spec n name) as [->|NN]; [|rewrite OTHER in R by exact NN; congruence].
        apply (array_read _ _ _ A ND p c N) in R. apply inject_says in R. destruct R as [-> R]. exists v. split; [now left|trivial].
      + destruct (bu_sound _ _ B n p c N R) as (w & W & S). exists w. split; [now right|trivial].
    - intros n p c w N [W|W] S F.
      + injection W as -> -> ->. apply add_read_new; trivial.
        * apply (array_read _ _ _ A ND p c N). now apply inject_says.
        * intros d D. left. apply (read_here a n).
          -- rewrite (proj2 (array_read _ _ _ A ND p c N)); [trivial|now apply inject_says].
          -- apply AD. split; [trivial|]. apply F. apply add_dims. now right.
      + assert (read ds n p = c) as R.
        { apply (bu_full _ _ B n p c w); trivial. intros d D. apply F, add_dims. now right. }
        apply add_read_old; trivial.
        * destruct (String.eqb_spec n name) as [->|NN]; [|now apply OTHER].
          destruct (read a name p) as [|b|z|s] eqn:RA; trivial; exfalso; apply NEW; exists w;
            (apply (array_read _ _ _ A ND) in RA; [|discriminate]); apply inject_says in RA; destruct RA as [-> _]; exact W.
        * intros d D. right. apply (read_here ds n); [congruence|]. apply (bu_dims _ _ B). exists (p dim), w. split; [trivial|]. apply F, add_dims. now left.
  Qed.

  Definition prepared (items : list (string * dict)) (e : string * string * validated) : Prop :=
    exists settings raw, In (snd (fst e), settings) items /\ In (fst (fst e), raw) settings /\ prepare lookups bc (fst (fst e)) raw = Ok (snd e).
  Lemma settings_built item settings : NoDup (d_keys settings) -> forall ds L ds', built ds L ->
    (forall n v, In n (d_keys settings) -> ~ In (n, item, v) L) ->
    add_settings lookups bc dim item settings ds = Ok ds' ->
    exists L', built ds' L' /\ forall n i v, In (n, i, v) L' <-> In (n, i, v) L \/ (i = item /\ exists raw, In (n, raw) settings /\ prepare lookups bc n raw = Ok v).
  Proof.
    induction settings as [|[name raw] r IH]; intros ND ds L ds' B NEW E; cbn [add_settings] in E.
    - injection E as <-. exists L. split; [trivial|]. intros. split; [tauto|]. intros [X|(_ & w & [] & _)]; trivial.
    - destruct (prepare lookups bc name raw) as [v|] eqn:P; cbn [bind] in E; [|discriminate E].
      destruct (to_array name (inject dim item v)) as [a|] eqn:A; cbn [bind] in E; [|discriminate E].
      cbn in ND. inversion ND as [|? ? NI ND']; subst.
      assert (built (add_to_dataset a ds) ((name, item, v) :: L)) as B'.
      { apply built_add; trivial. intros (w & W). apply (NEW name w); [now left|trivial]. }
      destruct (IH ND' _ _ ds' B') as (L' & BL & HL); [|exact E|].
      + intros n w N [X|X]; [injection X as -> ->; contradiction|]. apply (NEW n w); [now right|trivial].
      + exists L'. split; [trivial|]. intros n i w. rewrite HL. cbn [In]. split.
        * intros [[X|X]|(-> & x & X & PX)]; [injection X as -> -> ->; right; split; [trivial|exists raw; auto]|now left|right; split; [trivial|exists x; auto]].
        * intros [X|(-> & x & [X|X] & PX)]; [left; now right|injection X as -> ->; left; left; congruence|right; split; [trivial|now exists x]].
  Qed.
  Lemma items_built items : NoDup (map fst items) -> (forall i s, In (i, s) items -> NoDup (d_keys s)) -> forall ds L ds', built ds L ->
    (forall n i v, In i (map fst items) -> ~ In (n, i, v) L) ->
    definition_ds lookups bc dim items ds = Ok ds' ->
    exists L', built ds' L' /\ forall n i v, In (n, i, v) L' <-> In (n, i, v) L \/ prepared items (n, i, v).
  Proof.
    induction items as [|[item settings] r IH]; intros ND NS ds L ds' B NEW E; cbn [definition_ds] in E.
    - injection E as <-. exists L. split; [trivial|]. intros. split; [tauto|]. intros [X|(s & w & [] & _)]; trivial.
    - destruct (add_settings lookups bc dim item settings ds) as [d1|] eqn:A; cbn [bind] in E; [|discriminate E].
      cbn in ND. inversion ND as [|? ? NI ND']; subst.
      destruct (settings_built item settings (NS _ _ (or_introl eq_refl)) ds L d1 B) as (L1 & B1 & H1); [|exact A|].
      { intros n v _. apply NEW. now left. }
      destruct (IH ND' (fun i s X => NS i s (or_intror X)) d1 L1 ds' B1) as (L2 & B2 & H2); [|exact E|].
      + intros n i v N X. apply H1 in X. destruct X as [X|(-> & _)]; [|contradiction]. apply (NEW n i v); [now right|trivial].
      + exists L2. split; [trivial|]. intros n i v. rewrite H2, H1. unfold prepared. cbn [fst snd]. split.
        * intros [[X|(-> & raw & X & P)]|(s & raw & X & Y & P)]; [now left|right; exists settings, raw; split; [now left|auto]|right; exists s, raw; split; [now right|auto]].
        * intros [X|(s & raw & [X|X] & Y & P)]; [auto|injection X as -> ->; left; right; split; [trivial|now exists raw]|right; now exists s, raw].
  Qed.
  Lemma definition_built items ds : NoDup (map fst items) -> (forall i s, In (i, s) items -> NoDup (d_keys s)) ->
    definition_ds lookups bc dim items no_data = Ok ds -> exists L, built ds L /\ forall n i v, In (n, i, v) L <-> prepared items (n, i, v).
  Proof.
    intros ND NS E. destruct (items_built items ND NS no_data [] ds built_nothing) as (L & B & H); [intros ? ? ? _ []|exact E|].
    exists L. split; [trivial|]. intros n i v. rewrite H. cbn. tauto.
  Qed.
  Lemma settings_prepared item settings : forall ds ds', add_settings lookups bc dim item settings ds = Ok ds' ->
    forall n raw, In (n, raw) settings -> exists v, prepare lookups bc n raw = Ok v.
  Proof.
    induction settings as [|[m x] r IH]; intros ds ds' E n raw X; [destruct X|]. cbn [add_settings] in E.
    destruct (prepare lookups bc m x) as [v|] eqn:P; cbn [bind] in E; [|discriminate E].
    destruct (to_array m (inject dim item v)) as [a|] eqn:A; cbn [bind] in E; [|discriminate E].
    destruct X as [X|X]; [injection X as <- <-; now exists v|]. eapply IH; eassumption.
  Qed.
  Lemma definition_prepared items : forall ds ds', definition_ds lookups bc dim items ds = Ok ds' ->
    forall i s n raw, In (i, s) items -> In (n, raw) s -> exists v, prepare lookups bc n raw = Ok v.
  Proof.
    induction items as [|[m x] r IH]; intros ds ds' E i s n raw X Y; [destruct X|]. cbn [definition_ds] in E.
    destruct (add_settings lookups bc dim m x ds) as [d1|] eqn:A; cbn [bind] in E; [|discriminate E].
    destruct X as [X|X]; [injection X as <- <-; eapply settings_prepared; eassumption|]. eapply IH; eassumption.
  Qed.
End Defs.

Section DefSays.
  Variables (lookups : list (string * string)) (bc : bool) (dim : string) (items : list (string * dict)) (ds : dset).
  Hypothesis NL : NoDup (map fst lookups).
  Hypothesis NI : NoDup (map fst items).
  Hypothesis NS : forall i s, In (i, s) items -> NoDup (d_keys s).
  Hypothesis PS : forall i s n raw, In (i, s) items -> In (n, raw) s -> proper_setting raw.
  Hypothesis E : definition_ds lookups bc dim items no_data = Ok ds.

  Lemma def_proper : proper_dset ds.
  Proof. destruct (definition_built lookups bc dim items ds NI NS E) as (L & B & _). apply B. Qed.
  Lemma def_names n : In n (map fst (vars ds)) <-> exists i s raw, In (i, s) items /\ In (n, raw) s.
  Proof.
    destruct (definition_built lookups bc dim items ds NI NS E) as (L & B & H). rewrite (bu_names _ _ _ B). split.
    - intros (i & v & X). apply H in X. destruct X as (s & raw & A & C & _). exists i, s, raw. now split.
    - intros (i & s & raw & A & C). destruct (definition_prepared _ _ _ _ _ _ E _ _ _ _ A C) as (v & V). exists i, v. apply H. exists s, raw. auto.
  Qed.
  Lemma def_dims n d : In d (dims_of ds n) <-> exists i s raw o, In (i, s) items /\ In (n, raw) s /\ over lookups n raw o /\ (d = dim \/ In d o).
  Proof.
    destruct (definition_built lookups bc dim items ds NI NS E) as (L & B & H). rewrite (bu_dims _ _ _ B). split.
    - intros (i & v & X & D). apply H in X. destruct X as (s & raw & A & C & P). cbn in *. exists i, s, raw, (v_dims v). repeat split; trivial.
      apply (over_dims lookups bc n raw v); trivial. now apply (PS i s n raw).
    - intros (i & s & raw & o & A & C & O & D). destruct (definition_prepared _ _ _ _ _ _ E _ _ _ _ A C) as (v & V).
      apply (over_dims lookups bc n raw v) in O; trivial; [|now apply (PS i s n raw)]. subst o. exists i, v. split; [|trivial]. apply H. exists s, raw. auto.
  Qed.
  Lemma def_dims_coords n d : In d (dims_of ds n) -> In d (map fst (coords ds)).
  Proof.
    destruct (definition_built lookups bc dim items ds NI NS E) as (L & B & H). rewrite (bu_dims _ _ _ B), (bu_coords _ _ _ B).
    intros (i & v & X). now exists n, i, v.
  Qed.
  Lemma def_sound n p c : c <> NaN -> read ds n p = c -> exists s raw, In (p dim, s) items /\ In (n, raw) s /\ says lookups n raw p c.
  Proof.
    intros N R. destruct (definition_built lookups bc dim items ds NI NS E) as (L & B & H).
    destruct (bu_sound _ _ _ B n p c N R) as (v & V & S). apply H in V. destruct V as (s & raw & A & C & P). cbn in *. exists s, raw.
    repeat split; trivial. apply (says_item lookups bc n raw v); trivial. now apply (PS (p dim) s n raw).
  Qed.
  Lemma def_full n p c s raw o : c <> NaN -> In (p dim, s) items -> In (n, raw) s -> says lookups n raw p c -> over lookups n raw o ->
    (forall d, In d (dims_of ds n) -> d = dim \/ In d o) -> read ds n p = c.
  Proof.
    intros N A C S O D. destruct (definition_built lookups bc dim items ds NI NS E) as (L & B & H).
    destruct (definition_prepared _ _ _ _ _ _ E _ _ _ _ A C) as (v & V).
    apply (bu_full _ _ _ B n p c v); trivial.
    - apply H. exists s, raw. auto.
    - apply (says_item lookups bc n raw v); trivial. now apply (PS (p dim) s n raw).
    - apply (over_dims lookups bc n raw v) in O; trivial; [now subst o|]. now apply (PS (p dim) s n raw).
  Qed.
End DefSays.

(** ** The blocks of the nodes *)
Definition widened (refs : list string) (v : string) : bool := smem v (refs ++ ["carrier_in"; "carrier_out"]).
Section Block.
  Variables (n : string) (refs : list string) (ds b : dset).
  Hypothesis PD : proper_dset ds.
  Hypothesis DC : forall v d, In d (dims_of ds v) -> In d (map fst (coords ds)).
  Hypothesis E : over_nodes n refs ds = Ok b.

  Lemma block_is : ~ In "nodes" (map fst (coords ds)) /\ coords b = ("nodes", [n]) :: coords ds /\
    forall v, d_get v (vars b) = match d_get v (vars ds) with
      | Some a => Some (if widened refs v then {| a_dims := "nodes" :: a_dims a; a_bool := a_bool a; a_at := a_at a |} else a)
      | None => None end.
  Proof.
    unfold over_nodes in E. destruct (d_mem "nodes" (coords ds)) eqn:M; [discriminate E|]. destruct (forallb _ refs); [|discriminate E]. injection E as <-. split; [|split; [reflexivity|]].
    - intros X. apply d_mem_keys in X. congruence.
    - intros v. cbn [vars]. unfold widened. induction (vars ds) as [|[m a] r IH]; [reflexivity|]. cbn [map d_get fst snd].
      destruct (smem m (refs ++ _)) eqn:S; cbn [d_get]; (destruct (String.eqb_spec v m) as [->|]; [now rewrite S|exact IH]).
  Qed.
  Lemma block_refs r : In r refs -> In r (map fst (vars ds)).
  Proof.
    unfold over_nodes in E. destruct (d_mem "nodes" (coords ds)) eqn:M; [discriminate E|]. destruct (forallb _ refs) eqn:F; [|discriminate E]. clear E.
    intros R. rewrite forallb_forall in F. apply d_mem_keys. now apply F.
  Qed.
  Lemma block_members d : members b d = if String.eqb d "nodes" then [n] else members ds d.
  Proof. destruct block_is as (_ & C & _). unfold members. rewrite C. cbn [d_get]. now destruct (String.eqb d "nodes"). Qed.
  Lemma block_names v : In v (map fst (vars b)) <-> In v (map fst (vars ds)).
  Proof.
    destruct block_is as (_ & _ & G). specialize (G v).
    destruct (in_dec string_dec v (map fst (vars ds))) as [I|I], (in_dec string_dec v (map fst (vars b))) as [J|J]; try tauto.
    - apply d_get_none in J. rewrite J in G. destruct (d_get v (vars ds)) eqn:GG; [discriminate G|]. now apply d_get_none in GG.
    - apply d_get_none in I. rewrite I in G. now apply d_get_none in G.
  Qed.
  Lemma block_dims v d : In d (dims_of b v) <-> In d (dims_of ds v) \/ (d = "nodes" /\ In v (map fst (vars ds)) /\ widened refs v = true).
  Proof.
    destruct block_is as (_ & _ & G). unfold dims_of. rewrite G. destruct (d_get v (vars ds)) as [a|] eqn:GV.
    - assert (In v (map fst (vars ds))) by (apply (in_map fst) with (x := (v, a)), d_get_found; exact GV). destruct (widened refs v); cbn; intuition congruence.
    - apply d_get_none in GV. cbn. unfold d_keys in GV. tauto.
  Qed.
  Lemma block_no_nodes v : ~ In "nodes" (dims_of ds v).
  Proof. intros X. apply DC in X. now destruct block_is as (N & _). Qed.
  Lemma block_read v p : read b v p = if widened refs v && negb (String.eqb (p "nodes") n) then NaN else read ds v p.
  Proof.
    destruct block_is as (NC & C & G). unfold read. rewrite G. pose proof (block_no_nodes v) as NN. unfold dims_of in NN.
    destruct (d_get v (vars ds)) as [a|]; [|now destruct (_ && _)].
    assert (here b (a_dims a) p = here ds (a_dims a) p) as HH.
    { unfold here. apply forallb_ext_in. intros d D. rewrite block_members. destruct (String.eqb_spec d "nodes"); [congruence|reflexivity]. }
    destruct (widened refs v); cbn [andb a_dims a_at]; [|now rewrite HH].
    change (here b ("nodes" :: a_dims a) p) with (smem (p "nodes") (members b "nodes") && here b (a_dims a) p). rewrite HH, block_members.
    change (if String.eqb "nodes" "nodes" then [n] else members ds "nodes") with [n].
    assert (smem (p "nodes") [n] = String.eqb (p "nodes") n) as -> by (unfold smem, existsb; apply orb_false_r).
    destruct (String.eqb (p "nodes") n); reflexivity.
  Qed.
  Lemma block_proper : proper_dset b.
  Proof.
    destruct block_is as (NC & C & G). split.
    - rewrite C. cbn. constructor; [exact NC|apply PD].
    - unfold over_nodes in E. destruct (d_mem "nodes" (coords ds)); [discriminate E|]. destruct (forallb _ refs); [|discriminate E]. injection E as <-. cbn [vars].
      rewrite map_map. erewrite map_ext; [apply PD|]. intros [m a]. cbn. now destruct (smem _ _).
    - unfold over_nodes in E. destruct (d_mem "nodes" (coords ds)); [discriminate E|]. destruct (forallb _ refs); [|discriminate E]. injection E as <-. cbn [vars].
      intros m a X. apply in_map_iff in X. destruct X as ([k o] & Q & X). cbn [fst snd] in Q. pose proof (pd_proper _ PD k o X) as PO.
      destruct (smem k _); injection Q as <- <-; [|exact PO]. intros i j A. cbn in *. apply PO. intros d D. apply A. now right.
  Qed.
End Block.

(** ** All nodes *)
Lemma union_of_in {A} (f : A -> list string) l x : In x (union_of f l) <-> exists a, In a l /\ In x (f a).
Proof.
  induction l as [|a l IH]; cbn; [split; [intros []|intros (? & [] & _)]|]. rewrite join_in, IH. split.
  - intros [X|(b & B & X)]; [exists a; auto|exists b; auto].
  - intros (b & [->|B] & X); [now left|right; now exists b].
Qed.
Lemma union_of_nodup {A} (f : A -> list string) l : (forall a, In a l -> NoDup (f a)) -> NoDup (union_of f l).
Proof. induction l as [|a l IH]; cbn; intros H; [constructor|]. apply join_nodup; [apply H; now left|apply IH; intros b B; apply H; now right]. Qed.
Section Combine.
  Variable blocks : list (string * dset).
  Hypothesis NB : NoDup (map fst blocks).
  Hypothesis PB : forall n b, In (n, b) blocks -> proper_dset b.

  Lemma combine_get v : d_get v (vars (combine_nodes blocks)) = if smem v (union_of (fun nb => map fst (vars (snd nb))) blocks) then Some
     {| a_dims := union_of (fun nb => dims_of (snd nb) v) blocks; a_bool := forallb (fun nb => bool_of (snd nb) v) blocks;
        a_at := fun p => if spread blocks v then match d_get (p "nodes") blocks with Some b => read b v p | None => NaN end else first_entry v p blocks |} else None.
  Proof. apply (d_get_map_names (fun v => {| a_dims := union_of (fun nb => dims_of (snd nb) v) blocks; a_bool := forallb (fun nb => bool_of (snd nb) v) blocks;
        a_at := fun p => if spread blocks v then match d_get (p "nodes") blocks with Some b => read b v p | None => NaN end else first_entry v p blocks |})). Qed.
  Lemma combine_names v : In v (map fst (vars (combine_nodes blocks))) <-> exists n b, In (n, b) blocks /\ In v (map fst (vars b)).
  Proof.
    unfold combine_nodes. cbn [vars]. rewrite map_map. cbn [fst]. rewrite map_id, union_of_in. split.
    - intros ([n b] & X & Y). now exists n, b.
    - intros (n & b & X & Y). now exists (n, b).
  Qed.
  Lemma combine_dims v d : In d (dims_of (combine_nodes blocks) v) <-> exists n b, In (n, b) blocks /\ In d (dims_of b v).
  Proof.
    unfold dims_of at 1. rewrite combine_get. destruct (smem v _) eqn:S; cbn [a_dims].
    - rewrite union_of_in. split; [intros ([n b] & X & Y); now exists n, b|intros (n & b & X & Y); now exists (n, b)].
    - apply smem_false in S. rewrite union_of_in in S. split; [intros []|]. intros (n & b & X & Y). apply S. exists (n, b). split; [trivial|].
      unfold dims_of in Y. destruct (d_get v (vars b)) as [a|] eqn:G; [|destruct Y]. cbn. apply d_get_found in G. now apply (in_map fst) in G.
  Qed.
  Lemma combine_members n b d m : In (n, b) blocks -> In m (members b d) -> In m (members (combine_nodes blocks) d).
  Proof.
    intros B M. unfold members at 1. unfold combine_nodes. cbn [coords]. rewrite (d_get_map_names (fun d => union_of (fun nb => members (snd nb) d) blocks)).
    destruct (smem d _) eqn:S.
    - apply union_of_in. now exists (n, b).
    - apply smem_false in S. apply S. apply union_of_in. exists (n, b). split; [trivial|]. unfold members in M. destruct (d_get d (coords b)) as [l|] eqn:G; [|destruct M].
      cbn. apply d_get_found in G. now apply (in_map fst) in G.
  Qed.
  Lemma spread_true v : spread blocks v = true <-> In "nodes" (dims_of (combine_nodes blocks) v).
  Proof.
    unfold spread. rewrite existsb_exists, combine_dims. split.
    - intros ([n b] & X & Y). apply smem_true in Y. now exists n, b.
    - intros (n & b & X & Y). exists (n, b). split; [trivial|]. now apply smem_true.
  Qed.
  Lemma first_entry_in v p l c : c <> NaN -> first_entry v p l = c -> exists n b, In (n, b) l /\ read b v p = c.
  Proof.
    intros N. induction l as [|[n b] l IH]; cbn [first_entry]; [congruence|]. cbv zeta. destruct (is_nan (read b v p)).
    - intros F. destruct (IH F) as (m & b' & X & R). exists m, b'. split; [now right|trivial].
    - intros F. exists n, b. split; [now left|trivial].
  Qed.
  Lemma first_entry_all v p l c : c <> NaN -> (exists n b, In (n, b) l /\ read b v p = c) -> (forall n b, In (n, b) l -> read b v p = c \/ read b v p = NaN) -> first_entry v p l = c.
  Proof.
    intros N. induction l as [|[n b] l IH]; cbn [first_entry]; intros X A; [now destruct X as (? & ? & [] & _)|]. cbv zeta.
    destruct (A n b (or_introl eq_refl)) as [R|R]; rewrite R.
    - destruct (is_nan c) eqn:I; trivial. now apply is_nan_spec in I.
    - cbn. apply IH; [|intros m b' Y; apply (A m b'); now right]. destruct X as (m & b' & [Y|Y] & R'); [injection Y as -> ->; congruence|now exists m, b'].
  Qed.
  Lemma combine_sound v p c : c <> NaN -> read (combine_nodes blocks) v p = c ->
    exists n b, In (n, b) blocks /\ read b v p = c /\ (In "nodes" (dims_of (combine_nodes blocks) v) -> p "nodes" = n).
  Proof.
    intros N. unfold read at 1. rewrite combine_get. destruct (smem v _) eqn:S; [|congruence]. cbn [a_dims a_at]. destruct (here _ _ _); [|congruence].
    destruct (spread blocks v) eqn:SP.
    - destruct (d_get (p "nodes") blocks) as [b|] eqn:G; [|congruence]. intros R. exists (p "nodes"), b. split; [now apply d_get_found|]. now split.
    - intros R. destruct (first_entry_in _ _ _ _ N R) as (n & b & X & Y). exists n, b. split; [trivial|split; [trivial|]]. intros Q. apply spread_true in Q. congruence.
  Qed.
  Lemma combine_full v p c b : c <> NaN -> In (p "nodes", b) blocks -> read b v p = c -> members b "nodes" = [p "nodes"] ->
    (forall d, In d (dims_of (combine_nodes blocks) v) -> d = "nodes" \/ In d (dims_of b v)) ->
    (~ In "nodes" (dims_of (combine_nodes blocks) v) -> forall n' b', In (n', b') blocks -> read b' v p = c \/ read b' v p = NaN) ->
    read (combine_nodes blocks) v p = c.
  Proof.
    intros N B R M D A. pose proof (read_here b v p ltac:(congruence)) as RH.
    assert (here (combine_nodes blocks) (dims_of (combine_nodes blocks) v) p = true) as H.
    { unfold here. apply forallb_forall. intros d X. apply smem_true. destruct (D d X) as [->|Y].
      - apply (combine_members (p "nodes") b); [trivial|]. rewrite M. now left.
      - apply (combine_members (p "nodes") b); [trivial|]. now apply RH. }
    assert (In v (union_of (fun nb => map fst (vars (snd nb))) blocks)) as NM.
    { apply union_of_in. exists (p "nodes", b). split; [trivial|]. cbn. unfold read in R. destruct (d_get v (vars b)) eqn:G; [|congruence]. apply d_get_found in G. now apply (in_map fst) in G. }
    unfold dims_of in H at 1. unfold read. rewrite combine_get in *. rewrite (proj2 (smem_true _ _) NM) in *. cbn [a_dims a_at] in *. rewrite H.
    destruct (spread blocks v) eqn:SP.
    - rewrite (d_get_nodup _ _ _ NB B). exact R.
    - apply first_entry_all; trivial; [now exists (p "nodes"), b|]. apply A. intros Q. apply spread_true in Q. congruence.
  Qed.
  Lemma combine_proper : proper_dset (combine_nodes blocks).
  Proof.
    split.
    - unfold combine_nodes. cbn [coords]. rewrite map_map. cbn [fst]. rewrite map_id. apply union_of_nodup. intros [n b] X. apply (PB n b X).
    - unfold combine_nodes. cbn [vars]. rewrite map_map. cbn [fst]. rewrite map_id. apply union_of_nodup. intros [n b] X. apply (PB n b X).
    - intros v a X. unfold combine_nodes in X. cbn [vars] in X. apply in_map_iff in X. destruct X as (v' & Q & X). injection Q as -> <-.
      intros i j A. cbn [a_at a_dims] in *.
      assert (forall n b, In (n, b) blocks -> read b v i = read b v j) as RE.
      { intros n b B. unfold read. destruct (d_get v (vars b)) as [o|] eqn:G; [|reflexivity]. apply d_get_found in G as GI.
        assert (agree (a_dims o) i j) as AG. { intros d D. apply A. apply union_of_in. exists (n, b). split; [trivial|]. unfold dims_of. cbn [snd]. now rewrite G. }
        assert (here b (a_dims o) i = here b (a_dims o) j) as ->. { unfold here. apply forallb_ext_in. intros d D. now rewrite (AG d D). }
        now rewrite (pd_proper _ (PB n b B) v o GI i j AG). }
      destruct (spread blocks v) eqn:SP.
      + assert (i "nodes" = j "nodes") as ->.
        { apply A. unfold spread in SP. apply existsb_exists in SP. destruct SP as (nb & B & S). apply smem_true in S. apply union_of_in. now exists nb. }
        destruct (d_get (j "nodes") blocks) as [b|] eqn:G; [|reflexivity]. apply d_get_found in G. now apply (RE (j "nodes")).
      + clear -RE. induction blocks as [|[n b] l IH]; [reflexivity|]. cbn [first_entry]. rewrite (RE n b (or_introl eq_refl)), IH; [reflexivity|]. intros m b' X. apply (RE m b'). now right.
  Qed.
End Combine.

(** ** The whole definition *)
Lemma each_named_ok {A B} (f : string -> A -> result B) l ys : each_named f l = Ok ys ->
  map fst ys = map fst l /\ (forall n x, In (n, x) l -> exists y, In (n, y) ys /\ f n x = Ok y) /\ (forall n y, In (n, y) ys -> exists x, In (n, x) l /\ f n x = Ok y).
Proof.
  revert ys. induction l as [|[n x] l IH]; intros ys; cbn [each_named].
  - intros E. injection E as <-. cbn. repeat split; intros ? ? [].
  - destruct (f n x) as [y|] eqn:F; cbn [bind]; [|discriminate]. destruct (each_named f l) as [zs|]; cbn [bind]; [|discriminate].
    intros E. injection E as <-. destruct (IH zs eq_refl) as (M & FW & BW). cbn. split; [now rewrite M|]. split.
    + intros m w [W|W]; [injection W as <- <-; exists y; auto|]. destruct (FW m w W) as (z & Z & FZ). exists z. auto.
    + intros m w [W|W]; [injection W as <- <-; exists x; auto|]. destruct (BW m w W) as (z & Z & FZ). exists z. auto.
Qed.
Lemma settings_arrays lookups bc dim item settings : forall ds ds', add_settings lookups bc dim item settings ds = Ok ds' ->
  forall n raw, In (n, raw) settings -> exists v a, prepare lookups bc n raw = Ok v /\ to_array n (inject dim item v) = Ok a.
Proof.
  induction settings as [|[m x] r IH]; intros ds ds' E n raw X; [destruct X|]. cbn [add_settings] in E.
  destruct (prepare lookups bc m x) as [v|] eqn:P; cbn [bind] in E; [|discriminate E].
  destruct (to_array m (inject dim item v)) as [a|] eqn:A; cbn [bind] in E; [|discriminate E].
  destruct X as [X|X]; [injection X as <- <-; now exists v, a|]. eapply IH; eassumption.
Qed.
Lemma definition_arrays lookups bc dim items : forall ds ds', definition_ds lookups bc dim items ds = Ok ds' ->
  forall i s n raw, In (i, s) items -> In (n, raw) s -> exists v a, prepare lookups bc n raw = Ok v /\ to_array n (inject dim i v) = Ok a.
Proof.
  induction items as [|[m x] r IH]; intros ds ds' E i s n raw X Y; [destruct X|]. cbn [definition_ds] in E.
  destruct (add_settings lookups bc dim m x ds) as [d1|] eqn:A; cbn [bind] in E; [|discriminate E].
  destruct X as [X|X]; [injection X as <- <-; eapply settings_arrays; eassumption|]. eapply IH; eassumption.
Qed.
Lemma says_one lookups bc dim items ds i s n raw p c c' : NoDup (map fst lookups) -> proper_setting raw -> definition_ds lookups bc dim items no_data = Ok ds ->
  In (i, s) items -> In (n, raw) s -> i = p dim -> c <> NaN -> c' <> NaN -> says lookups n raw p c -> says lookups n raw p c' -> c = c'.
Proof.
  intros NL PS E I J -> N N' S S'. destruct (definition_arrays _ _ _ _ _ _ E _ _ _ _ I J) as (v & a & P & A).
  apply (says_item lookups bc n raw v) in S, S'; trivial. assert (v_dims (inject dim (p dim) v) <> []) as ND by discriminate.
  assert (forall x, x <> NaN -> item_says v p x -> read a n p = x) as Q. { intros x X Y. apply (array_read _ _ _ A ND p x X). now apply inject_says. }
  now rewrite <- (Q c), <- (Q c').
Qed.

Section Arrays.
  Variables (lookups : list (string * string)) (bc : bool) (nodes : list (string * dict)) (ps : places) (ds : dset).
  Hypothesis NL : NoDup (map fst lookups).
  Hypothesis TN : tidy_items nodes.
  Hypothesis TP : tidy_places ps.
  Hypothesis E : arrays lookups bc (nodes, ps) = Ok ds.

  Lemma arrays_parts : exists blocks nds, each_named (node_block lookups bc) ps = Ok blocks /\ definition_ds lookups bc "nodes" nodes no_data = Ok nds /\
    (forall v, In v (map fst (vars nds)) -> ~ In v (map fst (vars (combine_nodes blocks)))) /\ ds = add_to_dataset nds (combine_nodes blocks).
  Proof.
    unfold arrays in E. cbn [fst snd] in E. destruct (each_named _ ps) as [blocks|] eqn:B; cbn [bind] in E; [|discriminate E].
    destruct (definition_ds _ _ _ nodes _) as [nds|] eqn:N; cbn [bind] in E; [|discriminate E]. destruct (existsb _ (vars nds)) eqn:X; [discriminate E|]. injection E as <-.
    exists blocks, nds. repeat split; trivial. intros v V W. assert (existsb (fun nv : string * array => d_mem (fst nv) (vars (combine_nodes blocks))) (vars nds) = true); [|congruence].
    apply existsb_exists. apply in_map_iff in V. destruct V as (nv & <- & V). exists nv. split; [trivial|]. now apply d_mem_keys.
  Qed.
  Lemma block_parts blocks n b : each_named (node_block lookups bc) ps = Ok blocks -> In (n, b) blocks -> exists refs ts d,
    In (n, (refs, ts)) ps /\ definition_ds lookups bc "techs" ts no_data = Ok d /\ over_nodes n refs d = Ok b.
  Proof.
    intros EB B. apply each_named_ok in EB. destruct EB as (_ & _ & BW). destruct (BW n b B) as ([refs ts] & X & F). unfold node_block in F. cbn [fst snd] in F.
    destruct (definition_ds _ _ _ ts _) as [d|] eqn:D; cbn [bind] in F; [|discriminate F]. now exists refs, ts, d.
  Qed.
  Lemma parts_block blocks n refs ts : each_named (node_block lookups bc) ps = Ok blocks -> In (n, (refs, ts)) ps -> exists d b,
    In (n, b) blocks /\ definition_ds lookups bc "techs" ts no_data = Ok d /\ over_nodes n refs d = Ok b.
  Proof.
    intros EB B. apply each_named_ok in EB. destruct EB as (_ & FW & _). destruct (FW n _ B) as (b & X & F). unfold node_block in F. cbn [fst snd] in F.
    destruct (definition_ds _ _ _ ts _) as [d|] eqn:D; cbn [bind] in F; [|discriminate F]. now exists d, b.
  Qed.
  Lemma techs_tidy n refs ts : In (n, (refs, ts)) ps -> NoDup (map fst ts) /\ (forall i s, In (i, s) ts -> NoDup (d_keys s)) /\
    (forall i s v raw, In (i, s) ts -> In (v, raw) s -> proper_setting raw).
  Proof.
    intros X. destruct TP as (_ & H). destruct (H _ _ _ X) as (A & B). split; [trivial|]. split; [intros i s I; now apply (B i s)|]. intros i s v raw I J. now apply (B i s I) in J.
  Qed.
  Lemma nodes_tidy : NoDup (map fst nodes) /\ (forall i s, In (i, s) nodes -> NoDup (d_keys s)) /\
    (forall i s v raw, In (i, s) nodes -> In (v, raw) s -> proper_setting raw).
  Proof.
    destruct TN as (A & B). split; [trivial|]. split; [intros i s I; now apply (B i s)|]. intros i s v raw I J. now apply (B i s I) in J.
  Qed.
  Lemma blocks_proper blocks : each_named (node_block lookups bc) ps = Ok blocks -> forall n b, In (n, b) blocks -> proper_dset b.
  Proof.
    intros EB n b B. destruct (block_parts _ _ _ EB B) as (refs & ts & d & X & D & O). destruct (techs_tidy _ _ _ X) as (T1 & T2 & T3).
    eapply block_proper; [|exact O]. now apply (def_proper lookups bc "techs" ts).
  Qed.
  Lemma arrays_proper : proper_dset ds.
  Proof.
    destruct arrays_parts as (blocks & nds & EB & EN & DJ & ->). destruct nodes_tidy as (T1 & T2 & T3). apply add_proper; [now apply (def_proper lookups bc "nodes" nodes)|].
    apply combine_proper. now apply blocks_proper.
  Qed.
  Lemma arrays_sound v p c : c <> NaN -> read ds v p = c ->
    (exists n raw, setting_at ps n (p "techs") v raw /\ says lookups v raw p c /\ (In "nodes" (dims_of ds v) -> p "nodes" = n))
    \/ (exists s raw, In (p "nodes", s) nodes /\ In (v, raw) s /\ says lookups v raw p c).
  Proof.
    intros N R. destruct arrays_parts as (blocks & nds & EB & EN & DJ & DS). destruct nodes_tidy as (T1 & T2 & T3). rewrite DS in R.
    apply add_read_part in R; [|trivial]. destruct R as [R|[_ R]].
    - right. eapply def_sound; eassumption.
    - left. destruct (combine_sound blocks v p c N R) as (n & b & B & RB & W).
      destruct (block_parts _ _ _ EB B) as (refs & ts & d & X & D & O). destruct (techs_tidy _ _ _ X) as (S1 & S2 & S3).
      pose proof (def_proper lookups bc "techs" ts d S1 S2 D) as PD.
      assert (forall v d', In d' (dims_of d v) -> In d' (map fst (coords d))) as DC. { intros v' d'. eapply def_dims_coords; eassumption. }
      rewrite (block_read n refs d b DC O) in RB. destruct (_ && _); [congruence|].
      destruct (def_sound lookups bc "techs" ts d NL S1 S2 S3 D v p c N RB) as (s & raw & I & J & SA).
      exists n, raw. split; [now exists refs, ts, s|]. split; [trivial|]. intros Q. apply W. rewrite DS in Q. apply add_dims in Q. destruct Q as [Q|Q]; [|trivial].
      exfalso. assert (In v (map fst (vars nds))) as VN.
      { unfold dims_of in Q. destruct (d_get v (vars nds)) eqn:G; [|destruct Q]. apply d_get_found in G. now apply (in_map fst) in G. }
      apply (DJ v VN). unfold read in R. destruct (d_get v (vars (combine_nodes blocks))) eqn:G; [|congruence]. apply d_get_found in G. now apply (in_map fst) in G.
  Qed.
  Lemma arrays_nodes v p c s raw o : c <> NaN -> In (p "nodes", s) nodes -> In (v, raw) s -> says lookups v raw p c -> over lookups v raw o ->
    (forall d, In d (dims_of ds v) -> d = "nodes" \/ In d o) -> read ds v p = c.
  Proof.
    intros N I J S O D. destruct arrays_parts as (blocks & nds & EB & EN & DJ & DS). destruct nodes_tidy as (T1 & T2 & T3). rewrite DS in *.
    assert (In v (map fst (vars nds))) as VN by (eapply def_names; try eassumption; eauto).
    apply add_read_new; trivial.
    - now apply (def_proper lookups bc "nodes" nodes).
    - apply combine_proper. now apply blocks_proper.
    - eapply (def_full lookups bc "nodes" nodes nds); try eassumption. intros d X. apply D. apply add_dims. now left.
    - intros d X. exfalso. apply (DJ v VN). unfold dims_of in X. destruct (d_get v (vars (combine_nodes blocks))) eqn:G; [|destruct X]. apply d_get_found in G. now apply (in_map fst) in G.
  Qed.
  Lemma arrays_techs v p c raw o : c <> NaN -> setting_at ps (p "nodes") (p "techs") v raw -> says lookups v raw p c -> over lookups v raw o ->
    consistent ps (p "techs") v ->
    (forall d, In d (dims_of ds v) -> d = "nodes" \/ d = "techs" \/ In d o) -> read ds v p = c.
  Proof.
    intros N SA S O CO D. destruct SA as (refs & ts & s & X & I & J).
    destruct arrays_parts as (blocks & nds & EB & EN & DJ & DS). destruct nodes_tidy as (T1 & T2 & T3). rewrite DS in *.
    destruct (parts_block _ _ _ _ EB X) as (d & b & B & ED & EO). destruct (techs_tidy _ _ _ X) as (S1 & S2 & S3).
    pose proof (def_proper lookups bc "techs" ts d S1 S2 ED) as PD.
    assert (forall v d', In d' (dims_of d v) -> In d' (map fst (coords d))) as DC. { intros v' d'. eapply def_dims_coords; eassumption. }
    assert (In v (map fst (vars d))) as VD by (eapply def_names; try eassumption; eauto).
    assert (In v (map fst (vars b))) as VB by (eapply block_names; eassumption).
    assert (In v (map fst (vars (combine_nodes blocks)))) as VC by (apply combine_names; now exists (p "nodes"), b).
    assert (forall x, In x (dims_of (combine_nodes blocks) v) -> x = "nodes" \/ x = "techs" \/ In x o) as DX by (intros x Y; apply D, add_dims; now right).
    assert (forall x, x = "techs" \/ In x o -> In x (dims_of d v)) as DT.
    { intros x Y. eapply def_dims; try eassumption. now exists (p "techs"), s, raw, o. }
    assert (read b v p = c) as RB.
    { rewrite (block_read _ _ _ _ DC EO). rewrite String.eqb_refl. rewrite andb_false_r.
      eapply (def_full lookups bc "techs" ts d); try eassumption. intros x Y.
      destruct (DX x) as [Z|Z]; [apply combine_dims; exists (p "nodes"), b; split; [trivial|]; eapply block_dims; eauto| |trivial].
      subst x. exfalso. eapply block_no_nodes; eassumption. }
    apply add_read_old; trivial.
    - now apply (def_proper lookups bc "nodes" nodes).
    - apply combine_proper. now apply blocks_proper.
    - apply (combine_full blocks) with (b := b); trivial.
      + destruct (each_named_ok _ _ _ EB) as (M & _). rewrite M. apply TP.
      + rewrite (block_members _ _ _ _ EO). reflexivity.
      + intros x Y. destruct (DX x Y) as [Z|Z]; [now left|right]. eapply block_dims; [eassumption|]. left. now apply DT.
      + intros NS n' b' B'. assert (forall raw', setting_at ps n' (p "techs") v raw' -> raw' = raw) as SAME.
        { assert (In "nodes" (dims_of b v) -> False) as NB by (intros Q; apply NS, combine_dims; now exists (p "nodes"), b).
          assert (v = "carrier_in" \/ v = "carrier_out" -> False) as NC.
          { intros Q. apply NB. eapply block_dims; [eassumption|]. right. repeat split; trivial. unfold widened. apply smem_true, in_app_iff. right. cbn. intuition. }
          destruct CO as [(m & rs & tt & M1 & M2)|[Q|[Q|Q]]]; [|exfalso; auto|exfalso; auto|].
          - exfalso. apply NS. destruct (parts_block _ _ _ _ EB M1) as (dm & bm & BM & EDM & EOM). apply combine_dims. exists m, bm. split; [trivial|].
            eapply block_dims; [eassumption|]. right. split; [trivial|]. split; [eapply block_refs; eassumption|]. apply smem_true, in_app_iff. now left.
          - intros raw' SR. apply (Q n' (p "nodes")); [trivial|]. now exists refs, ts, s. }
        destruct (block_parts _ _ _ EB B') as (refs' & ts' & d' & X' & D' & O'). destruct (techs_tidy _ _ _ X') as (S1' & S2' & S3').
        assert (forall v x, In x (dims_of d' v) -> In x (map fst (coords d'))) as DC'. { intros v' x. eapply def_dims_coords; eassumption. }
        rewrite (block_read _ _ _ _ DC' O'). destruct (_ && _); [now right|].
        destruct (read d' v p) as [|bb|z|st] eqn:RD; [now right| | |]; left; (apply def_sound with (lookups := lookups) (bc := bc) (dim := "techs") (items := ts') in RD; trivial; [|discriminate]);
          destruct RD as (s' & raw' & I' & J' & SA'); (assert (raw' = raw) by (apply SAME; now exists refs', ts', s')); subst raw';
          symmetry; eapply (says_one lookups bc "techs" ts d); try eassumption; try discriminate; trivial; eapply S3; eassumption.
    - apply read_none. intros Q. now apply (DJ v Q).
    - intros x Y. exfalso. assert (In v (map fst (vars nds))) as Q; [|now apply (DJ v Q)].
      unfold dims_of in Y. destruct (d_get v (vars nds)) eqn:G; [|destruct Y]. apply d_get_found in G. now apply (in_map fst) in G.
  Qed.
End Arrays.
