(** Data definitions at the top level, colours and link distances. *)
From Coq Require Import Lia.
From Verif Require Import Base BaseProofs AttrDictModel NodeModel DataModel DataSpec DataProofs DataMore TableModel TableProofs InputModel InputSpec InputProofs.
Local Open Scope string_scope.
Local Open Scope list_scope.

(** ** One setting as an array *)
Lemma scalar_array name v a : v_dims v = [] -> to_array name v = Ok a ->
  exists c, cell_of (v_data v) = Ok c /\ a = {| coords := []; vars := [(name, {| a_dims := []; a_bool := is_bool c; a_at := fun _ => c |})] |}.
Proof. intros D E. unfold to_array in E. rewrite D in E. destruct (cell_of (v_data v)) as [c|]; cbn [bind] in E; [|discriminate E]. injection E as <-. now exists c. Qed.
Lemma any_proper name v a : to_array name v = Ok a -> proper_dset a.
Proof.
  intros E. destruct (v_dims v) as [|d ds] eqn:D.
  - destruct (scalar_array _ _ _ D E) as (c & _ & ->). split; cbn; [constructor|constructor; [intros []|constructor]|]. intros n x [X|[]]. injection X as <- <-. intros i j _. reflexivity.
  - apply (array_proper name v a E). now rewrite D.
Qed.
Lemma any_dims name v a n : to_array name v = Ok a -> dims_of a n = if String.eqb n name then v_dims v else [].
Proof.
  intros E. destruct (v_dims v) as [|d ds] eqn:D.
  - destruct (scalar_array _ _ _ D E) as (c & _ & ->). unfold dims_of. cbn. now destruct (String.eqb n name).
  - rewrite <- D. apply (array_dims name v a E). now rewrite D.
Qed.
Lemma any_names name v a n : to_array name v = Ok a -> (In n (map fst (vars a)) <-> n = name).
Proof.
  intros E. destruct (v_dims v) as [|d ds] eqn:D.
  - destruct (scalar_array _ _ _ D E) as (c & _ & ->). cbn. split; [intros [X|[]]; now symmetry|now left].
  - apply (array_names name v a E). now rewrite D.
Qed.
(** a setting without dimensions is a plain one *)
Definition indexed_ok (lookups : list (string * string)) (name : string) (raw : val) : Prop := over lookups name raw [] -> plain lookups name raw.
Lemma any_read lookups bc name raw v a p c : NoDup (map fst lookups) -> proper_setting raw -> indexed_ok lookups name raw -> prepare lookups bc name raw = Ok v ->
  to_array name v = Ok a -> c <> NaN -> (read a name p = c <-> says lookups name raw p c).
Proof.
  intros NL PS IO P E N. destruct (v_dims v) as [|d ds] eqn:D.
  - destruct (scalar_array _ _ _ D E) as (c' & C & ->). unfold read. cbn. rewrite String.eqb_refl. cbn.
    assert (plain lookups name raw) as PL. { apply IO. apply (over_dims lookups bc name raw v); trivial. now symmetry. }
    assert (v_data v = raw) as VD.
    { destruct (kinds _ _ _ _ _ NL P) as [_ V|dim ls (LA & L0 & L1) LB V|dd items R IX F]; [now rewrite V| |].
      - destruct PL as [->|(PL & _)]; [now contradiction L0|]. now contradiction (PL dim).
      - destruct PL as [->|(_ & _ & PL)]; [discriminate R|]. now contradiction (PL dd). }
    rewrite VD in C. split.
    + intros <-. apply sa_plain; [trivial|now apply entry_is].
    + intros SA. inversion SA as [raw' p' c0 Q AE|raw' dim ls p' (LA & L0 & L1) LB I|dd data items dims k it p' c0 IX K L DT]; subst.
      * apply entry_is in AE. congruence.
      * destruct PL as [E0|(PL & _)]; [now contradiction L0|]. now contradiction (PL dim).
      * destruct PL as [E0|(_ & _ & PL)]; [congruence|]. now contradiction (PL dd).
  - assert (v_dims v <> []) as ND by (now rewrite D). rewrite (array_read name v a E ND p c N). symmetry. now apply (says_item lookups bc).
Qed.

(** ** Adding them one after the other *)
Lemma add_other new old v p c : proper_dset new -> proper_dset old -> ~ In v (map fst (vars new)) -> c <> NaN -> (read (add_to_dataset new old) v p = c <-> read old v p = c).
Proof.
  intros PN PO NV N. split.
  - intros R. destruct (add_read_part _ _ _ _ _ N R) as [X|[_ X]]; [|trivial]. rewrite read_none in X by exact NV. congruence.
  - intros R. apply add_read_old; trivial; [now apply read_none|]. intros d D. exfalso. apply NV. unfold dims_of in D. destruct (d_get v (vars new)) eqn:G; [|destruct D]. apply d_get_found in G. now apply (in_map fst) in G.
Qed.
Section Definitions.
  Variables (lookups : list (string * string)) (bc : bool).
  Hypothesis NL : NoDup (map fst lookups).

  Lemma definitions_proper settings : forall ds ds', proper_dset ds -> add_data_definitions lookups bc settings ds = Ok ds' -> proper_dset ds'.
  Proof.
    induction settings as [|[n raw] r IH]; intros ds ds' P E; cbn [add_data_definitions] in E; [now injection E as <-|].
    destruct (prepare lookups bc n raw) as [v|]; cbn [bind] in E; [|discriminate E]. destruct (to_array n v) as [a|] eqn:A; cbn [bind] in E; [|discriminate E].
    apply (IH (add_to_dataset a ds)); trivial. apply add_proper; [now apply (any_proper n v)|trivial].
  Qed.
  Lemma definitions_other settings v p c : c <> NaN -> forall ds ds', proper_dset ds -> ~ In v (d_keys settings) -> add_data_definitions lookups bc settings ds = Ok ds' ->
    (read ds' v p = c <-> read ds v p = c).
  Proof.
    intros N. induction settings as [|[n raw] r IH]; intros ds ds' P NV E; cbn [add_data_definitions] in E; [now injection E as <-|].
    destruct (prepare lookups bc n raw) as [w|]; cbn [bind] in E; [|discriminate E]. destruct (to_array n w) as [a|] eqn:A; cbn [bind] in E; [|discriminate E].
    assert (proper_dset a) as PA by (now apply (any_proper n w)). cbn in NV.
    rewrite (IH _ _ (add_proper _ _ PA P) (fun X => NV (or_intror X)) E). apply add_other; trivial. rewrite (any_names n w a v A). intros ->. apply NV. now left.
  Qed.
  Lemma definitions_read settings v raw o p c : c <> NaN -> NoDup (d_keys settings) -> In (v, raw) settings -> proper_setting raw -> indexed_ok lookups v raw -> over lookups v raw o ->
    forall ds ds', proper_dset ds -> (forall d, In d (dims_of ds v) \/ In d o -> In (p d) (members ds d)) -> add_data_definitions lookups bc settings ds = Ok ds' ->
    (read ds' v p = c <-> says lookups v raw p c \/ ((forall c', c' <> NaN -> ~ says lookups v raw p c') /\ read ds v p = c)).
  Proof.
    intros N. induction settings as [|[n raw0] r IH]; intros ND I PS IO OV ds ds' P W E; [destruct I|]. cbn [add_data_definitions] in E.
    destruct (prepare lookups bc n raw0) as [w|] eqn:PR; cbn [bind] in E; [|discriminate E]. destruct (to_array n w) as [a|] eqn:A; cbn [bind] in E; [|discriminate E].
    assert (proper_dset a) as PA by (now apply (any_proper n w)). assert (proper_dset (add_to_dataset a ds)) as PP by (now apply add_proper).
    cbn in ND. inversion ND as [|? ? NI ND']; subst. destruct I as [I|I].
    - injection I as -> ->. rewrite (definitions_other r v p c N _ _ PP NI E).
      assert (forall c, c <> NaN -> (read a v p = c <-> says lookups v raw p c)) as RA by (intros c1 N1; now apply (any_read lookups bc v raw w)).
      assert (o = v_dims w) as O by (now apply (over_dims lookups bc v raw w)).
      split.
      + intros R. destruct (add_read_part _ _ _ _ _ N R) as [X|[X Y]]; [left; now apply RA|]. right. split; [|trivial]. intros c' N' S. apply RA in S; congruence.
      + intros [S|[S R]].
        * apply add_read_new; trivial; [now apply RA|]. intros d D. right. apply W. now left.
        * apply add_read_old; trivial; [destruct (is_nan (read a v p)) eqn:Q; [now apply is_nan_spec|]|].
          { exfalso. assert (read a v p <> NaN) as Q' by (intros X; apply is_nan_spec in X; congruence). apply (S _ Q'). now apply RA. }
          intros d D. rewrite (any_dims v w a v A), String.eqb_refl, <- O in D. right. apply W. now right.
    - assert (v <> n) as VN by (intros ->; apply NI; now apply (in_map fst) in I).
      assert (~ In v (map fst (vars a))) as NA by (rewrite (any_names n w a v A); exact VN).
      rewrite (IH ND' I PS IO OV (add_to_dataset a ds) ds' PP); trivial.
      + rewrite (add_other a ds v p c PA P NA N). tauto.
      + intros d D. apply add_members. right. apply W. destruct D as [D|D]; [|now right]. left. apply add_dims in D. destruct D as [D|D]; [|trivial].
        exfalso. rewrite (any_dims n w a v A) in D. destruct (String.eqb_spec v n); [contradiction|destruct D].
  Qed.
  Lemma definitions_prepared_at settings : forall ds ds' v raw, add_data_definitions lookups bc settings ds = Ok ds' -> In (v, raw) settings -> exists w, prepare lookups bc v raw = Ok w.
  Proof.
    induction settings as [|[n raw0] r IH]; intros ds ds' v raw E I; [destruct I|]. cbn [add_data_definitions] in E.
    destruct (prepare lookups bc n raw0) as [w|] eqn:PR; cbn [bind] in E; [|discriminate E]. destruct (to_array n w) as [a|] eqn:A; cbn [bind] in E; [|discriminate E].
    destruct I as [I|I]; [injection I as -> ->; now exists w|]. exact (IH _ _ _ _ E I).
  Qed.
End Definitions.

(** ** Filling gaps *)
Section Fill.
  Variables (name : string) (a : array) (ds : dset).
  Hypothesis PD : proper_dset ds.
  Lemma fill_coords : coords (fill name a ds) = coords ds.
  Proof. unfold fill. now destruct (d_get name (vars ds)). Qed.
  Lemma fill_members d : members (fill name a ds) d = members ds d.
  Proof. unfold members. now rewrite fill_coords. Qed.
  Lemma fill_proper : proper a -> proper_dset (fill name a ds).
  Proof.
    intros PA. split; [rewrite fill_coords; apply PD| |].
    - unfold fill. destruct (d_get name (vars ds)) eqn:G; cbn [vars]; [apply d_nodup_set; apply PD|].
      rewrite map_app. cbn. apply d_get_none in G. clear -G PD. pose proof (pd_vars _ PD) as N. unfold d_keys in G. induction (map fst (vars ds)) as [|x l IH]; cbn; [constructor; [intros []|constructor]|].
      inversion N as [|? ? NI N']; subst. constructor; [rewrite in_app_iff; intros [X|[X|[]]]; [contradiction|]; apply G; now left|]. apply IH; [|trivial]. intros X. apply G. now right.
    - intros n b I. unfold fill in I. destruct (d_get name (vars ds)) as [o|] eqn:G; cbn [vars] in I.
      + apply d_in_get in I; [|apply d_nodup_set; apply PD]. rewrite d_get_set in I. destruct (String.eqb n name).
        * injection I as <-. intros i j AG. cbn in *. assert (proper o) as PO by (apply (pd_proper _ PD name); now apply d_get_in).
          rewrite (PO i j), (PA i j); trivial; intros d D; apply AG; apply join_in; [now right|now left].
        * apply (pd_proper _ PD n). now apply d_get_in.
      + apply in_app_iff in I. destruct I as [I|[I|[]]]; [now apply (pd_proper _ PD n)|]. now injection I as <- <-.
  Qed.
  Lemma fill_get n : d_get n (vars (fill name a ds)) = if String.eqb n name then Some (match d_get name (vars ds) with
      | None => a
      | Some o => {| a_dims := join (a_dims o) (a_dims a); a_bool := a_bool o && a_bool a; a_at := fun p => if is_nan (a_at o p) then a_at a p else a_at o p |} end)
    else d_get n (vars ds).
  Proof.
    unfold fill. destruct (d_get name (vars ds)) as [o|] eqn:G; cbn [vars]; [now rewrite d_get_set|].
    revert G. induction (vars ds) as [|[m b] l IH]; cbn; intros G.
    - now destruct (String.eqb n name).
    - destruct (String.eqb_spec name m) as [->|NE]; [discriminate G|]. rewrite IH by exact G. destruct (String.eqb_spec n m) as [->|]; [|trivial]. now destruct (String.eqb_spec m name); [congruence|].
  Qed.
  Lemma fill_other n p : n <> name -> read (fill name a ds) n p = read ds n p.
  Proof.
    intros N. unfold read. rewrite fill_get. destruct (String.eqb_spec n name); [contradiction|]. destruct (d_get n (vars ds)); [|trivial].
    unfold here. erewrite forallb_ext_in; [reflexivity|]. intros d _. now rewrite fill_members.
  Qed.
  Lemma fill_kept p c : c <> NaN -> (forall d, In d (a_dims a) -> In (p d) (members ds d)) -> read ds name p = c -> read (fill name a ds) name p = c.
  Proof.
    intros N W R. unfold read in *. rewrite fill_get, String.eqb_refl. destruct (d_get name (vars ds)) as [o|]; [|congruence].
    destruct (here ds (a_dims o) p) eqn:H; [|congruence]. cbn [a_dims a_at].
    assert (here (fill name a ds) (join (a_dims o) (a_dims a)) p = true) as ->.
    { unfold here in *. rewrite forallb_forall in *. intros d D. apply join_in in D. rewrite fill_members. destruct D as [D|D]; [now apply H|]. now apply smem_true, W. }
    destruct (is_nan (a_at o p)) eqn:Q; [|trivial]. apply is_nan_spec in Q. congruence.
  Qed.
  Lemma fill_gap p : (forall d, In d (a_dims a) \/ In d (dims_of ds name) -> In (p d) (members ds d)) -> read ds name p = NaN -> read (fill name a ds) name p = a_at a p.
  Proof.
    intros W R. unfold read in *. rewrite fill_get, String.eqb_refl. unfold dims_of in W. destruct (d_get name (vars ds)) as [o|].
    - assert (forall d, In d (a_dims o) -> In (p d) (members ds d)) as WO by (intros d D; apply W; now right).
      assert (here ds (a_dims o) p = true) as H by (unfold here; apply forallb_forall; intros d D; now apply smem_true, WO). rewrite H in R. cbn [a_dims a_at].
      assert (here (fill name a ds) (join (a_dims o) (a_dims a)) p = true) as ->.
      { unfold here. apply forallb_forall. intros d D. apply join_in in D. rewrite fill_members. apply smem_true. apply W. tauto. }
      rewrite R. reflexivity.
    - assert (here (fill name a ds) (a_dims a) p = true) as ->; [|trivial]. unfold here. apply forallb_forall. intros d D. rewrite fill_members. apply smem_true, W. now left.
  Qed.
End Fill.
Lemma index_of_lt t l : In t l -> index_of t l < List.length l.
Proof. induction l as [|x l IH]; [intros []|]. cbn. destruct (String.eqb_spec t x); [lia|]. intros [X|X]; [congruence|]. apply IH in X. lia. Qed.
Lemma index_of_inj s t l : In s l -> In t l -> index_of s l = index_of t l -> s = t.
Proof.
  induction l as [|x l IH]; [intros []|]. cbn. destruct (String.eqb_spec s x), (String.eqb_spec t x); subst; trivial; try discriminate.
  intros [X|X] [Y|Y] E; try congruence. injection E as E. now apply IH.
Qed.

(** ** Links *)
Section Links.
  Variable ds : dset.
  Hypothesis PD : proper_dset ds.
  Hypothesis US : usual_dims ds.
  Lemma read_agree n p q : (forall a, In (n, a) (vars ds) -> agree (a_dims a) p q) -> read ds n p = read ds n q.
  Proof.
    intros A. unfold read. destruct (d_get n (vars ds)) as [a|] eqn:G; [|trivial]. apply d_get_in in G. specialize (A a G).
    assert (here ds (a_dims a) p = here ds (a_dims a) q) as -> by (unfold here; apply forallb_ext_in; intros d D; now rewrite (A d D)). now rewrite (pd_proper _ PD n a G p q A).
  Qed.
  Lemma transmission_spec t : transmission ds t = true <-> link ds t.
  Proof.
    unfold transmission. assert (forall p, p "techs" = t -> read ds "base_tech" p = read ds "base_tech" (upd origin "techs" t)) as R.
    { intros p E. apply read_agree. intros a A d D. rewrite (us_base _ US a A) in D. destruct D as [<-|[]]. unfold upd. now rewrite String.eqb_refl. }
    split.
    - destruct (read ds "base_tech" (upd origin "techs" t)) eqn:G; try discriminate. intros E. apply String.eqb_eq in E. subst. exists (upd origin "techs" t).
      split; [unfold upd; now rewrite String.eqb_refl|]. apply read_holds; [apply PD|apply PD|discriminate|trivial].
    - intros (p & E & H). apply read_holds in H; [|apply PD|apply PD|discriminate]. rewrite <- (R p E), H. apply String.eqb_refl.
  Qed.
  Lemma nodes_of_ends t : ends ds t (nodes_of ds t).
  Proof.
    unfold nodes_of. split; [apply NoDup_filter, US|]. intros n. rewrite filter_In, (member_in ds "nodes" n) by apply PD.
    assert (forall P Q R : Prop, (P -> (Q <-> R)) -> (P /\ Q <-> P /\ R)) as LOGIC by (intros; tauto). apply LOGIC. intros IN.
    assert (forall d x, upd (upd origin "nodes" n) "techs" t d = x -> d = "nodes" -> x = n) as U1 by (intros d x <- ->; reflexivity).
    rewrite any_over_spec; [|repeat constructor; intros []|].
    - split.
      + intros (j & J1 & J2 & J3). exists j. split; [rewrite J1 by (intros [X|[]]; discriminate X); reflexivity|]. split; [rewrite J1 by (intros [X|[]]; discriminate X); reflexivity|].
        split; [apply member_in; [apply PD|apply J2; now left]|]. apply read_holds; [apply PD|apply PD|discriminate|]. destruct (read ds "definition_matrix" j) as [|b| |]; try discriminate J3. now subst b.
      + intros (p & P1 & P2 & P3 & H). apply read_holds in H; [|apply PD|apply PD|discriminate].
        exists (upd (upd (upd origin "nodes" n) "techs" t) "carriers" (p "carriers")). split; [|split].
        * intros d ND. unfold upd. destruct (String.eqb_spec d "carriers"); [subst; contradiction ND; now left|]. reflexivity.
        * intros d [<-|[]]. cbn. apply member_in; [apply PD|trivial].
        * rewrite <- (read_agree "definition_matrix" p); [now rewrite H|]. intros a A d D. destruct (us_matrix _ US a A d D) as [->|[->| ->]]; cbn; congruence.
    - intros j k JK. rewrite (read_agree "definition_matrix" j k); [trivial|]. intros a _ d _. apply JK.
  Qed.
  Lemma ends_same t l m : ends ds t l -> ends ds t m -> forall n, In n l <-> In n m.
  Proof. intros [_ A] [_ B] n. now rewrite A, B. Qed.
  Lemma two_ends t a b : a <> b -> ends ds t [a; b] -> exists x y, nodes_of ds t = [x; y].
  Proof.
    intros N E. pose proof (nodes_of_ends t) as F. pose proof (ends_same _ _ _ E F) as S. destruct F as [ND _]. destruct E as [NE _].
    assert (List.length (nodes_of ds t) = 2) as L.
    { apply Nat.le_antisymm; [apply (NoDup_incl_length ND (l' := [a; b])); intros x X; now apply S|apply (NoDup_incl_length NE (l' := nodes_of ds t)); intros x X; now apply S]. }
    destruct (nodes_of ds t) as [|x [|y [|z r]]]; try discriminate L. now exists x, y.
  Qed.
  Variable geodesic : cell -> cell -> cell -> cell -> cell.
  Definition length_of (a b : string) : cell := geodesic (InputModel.at_node ds "latitude" a) (InputModel.at_node ds "longitude" a) (InputModel.at_node ds "latitude" b) (InputModel.at_node ds "longitude" b).
  Lemma distances_ok ts : (exists l, link_distances geodesic ds ts = Ok l) <-> forall t, In t ts -> link ds t -> exists a b, a <> b /\ ends ds t [a; b].
  Proof.
    induction ts as [|t ts IH]; cbn [link_distances]; [split; [intros _ t []|now exists []]|]. destruct (transmission ds t) eqn:T.
    - pose proof (nodes_of_ends t) as F. apply transmission_spec in T. destruct (nodes_of ds t) as [|a [|b [|z r]]] eqn:NO.
      1,2,4: split; [intros (l & X); discriminate X|intros H; exfalso; destruct (H t (or_introl eq_refl) T) as (x & y & N & E); destruct (two_ends t x y N E) as (x' & y' & X); congruence].
      split.
      + intros (l & X). destruct (link_distances geodesic ds ts) as [l'|] eqn:L; cbn [bind] in X; [|discriminate X].
        intros u [<-|U] LU; [|apply (proj1 IH); eauto]. exists a, b. split; [|trivial]. destruct F as [ND _]. inversion ND as [|? ? NI _]; subst. intros ->. apply NI. now left.
      + intros H. destruct (proj2 IH) as (l & L); [intros u U LU; apply H; [now right|trivial]|]. rewrite L. cbn [bind]. eauto.
    - rewrite IH. split; [|intros H u U; apply H; now right]. intros H u [<-|U] LU; [|now apply H]. apply transmission_spec in LU. congruence.
  Qed.
  Lemma distances_get ts l : link_distances geodesic ds ts = Ok l -> forall t, In t ts -> link ds t -> exists a b, nodes_of ds t = [a; b] /\ d_get t l = Some (length_of a b).
  Proof.
    revert l. induction ts as [|t ts IH]; intros l E u U LU; [destruct U|]. cbn [link_distances] in E. destruct (transmission ds t) eqn:T.
    - destruct (nodes_of ds t) as [|a [|b [|z r]]] eqn:NO; try discriminate E. destruct (link_distances geodesic ds ts) as [l'|] eqn:L; cbn [bind] in E; [|discriminate E]. injection E as <-.
      destruct (String.eqb_spec u t) as [->|NE].
      + exists a, b. split; [trivial|]. cbn. now rewrite String.eqb_refl.
      + destruct U as [U|U]; [congruence|]. destruct (IH l' eq_refl u U LU) as (x & y & X & Y). exists x, y. split; [trivial|]. cbn. destruct (String.eqb_spec u t); [contradiction|trivial].
    - destruct U as [<-|U]; [apply transmission_spec in LU; congruence|]. now apply IH.
  Qed.
  Lemma distances_none ts l : link_distances geodesic ds ts = Ok l -> forall t, ~ link ds t -> d_get t l = None.
  Proof.
    revert l. induction ts as [|t ts IH]; intros l E u NU; cbn [link_distances] in E; [now injection E as <-|]. destruct (transmission ds t) eqn:T.
    - destruct (nodes_of ds t) as [|a [|b [|z r]]] eqn:NO; try discriminate E. destruct (link_distances geodesic ds ts) as [l'|] eqn:L; cbn [bind] in E; [|discriminate E]. injection E as <-.
      cbn. destruct (String.eqb_spec u t) as [->|]; [apply transmission_spec in T; contradiction|]. now apply IH.
    - now apply IH.
  Qed.
End Links.
