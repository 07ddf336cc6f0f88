(** Settings that no node gives for itself are the same wherever a technology is. *)
From Coq Require Import Lia.
From Verif Require Import Base BaseProofs AttrDictModel AttrDictSpec AttrDictProofs AttrDictUnion AttrDictMore AttrDictLayers NodeModel NodeSpec NodeProofs.
From Verif Require DataModel.
From Verif Require Import InputModel InputSpec.
From Verif Require InputProofs.
Local Open Scope string_scope.
Local Open Scope list_scope.

(** ** [union] works key by key *)
Definition headed (a : string) (k : list string) : bool := match k with [] => false | x :: _ => String.eqb x a end.
Lemma set_key_other k r v d a : a <> k -> d_get a (fst (set_key (k :: r) v d)) = d_get a d.
Proof.
  intros N. destruct r as [|k' r].
  - cbn [set_key]. unfold set_leaf. destruct v, (d_get k d) as [x|]; try (now apply d_get_set_other). destruct (set_into _ x). now apply d_get_set_other.
  - rewrite set_key_cons. cbv zeta. destruct (d_get k d) as [w|]; [destruct w; try reflexivity|].
    + destruct (set_key (k' :: r) v []). now apply d_get_set_other.
    + destruct (set_key (k' :: r) v d0) as [o' [e|]]; [|now apply d_get_set_other]. destruct e; try (now apply d_get_set_other).
      destruct (set_key (k' :: r) v []). cbn [fst]. rewrite !d_get_set_other by exact N. reflexivity.
    + destruct (set_key (k' :: r) v []). now apply d_get_set_other.
Qed.
Lemma set_key_local k r v d e : d_get k d = d_get k e ->
  d_get k (fst (set_key (k :: r) v d)) = d_get k (fst (set_key (k :: r) v e)) /\ snd (set_key (k :: r) v d) = snd (set_key (k :: r) v e).
Proof.
  intros E. destruct r as [|k' r].
  - cbn [set_key]. unfold set_leaf. rewrite E. destruct v, (d_get k e) as [x|]; try (cbn [fst snd]; now rewrite !d_get_set_same).
    destruct (set_into _ x). cbn [fst snd]. now rewrite !d_get_set_same.
  - rewrite !set_key_cons. cbv zeta. rewrite E. destruct (d_get k e) as [w|] eqn:G; [destruct w; try (cbn [fst snd]; split; congruence)|].
    + destruct (set_key (k' :: r) v []). cbn [fst snd]. now rewrite !d_get_set_same.
    + destruct (set_key (k' :: r) v d0) as [o' [x|]]; [|cbn [fst snd]; now rewrite !d_get_set_same]. destruct x; try (cbn [fst snd]; now rewrite !d_get_set_same).
      destruct (set_key (k' :: r) v []). cbn [fst snd]. now rewrite !d_get_set_same.
    + destruct (set_key (k' :: r) v []). cbn [fst snd]. now rewrite !d_get_set_same.
Qed.
Lemma get_key_local k r d e : d_get k d = d_get k e -> get_key (k :: r) d = get_key (k :: r) e.
Proof. intros E. destruct r; cbn [get_key]; now rewrite E. Qed.
Lemma one_other sk B k r A a : a <> k -> d_get a (fst (union_one true sk B (k :: r) A)) = d_get a A.
Proof.
  intros N. unfold union_one. cbn [negb andb]. destruct (get_key (k :: r) B) as [w|]; [|reflexivity].
  destruct w; try (now apply set_key_other). destruct (is_dict _); [reflexivity|now apply set_key_other].
Qed.
Lemma one_local sk sk' B B' k r A A' : d_get k B = d_get k B' -> d_get k A = d_get k A' ->
  d_get k (fst (union_one true sk B (k :: r) A)) = d_get k (fst (union_one true sk' B' (k :: r) A')) /\
  snd (union_one true sk B (k :: r) A) = snd (union_one true sk' B' (k :: r) A').
Proof.
  intros EB EA. unfold union_one. cbn [negb andb]. rewrite (get_key_local k r B B' EB). unfold get_key_default. rewrite (get_key_local k r A A' EA).
  destruct (get_key (k :: r) B') as [w|]; [|now split]. destruct w; try (now apply set_key_local). destruct (is_dict _); [now split|now apply set_key_local].
Qed.
Lemma loop_part a sk sk' B B' : d_get a B = d_get a B' -> forall ks A A2 A',
  (forall k, In k ks -> k <> []) -> d_get a A = d_get a A2 -> union_loop true sk B ks A = (A', None) ->
  exists A2', union_loop true sk' B' (filter (headed a) ks) A2 = (A2', None) /\ d_get a A' = d_get a A2'.
Proof.
  intros EB. induction ks as [|k ks IH]; intros A A2 A' NE EA U; cbn [union_loop filter] in *.
  - injection U as <-. now exists A2.
  - destruct k as [|x r]; [now contradiction (NE [] (or_introl eq_refl))|]. cbn [headed].
    assert (forall k, In k ks -> k <> []) as NE' by (intros k K; apply NE; now right).
    destruct (union_one true sk B (x :: r) A) as [A1 [e|]] eqn:O; [discriminate U|]. destruct (String.eqb_spec x a) as [->|NX].
    + cbn [union_loop]. destruct (one_local sk sk' B B' a r A A2 EB EA) as [G S]. rewrite O in G, S. cbn [fst snd] in G, S.
      destruct (union_one true sk' B' (a :: r) A2) as [A3 e3]. cbn [fst snd] in G, S. subst e3. now apply (IH A1).
    + apply (IH A1); trivial. pose proof (one_other sk B x r A a) as Q. rewrite O in Q. cbn [fst] in Q. rewrite Q by congruence. exact EA.
Qed.
Lemma keys_headed a d : NoDup (d_keys d) -> filter (headed a) (keys_nested d) =
  match d_get a d with Some w => keys_nested [(a, w)] | None => [] end.
Proof.
  assert (forall k w, filter (headed a) (match w with VDict (_ :: _) => map (cons k) (keys_nested_val w) | _ => [[k]] end) =
    if String.eqb k a then match w with VDict (_ :: _) => map (cons k) (keys_nested_val w) | _ => [[k]] end else []) as ONE.
  { intros k w. destruct (String.eqb k a) eqn:K.
    - destruct w as [| | | | |[|y l]]; try (cbn; now rewrite K). induction (keys_nested_val _) as [|q qs IH]; [reflexivity|]. cbn. rewrite K. now rewrite IH.
    - destruct w as [| | | | |[|y l]]; try (cbn; now rewrite K). induction (keys_nested_val _) as [|q qs IH]; [reflexivity|]. cbn. now rewrite K. }
  induction d as [|[k w] d IH]; [reflexivity|]. intros N. cbn in N. inversion N as [|? ? NI N']; subst.
  change (keys_nested ((k, w) :: d)) with ((match w with VDict (_ :: _) => map (cons k) (keys_nested_val w) | _ => [[k]] end) ++ keys_nested d).
  rewrite filter_app, ONE, (IH N'). cbn [d_get]. rewrite (String.eqb_sym a k). destruct (String.eqb_spec k a) as [->|NE]; [|reflexivity].
  rewrite (proj2 (d_get_none _ _) NI), app_nil_r. change (keys_nested [(a, w)]) with ((match w with VDict (_ :: _) => map (cons a) (keys_nested_val w) | _ => [[a]] end) ++ []).
  now rewrite app_nil_r.
Qed.
Lemma union_local a A B A' A2 B2 A2' : NoDup (d_keys B) -> NoDup (d_keys B2) -> d_get a A = d_get a A2 -> d_get a B = d_get a B2 ->
  union true A B = (A', None) -> union true A2 B2 = (A2', None) -> d_get a A' = d_get a A2'.
Proof.
  unfold union. intros N1 N2 EA EB U1 U2.
  assert (forall d k, In k (keys_nested d) -> k <> []) as NE. { intros d k K ->. apply keys_head_in in K. destruct K as (x & r & Q & _). discriminate Q. }
  destruct (loop_part a _ (keys_nested A2) B B2 EB _ A A2 A' (NE B) EA U1) as (X & LX & GX).
  destruct (loop_part a _ (keys_nested A2) B2 B2 eq_refl _ A2 A2 A2' (NE B2) eq_refl U2) as (Y & LY & GY).
  rewrite (keys_headed a B N1), EB in LX. rewrite (keys_headed a B2 N2) in LY. rewrite LX in LY. injection LY as <-. congruence.
Qed.
Lemma union_wf ao A B A' : wf (VDict A) -> wf (VDict B) -> union ao A B = (A', None) -> wf (VDict A').
Proof.
  intros WA WB. unfold union. generalize (keys_nested A). intros sk.
  assert (forall k, In k (keys_nested B) -> In k (keys_nested B)) as K by auto. revert K. generalize (keys_nested B) at 1 3. intros ks. revert A WA.
  induction ks as [|k ks IH]; intros A WA K E; cbn [union_loop] in E; [now injection E as <-|].
  destruct (union_one ao sk B k A) as [A1 [e|]] eqn:U; [discriminate|]. apply (IH A1); trivial; [|intros k' H; apply K; now right].
  pose proof (K k (or_introl eq_refl)) as KB. apply (keys_nested_val_spec (VDict B) WB) in KB. destruct KB as (NN & w & Hw & Sw).
  unfold union_one in U. destruct (negb ao && path_mem k sk); [discriminate U|]. rewrite (proj2 (get_key_lk k B w NN) Hw) in U.
  assert (wf w) as WW. { destruct Sw as [L| ->]; [now constructor|apply wf_nil]. }
  assert (set_key k w A = (A1, None) -> wf (VDict A1)) as G. { intros Q. pose proof (set_key_wf k w A WW WA) as Z. now rewrite Q in Z. }
  destruct w; try (apply G; exact U). destruct (is_dict _); [injection U as <-; exact WA|apply G; exact U].
Qed.

(** ** Adding what is not there *)
Definition put (e : list string * val) (A : dict) : step dict :=
  match snd e with
  | VNone => if is_dict (get_key_default (fst e) VNone A) then (A, None) else set_key (fst e) VNone A
  | v => set_key (fst e) v A
  end.
Fixpoint put_all (es : list (list string * val)) (A : dict) : step dict :=
  match es with
  | [] => (A, None)
  | e :: t => match put e A with (A', None) => put_all t A' | (A', Some x) => (A', Some x) end
  end.
Lemma loop_put ao sk B es : Forall (fun e => get_key (fst e) B = Ok (snd e)) es -> forall A A',
  union_loop ao sk B (map fst es) A = (A', None) -> put_all es A = (A', None).
Proof.
  induction 1 as [|[p v] es G F IH]; intros A A' U; cbn [map union_loop put_all] in *; [exact U|]. cbn [fst snd] in *.
  assert (forall A1, union_one ao sk B p A = (A1, None) -> put (p, v) A = (A1, None)) as ONE.
  { intros A1. unfold union_one, put. cbn [fst snd]. destruct (negb ao && path_mem p sk); [discriminate|]. rewrite G. now destruct v. }
  destruct (union_one ao sk B p A) as [A1 [e|]]; [discriminate U|]. rewrite (ONE A1 eq_refl). now apply IH.
Qed.
Lemma union_put ao A B A' : wf (VDict B) -> union ao A B = (A', None) -> put_all (entries B) A = (A', None).
Proof.
  intros W U. unfold union in U. unfold keys_nested in U at 2. rewrite <- (entries_keys (VDict B)) in U. eapply loop_put; [|exact U].
  pose proof (entries_lk (VDict B) W) as L. pose proof (entries_simple (VDict B)) as S. rewrite Forall_forall in *.
  intros e I. apply get_key_lk; [apply (S e I)|apply (L e I)].
Qed.
Lemma put_app a b A : put_all (a ++ b) A = match put_all a A with (A', None) => put_all b A' | (A', Some e) => (A', Some e) end.
Proof. revert A. induction a as [|e a IH]; intros A; [reflexivity|]. cbn [app put_all]. destruct (put e A) as [A' [x|]]; [reflexivity|apply IH]. Qed.
Definition below (k : string) (e : list string * val) : list string * val := (k :: fst e, snd e).
Lemma put_below k o A e : d_get k A = Some (VDict o) -> fst e <> [] -> forall o', put e o = (o', None) -> put (below k e) A = (d_set k (VDict o') A, None).
Proof.
  intros G NE o' P. destruct e as [[|k' r] v]; [now contradiction NE|]. unfold put, below in *. cbn [fst snd] in *.
  assert (forall w o1, set_key (k' :: r) w o = (o1, None) -> set_key (k :: k' :: r) w A = (d_set k (VDict o1) A, None)) as SK.
  { intros w o1 E. rewrite set_key_cons. cbv zeta. now rewrite G, E. }
  assert (get_key_default (k :: k' :: r) VNone A = get_key_default (k' :: r) VNone o) as GD.
  { unfold get_key_default. change (get_key (k :: k' :: r) A) with (match d_get k A with None => Err EKey | Some (VDict o) => get_key (k' :: r) o | Some _ => Err EAttr end). now rewrite G. }
  destruct v; try (now apply SK). rewrite GD. destruct (is_dict _); [|now apply SK]. injection P as <-. now rewrite d_set_self.
Qed.
Lemma put_all_below k es : Forall (fun e => fst e <> []) es -> forall A o o', d_get k A = Some (VDict o) -> put_all es o = (o', None) ->
  put_all (map (below k) es) A = (d_set k (VDict o') A, None).
Proof.
  induction 1 as [|e es NE F IH]; intros A o o' G P; cbn [map put_all] in *.
  - injection P as <-. now rewrite d_set_self.
  - destruct (put e o) as [o1 [x|]] eqn:E; [discriminate P|]. rewrite (put_below k o A e G NE o1 E).
    rewrite (IH _ o1 o'); [|apply d_get_set_same|exact P]. f_equal.
    clear. induction A as [|[a v] A IHA]; cbn; [now rewrite String.eqb_refl|]. destruct (String.eqb k a) eqn:K; cbn; rewrite K; [reflexivity|now rewrite IHA].
Qed.
Lemma put_all_new k es : es <> [] -> Forall (fun e => fst e <> []) es -> forall A o', d_get k A = None -> put_all es [] = (o', None) ->
  put_all (map (below k) es) A = (d_set k (VDict o') A, None).
Proof.
  intros NN F A o' G P. destruct es as [|e es]; [now contradiction NN|]. inversion F as [|? ? NE F']; subst. cbn [map put_all] in *.
  destruct (put e []) as [o1 [x|]] eqn:E; [discriminate P|].
  assert (put (below k e) A = (d_set k (VDict o1) A, None)) as ->.
  { destruct e as [[|k' r] v]; [now contradiction NE|]. unfold put, below in *. cbn [fst snd] in *.
    assert (forall w, set_key (k' :: r) w [] = (o1, None) -> set_key (k :: k' :: r) w A = (d_set k (VDict o1) A, None)) as SK.
    { intros w Q. rewrite set_key_cons. cbv zeta. now rewrite G, Q. }
    assert (is_dict (get_key_default (k :: k' :: r) VNone A) = false) as GD.
    { unfold get_key_default. change (get_key (k :: k' :: r) A) with (match d_get k A with None => Err EKey | Some (VDict o) => get_key (k' :: r) o | Some _ => Err EAttr end). now rewrite G. }
    assert (is_dict (get_key_default (k' :: r) VNone []) = false) as GE. { unfold get_key_default. now destruct r. }
    destruct v; try (now apply SK). rewrite GE in E. rewrite GD. now apply SK. }
  rewrite (put_all_below k es F' _ o1 o'); [|apply d_get_set_same|exact P]. f_equal.
  clear. induction A as [|[a v] A IHA]; cbn; [now rewrite String.eqb_refl|]. destruct (String.eqb k a) eqn:K; cbn; rewrite K; [reflexivity|now rewrite IHA].
Qed.
Lemma entries_nonempty d : d <> [] -> entries d <> [].
Proof.
  intros N E. assert (forall v, match v with VDict (_ :: _) => keys_nested_val v <> [] | _ => True end) as KN.
  { clear. intros v. induction v as [| | | | |d IH] using val_ind'; try exact I. destruct d as [|[a w] t]; [exact I|].
    change (keys_nested_val (VDict ((a, w) :: t))) with (keys_nested ((a, w) :: t)). rewrite keys_nested_cons. inversion IH as [|? ? IHw _]; subst. cbn [snd] in IHw.
    destruct w as [| | | | |[|e o]]; try (cbn; congruence). destruct (keys_nested_val (VDict (e :: o))); [now contradiction IHw|cbn; congruence]. }
  apply (f_equal (map fst)) in E. unfold entries in E. rewrite entries_keys in E. destruct d as [|e d]; [now contradiction N|]. now apply (KN (VDict (e :: d))).
Qed.
Lemma entries_paths d : Forall (fun e => fst e <> []) (entries d).
Proof. apply Forall_impl with (2 := entries_simple (VDict d)). now intros a [_ H]. Qed.
Lemma put_new v : wf v -> match v with
  | VDict d => forall A, (forall k, In k (d_keys d) -> ~ In k (d_keys A)) -> put_all (entries d) A = (A ++ d, None)
  | _ => True end.
Proof.
  induction v as [| | | | |d IH] using val_ind'; intros W; try exact I. apply wf_inv in W. destruct W as [ND FW].
  induction d as [|[k w] t IHt]; intros A NI; [cbn; now rewrite app_nil_r|].
  inversion IH as [|? ? IHw IHr]; subst. inversion FW as [|? ? FWw FWr]; subst. inversion ND as [|? ? NIk ND']; subst. cbn [fst snd] in *.
  assert (~ In k (d_keys A)) as NA by (apply NI; now left). rewrite entries_cons, put_app.
  assert (put_all (match w with VDict (_ :: _) => map (fun e => (k :: fst e, snd e)) (entries_val w) | _ => [([k], w)] end) A = (A ++ [(k, w)], None)) as HEAD.
  { assert (simple w -> put_all [([k], w)] A = (A ++ [(k, w)], None)) as SIMP.
    { intros S. assert (set_key [k] w A = (A ++ [(k, w)], None)) as SK.
      { cbn [set_key]. rewrite set_leaf_simple by exact S. rewrite (proj2 (d_get_none k A) NA).
        assert (upd w None = w) as -> by (destruct w as [| | | | |[|? ?]]; reflexivity). now rewrite d_keys_set_notin. }
      cbn [put_all]. unfold put. cbn [fst snd].
      assert (is_dict (get_key_default [k] VNone A) = false) as GD. { unfold get_key_default. cbn [get_key]. now rewrite (proj2 (d_get_none k A) NA). }
      destruct w; try (now rewrite SK). rewrite GD. now rewrite SK. }
    destruct w as [| | | | |[|e o]]; try (apply SIMP; left; reflexivity); [apply SIMP; right; reflexivity|].
    assert (map (fun e0 => (k :: fst e0, snd e0)) (entries_val (VDict (e :: o))) = map (below k) (entries (e :: o))) as -> by reflexivity.
    rewrite (put_all_new k (entries (e :: o))) with (o' := e :: o); [|now apply entries_nonempty|apply entries_paths|now apply d_get_none|apply (IHw FWw []); intros ? _ []].
    now rewrite d_keys_set_notin. }
  rewrite HEAD, (IHt IHr ND' FWr); [now rewrite <- app_assoc|].
  intros k0 K. unfold d_keys. rewrite map_app, in_app_iff. cbn. intros [H|[H|[]]]; [apply (NI k0); [now right|exact H]|subst; contradiction].
Qed.
Lemma union_new ao A B A' : wf (VDict B) -> (forall k, In k (d_keys B) -> ~ In k (d_keys A)) -> union ao A B = (A', None) -> A' = A ++ B.
Proof. intros W N U. apply (union_put ao A B A' W) in U. rewrite (put_new (VDict B) W A N) in U. now injection U. Qed.

(** ** Links at nodes *)
Definition content (n : string) (acc : dict) : dict := links_at n acc.
Definition plain_nodes (acc : dict) : Prop := forall n x, d_get n acc = Some x -> is_dict x = true.
Lemma wf_one k v : wf v -> wf (VDict [(k, v)]).
Proof. intros W. apply wf_dict; [cbn; constructor; [intros []|constructor]|constructor; [exact W|constructor]]. Qed.
Lemma wf_two k v l w : k <> l -> wf v -> wf w -> wf (VDict [(k, v); (l, w)]).
Proof. intros N V W. apply wf_dict; [cbn; constructor; [intros [X|[]]; congruence|constructor; [intros []|constructor]]|constructor; [exact V|constructor; [exact W|constructor]]]. Qed.
Lemma put_node k name x acc : plain_nodes acc -> wf (VDict x) -> ~ In name (d_keys (content k acc)) ->
  put_all (entries [(k, VDict [(name, VDict x)])]) acc = (d_set k (VDict (content k acc ++ [(name, VDict x)])) acc, None).
Proof.
  intros P W N. rewrite entries_cons. change (entries []) with (@nil (list string * val)). rewrite app_nil_r.
  change (map (fun e => (k :: fst e, snd e)) (entries_val (VDict [(name, VDict x)]))) with (map (below k) (entries [(name, VDict x)])).
  assert (wf (VDict [(name, VDict x)])) as W1 by (now apply wf_one).
  unfold content, links_at in *. destruct (d_get k acc) as [o|] eqn:G.
  - pose proof (P _ _ G) as D. destruct o; try discriminate D. apply put_all_below with (o := d); [apply entries_paths|exact G|].
    apply (put_new (VDict [(name, VDict x)]) W1 d). intros k0 [<-|[]]. exact N.
  - apply put_all_new; [now apply entries_nonempty|apply entries_paths|exact G|]. apply (put_new (VDict [(name, VDict x)]) W1 []). intros k0 _ [].
Qed.
(** what a link leaves at its two ends *)
Definition same_but (data d : dict) : Prop :=
  forall v, v <> "carrier_in" -> v <> "carrier_out" -> d_get v d = d_get v (d_del "link_to" (d_del "link_from" data)).
Record linked (acc : dict) (L : list (string * dict)) : Prop := {
  ln_plain : plain_nodes acc;
  ln_nodup : forall n, NoDup (d_keys (content n acc));
  ln_data : forall n t x, In (t, x) (content n acc) -> exists data d, x = VDict d /\ In (t, data) L /\ same_but data d /\ wf x
}.
Lemma wf_del k d : wf (VDict d) -> wf (VDict (d_del k d)).
Proof. intros W. apply wf_inv in W. destruct W as [N F]. apply wf_dict; [now apply d_nodup_del|now apply d_del_forall]. Qed.
Lemma pop_ok k d d' : pop k d = Ok d' -> d' = d_del k d.
Proof. unfold pop. destruct (d_mem k d); [|discriminate]. intros E. now injection E. Qed.
Lemma content_set n k x acc : content n (d_set k (VDict x) acc) = if String.eqb n k then x else content n acc.
Proof. unfold content, links_at. rewrite d_get_set. now destruct (String.eqb n k). Qed.
Lemma plain_set k x acc : plain_nodes acc -> plain_nodes (d_set k (VDict x) acc).
Proof. intros P n y. rewrite d_get_set. destruct (String.eqb n k); [|apply P]. intros E. now injection E as <-. Qed.
Lemma linked_put acc L k name data x : linked acc ((name, data) :: L) -> wf (VDict x) -> same_but data x -> ~ In name (d_keys (content k acc)) ->
  linked (d_set k (VDict (content k acc ++ [(name, VDict x)])) acc) ((name, data) :: L).
Proof.
  intros H W S N. split.
  - apply plain_set, H.
  - intros n. rewrite content_set. destruct (String.eqb n k); [|apply H]. unfold d_keys. rewrite map_app. cbn [map fst].
    pose proof (ln_nodup _ _ H k) as ND. clear -ND N. unfold d_keys in *.
    induction (content k acc) as [|[a v] l IH]; [cbn; repeat constructor; intros []|]. cbn in *. inversion ND as [|? ? NI ND']; subst. constructor; [|apply IH; [intros X; apply N; now right|trivial]].
    rewrite in_app_iff. cbn. intros [X|[X|[]]]; [contradiction|]. apply N. now left.
  - intros n t y. rewrite content_set. destruct (String.eqb n k); [|apply H]. rewrite in_app_iff. intros [X|[X|[]]]; [now apply (ln_data _ _ H k)|].
    injection X as <- <-. exists data, x. repeat split; trivial. now left.
Qed.
Lemma linked_more acc L e : linked acc L -> linked acc (e :: L).
Proof. intros H. split; [apply H|apply H|]. intros n t x X. destruct (ln_data _ _ H n t x X) as (data & d & A & B & C). exists data, d. split; [trivial|split; [now right|trivial]]. Qed.
Lemma add_link_linked known name data acc acc' L : linked acc L -> wf (VDict data) -> ~ In name (map fst L) ->
  add_link known name data acc = Ok acc' -> linked acc' ((name, data) :: L).
Proof.
  intros H W N. unfold add_link. destruct (d_get "link_from" data) as [[|q1|q2|a|q3|q4]|]; try discriminate; destruct (d_get "link_to" data) as [[|q5|q6|b|q7|q8]|]; try discriminate.
  destruct (smem a known && smem b known); [|intros E; injection E as <-; now apply linked_more].
  set (rest := d_del "link_to" (d_del "link_from" data)). assert (wf (VDict rest)) as WR by (now apply wf_del, wf_del).
  set (ow := match d_get "one_way" rest with Some v => truthy v | None => false end).
  destruct (if ow then pop "carrier_out" rest else Ok rest) as [fd|] eqn:F; cbn [bind]; [|discriminate].
  destruct (if ow then pop "carrier_in" rest else Ok rest) as [td|] eqn:T; cbn [bind]; [|discriminate].
  assert (wf (VDict fd) /\ same_but data fd) as [WF SF].
  { destruct ow; [apply pop_ok in F; subst fd|injection F as <-]; (split; [first [now apply wf_del|exact WR]|]); intros v V1 V2; [now rewrite d_get_del_other by congruence|reflexivity]. }
  assert (wf (VDict td) /\ same_but data td) as [WT ST].
  { destruct ow; [apply pop_ok in T; subst td|injection T as <-]; (split; [first [now apply wf_del|exact WR]|]); intros v V1 V2; [now rewrite d_get_del_other by congruence|reflexivity]. }
  assert (forall k, ~ In name (d_keys (content k acc))) as NC.
  { intros k X. apply in_map_iff in X. destruct X as ([t x] & <- & X). destruct (ln_data _ _ H k t x X) as (dd & d & _ & Y & _). apply N. now apply (in_map fst) in Y. }
  pose proof (linked_more acc L (name, data) H) as H'.
  cbn [d_set]. destruct (String.eqb_spec b a) as [->|NE].
  - destruct (union false acc _) as [u [e|]] eqn:U; cbn [to_result]; [discriminate|]. intros E. injection E as <-.
    apply union_put in U; [|now apply wf_one, wf_one].
    rewrite put_node in U; trivial; [|apply H]. injection U as <-. now apply linked_put.
  - destruct (union false acc _) as [u [e|]] eqn:U; cbn [to_result]; [discriminate|]. intros E. injection E as <-.
    apply union_put in U.
    + rewrite entries_cons in U. change (entries [(b, VDict [(name, VDict td)])]) with ([] ++ entries [(b, VDict [(name, VDict td)])]) in U.
      change (put_all (map (fun e => (a :: fst e, snd e)) (entries_val (VDict [(name, VDict fd)])) ++ [] ++ entries [(b, VDict [(name, VDict td)])]) acc = (u, None)) in U.
      rewrite app_assoc, put_app in U. change (map (fun e => (a :: fst e, snd e)) (entries_val (VDict [(name, VDict fd)])) ++ []) with (entries [(a, VDict [(name, VDict fd)])]) in U.
      rewrite put_node in U; trivial; [|apply H]. rewrite put_node in U; trivial.
      * injection U as <-. apply linked_put; trivial; [now apply linked_put|]. rewrite content_set. destruct (String.eqb_spec b a); [contradiction|apply NC].
      * apply plain_set, H.
      * rewrite content_set. destruct (String.eqb_spec b a); [contradiction|apply NC].
    + apply wf_two; [congruence|now apply wf_one|now apply wf_one].
Qed.

(** ** Inheritance *)
Lemma union_nothing A : union true A [] = (A, None).
Proof. reflexivity. Qed.
Lemma union_gives k v A B A' : NoDup (d_keys B) -> (forall o, v <> VDict o) -> v <> VNone -> d_get k B = Some v -> union true A B = (A', None) -> d_get k A' = Some v.
Proof.
  intros N D NN G U.
  assert (union true A [(k, v)] = (d_set k v A, None)) as U2.
  { unfold union. replace (keys_nested [(k, v)]) with [[k]] by (destruct v; trivial; now contradiction (D d)). cbn [union_loop]. unfold union_one. cbn [negb andb get_key d_get].
    rewrite String.eqb_refl. destruct v; trivial; [now contradiction NN|now contradiction (D d)]. }
  rewrite (union_local k A B A' A [(k, v)] (d_set k v A)); trivial; [apply d_get_set_same|cbn; constructor; [intros []|constructor]|cbn; now rewrite String.eqb_refl].
Qed.
Lemma union_keeps k v A B A' : NoDup (d_keys B) -> leaf v -> d_get k A = Some v -> d_get k B = Some v -> union true A B = (A', None) -> d_get k A' = Some v.
Proof.
  intros N L GA GB U. destruct v; try (eapply union_gives; try eassumption; discriminate).
  assert (union true [(k, VNone)] [(k, VNone)] = ([(k, VNone)], None)) as U2.
  { unfold union. cbn. rewrite !String.eqb_refl. unfold get_key_default. cbn. rewrite !String.eqb_refl. reflexivity. }
  rewrite (union_local k A B A' [(k, VNone)] [(k, VNone)] [(k, VNone)]); trivial; cbn; rewrite ?String.eqb_refl; trivial. constructor; [intros []|constructor].
Qed.
Lemma union_absent k A B A' : NoDup (d_keys B) -> d_get k B = None -> union true A B = (A', None) -> d_get k A' = d_get k A.
Proof. intros N G U. apply (union_local k A B A' A [] A); trivial. constructor. Qed.

Section Inherit.
  Variables (techs tables : dict).
  Hypothesis WT : wf (VDict techs).
  Hypothesis WB : wf (VDict tables).

  (** the two steps *)
  Lemma inherit_steps t item d : inherit_tech techs tables t item = Ok d -> exists x base b, as_dict item = Ok x /\ d_get t techs = Some (VDict base) /\
    union true base x = (b, None) /\ ((d_get t tables = None /\ d = b) \/ exists table, d_get t tables = Some (VDict table) /\ union true table b = (d, None)).
  Proof.
    unfold inherit_tech. destruct (as_dict item) as [x|]; cbn [bind]; [|discriminate]. destruct (d_get t techs) as [[| | | | |base]|]; try discriminate.
    destruct (union true base x) as [b [e|]] eqn:U; cbn [to_result bind]; [discriminate|]. destruct (d_get t tables) as [[| | | | |table]|] eqn:T; try discriminate.
    - destruct (union true table b) as [c [e|]] eqn:V; cbn [to_result]; [discriminate|]. intros E. injection E as <-. exists x, base, b. repeat split; trivial. right. now exists table.
    - intros E. injection E as <-. exists x, base, b. repeat split; trivial. now left.
  Qed.
  Lemma as_dict_wf item x : wf item -> as_dict item = Ok x -> wf (VDict x).
  Proof. destruct item; cbn; intros W E; try discriminate E; injection E as <-; [apply wf_nil|exact W]. Qed.
  Lemma wf_at t d v : wf (VDict d) -> d_get t d = Some v -> wf v.
  Proof. apply wf_get. Qed.
  Lemma wf_nodup d : wf (VDict d) -> NoDup (d_keys d).
  Proof. intros W. now apply wf_inv in W. Qed.
  Lemma inherit_wf t item d : wf item -> inherit_tech techs tables t item = Ok d -> wf (VDict d).
  Proof.
    intros WI E. destruct (inherit_steps t item d E) as (x & base & b & A & G & U & R).
    assert (wf (VDict b)) as Wb. { apply (union_wf true base x b); trivial; [now apply (wf_at t techs)|now apply (as_dict_wf item)]. }
    destruct R as [[_ ->]|(table & GT & V)]; [trivial|]. apply (union_wf true table b d); trivial. now apply (wf_at t tables).
  Qed.
  Lemma inherit_same t item item' d d' x x' v : wf item -> wf item' -> inherit_tech techs tables t item = Ok d -> inherit_tech techs tables t item' = Ok d' ->
    as_dict item = Ok x -> as_dict item' = Ok x' ->
    (d_get v x = None \/ exists base w, d_get t techs = Some (VDict base) /\ leaf w /\ d_get v base = Some w /\ d_get v x = Some w) ->
    (d_get v x' = None \/ exists base w, d_get t techs = Some (VDict base) /\ leaf w /\ d_get v base = Some w /\ d_get v x' = Some w) ->
    d_get v d = d_get v d'.
  Proof.
    intros W W' E E' X X' S S'.
    destruct (inherit_steps t item d E) as (x0 & base & b & A & G & U & R). rewrite X in A. injection A as <-.
    destruct (inherit_steps t item' d' E') as (x1 & base' & b' & A' & G' & U' & R'). rewrite X' in A'. injection A' as <-. rewrite G in G'. injection G' as <-.
    assert (forall y c, wf (VDict y) -> union true base y = (c, None) -> (d_get v y = None \/ exists base w, d_get t techs = Some (VDict base) /\ leaf w /\ d_get v base = Some w /\ d_get v y = Some w) ->
      d_get v c = d_get v base) as ONE.
    { intros y c WY UY [N|(base0 & w & G0 & L & GB & GY)]; [apply (union_absent v base y c); trivial; now apply wf_nodup|].
      rewrite G in G0. injection G0 as <-. rewrite GB. apply (union_keeps v w base y c); trivial. now apply wf_nodup. }
    assert (wf (VDict x)) as WX by (now apply (as_dict_wf item)). assert (wf (VDict x')) as WX' by (now apply (as_dict_wf item')).
    assert (wf (VDict base)) as WBA by (apply (wf_at t techs); trivial).
    assert (d_get v b = d_get v b') as EB. { rewrite (ONE x b WX U S), (ONE x' b' WX' U' S'). reflexivity. }
    destruct R as [[T ->]|(table & T & V)], R' as [[T' ->]|(table' & T' & V')]; try congruence.
    rewrite T in T'. injection T' as <-. apply (union_local v table b d table b' d'); trivial; apply wf_nodup; [apply (union_wf true base x b)|apply (union_wf true base x' b')]; trivial.
  Qed.
  Lemma inherit_off t item d x : wf item -> inherit_tech techs tables t item = Ok d -> as_dict item = Ok x -> d_get "active" x = Some (VBool false) -> active d = false.
  Proof.
    intros W E X O. destruct (inherit_steps t item d E) as (x0 & base & b & A & G & U & R). rewrite X in A. injection A as <-.
    assert (wf (VDict x)) as WX by (now apply (as_dict_wf item)).
    assert (d_get "active" b = Some (VBool false)) as AB. { apply (union_gives _ _ base x b); trivial; try discriminate. now apply wf_nodup. }
    assert (d_get "active" d = Some (VBool false)) as AD.
    { destruct R as [[_ ->]|(table & T & V)]; [trivial|]. apply (union_gives _ _ table b d); trivial; try discriminate. apply wf_nodup.
      apply (union_wf true base x b); trivial. now apply (wf_at t techs). }
    unfold active. now rewrite AD.
  Qed.
End Inherit.

Lemma add_links_linked known links : forall acc acc' L, linked acc L -> (forall t d, In (t, d) links -> wf (VDict d)) -> NoDup (map fst links) ->
  (forall t, In t (map fst links) -> ~ In t (map fst L)) -> add_links known links acc = Ok acc' -> exists L', linked acc' L' /\ forall e, In e L' <-> In e L \/ In e links.
Proof.
  induction links as [|[name data] links IH]; intros acc acc' L H W N D E; cbn [add_links] in E.
  - injection E as <-. exists L. split; [trivial|]. cbn. tauto.
  - destruct (add_link known name data acc) as [a1|] eqn:A; cbn [bind] in E; [|discriminate E]. cbn in N. inversion N as [|? ? NI N']; subst.
    assert (linked a1 ((name, data) :: L)) as H1. { eapply add_link_linked; try eassumption; [now apply (W name); left|apply D; now left]. }
    destruct (IH a1 acc' _ H1) as (L' & HL & EL); trivial.
    + intros t d I. apply (W t). now right.
    + intros t I [X|X]; [cbn in X; subst; contradiction|]. apply (D t); [now right|trivial].
    + exists L'. split; [trivial|]. intros e. rewrite EL. cbn. tauto.
Qed.

(** ** Definitions are consistent *)
Lemma nodes_out items : forall out off, inherit_nodes items = Ok (out, off) -> NoDup (map fst items) ->
  NoDup (map fst out) /\ forall n d, In (n, d) out -> exists i, In (n, i) items /\ as_dict i = Ok d.
Proof.
  induction items as [|[n i] items IH]; intros out off E N; cbn [inherit_nodes] in E.
  - injection E as <- <-. split; [constructor|intros ? ? []].
  - destruct (as_dict i) as [d|] eqn:A; cbn [bind] in E; [|discriminate E]. destruct (inherit_nodes items) as [[o f]|]; cbn [bind fst snd] in E; [|discriminate E].
    cbn in N. inversion N as [|? ? NI N']; subst. destruct (IH o f eq_refl N') as [NO HO].
    assert (~ In n (map fst o)) as NN. { intros X. apply in_map_iff in X. destruct X as ([m d'] & <- & X). destruct (HO _ _ X) as (i0 & J & _). apply NI. now apply (in_map fst) in J. }
    destruct (active d); injection E as <- <-.
    + split; [cbn; now constructor|]. intros m d' [X|X]; [injection X as <- <-; exists i; split; [now left|trivial]|]. destruct (HO _ _ X) as (i0 & J & A0). exists i0. split; [now right|trivial].
    + split; [trivial|]. intros m d' X. destruct (HO _ _ X) as (i0 & J & A0). exists i0. split; [now right|trivial].
Qed.
Lemma techs_out_nodup techs tables items : forall out off, inherit_techs techs tables items = Ok (out, off) -> NoDup (map fst items) -> NoDup (map fst out).
Proof.
  induction items as [|[n i] items IH]; intros out off E N; cbn [inherit_techs] in E.
  - injection E as <- <-. constructor.
  - destruct (inherit_tech techs tables n i) as [d|] eqn:A; cbn [bind] in E; [|discriminate E]. destruct (inherit_techs techs tables items) as [[o f]|] eqn:R; cbn [bind fst snd] in E; [|discriminate E].
    cbn in N. inversion N as [|? ? NI N']; subst. pose proof (IH o f eq_refl N') as NO.
    destruct (active d); injection E as <- <-; [|trivial]. cbn. constructor; [|trivial]. intros X. apply in_map_iff in X. destruct X as ([m d'] & <- & X).
    destruct (inherit_techs_split _ _ _ _ _ R) as (S1 & _). apply S1 in X. destruct X as (i0 & J & _). apply NI. now apply (in_map fst) in J.
Qed.
Lemma dicts_in_spec d t x : In (t, x) (dicts_in d) <-> In (t, VDict x) d.
Proof.
  unfold dicts_in. rewrite in_flat_map. split.
  - intros ([k v] & I & X). destruct v as [|q1|q2|q3|q4|y]; try (destruct X; fail). destruct X as [X|[]]. cbn in X. injection X as -> ->. exact I.
  - intros I. exists (t, VDict x). split; [trivial|now left].
Qed.
Lemma dicts_in_keys d : NoDup (d_keys d) -> NoDup (map fst (dicts_in d)).
Proof.
  induction d as [|[k v] d IH]; intros N; [constructor|]. cbn in N. inversion N as [|? ? NI N']; subst.
  change (dicts_in ((k, v) :: d)) with ((match v with VDict x => [(k, x)] | _ => [] end) ++ dicts_in d).
  destruct v; try (exact (IH N')). cbn. constructor; [|exact (IH N')]. intros X. apply in_map_iff in X. destruct X as ([m y] & E & X). cbn in E. subst. apply dicts_in_spec in X. apply NI. now apply (in_map fst) in X.
Qed.
Lemma get_in_nodup (d : dict) k v : NoDup (d_keys d) -> In (k, v) d -> d_get k d = Some v.
Proof.
  induction d as [|[a b] d IH]; intros N I; [destruct I|]. cbn in *. inversion N as [|? ? NI N']; subst. destruct I as [E|I].
  - injection E as -> ->. now rewrite String.eqb_refl.
  - destruct (String.eqb_spec k a) as [->|_]; [|auto]. contradiction NI. now apply (in_map fst) in I.
Qed.

Section Shared.
  Variables (techs tables nodes : dict) (table_nodes : list string).
  Hypothesis SN : sane techs tables nodes.

  Let WT := sn_techs _ _ _ SN.
  Let WB := sn_tables _ _ _ SN.
  Let WN := sn_nodes _ _ _ SN.

  Definition all_links (links : dict) : Prop := exists L, linked links L /\ forall t data, In (t, data) L -> exists i, In (t, i) techs /\ inherit_tech techs tables t i = Ok data /\ is_link data = true.
  Lemma links_to_nodes_linked known links : links_to_nodes techs tables known = Ok links -> all_links links.
  Proof.
    unfold links_to_nodes. destruct (inherit_techs techs tables techs) as [[out off]|] eqn:E; cbn [bind fst]; [|discriminate]. intros A.
    destruct (inherit_techs_split _ _ _ _ _ E) as (S1 & _). pose proof (techs_out_nodup _ _ _ _ _ E (wf_nodup _ WT)) as NO.
    destruct (add_links_linked known (filter (fun nd => is_link (snd nd)) out) [] links []) as (L & HL & EL); trivial.
    - split; [intros n x X; discriminate X|intros n; constructor|intros n t x []].
    - intros t d I. apply filter_In in I. destruct I as [I _]. apply S1 in I. destruct I as (i & I & H & _). apply (inherit_wf techs tables WT WB t i d); trivial.
      apply wf_inv in WT. destruct WT as [_ F]. rewrite Forall_forall in F. exact (F _ I).
    - clear -NO. induction out as [|[n d] out IH]; [constructor|]. cbn in *. inversion NO as [|? ? NI N']; subst. destruct (is_link d); [|auto]. cbn. constructor; [|auto].
      intros J. apply in_map_iff in J. destruct J as ([m e] & <- & J). apply filter_In in J. destruct J as [J _]. apply NI. now apply (in_map fst) in J.
    - intros t _ [].
    - exists L. split; [trivial|]. intros t data I. apply EL in I. destruct I as [[]|I]. apply filter_In in I. destruct I as [I Q]. apply S1 in I. destruct I as (i & I & H & _). now exists i.
  Qed.

  (** one technology at a node: listed there, or a link that ends there *)
  Definition listed (refs : list string) (t : string) (d : dict) : Prop :=
    exists item x, wf item /\ as_dict item = Ok x /\ inherit_tech techs tables t item = Ok d /\ (forall v, In v (d_keys x) -> In v refs) /\ d_get "base_tech" x = None /\ is_link d = false.
  Definition linked_to (t : string) (d : dict) : Prop :=
    exists i data, In (t, i) techs /\ inherit_tech techs tables t i = Ok data /\ is_link data = true /\ same_but data d.
  Lemma apart_from_links refs t d d' : listed refs t d -> linked_to t d' -> False.
  Proof.
    intros (item & x & W & X & H & _ & NB & NL) (i & data & I & H' & Q & _).
    pose proof (get_in_nodup techs t i (wf_nodup _ WT) I) as G.
    destruct (inherit_steps techs tables t i data H') as (x' & base & b & X' & G' & _). rewrite G in G'. injection G' as ->. cbn in X'. injection X' as <-.
    assert (d_get "base_tech" d = d_get "base_tech" data) as E.
    { apply (inherit_same techs tables WT t item (VDict base) d data x base); trivial; [now apply (wf_at t techs)|now left|].
      destruct (d_get "base_tech" base) as [w|] eqn:GB; [|now left]. right. exists base, w. repeat split; trivial.
      apply (sn_base _ _ _ SN t base w); [trivial|now apply d_get_in]. }
    unfold is_link in *. rewrite E in NL. congruence.
  Qed.
  Lemma at_node links n node nd refs ts : all_links links -> In (n, node) nodes -> as_dict node = Ok nd -> node_techs techs tables links n nd = Ok (refs, ts) ->
    NoDup (map fst ts) /\ (forall t d, In (t, d) ts -> wf (VDict d) /\ (listed refs t d \/ linked_to t d)) /\
    (forall items t item d, items_at nd = Ok items -> In (t, item) items -> inherit_tech techs tables t item = Ok d -> active d = true -> In (t, d) ts).
  Proof.
    intros (L & HL & EL) IN AN E. unfold node_techs in E. destruct (items_at nd) as [items|] eqn:IA; cbn [bind] in E; [|discriminate E].
    destruct (techs_at_node techs tables items (links_at n links)) as [tt|] eqn:TN; cbn [bind] in E; [|discriminate E]. injection E as <- <-.
    assert (wf node) as Wn. { apply wf_inv in WN. destruct WN as [_ F]. rewrite Forall_forall in F. exact (F _ IN). }
    assert (wf (VDict nd)) as Wd by (now apply (as_dict_wf node)).
    assert (wf (VDict items)) as WI.
    { unfold items_at in IA. destruct (d_get "techs" nd) as [v|] eqn:G; [|discriminate IA]. apply (as_dict_wf v); trivial. now apply (wf_at "techs" nd). }
    unfold techs_at_node in TN. destruct (existsb (fun ni => base_tech_at_node (snd ni)) items) eqn:BT; [discriminate TN|].
    destruct (inherit_techs techs tables items) as [[out off]|] eqn:H; cbn [bind fst] in TN; [|discriminate TN].
    destruct (existsb (fun nd0 => is_link (snd nd0)) out) eqn:QL; [discriminate TN|].
    destruct (union false (map (fun nd0 => (fst nd0, VDict (snd nd0))) out) (links_at n links)) as [u [e|]] eqn:U; cbn [to_result] in TN; [discriminate TN|]. injection TN as ->.
    destruct (inherit_techs_split _ _ _ _ _ H) as (S1 & _). pose proof (techs_out_nodup _ _ _ _ _ H (wf_nodup _ WI)) as NO.
    assert (forall t item, In (t, item) items -> wf item) as Wi. { intros t item I. apply wf_inv in WI. destruct WI as [_ F]. rewrite Forall_forall in F. exact (F _ I). }
    assert (forall t d, In (t, d) out -> listed (node_refs items) t d) as HO.
    { intros t d I. pose proof I as I'. apply S1 in I. destruct I as (item & I & HI & AC). pose proof (Wi _ _ I) as W.
      destruct (inherit_steps techs tables t item d HI) as (x & _ & _ & X & _). exists item, x. split; [trivial|split; [trivial|split; [trivial|]]].
      assert (is_link d = false) as NL. { destruct (is_link d) eqn:Q; [|trivial]. assert (existsb (fun nd0 => is_link (snd nd0)) out = true) as Y by (apply existsb_exists; exists (t, d); now split). congruence. }
      destruct item as [|q1|q2|q3|q4|y]; cbn in X; try discriminate X; injection X as <-; [split; [intros v []|now split]|].
      assert (active y = true) as AY.
      { destruct (active y) eqn:AY; [trivial|]. unfold active in AY. destruct (d_get "active" y) as [w|] eqn:GA; [|discriminate AY]. 
        assert (exists b, w = VBool b) as [b ->].
        { unfold items_at in IA. destruct (d_get "techs" nd) as [v|] eqn:G; [|discriminate IA]. destruct node as [|q1|q2|q3|q4|nn]; cbn in AN; try discriminate AN; injection AN as <-; [discriminate G|].
          destruct v as [|q1|q2|q3|q4|vv]; cbn in IA; try discriminate IA; injection IA as <-; [destruct I|].
          apply (sn_active _ _ _ SN n nn vv t y w); trivial; now apply d_get_in. }
        cbn in AY. subst b. rewrite (inherit_off techs tables WT t (VDict y) d y W HI eq_refl GA) in AC. discriminate AC. }
      split; [|split; [|trivial]].
      - intros v V. unfold node_refs. apply in_flat_map. exists (t, VDict y). split; [trivial|]. cbn. now rewrite AY.
      - destruct (d_get "base_tech" y) as [w|] eqn:GB; [|trivial].
        assert (existsb (fun ni => base_tech_at_node (snd ni)) items = true) as Y; [|congruence].
        apply existsb_exists. exists (t, VDict y). split; [trivial|]. cbn. rewrite AY. cbn. unfold d_mem. now rewrite GB. }
    assert (forall t x, In (t, x) (links_at n links) -> exists d, x = VDict d /\ wf x /\ linked_to t d) as HK.
    { intros t x I. destruct (ln_data _ _ HL n t x I) as (data & d & -> & IL & SB & W). exists d. split; [trivial|split; [trivial|]].
      destruct (EL _ _ IL) as (i & I' & HI & Q). exists i, data. now repeat split. }
    assert (wf (VDict (links_at n links))) as WL.
    { apply wf_dict; [exact (ln_nodup _ _ HL n)|]. apply Forall_forall. intros [t x] I. now destruct (HK t x I) as (d & _ & W & _). }
    assert (forall k, In k (d_keys (links_at n links)) -> ~ In k (map fst out)) as DJ.
    { intros k K O. apply in_map_iff in K. destruct K as ([k0 x] & E & K). cbn in E. subst k0. apply in_map_iff in O. destruct O as ([k0 d] & E & O). cbn in E. subst k0.
      destruct (HK k x K) as (d' & _ & _ & LK). exact (apart_from_links _ _ _ _ (HO _ _ O) LK). }
    assert (d_keys (map (fun nd0 : string * dict => (fst nd0, VDict (snd nd0))) out) = map fst out) as KO by (unfold d_keys; rewrite map_map; now apply map_ext).
    apply (union_new false _ _ _ WL (fun k K => eq_ind_r (fun z => ~ In k z) (DJ k K) KO)) in U. subst tt. split; [|split].
    - apply dicts_in_keys. unfold d_keys in *. rewrite map_app, KO. clear -NO DJ HL.
      pose proof (ln_nodup _ _ HL n) as NL. change (content n links) with (links_at n links) in NL. unfold d_keys in NL. induction (map fst out) as [|a l IH]; [trivial|].
      inversion NO as [|? ? NI N']; subst. cbn. constructor; [|apply IH; [trivial|]].
      + rewrite in_app_iff. intros [X|X]; [contradiction|]. apply (DJ a X). now left.
      + intros k K X. apply (DJ k K). now right.
    - intros t d I. apply dicts_in_spec in I. apply in_app_iff in I. destruct I as [I|I].
      + apply in_map_iff in I. destruct I as ([t0 d0] & E & I). cbn in E. injection E as -> ->. split; [|left; now apply HO].
        apply S1 in I. destruct I as (item & I & HI & _). apply (inherit_wf techs tables WT WB t item d); trivial. now apply (Wi t).
      + destruct (HK _ _ I) as (d0 & E & W & K). injection E as <-. split; [trivial|now right].
    - intros items' t item d IA' I HI AC. injection IA' as <-. apply dicts_in_spec, in_app_iff. left. apply in_map_iff. exists (t, d). split; [trivial|].
      apply S1. now exists item.
  Qed.
  Lemma definitions_shared nd ps : definitions techs tables nodes table_nodes = Ok (nd, ps) -> tidy_items nd /\ tidy_places ps /\ forall t v, consistent ps t v.
  Proof.
    unfold definitions. destruct (inherit_nodes nodes) as [[out off]|] eqn:HN; cbn [bind fst]; [|discriminate].
    destruct (links_to_nodes techs tables (map fst out ++ table_nodes)) as [links|] eqn:HK; cbn [bind]; [|discriminate].
    destruct (each_named (node_techs techs tables links) out) as [rts|] eqn:HE; cbn [bind]; [|discriminate]. intros E. injection E as <- <-.
    destruct (nodes_out _ _ _ HN (wf_nodup _ WN)) as [NO HO]. apply links_to_nodes_linked in HK. destruct (InputProofs.each_named_ok _ _ _ HE) as (M & _ & BW).
    assert (forall n node, In (n, node) nodes -> wf node) as Wn. { intros n node I. apply wf_inv in WN. destruct WN as [_ F]. rewrite Forall_forall in F. exact (F _ I). }
    assert (forall d v raw, wf (VDict d) -> In (v, raw) d -> proper_setting raw) as PS.
    { intros d v raw W I o ->. apply wf_inv in W. destruct W as [_ F]. rewrite Forall_forall in F. exact (wf_nodup _ (F _ I)). }
    assert (forall n refs ts, In (n, (refs, ts)) rts -> NoDup (map fst ts) /\ forall t d, In (t, d) ts -> wf (VDict d) /\ (listed refs t d \/ linked_to t d)) as AT.
    { intros n refs ts I. destruct (BW _ _ I) as (d & I' & H). destruct (HO _ _ I') as (i & J & A). destruct (at_node links n i d refs ts HK J A H) as (X & Y & _). now split. }
    split; [|split].
    - split; [rewrite map_map; cbn; exact NO|]. intros n s I. apply in_map_iff in I. destruct I as ([n0 d] & E & I). injection E as -> <-. cbn [snd fst].
      destruct (HO _ _ I) as (i & J & A). assert (wf (VDict (d_del "techs" d))) as W by (apply wf_del, (as_dict_wf i); [now apply (Wn n)|trivial]).
      split; [now apply wf_nodup|]. intros v raw V. now apply (PS _ v raw W).
    - split; [now rewrite M|]. intros n refs ts I. destruct (AT _ _ _ I) as [ND H]. split; [trivial|]. intros t d J. destruct (H _ _ J) as [W _].
      split; [now apply wf_nodup|]. intros v raw V. now apply (PS _ v raw W).
    - intros t v. unfold consistent. destruct (string_dec v "carrier_in") as [|N1]; [now right; left|]. destruct (string_dec v "carrier_out") as [|N2]; [now right; right; left|].
      destruct (existsb (fun p => smem v (fst (snd p))) rts) eqn:OW.
      { left. apply existsb_exists in OW. destruct OW as ((n & refs & ts) & I & X). cbn in X. exists n, refs, ts. split; [trivial|]. now apply smem_in. }
      right; right; right. intros n n' raw raw' (refs & ts & d & I & J & V) (refs' & ts' & d' & I' & J' & V').
      assert (forall n refs ts, In (n, (refs, ts)) rts -> ~ In v refs) as NR.
      { intros m rs us K X. assert (existsb (fun p => smem v (fst (snd p))) rts = true) as Y; [|congruence]. apply existsb_exists. exists (m, (rs, us)). split; [trivial|]. cbn. now apply smem_in. }
      destruct (AT _ _ _ I) as [_ H]. destruct (H _ _ J) as [W S]. destruct (AT _ _ _ I') as [_ H']. destruct (H' _ _ J') as [W' S'].
      assert (d_get v d = d_get v d') as E.
      { destruct S as [S|S], S' as [S'|S']; try (exfalso; eapply apart_from_links; eassumption).
        - destruct S as (item & x & WI & X & HI & R & _), S' as (item' & x' & WI' & X' & HI' & R' & _).
          apply (inherit_same techs tables WT t item item' d d' x x'); trivial; left; apply d_get_none; intros Y; [apply R in Y; now apply (NR _ _ _ I)|apply R' in Y; now apply (NR _ _ _ I')].
        - destruct S as (i & data & K & HI & _ & SB), S' as (i' & data' & K' & HI' & _ & SB').
          pose proof (get_in_nodup _ _ _ (wf_nodup _ WT) K) as G. rewrite (get_in_nodup _ _ _ (wf_nodup _ WT) K') in G. injection G as ->.
          rewrite HI in HI'. injection HI' as <-. now rewrite (SB v N1 N2), (SB' v N1 N2). }
      rewrite (get_in_nodup _ _ _ (wf_nodup _ W) V), (get_in_nodup _ _ _ (wf_nodup _ W') V') in E. now injection E.
  Qed.
  Lemma definitions_listed nd ps n node items t item d : definitions techs tables nodes table_nodes = Ok (nd, ps) -> In (n, VDict node) nodes -> active node = true ->
    In ("techs", VDict items) node -> In (t, item) items -> inherit_tech techs tables t item = Ok d -> active d = true ->
    exists refs ts, In (n, (refs, ts)) ps /\ In (t, d) ts.
  Proof.
    intros E I AN IT TI HI AD. unfold definitions in E. destruct (inherit_nodes nodes) as [[out off]|] eqn:HN; cbn [bind fst] in E; [|discriminate E].
    destruct (links_to_nodes techs tables (map fst out ++ table_nodes)) as [links|] eqn:HK; cbn [bind] in E; [|discriminate E].
    destruct (each_named (node_techs techs tables links) out) as [rts|] eqn:HE; cbn [bind] in E; [|discriminate E]. injection E as <- <-.
    apply links_to_nodes_linked in HK. destruct (InputProofs.each_named_ok _ _ _ HE) as (M & FW & BW).
    assert (In (n, node) out) as O.
    { clear -HN I AN. revert out off HN. induction nodes as [|[m i] l IH]; intros out off HN; [destruct I|]. cbn [inherit_nodes] in HN.
      destruct (as_dict i) as [x|] eqn:A; cbn [bind] in HN; [|discriminate HN]. destruct (inherit_nodes l) as [[o f]|]; cbn [bind fst snd] in HN; [|discriminate HN].
      destruct I as [X|X]; [injection X as -> ->; cbn in A; injection A as <-; rewrite AN in HN; injection HN as <- <-; now left|].
      pose proof (IH X o f eq_refl) as J. destruct (active x); injection HN as <- <-; [now right|trivial]. }
    destruct (FW _ _ O) as ([refs ts] & R & H). exists refs, ts. split; [trivial|].
    destruct (at_node links n (VDict node) node refs ts HK I eq_refl H) as (_ & _ & Z). apply (Z items t item d); trivial.
    assert (wf (VDict node)) as W. { apply wf_inv in WN. destruct WN as [_ F]. rewrite Forall_forall in F. exact (F _ I). }
    unfold items_at. now rewrite (get_in_nodup _ _ _ (wf_nodup _ W) IT).
  Qed.
  (** settings that are no dictionaries: the node before the technology before the tables *)
  Lemma inherit_value t item d x base table v : inherit_tech techs tables t item = Ok d -> wf item -> sources techs tables t item x base table ->
    (forall w, In (v, w) x \/ In (v, w) base \/ In (v, w) table -> leaf w /\ w <> VNone) ->
    d_get v d = match d_get v x with Some w => Some w | None => match d_get v base with Some w => Some w | None => d_get v table end end.
  Proof.
    intros H W [SX SB ST] SI. destruct (inherit_steps techs tables t item d H) as (x0 & base0 & b & A & G & U & R).
    assert (x0 = x) as -> by (destruct SX as [[-> ->]| ->]; cbn in A; congruence).
    rewrite (get_in_nodup _ _ _ (wf_nodup _ WT) SB) in G. injection G as <-.
    assert (wf (VDict x)) as WX by (now apply (as_dict_wf item)).
    assert (wf (VDict base)) as WA by (apply (wf_at t techs); [trivial|now apply get_in_nodup; [apply wf_nodup|]]).
    assert (wf (VDict b)) as Wb by (now apply (union_wf true base x b)).
    assert (forall w, leaf w -> forall o, w <> VDict o) as LD by (intros w L o ->; discriminate L).
    assert (d_get v b = match d_get v x with Some w => Some w | None => d_get v base end) as EB.
    { destruct (d_get v x) as [w|] eqn:GX; [|apply (union_absent v base x b); trivial; now apply wf_nodup].
      destruct (SI w) as [L N]; [left; now apply d_get_in|]. apply (union_gives v w base x b); trivial; [now apply wf_nodup|now apply LD]. }
    assert (d_get v d = match d_get v b with Some w => Some w | None => d_get v table end) as ED.
    { destruct R as [[T ->]|(table0 & T & V)].
      - destruct ST as [[_ ->]|ST]; [now destruct (d_get v b)|]. rewrite (get_in_nodup _ _ _ (wf_nodup _ WB) ST) in T. discriminate T.
      - destruct ST as [[ST _]|ST]; [contradiction (ST (VDict table0)); now apply d_get_in|]. rewrite (get_in_nodup _ _ _ (wf_nodup _ WB) ST) in T. injection T as <-.
        destruct (d_get v b) as [w|] eqn:GB; [|apply (union_absent v table b d); trivial; now apply wf_nodup].
        assert (In (v, w) x \/ In (v, w) base) as O by (destruct (d_get v x) eqn:GX; [injection EB as ->; left|symmetry in EB; right]; now apply d_get_in).
        destruct (SI w) as [L N]; [tauto|]. apply (union_gives v w table b d); trivial; [now apply wf_nodup|now apply LD]. }
    rewrite ED, EB. now destruct (d_get v x).
  Qed.
End Shared.
