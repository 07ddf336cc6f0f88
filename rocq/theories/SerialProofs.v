(** Lemmas about saving attributes. *)
From Verif Require Import Base BaseProofs AttrDictModel AttrDictSpec AttrDictProofs DefImports SerialModel SerialSpec.
Local Open Scope string_scope.
Local Open Scope list_scope.
Local Arguments String.eqb : simpl never.

Lemma each_ok f ns : forall a, NoDup (d_keys a) -> NoDup ns ->
  (forall n, In n ns -> exists v w, d_get n a = Some v /\ f v = Ok w) ->
  exists a', each f ns a = (a', None) /\ NoDup (d_keys a') /\
    (forall k, ~ In k ns -> d_get k a' = d_get k a) /\
    (forall k v w, In k ns -> d_get k a = Some v -> f v = Ok w -> d_get k a' = Some w).
Proof.
  induction ns as [|n ns IH]; intros a ND NN H; simpl.
  - exists a; split; [reflexivity|split; [exact ND|split; [reflexivity|intros k v w []]]].
  - destruct (H n (or_introl eq_refl)) as [v [w [G F]]]; rewrite G, F.
    inversion NN as [|? ? NI NN']; subst.
    destruct (IH (d_set n w a)) as [a' [E [N [A B]]]]; [apply d_nodup_set; exact ND|exact NN'| |].
    { intros m Hm; destruct (H m (or_intror Hm)) as [v' [w' [G' F']]]; exists v', w'; split; [|exact F'].
      rewrite d_get_set_other by (intros ->; contradiction); exact G'. }
    exists a'; split; [exact E|split; [exact N|split]].
    + intros k Hk; rewrite A by tauto; apply d_get_set_other; intros ->; apply Hk; left; reflexivity.
    + intros k v' w' [->|Hk] G' F'.
      * rewrite G in G'; injection G' as ->; rewrite F in F'; injection F' as ->.
        rewrite A by exact NI; apply d_get_set_same.
      * apply (B k v' w' Hk); [|exact F'].
        rewrite d_get_set_other by (intros ->; contradiction); exact G'.
Qed.

Lemma keys_where_in p a k : NoDup (d_keys a) ->
  (In k (keys_where p a) <-> exists v, d_get k a = Some v /\ p v = true).
Proof.
  intros ND; unfold keys_where; rewrite in_map_iff; split.
  - intros [[k' v] [<- H]]; apply filter_In in H; destruct H as [H P]; simpl in *; exists v; split; [|exact P].
    apply d_in_get; assumption.
  - intros [v [G P]]; exists (k, v); split; [reflexivity|]; apply filter_In; split; [|exact P].
    apply d_get_in; exact G.
Qed.
Lemma keys_where_nodup p a : NoDup (d_keys a) -> NoDup (keys_where p a).
Proof.
  unfold keys_where, d_keys; induction a as [|[k v] a IH]; simpl; intros ND; [constructor|].
  inversion ND as [|? ? NI N]; subst; destruct (p v); simpl; [|apply IH; exact N].
  constructor; [|apply IH; exact N]; intros H; apply NI; apply in_map_iff in H.
  destruct H as [x [<- H]]; apply filter_In in H; apply in_map; tauto.
Qed.

(** The effect of one conversion loop of [_serialise] on one value. *)
Definition app (p : attr -> bool) (f : attr -> result attr) (v : attr) : attr :=
  if p v then match f v with Ok w => w | Err _ => v end else v.

Lemma each_keys_where p f a : NoDup (d_keys a) ->
  (forall k v, d_get k a = Some v -> p v = true -> exists w, f v = Ok w) ->
  exists a', each f (keys_where p a) a = (a', None) /\ NoDup (d_keys a') /\
    forall k, d_get k a' = option_map (app p f) (d_get k a).
Proof.
  intros ND H.
  destruct (each_ok f (keys_where p a) a ND (keys_where_nodup p a ND)) as [a' [E [N [A B]]]].
  { intros n Hn; apply keys_where_in in Hn; [|exact ND]; destruct Hn as [v [G P]].
    destruct (H n v G P) as [w F]; eauto. }
  exists a'; split; [exact E|split; [exact N|]]; intros k.
  destruct (in_dec string_dec k (keys_where p a)) as [I|NI].
  - pose proof I as I'; apply keys_where_in in I; [|exact ND]; destruct I as [v [G P]].
    destruct (H k v G P) as [w F]; rewrite (B k v w I' G F), G; simpl; unfold app; rewrite P, F; reflexivity.
  - rewrite A by exact NI; destruct (d_get k a) as [v|] eqn:G; [|reflexivity]; simpl; unfold app.
    destruct (p v) eqn:P; [|reflexivity]; exfalso; apply NI; apply keys_where_in; eauto.
Qed.

Lemma stage p f key a : NoDup (d_keys a) -> d_get key a = None ->
  (forall l, p (names l) = false) ->
  (forall k v, d_get k a = Some v -> p v = true -> exists w, f v = Ok w) ->
  exists a', each f (keys_where p a) (d_set key (names (keys_where p a)) a) = (a', None) /\ NoDup (d_keys a') /\
    d_get key a' = Some (names (keys_where p a)) /\
    forall k, k <> key -> d_get k a' = option_map (app p f) (d_get k a).
Proof.
  intros ND GK PL H.
  set (a1 := d_set key (names (keys_where p a)) a).
  assert (N1 : NoDup (d_keys a1)) by (apply d_nodup_set; exact ND).
  assert (KW : keys_where p a1 = keys_where p a).
  { unfold a1; rewrite d_keys_set_notin by (apply d_get_none; exact GK).
    unfold keys_where at 1; rewrite filter_app, map_app; simpl; rewrite PL; simpl; rewrite app_nil_r; reflexivity. }
  destruct (each_keys_where p f a1 N1) as [a' [E [N G]]].
  { intros k v Gk P; unfold a1 in Gk; rewrite d_get_set in Gk; destruct (String.eqb k key) eqn:Q.
    - injection Gk as <-; rewrite PL in P; discriminate.
    - eauto. }
  rewrite KW in E; exists a'; split; [exact E|split; [exact N|split]].
  - rewrite G; unfold a1; rewrite d_get_set_same; simpl; unfold app; rewrite PL; reflexivity.
  - intros k Hk; rewrite G; unfold a1; rewrite d_get_set_other by exact Hk; reflexivity.
Qed.

Section Yaml.
Variable dump : dict -> string.
Variable parse : string -> result dict.
Variable path_text : string -> option string.
Notation serialise := (serialise dump).
Notation deserialise := (deserialise parse path_text).

Definition pack (v : attr) : attr :=
  match v with
  | ABool b => AInt (if b then 1 else 0)
  | ANone => AStr "None"
  | ADict d => AStr (dump d)
  | ASet l => AList l
  | _ => v
  end.

Definition lists (a : attrs) (p : attr -> bool) (ns : list string) : Prop :=
  NoDup ns /\ forall k, In k ns <-> exists v, d_get k a = Some v /\ p v = true.

Definition is_single (v : attr) : bool := match v with AList [_] | ASet [_] => true | _ => false end.

(** The file (or the serialised dictionary in memory) as a function of the original. *)
Definition rep (v w : attr) : Prop :=
  w = v \/ (exists s, v = AList [IStr s] /\ w = AStr s) \/ (v = AList [] /\ w = AEmpty).
Record packed (R : attr -> attr -> Prop) (a p : attrs) : Prop := {
  pk_nodup : NoDup (d_keys p);
  pk_keys : forall k, ~ reserved k -> (exists v, d_get k a = Some v) \/ d_get k p = None;
  pk_vals : forall k v, d_get k a = Some v -> exists w, d_get k p = Some w /\ R (pack v) w;
  pk_dicts : exists ns w, d_get "serialised_dicts" p = Some w /\ R (names ns) w /\ lists a is_dict_attr ns;
  pk_bools : exists ns w, d_get "serialised_bools" p = Some w /\ R (names ns) w /\ lists a is_bool_attr ns;
  pk_nones : exists ns w, d_get "serialised_nones" p = Some w /\ R (names ns) w /\ lists a is_none_attr ns;
  pk_single : exists ns w, d_get "serialised_single_element_list" p = Some w /\ R (names ns) w /\ lists a is_single ns;
  pk_sets : exists ns w, d_get "serialised_sets" p = Some w /\ R (names ns) w /\ lists a is_set_attr ns
}.

Lemma names_strs l : forallb is_str (map IStr l) = true.
Proof. induction l; simpl; auto. Qed.

Lemma plain_init d : plain_dict d -> init_from_dict d = Ok d.
Proof. intros [W [D _]]; apply init_from_dict_id; assumption. Qed.

Lemma savable_get a : savable a -> NoDup (d_keys a) /\
  forall k v, d_get k a = Some v -> ~ reserved k /\ supported v.
Proof. intros [N H]; split; [exact N|]; intros k v G; apply H, d_get_in, G. Qed.

Lemma serialise_packed a : savable a -> exists p, serialise a = (p, None) /\ packed eq a p.
Proof.
  intros SV; destruct (savable_get a SV) as [ND SG].
  assert (RN : forall k, reserved k -> d_get k a = None).
  { intros k R; destruct (d_get k a) as [v|] eqn:G; [exfalso; exact (proj1 (SG k v G) R)|reflexivity]. }
  assert (R1 : d_get "serialised_single_element_list" a = None) by (apply RN; unfold reserved; simpl; tauto).
  assert (R2 : d_get "serialised_dicts" a = None) by (apply RN; unfold reserved; simpl; tauto).
  assert (R3 : d_get "serialised_bools" a = None) by (apply RN; unfold reserved; simpl; tauto).
  assert (R4 : d_get "serialised_nones" a = None) by (apply RN; unfold reserved; simpl; tauto).
  assert (R5 : d_get "serialised_sets" a = None) by (apply RN; unfold reserved; simpl; tauto).
  unfold SerialModel.serialise.
  set (single := keys_where is_single_list a).
  set (a1 := d_set "serialised_single_element_list" (names single) a).
  assert (N1 : NoDup (d_keys a1)) by (apply d_nodup_set; exact ND).
  destruct (stage is_dict_attr (conv_dict dump) "serialised_dicts" a1 N1) as [a3 [E3 [N3 [K3 G3]]]].
  { unfold a1; rewrite d_get_set_other by discriminate; exact R2. }
  { reflexivity. }
  { intros k v Gk P; unfold a1 in Gk; rewrite d_get_set in Gk.
    destruct (String.eqb k "serialised_single_element_list"); [injection Gk as <-; discriminate|].
    destruct (SG k v Gk) as [_ S]; destruct v; try discriminate; inversion S; subst.
    simpl; unfold to_yaml; rewrite plain_init by assumption; simpl; eauto. }
  rewrite E3; unfold next at 1.
  destruct (stage is_bool_attr conv_bool "serialised_bools" a3 N3) as [a5 [E5 [N5 [K5 G5]]]].
  { rewrite G3 by discriminate; unfold a1; rewrite d_get_set_other by discriminate; rewrite R3; reflexivity. }
  { reflexivity. }
  { intros k v _ P; destruct v; try discriminate; simpl; eauto. }
  rewrite E5; unfold next at 1.
  destruct (stage is_none_attr conv_none "serialised_nones" a5 N5) as [a7 [E7 [N7 [K7 G7]]]].
  { rewrite G5, G3 by discriminate; unfold a1; rewrite d_get_set_other by discriminate; rewrite R4; reflexivity. }
  { reflexivity. }
  { intros k v _ P; unfold conv_none; eauto. }
  rewrite E7; unfold next at 1.
  destruct (each_keys_where is_set_attr conv_set a7 N7) as [a8 [E8 [N8 G8]]].
  { intros k v _ P; destruct v; try discriminate; simpl; eauto. }
  rewrite E8; unfold next.
  set (D := keys_where is_dict_attr a1) in *; set (B := keys_where is_bool_attr a3) in *;
  set (Nn := keys_where is_none_attr a5) in *; set (T := keys_where is_set_attr a7) in *.
  assert (A1 : forall k, ~ reserved k -> d_get k a1 = d_get k a).
  { intros k Hk; apply d_get_set_other; intros ->; apply Hk; unfold reserved; simpl; tauto. }
  assert (NR : forall k, ~ reserved k ->
    k <> "serialised_dicts" /\ k <> "serialised_bools" /\ k <> "serialised_nones" /\ k <> "serialised_sets" /\ k <> "serialised_single_element_list").
  { intros k Hk; repeat split; intros ->; apply Hk; unfold reserved; simpl; tauto. }
  assert (H3 : forall k, ~ reserved k -> d_get k a3 = option_map (app is_dict_attr (conv_dict dump)) (d_get k a)).
  { intros k Hk; rewrite G3, A1 by (try apply NR; exact Hk); reflexivity. }
  assert (H5 : forall k, ~ reserved k -> d_get k a5 = option_map (app is_bool_attr conv_bool) (option_map (app is_dict_attr (conv_dict dump)) (d_get k a))).
  { intros k Hk; rewrite G5, H3 by (try apply NR; exact Hk); reflexivity. }
  assert (H7 : forall k, ~ reserved k -> d_get k a7 = option_map (app is_none_attr conv_none) (option_map (app is_bool_attr conv_bool) (option_map (app is_dict_attr (conv_dict dump)) (d_get k a)))).
  { intros k Hk; rewrite G7, H5 by (try apply NR; exact Hk); reflexivity. }
  assert (H8 : forall k v, d_get k a = Some v -> d_get k a8 = Some (pack v)).
  { intros k v G; destruct (SG k v G) as [NRk S]; rewrite G8, H7, G by exact NRk; simpl.
    destruct v as [s|z|b| |d|l|l|]; try reflexivity.
    inversion S; subst; unfold app; simpl; unfold to_yaml; rewrite plain_init by assumption; reflexivity. }
  assert (L8 : forall key ns, d_get key a7 = Some (names ns) -> d_get key a8 = Some (names ns)).
  { intros key ns G; rewrite G8, G; reflexivity. }
  assert (L7 : forall key ns, key <> "serialised_nones" -> d_get key a5 = Some (names ns) -> d_get key a7 = Some (names ns)).
  { intros key ns Q G; rewrite G7, G by exact Q; reflexivity. }
  assert (L5 : forall key ns, key <> "serialised_bools" -> d_get key a3 = Some (names ns) -> d_get key a5 = Some (names ns)).
  { intros key ns Q G; rewrite G5, G by exact Q; reflexivity. }
  assert (L3 : d_get "serialised_single_element_list" a3 = Some (names single)).
  { rewrite G3 by discriminate; unfold a1; rewrite d_get_set_same; reflexivity. }
  assert (V8 : forall k w, d_get k a8 = Some w -> (exists ns, w = names ns) \/ exists v, d_get k a = Some v /\ w = pack v).
  { intros k w G; destruct (in_dec string_dec k ["serialised_dicts"; "serialised_bools"; "serialised_nones"; "serialised_single_element_list"; "serialised_sets"]) as [I|NI].
    - simpl in I; destruct I as [<-|[<-|[<-|[<-|[<-|[]]]]]].
      + rewrite (L8 _ _ (L7 "serialised_dicts" _ ltac:(discriminate) (L5 "serialised_dicts" _ ltac:(discriminate) K3))) in G; injection G as <-; eauto.
      + rewrite (L8 _ _ (L7 "serialised_bools" _ ltac:(discriminate) K5)) in G; injection G as <-; eauto.
      + rewrite (L8 _ _ K7) in G; injection G as <-; eauto.
      + rewrite (L8 _ _ (L7 "serialised_single_element_list" _ ltac:(discriminate) (L5 "serialised_single_element_list" _ ltac:(discriminate) L3))) in G; injection G as <-; eauto.
      + rewrite G8, G7, G5, G3 in G by discriminate; unfold a1 in G; rewrite d_get_set_other, R5 in G by discriminate; discriminate.
    - destruct (d_get k a) as [v|] eqn:Gk; [right; exists v; split; [reflexivity|]; rewrite (H8 k v Gk) in G; congruence|].
      rewrite G8, H7, Gk in G by exact NI; discriminate. }
  assert (OKL : existsb (fun kv => bad_list (snd kv)) a8 = false).
  { destruct (existsb (fun kv => bad_list (snd kv)) a8) eqn:Q; [exfalso|reflexivity].
    apply existsb_exists in Q; destruct Q as [[k w] [I Bd]]; simpl in Bd.
    assert (STR : forall l, Forall (fun i => exists s, i = IStr s) l -> existsb (fun i => negb (is_str i)) l = false).
    { induction 1 as [|i l [s ->] _ IH]; simpl; auto. }
    destruct (V8 k w (d_in_get _ _ _ N8 I)) as [[ns ->]|[v [Gv ->]]].
    - simpl in Bd; rewrite STR in Bd; [discriminate|]; apply Forall_forall; intros i Hi; apply in_map_iff in Hi; destruct Hi as [s [<- _]]; eauto.
    - destruct (SG k v Gv) as [_ S]; destruct v; simpl in Bd; try discriminate; inversion S; subst; rewrite STR in Bd by assumption; discriminate. }
  rewrite OKL.
  eexists; split; [reflexivity|].
  assert (TY : forall (p : attr -> bool) a', NoDup (d_keys a') -> (forall ns, p (names ns) = false) ->
     (forall k v, reserved k -> d_get k a' = Some v -> exists ns, v = names ns) ->
     forall g : attr -> attr, (forall k, ~ reserved k -> d_get k a' = option_map g (d_get k a)) ->
     forall q : attr -> bool, (forall k v, d_get k a = Some v -> p (g v) = q v) -> lists a q (keys_where p a')).
  { intros p a' N' PN RS g HG q PQ; split; [apply keys_where_nodup; exact N'|]; intros k.
    rewrite keys_where_in by exact N'.
    destruct (in_dec string_dec k ["serialised_dicts"; "serialised_bools"; "serialised_nones"; "serialised_single_element_list"; "serialised_sets"]) as [I|NI].
    - split; [intros [v [Gv P]]; exfalso; destruct (RS k v I Gv) as [ns ->]; rewrite PN in P; discriminate|].
      intros [v [Gv _]]; exfalso; rewrite RN in Gv by exact I; discriminate.
    - rewrite HG by exact NI; split.
      + intros [v [Gv P]]; destruct (d_get k a) as [u|] eqn:Gk; [|discriminate]; injection Gv as <-; exists u; split; [reflexivity|].
        rewrite <- (PQ k u Gk); exact P.
      + intros [u [Gk P]]; rewrite Gk; exists (g u); split; [reflexivity|]; rewrite (PQ k u Gk); exact P. }
  assert (RS1 : forall k v, reserved k -> d_get k a1 = Some v -> exists ns, v = names ns).
  { intros k v R G; unfold a1 in G; rewrite d_get_set in G; destruct (String.eqb k "serialised_single_element_list"); [injection G as <-; eauto|].
    rewrite RN in G by exact R; discriminate. }
  assert (RS3 : forall k v, reserved k -> d_get k a3 = Some v -> exists ns, v = names ns).
  { intros k v R G; destruct (string_dec k "serialised_dicts") as [->|Q]; [rewrite K3 in G; injection G as <-; eauto|].
    rewrite G3 in G by exact Q; destruct (d_get k a1) as [u|] eqn:Gu; [|discriminate]; destruct (RS1 k u R Gu) as [ns ->]; injection G as <-; eauto. }
  assert (RS5 : forall k v, reserved k -> d_get k a5 = Some v -> exists ns, v = names ns).
  { intros k v R G; destruct (string_dec k "serialised_bools") as [->|Q]; [rewrite K5 in G; injection G as <-; eauto|].
    rewrite G5 in G by exact Q; destruct (d_get k a3) as [u|] eqn:Gu; [|discriminate]; destruct (RS3 k u R Gu) as [ns ->]; injection G as <-; eauto. }
  assert (RS7 : forall k v, reserved k -> d_get k a7 = Some v -> exists ns, v = names ns).
  { intros k v R G; destruct (string_dec k "serialised_nones") as [->|Q]; [rewrite K7 in G; injection G as <-; eauto|].
    rewrite G7 in G by exact Q; destruct (d_get k a5) as [u|] eqn:Gu; [|discriminate]; destruct (RS5 k u R Gu) as [ns ->]; injection G as <-; eauto. }
  assert (TD : lists a is_dict_attr D).
  { apply (TY is_dict_attr a1 N1 ltac:(reflexivity) RS1 (fun v => v)); [|reflexivity].
    intros k Hk; rewrite A1 by exact Hk; destruct (d_get k a); reflexivity. }
  assert (DY : forall k v, d_get k a = Some v -> app is_dict_attr (conv_dict dump) v = match v with ADict d => AStr (dump d) | _ => v end).
  { intros k v G; destruct (SG k v G) as [_ S]; destruct v; try reflexivity; inversion S; subst.
    unfold app; simpl; unfold to_yaml; rewrite plain_init by assumption; reflexivity. }
  assert (TB : lists a is_bool_attr B).
  { apply (TY is_bool_attr a3 N3 ltac:(reflexivity) RS3 _ H3).
    intros k v G; rewrite (DY k v G); destruct v; reflexivity. }
  assert (TN : lists a is_none_attr Nn).
  { apply (TY is_none_attr a5 N5 ltac:(reflexivity) RS5 (fun v => app is_bool_attr conv_bool (app is_dict_attr (conv_dict dump) v))).
    - intros k Hk; rewrite H5 by exact Hk; destruct (d_get k a); reflexivity.
    - intros k v G; rewrite (DY k v G); destruct v as [| |[]| | | | |]; reflexivity. }
  assert (TT : lists a is_set_attr T).
  { apply (TY is_set_attr a7 N7 ltac:(reflexivity) RS7 (fun v => app is_none_attr conv_none (app is_bool_attr conv_bool (app is_dict_attr (conv_dict dump) v)))).
    - intros k Hk; rewrite H7 by exact Hk; destruct (d_get k a); reflexivity.
    - intros k v G; rewrite (DY k v G); destruct v as [| |[]| | | | |]; reflexivity. }
  set (a9 := d_set "serialised_sets" (names T) a8).
  assert (H9 : forall k v, d_get k a = Some v -> d_get k a9 = Some (pack v)).
  { intros k v G; unfold a9; rewrite d_get_set_other; [apply H8; exact G|]; apply NR; apply (SG k v G). }
  set (SS := filter (fun k => match d_get k a9 with Some (AList [_]) => true | _ => false end) T).
  assert (TS : lists a is_single (single ++ SS)).
  { split.
    - assert (NS : NoDup single) by (apply keys_where_nodup; exact ND).
      assert (NSS : NoDup SS) by (apply NoDup_filter; apply TT).
      assert (DJ : forall k, In k single -> In k SS -> False).
      { intros k I1 I2; apply keys_where_in in I1; [|exact ND]; destruct I1 as [v [Gv Pv]].
        apply filter_In in I2; destruct I2 as [I2 _]; apply TT in I2; destruct I2 as [u [Gu Pu]].
        rewrite Gv in Gu; injection Gu as <-; destruct v; discriminate. }
      clearbody single SS; clear -NS NSS DJ; induction single as [|x l IH]; simpl; [exact NSS|].
      inversion NS as [|? ? NI NS']; subst; constructor; [|apply IH; [exact NS'|intros k H1; apply DJ; right; exact H1]].
      intros H; apply in_app_or in H; destruct H as [H|H]; [contradiction|]; exact (DJ x (or_introl eq_refl) H).
    - intros k; split.
      + intros H; apply in_app_or in H; destruct H as [H|H].
        * apply keys_where_in in H; [|exact ND]; destruct H as [v [Gv Pv]]; exists v; split; [exact Gv|].
          destruct v as [| | | | |[|? [|]]| |]; try discriminate; reflexivity.
        * apply filter_In in H; destruct H as [H P]; apply TT in H; destruct H as [v [Gv Pv]]; exists v; split; [exact Gv|].
          rewrite (H9 k v Gv) in P; destruct v as [| | | | | |[|? [|]]|]; try discriminate; reflexivity.
      + intros [v [Gv Pv]]; apply in_or_app; destruct v as [| | | | |[|i [|]]|[|i [|]]|]; try discriminate.
        * left; apply keys_where_in; [exact ND|]; exists (AList [i]); auto.
        * right; apply filter_In; split; [apply TT; exists (ASet [i]); auto|]; rewrite (H9 k _ Gv); reflexivity. }
  assert (NIS : forall k, ~ reserved k -> k <> "serialised_sets" /\ k <> "serialised_single_element_list").
  { intros k Hk; split; apply NR; exact Hk. }
  constructor.
  - apply d_nodup_set, d_nodup_set; exact N8.
  - intros k Hk; destruct (NIS k Hk) as [Q1 Q2]; unfold a9; rewrite !d_get_set_other by assumption.
    destruct (d_get k a) as [v|] eqn:Gk; [left; eauto|right]; rewrite G8, H7, Gk by exact Hk; reflexivity.
  - intros k v G; exists (pack v); split; [|reflexivity]; rewrite d_get_set_other; [apply H9; exact G|].
    apply NIS, (SG k v G).
  - exists D; eexists; split; [|split; [reflexivity|exact TD]].
    unfold a9; rewrite !d_get_set_other by discriminate; apply L8, L7; [discriminate|]; apply L5; [discriminate|exact K3].
  - exists B; eexists; split; [|split; [reflexivity|exact TB]].
    unfold a9; rewrite !d_get_set_other by discriminate; apply L8, L7; [discriminate|exact K5].
  - exists Nn; eexists; split; [|split; [reflexivity|exact TN]].
    unfold a9; rewrite !d_get_set_other by discriminate; apply L8; exact K7.
  - exists (single ++ SS); eexists; split; [|split; [reflexivity|exact TS]]; apply d_get_set_same.
  - exists T; eexists; split; [|split; [reflexivity|exact TT]].
    unfold a9; rewrite d_get_set_other by discriminate; apply d_get_set_same.
Qed.
End Yaml.
