(** Lemmas about reading any file and about failures that are reported. *)
From Verif Require Import Base BaseProofs AttrDictModel AttrDictSpec AttrDictProofs DefImports SerialModel SerialSpec SerialProofs SerialBack.
Local Open Scope string_scope.
Local Open Scope list_scope.
Local Arguments String.eqb : simpl never.

Lemma truthy_nothing v : (truthy v = false <-> nothing v) /\ (truthy v = true <-> ~ nothing v).
Proof.
  assert (A : truthy v = false <-> nothing v).
  { split.
    - destruct v as [|[]|z|s|[|]|[|]]; simpl; try discriminate; intros H; try constructor.
      + apply negb_false_iff, Z.eqb_eq in H as ->; constructor.
      + apply negb_false_iff, String.eqb_eq in H as ->; constructor.
    - intros []; reflexivity. }
  split; [exact A|]; rewrite <- A; destruct (truthy v); split; congruence.
Qed.

(** * Reading *)
Definition booked (p : attrs) (key : string) (ns : list string) : Prop :=
  (d_get key p = None /\ ns = []) \/ exists v, d_get key p = Some v /\ lists_names v ns.
Lemma book_booked a key ns : NoDup (d_keys a) -> book a key ns -> booked a key ns.
Proof.
  intros N [(NI & ->)|(v & I & L)]; [left; split; [apply d_get_none; exact NI|reflexivity]|right; exists v; split; [apply d_in_get; assumption|exact L]].
Qed.
Lemma lists_names_popped v ns : lists_names v ns -> item_names (listify v) = Ok ns.
Proof. intros []; simpl; [reflexivity|apply item_names_strs|reflexivity]. Qed.
Lemma each_inv f ns : forall a a', NoDup (d_keys a) -> NoDup ns -> each f ns a = (a', None) ->
  NoDup (d_keys a') /\ d_keys a' = d_keys a /\ (forall k, ~ In k ns -> d_get k a' = d_get k a) /\
  (forall k, In k ns -> exists v w, d_get k a = Some v /\ f v = Ok w /\ d_get k a' = Some w).
Proof.
  induction ns as [|n ns IH]; intros a a' ND NN E; simpl in E.
  - injection E as <-; split; [exact ND|split; [reflexivity|split; [reflexivity|intros k []]]].
  - inversion NN as [|? ? NI NN']; subst; destruct (d_get n a) as [v|] eqn:G; [|discriminate]; destruct (f v) as [w|] eqn:F; [|discriminate].
    destruct (IH _ _ (d_nodup_set n w a ND) NN' E) as (N & K & A & B); split; [exact N|split; [|split]].
    + rewrite K; apply d_keys_set_in, (d_get_some_key _ _ _ G).
    + intros k Hk; rewrite A by (intros H; apply Hk; right; exact H); apply d_get_set_other; intros ->; apply Hk; left; reflexivity.
    + intros k [<-|Hk]; [exists v, w; split; [exact G|split; [exact F|]]; rewrite A by exact NI; apply d_get_set_same|].
      destruct (B k Hk) as (v' & w' & G' & F' & R'); exists v', w'; split; [|split; assumption].
      rewrite d_get_set_other in G' by (intros ->; contradiction); exact G'.
Qed.
Lemma undo_inv key f p ns p' : NoDup (d_keys p) -> booked p key ns -> NoDup ns -> ~ In key ns -> undo key f p = (p', None) ->
  NoDup (d_keys p') /\ (forall k, d_get k p' = None <-> k = key \/ d_get k p = None) /\
  (forall k, k <> key -> ~ In k ns -> d_get k p' = d_get k p) /\
  (forall k, In k ns -> exists v w, d_get k p = Some v /\ f v = Ok w /\ d_get k p' = Some w).
Proof.
  intros ND BK NN NK; unfold undo, pop_list; destruct BK as [(G & ->)|(v & G & L)]; rewrite G; [|rewrite (lists_names_popped v ns L)]; intros E.
  - cbn [each] in E; injection E as <-; split; [exact ND|split; [|split; [reflexivity|intros k []]]].
    intros k; split; [tauto|intros [->|H]; assumption].
  - destruct (each_inv f ns _ _ (d_nodup_del key p ND) NN E) as (N & K & A & B); split; [exact N|split; [|split]].
    + intros k; rewrite d_get_none, K, d_del_keys by exact ND; rewrite d_get_none; destruct (string_dec k key) as [->|NE]; [tauto|]; destruct (in_dec string_dec k (d_keys p)); tauto.
    + intros k Q I; rewrite A by exact I; apply d_get_del_other; exact Q.
    + intros k I; destruct (B k I) as (v' & w' & G' & R); exists v', w'; split; [|exact R].
      rewrite d_get_del_other in G' by (intros ->; contradiction); exact G'.
Qed.
Fixpoint undos (ks : list (string * (attr -> result attr))) (a : attrs) : attrs * option exn :=
  match ks with [] => (a, None) | (key, f) :: t => next (undo key f a) (undos t) end.
Lemma undos_inv listed ks : forall p p', NoDup (map fst ks) -> NoDup (d_keys p) ->
  (forall key, In key (map fst ks) -> booked p key (listed key) /\ NoDup (listed key)) ->
  (forall key key', In key (map fst ks) -> In key' (map fst ks) -> ~ In key' (listed key)) ->
  undos ks p = (p', None) ->
  NoDup (d_keys p') /\ (forall k, d_get k p' = None <-> In k (map fst ks) \/ d_get k p = None) /\
  (forall key k, In key (map fst ks) -> In k (listed key) -> d_get k p <> None) /\
  (forall k, ~ In k (map fst ks) -> (forall key, In key (map fst ks) -> ~ In k (listed key)) -> d_get k p' = d_get k p) /\
  (forall key f k, In (key, f) ks -> In k (listed key) -> (forall key', In key' (map fst ks) -> In k (listed key') -> key' = key) ->
     exists v w, d_get k p = Some v /\ f v = Ok w /\ d_get k p' = Some w).
Proof.
  induction ks as [|(key & f) ks IH]; intros p p' NK ND BK SEP E; cbn [map fst] in *.
  - injection E as <-; split; [exact ND|split; [intros k; cbn [In]; tauto|split; [intros ? ? []|split; [reflexivity|intros ? ? ? []]]]].
  - inversion NK as [|? ? NI NK']; subst; cbn [undos] in E; destruct (undo key f p) as [p1 [e|]] eqn:U; [discriminate|]; cbn [next] in E.
    destruct (BK key (or_introl eq_refl)) as (BK1 & NN1).
    destruct (undo_inv key f p (listed key) p1 ND BK1 NN1 (SEP _ _ (or_introl eq_refl) (or_introl eq_refl)) U) as (N1 & D1 & A1 & B1).
    destruct (IH p1 p' NK' N1) as (N2 & D2 & L2 & A2 & B2); [| |exact E|].
    { intros key' I; destruct (BK key' (or_intror I)) as (BK2 & NN2); split; [|exact NN2].
      unfold booked; rewrite A1; [exact BK2|intros ->; contradiction|apply SEP; [left; reflexivity|right; exact I]]. }
    { intros k1 k2 I1 I2; apply SEP; right; assumption. }
    split; [exact N2|split; [|split; [|split]]].
    + intros k; rewrite D2, D1; split; [intros [?|[?|?]]; [left; right; assumption|left; left; congruence|right; assumption]|intros [[?|?]|?]; [right; left; congruence|left; assumption|right; right; assumption]].
    + intros key' k [<-|I] Ik G; [destruct (B1 k Ik) as (v & w & Gv & _); congruence|].
      apply (L2 key' k I Ik), D1; right; exact G.
    + intros k NI' NL; rewrite A2, A1; [reflexivity|intros ->; apply NI'; left; reflexivity|apply NL; left; reflexivity|intros H; apply NI'; right; exact H|intros key' I; apply NL; right; exact I].
    + intros key' f' k [Q|I] Ik ONE.
      * injection Q as <- <-; destruct (B1 k Ik) as (v & w & Gv & F & Gw); exists v, w; split; [exact Gv|split; [exact F|]]; rewrite A2; [exact Gw| |].
        -- intros H; exact (SEP key k (or_introl eq_refl) (or_intror H) Ik).
        -- intros key' I I'; rewrite (ONE key' (or_intror I) I') in I; contradiction.
      * assert (IK : In key' (map fst ks)) by (apply in_map_iff; exists (key', f'); split; [reflexivity|exact I]).
        destruct (B2 key' f' k I Ik (fun k' H => ONE k' (or_intror H))) as (v & w & Gv & F & Gw); exists v, w; split; [|split; assumption].
        rewrite A1 in Gv; [exact Gv|intros ->; exact (SEP key' key (or_intror IK) (or_introl eq_refl) Ik)|].
        intros H; pose proof (ONE key (or_introl eq_refl) H) as ->; contradiction.
Qed.

Section Yaml.
Variable dump : dict -> string.
Variable parse : string -> result dict.
Variable path_text : string -> option string.
Definition steps : list (string * (attr -> result attr)) :=
  [("serialised_dicts", back_dict parse path_text); ("serialised_bools", back_bool); ("serialised_nones", back_none);
   ("serialised_single_element_list", back_single); ("serialised_sets", back_set)].
Lemma next_done r : next r (fun a => (a, None)) = r.
Proof. destruct r as [a [e|]]; reflexivity. Qed.
Lemma deserialise_undos a : deserialise parse path_text a = undos steps a.
Proof.
  unfold deserialise, steps; cbn [undos]; destruct (undo "serialised_dicts" _ a) as [a1 [e|]]; [reflexivity|]; cbn [next].
  destruct (undo "serialised_bools" _ a1) as [a2 [e|]]; [reflexivity|]; cbn [next]; destruct (undo "serialised_nones" _ a2) as [a3 [e|]]; [reflexivity|]; cbn [next].
  destruct (undo "serialised_single_element_list" _ a3) as [a4 [e|]]; [reflexivity|]; cbn [next]; symmetry; apply next_done.
Qed.
Lemma step_restores key f v w : In (key, f) steps -> f v = Ok w -> restored parse path_text key v w.
Proof.
  intros I F; unfold steps in I; repeat (destruct I as [I|I]; [injection I as <- <-|]); [| | | | |destruct I].
  - destruct v as [s| | | | | | |]; try discriminate; cbn [back_dict] in F; destruct (read_rich_yaml parse path_text s) as [d|] eqn:R; [|discriminate]; injection F as <-.
    unfold read_rich_yaml in R; destruct (parse _) as [d0|] eqn:P; [|discriminate]; cbn [bind] in R; destruct (init_from_dict d0) as [d1|] eqn:Q; [|discriminate]; cbn [bind] in R.
    assert (D1 : d = d1 /\ forall v, d_get "import" d1 = Some v -> nothing v).
    { destruct (d_get "import" d1) as [v|]; [|injection R as <-; split; [reflexivity|discriminate]]; destruct (truthy v) eqn:T; [discriminate|].
      injection R as <-; split; [reflexivity|]; intros v' G; injection G as <-; apply truthy_nothing; exact T. }
    destruct D1 as (-> & NO); apply (re_dict _ _ s d1 d0); [exact P|]; intros W DF; rewrite init_from_dict_id in Q by assumption; injection Q as ->; split; [reflexivity|].
    intros v IV; apply NO; apply d_in_get; [exact (proj1 (wf_inv _ W))|exact IV].
  - injection F as <-; apply re_bool; destruct v as [s|z|b| |[|x d]|[|x l]|[|x l]|]; try constructor; try tauto;
      try (left; exists x, l; tauto); try (right; exists x, d; reflexivity).
    + destruct (String.eqb s "") eqn:Q; [apply String.eqb_eq in Q as ->; constructor|apply String.eqb_neq in Q; constructor; exact Q].
    + destruct (Z.eqb z 0) eqn:Q; [apply Z.eqb_eq in Q as ->; constructor|apply Z.eqb_neq in Q; constructor; exact Q].
  - injection F as <-; constructor.
  - injection F as <-; constructor; destruct v; simpl; eauto 10.
  - assert (DM : forall d : dict, v = ADict d -> exists d, v = ADict d) by eauto.
    destruct v as [s|z|b| |d|l|l|]; try discriminate; cbn [back_set] in F; injection F as <-; constructor; try discriminate; try (intros (? & ?); discriminate);
      try (intros m [E|E]; try discriminate E; injection E as <-; intros i; apply nodup_In); try (intros m [E|E]; discriminate E); try reflexivity;
      try (left; apply NoDup_nodup); try (left; constructor); try (right; eauto).
Qed.
Lemma reading a b listed :
  NoDup (map fst a) ->
  (forall key, reserved key -> book a key (listed key) /\ NoDup (listed key) /\ forall k, In k (listed key) -> ~ reserved k) ->
  deserialise parse path_text a = (b, None) ->
  (forall k, In k (map fst b) <-> In k (map fst a) /\ ~ reserved k) /\
  (forall key k, reserved key -> In k (listed key) -> In k (map fst a)) /\
  (forall k v, In (k, v) a -> ~ reserved k -> (forall key, reserved key -> ~ In k (listed key)) -> In (k, v) b) /\
  (forall key k v, reserved key -> In k (listed key) -> (forall key', reserved key' -> In k (listed key') -> key' = key) -> In (k, v) a ->
     exists w, In (k, w) b /\ restored parse path_text key v w).
Proof.
  intros ND H E; rewrite deserialise_undos in E.
  assert (SR : forall k, In k (map fst steps) <-> reserved k) by (intros k; unfold reserved; reflexivity).
  destruct (undos_inv listed steps a b) as (NB & DB & LB & AB & BB); [unfold steps; simpl; repeat constructor; simpl; intuition discriminate|exact ND| | |exact E|].
  { intros key I; apply SR in I; destruct (H key I) as (B & N & _); split; [apply book_booked; assumption|exact N]. }
  { intros key key' I I' IL; apply SR in I; apply SR in I'; exact (proj2 (proj2 (H key I)) key' IL I'). }
  assert (MEM : forall c : attrs, forall k, In k (map fst c) <-> d_get k c <> None).
  { intros c k; change (map fst c) with (d_keys c); destruct (in_dec string_dec k (d_keys c)) as [I|NI]; [split; [intros _ G; apply d_get_none in G; contradiction|intros _; exact I]|].
    split; [contradiction|]; intros G; exfalso; apply G, d_get_none, NI. }
  split; [|split; [|split]].
  - intros k; rewrite !MEM, DB, SR; destruct (in_dec string_dec k (map fst steps)) as [I|NI]; [apply SR in I; tauto|]; rewrite SR in NI; tauto.
  - intros key k R I; apply MEM; apply (LB key k); [apply SR; exact R|exact I].
  - intros k v I NR NL; apply d_get_in; rewrite AB; [apply d_in_get; assumption|rewrite SR; exact NR|intros key IK; apply NL, SR, IK].
  - intros key k v R I ONE IV; assert (IF : exists f, In (key, f) steps) by (apply SR in R; apply in_map_iff in R as ((? & f) & <- & R); eauto).
    destruct IF as (f & IF); destruct (BB key f k IF I) as (v' & w & G & F & Gw); [intros key' IK; apply ONE, SR, IK|].
    rewrite (d_in_get _ _ _ ND IV) in G; injection G as <-; exists w; split; [apply d_get_in; exact Gw|]; exact (step_restores key f v w IF F).
Qed.

(** * Failures *)
Lemma each_other f ns : forall a a', each f ns a = (a', None) -> forall k, ~ In k ns -> d_get k a' = d_get k a.
Proof.
  induction ns as [|n ns IH]; intros a a' E k NK; simpl in E; [injection E as <-; reflexivity|].
  destruct (d_get n a) as [v|]; [|discriminate]; destruct (f v) as [w|]; [|discriminate]; rewrite (IH _ _ E) by (intros I; apply NK; right; exact I).
  apply d_get_set_other; intros ->; apply NK; left; reflexivity.
Qed.
Lemma each_nodup f ns : forall a a', NoDup (d_keys a) -> each f ns a = (a', None) -> NoDup (d_keys a').
Proof.
  induction ns as [|n ns IH]; intros a a' ND E; simpl in E; [injection E as <-; exact ND|].
  destruct (d_get n a) as [v|]; [|discriminate]; destruct (f v) as [w|]; [|discriminate]; exact (IH _ _ (d_nodup_set n w a ND) E).
Qed.
Lemma serialise_reported a p : NoDup (d_keys a) -> (forall k v, In (k, v) a -> ~ reserved k) -> serialise dump a = (p, None) -> forall k v, In (k, v) a -> ~ mixed v.
Proof.
  intros ND NR E k v IV (l & z & MV & IZ).
  assert (RK : ~ reserved k) by exact (NR k v IV).
  assert (KS : forall key w (a' : attrs), reserved key -> d_get k (d_set key w a') = d_get k a') by (intros key w a' R; apply d_get_set_other; intros ->; contradiction).
  assert (RD : reserved "serialised_dicts") by (unfold reserved; simpl; tauto); assert (RB : reserved "serialised_bools") by (unfold reserved; simpl; tauto).
  assert (RN : reserved "serialised_nones") by (unfold reserved; simpl; tauto); assert (RO : reserved "serialised_single_element_list") by (unfold reserved; simpl; tauto).
  assert (G : d_get k a = Some v) by (apply d_in_get; assumption).
  assert (PASS : forall q f key (a1 a3 : attrs), NoDup (d_keys a1) -> d_get k a1 = Some v -> reserved key -> q v = false ->
    each f (keys_where q a1) (d_set key (names (keys_where q a1)) a1) = (a3, None) -> NoDup (d_keys a3) /\ d_get k a3 = Some v).
  { intros q f key a1 a3 N1 G1 R Q EE; split; [apply (each_nodup f _ _ _ (d_nodup_set key _ a1 N1) EE)|].
    rewrite (each_other f _ _ _ EE), KS; [exact G1|exact R|]; intros I; apply keys_where_in in I as (u & Gu & Qu); [congruence|exact N1]. }
  assert (LV : is_dict_attr v = false /\ is_bool_attr v = false /\ is_none_attr v = false) by (destruct MV as [-> | ->]; auto); destruct LV as (L1 & L2 & L3).
  unfold serialise in E; set (a1 := d_set "serialised_single_element_list" (names (keys_where is_single_list a)) a) in *.
  assert (N1 : NoDup (d_keys a1)) by (apply d_nodup_set; exact ND); assert (G1 : d_get k a1 = Some v) by (unfold a1; rewrite KS by exact RO; exact G).
  destruct (each (conv_dict dump) _ _) as [a3 [e|]] eqn:E3; [discriminate|]; cbn [next] in E.
  destruct (PASS _ _ _ _ _ N1 G1 RD L1 E3) as (N3 & G3).
  destruct (each conv_bool _ _) as [a5 [e|]] eqn:E5; [discriminate|]; cbn [next] in E.
  destruct (PASS _ _ _ _ _ N3 G3 RB L2 E5) as (N5 & G5).
  destruct (each conv_none _ _) as [a7 [e|]] eqn:E7; [discriminate|]; cbn [next] in E.
  destruct (PASS _ _ _ _ _ N5 G5 RN L3 E7) as (N7 & G7).
  destruct (each conv_set _ _) as [a8 [e|]] eqn:E8; [discriminate|]; cbn [next] in E.
  assert (N8 : NoDup (d_keys a8)) by exact (each_nodup _ _ _ _ N7 E8).
  assert (G8 : d_get k a8 = Some (AList l)).
  { destruct MV as [-> | ->].
    - rewrite (each_other _ _ _ _ E8) by (intros I; apply keys_where_in in I as (u & Gu & Qu); [rewrite G7 in Gu; injection Gu as <-; discriminate|exact N7]); exact G7.
    - destruct (each_inv conv_set _ _ _ N7 (keys_where_nodup _ _ N7) E8) as (_ & _ & _ & B); destruct (B k) as (u & w & Gu & F & Gw).
      + apply keys_where_in; [exact N7|]; exists (ASet l); split; [exact G7|reflexivity].
      + rewrite G7 in Gu; injection Gu as <-; injection F as <-; exact Gw. }
  destruct (existsb (fun kv => bad_list (snd kv)) a8) eqn:Q; [discriminate|].
  assert (T : existsb (fun kv => bad_list (snd kv)) a8 = true); [|congruence].
  apply existsb_exists; exists (k, AList l); split; [apply d_get_in; exact G8|]; cbn [snd bad_list]; apply existsb_exists; exists (IOther z); split; [exact IZ|reflexivity].
Qed.
Lemma each_attrs_done f l : forall l', each_attrs f l = (l', None) -> forall x a, In (x, a) l -> exists a', f a = (a', None).
Proof.
  induction l as [|(x0 & a0) l IH]; intros l' E x a I; [destruct I|]; cbn [each_attrs] in E; destruct (f a0) as [a' [e|]] eqn:F; [discriminate|].
  destruct (each_attrs f l) as [t' e'] eqn:ET; injection E as _ ->; destruct I as [Q|I]; [injection Q as <- <-; eauto|exact (IH t' eq_refl x a I)].
Qed.
Lemma with_nodup kw : forall a, NoDup (d_keys a) -> NoDup (d_keys (with_kwargs kw a)).
Proof. induction kw as [|(k & v) kw IH]; intros a ND; [exact ND|]; apply IH, d_nodup_set, ND. Qed.
Lemma save_reported kw written ds ds' :
  NoDup (map fst (top ds)) -> (forall k v, In (k, v) (with_kwargs kw (top ds)) -> ~ reserved k) ->
  (forall x a, In (x, a) (vars ds ++ coords ds) -> NoDup (map fst a) /\ forall k v, In (k, v) a -> ~ reserved k) ->
  save_netcdf dump parse path_text kw written ds = (ds', None) ->
  written = None /\ (forall k v, In (k, v) (with_kwargs kw (top ds)) -> ~ mixed v) /\
  forall x a k v, In (x, a) (vars ds ++ coords ds) -> In (k, v) a -> ~ mixed v.
Proof.
  intros ND NR NA E; unfold save_netcdf in E; fold (with_kwargs kw (top ds)) in E.
  destruct (serialise dump (with_kwargs kw (top ds))) as [t2 [e|]] eqn:E1; [discriminate|].
  destruct (each_attrs (serialise dump) (vars ds)) as [v2 [e|]] eqn:E2; [discriminate|].
  destruct (each_attrs (serialise dump) (coords ds)) as [c2 [e|]] eqn:E3; [discriminate|].
  destruct (each_attrs (deserialise parse path_text) v2) as [v3 [e|]]; [discriminate|]; destruct (each_attrs (deserialise parse path_text) c2) as [c3 [e|]]; [discriminate|]; injection E as _ ->.
  split; [reflexivity|split; [exact (serialise_reported _ _ (with_nodup kw _ ND) NR E1)|]].
  intros x a k v I IV; destruct (NA x a I) as (N & R).
  assert (S : exists a', serialise dump a = (a', None)) by (apply in_app_or in I as [I|I]; [exact (each_attrs_done _ _ _ E2 x a I)|exact (each_attrs_done _ _ _ E3 x a I)]).
  destruct S as (a' & S); exact (serialise_reported a a' N R S k v IV).
Qed.
End Yaml.
