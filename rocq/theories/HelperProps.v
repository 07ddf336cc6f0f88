(** C40, C41, C42, C64, C65, C66: the helper functions of math texts and sub-expressions. *)
From Coq Require Import QArith Qcanon Permutation Lia.
From Verif Require Import Base BaseProofs LangModel EvalModel BuildProofs HelperModel HelperSpec HelperProofs HelperLocal HelperLaws HelperMore.
Local Open Scope nat_scope.
Local Open Scope string_scope.
Local Open Scope list_scope.
Local Arguments String.eqb : simpl never.

(** Example data: three time steps, two nodes, three technologies; [flow] over technologies and
    time steps with a missing entry, [price] over time steps, [region] grouping the
    technologies, [next_step] a lookup of time steps, [known] which technology exists where. *)
Definition num (z : Z) : cell := Val (Q2Qc (inject_Z z)).
Definition ex_labels (d : string) : list string :=
  if String.eqb d "timesteps" then ["t1"; "t2"; "t3"] else if String.eqb d "techs" then ["a"; "b"; "c"]
  else if String.eqb d "nodes" then ["n1"; "n2"] else if String.eqb d "groups" then ["g"; "h"]
  else if String.eqb d "carriers" then ["el"] else [].
Definition ex_flow (p : pos) : cell :=
  if String.eqb (p "techs") "a" then
    if String.eqb (p "timesteps") "t1" then num 1 else if String.eqb (p "timesteps") "t2" then num 2 else num 4
  else if String.eqb (p "techs") "b" then
    if String.eqb (p "timesteps") "t2" then num 8 else Miss
  else Miss.
Definition ex_array (s : string) : darr :=
  if String.eqb s "flow" then {| a_dims := ["techs"; "timesteps"]; a_at := ex_flow |}
  else if String.eqb s "price" then
    {| a_dims := ["timesteps"]; a_at := fun p => if String.eqb (p "timesteps") "t1" then num 10 else if String.eqb (p "timesteps") "t2" then num 20 else num 30 |}
  else if String.eqb s "cap" then {| a_dims := []; a_at := const (num 5) |}
  else if String.eqb s "region" then
    {| a_dims := ["techs"]; a_at := fun p => if String.eqb (p "techs") "a" then Txt "g" else if String.eqb (p "techs") "b" then Txt "h" else Txt "g" |}
  else if String.eqb s "next_step" then
    {| a_dims := ["timesteps"]; a_at := fun p => if String.eqb (p "timesteps") "t1" then Txt "t3" else if String.eqb (p "timesteps") "t2" then Txt "t1" else Miss |}
  else if String.eqb s "on" then
    {| a_dims := ["techs"]; a_at := fun p => Boo (String.eqb (p "techs") "b") |}
  else {| a_dims := []; a_at := const Miss |}.
Definition ex_D : denv :=
  {| n_labels := ex_labels; n_array := ex_array; n_default := fun _ => Miss; n_config := fun _ => Miss;
     n_ref := fun _ _ => None; n_slice := fun _ => None; n_odd := fun _ _ _ => Miss;
     n_calendar := fun _ _ => Miss; n_carrier := fun _ => {| a_dims := []; a_at := const (Boo true) |};
     n_matrix := {| a_dims := ["nodes"; "techs"; "carriers"];
                    a_at := fun p => Boo (if String.eqb (p "nodes") "n1" then negb (String.eqb (p "techs") "b")
                                          else negb (String.eqb (p "techs") "a")) |} |}.
Definition ex_at (l : list (string * string)) : pos := fun d => match d_get d l with Some x => x | None => "" end.

Lemma ex_sound : sound ex_D.
Proof.
  assert (NL : forall d, NoDup (ex_labels d)).
  { intros d. unfold ex_labels.
    repeat match goal with |- NoDup (if ?b then _ else _) => destruct b end; repeat constructor; cbn; intuition discriminate. }
  split; [exact NL|]. split.
  { intros s. cbn [n_array ex_D]. unfold ex_array.
    destruct (String.eqb s "flow"); [intros p q H; cbn in *; unfold ex_flow; rewrite !(H "techs"), !(H "timesteps"); auto|].
    destruct (String.eqb s "price"); [intros p q H; cbn in *; rewrite !(H "timesteps"); auto|].
    destruct (String.eqb s "cap"); [intros p q H; reflexivity|].
    destruct (String.eqb s "region"); [intros p q H; cbn in *; rewrite !(H "techs"); auto|].
    destruct (String.eqb s "next_step"); [intros p q H; cbn in *; rewrite !(H "timesteps"); auto|].
    destruct (String.eqb s "on"); [intros p q H; cbn in *; rewrite !(H "techs"); auto|].
    intros p q H; reflexivity. }
  split; [discriminate|]. split; [discriminate|]. split; [intros s p q H; reflexivity|].
  intros p q H. cbn in *. rewrite !(H "nodes"), !(H "techs"); auto.
Qed.
(** A condition that holds for the first technology only. *)
Definition ex_mask : dmask := {| m_dims := ["techs"; "timesteps"]; m_at := fun p => String.eqb (p "techs") "a" |}.
Lemma ex_mask_local : local_mask ex_mask.
Proof. intros p q H. cbn in *. rewrite (H "techs"); auto. Qed.
Definition value (D : denv) (w : dmask) (e : expr) (p : pos) : option cell := option_map (fun a => a_at a p) (deval D w e).
Ltac num_eq := vm_compute; repeat f_equal; try (apply Qc_is_canon; reflexivity).

(** Values depend on the labels of the dimensions of an expression only, whatever helper
    functions it calls; used below and by itself the reason why entries can be tabulated. *)
Theorem C41_dimensions D w e a : sound D -> local_mask w -> deval D w e = Some a -> local a.
Proof. intros SD. now apply deval_local. Qed.
Print Assumptions C41_dimensions.
Example C41_dimensions_example : exists a,
  deval ex_D ex_mask (c_sum (EChain (EName "flow") [(OMul, EName "price")]) ["techs"]) = Some a /\
  a_dims a = ["timesteps"] /\ a_at a (ex_at [("timesteps", "t2")]) = num 40.
Proof. eexists. split; [reflexivity|]. split; [reflexivity|]. num_eq. Qed.

(** * C40 Rolling *)

(** Rolling by [k] moves the entry at place i to place i + k, cyclically.  It does so whatever
    the condition of the equation is. *)
Theorem C40_shift D w e d neg s k a :
  sound D -> d <> "array" -> integer neg s k ->
  deval D no_mask e = Some a -> In d (a_dims a) ->
  exists r, deval D w (c_roll e d neg s) = Some r /\ a_dims r = a_dims a /\
    forall p i, i < size D d ->
      a_at r (put p d (nth (Z.to_nat ((Z.of_nat i + k) mod Z.of_nat (size D d))) (n_labels D d) "")) =
      a_at a (put p d (nth i (n_labels D d) "")).
Proof.
  intros SD NA HK HE HD. rewrite (roll_call D w e d neg s k NA HK), HE, (h_roll_one D a d k HD).
  eexists. split; [reflexivity|]. split; [reflexivity|]. cbn [a_at]. intros p i HI.
  apply (roll_shift D SD a d k p i); [|exact HI]. apply (deval_local D SD e no_mask a no_mask_local HE).
Qed.
Print Assumptions C40_shift.
Example C40_shift_example :
  integer false "1" 1 /\ integer true "4" (-4) /\
  map (fun t => value ex_D ex_mask (c_roll (EName "price") "timesteps" false "1") (ex_at [("timesteps", t)])) ["t1"; "t2"; "t3"]
  = [Some (num 30); Some (num 10); Some (num 20)].
Proof. split; [num_eq|]. split; [num_eq|]. num_eq. Qed.

(** It is an error if the array does not have the dimension. *)
Theorem C40_other_dimension D w e d neg s k a :
  d <> "array" -> integer neg s k -> deval D no_mask e = Some a -> ~ In d (a_dims a) ->
  deval D w (c_roll e d neg s) = None.
Proof. intros NA HK HE HD. now rewrite (roll_call D w e d neg s k NA HK), HE, h_roll_none. Qed.
Print Assumptions C40_other_dimension.
Example C40_other_dimension_example : deval ex_D ex_mask (c_roll (EName "cap") "timesteps" false "1") = None.
Proof. reflexivity. Qed.

(** Rolling by [k] and back by [k] changes nothing. *)
Theorem C40_back D w e d n1 s1 n2 s2 k :
  sound D -> d <> "array" -> integer n1 s1 k -> integer n2 s2 (- k) ->
  (exists a, deval D no_mask e = Some a /\ In d (a_dims a)) ->
  same_result D (deval D w (c_roll (c_roll e d n1 s1) d n2 s2)) (deval D no_mask e).
Proof.
  intros SD NA H1 H2 (a & HE & HD). rewrite (roll_call D w _ d n2 s2 (- k) NA H2), (roll_call D no_mask e d n1 s1 k NA H1), HE.
  rewrite (h_roll_one D a d k HD), h_roll_one by exact HD. split; [reflexivity|]. cbn [a_at a_dims]. intros p HP.
  pose proof (deval_local D SD e no_mask a no_mask_local HE) as LA.
  rewrite roll_roll by auto. apply roll_full; auto. exists 0%Z. lia.
Qed.
Print Assumptions C40_back.
Example C40_back_example :
  map (fun t => value ex_D ex_mask (c_roll (c_roll (EName "price") "timesteps" false "5") "timesteps" true "5") (ex_at [("timesteps", t)])) ["t1"; "t2"; "t3"]
  = [Some (num 10); Some (num 20); Some (num 30)].
Proof. num_eq. Qed.

(** Rolls add up. *)
Theorem C40_add D w e d n1 s1 n2 s2 n3 s3 j k :
  sound D -> d <> "array" -> integer n1 s1 j -> integer n2 s2 k -> integer n3 s3 (j + k) ->
  same_result D (deval D w (c_roll (c_roll e d n1 s1) d n2 s2)) (deval D w (c_roll e d n3 s3)).
Proof.
  intros SD NA H1 H2 H3. rewrite (roll_call D w _ d n2 s2 k NA H2), (roll_call D no_mask e d n1 s1 j NA H1).
  rewrite (roll_call D w e d n3 s3 (j + k) NA H3). destruct (deval D no_mask e) as [a|] eqn:HE; [|exact I].
  destruct (in_dec string_dec d (a_dims a)) as [HD|ND].
  - rewrite !(h_roll_one D a d) by exact HD. rewrite h_roll_one by exact HD. split; [reflexivity|]. cbn [a_at a_dims]. intros p HP.
    apply roll_roll; auto. apply (deval_local D SD e no_mask a no_mask_local HE).
  - now rewrite !(h_roll_none D a d) by exact ND.
Qed.
Print Assumptions C40_add.
Example C40_add_example :
  value ex_D ex_mask (c_roll (c_roll (EName "price") "timesteps" false "1") "timesteps" false "4") (ex_at [("timesteps", "t1")]) = Some (num 20) /\
  value ex_D ex_mask (c_roll (EName "price") "timesteps" false "5") (ex_at [("timesteps", "t1")]) = Some (num 20).
Proof. split; num_eq. Qed.

(** Rolling by the length of the dimension, or a multiple of it, changes nothing. *)
Theorem C40_round D w e d neg s k a :
  sound D -> d <> "array" -> integer neg s k -> (Z.of_nat (size D d) | k)%Z ->
  deval D no_mask e = Some a -> In d (a_dims a) ->
  same_result D (deval D w (c_roll e d neg s)) (Some a).
Proof.
  intros SD NA HK HM HE HD. rewrite (roll_call D w e d neg s k NA HK), HE, (h_roll_one D a d k HD).
  split; [reflexivity|]. cbn [a_at a_dims]. intros p HP. apply roll_full; auto.
  apply (deval_local D SD e no_mask a no_mask_local HE).
Qed.
Print Assumptions C40_round.
Example C40_round_example :
  (Z.of_nat (size ex_D "timesteps") | -6)%Z /\
  value ex_D ex_mask (c_roll (EName "price") "timesteps" true "6") (ex_at [("timesteps", "t2")]) = Some (num 20).
Proof. split; [exists (-2)%Z; reflexivity|num_eq]. Qed.

(** Rolling does not change the total along the dimension. *)
Theorem C40_total D w e d neg s k a :
  sound D -> local_mask w -> d <> "array" -> integer neg s k ->
  deval D no_mask e = Some a -> In d (a_dims a) -> numbers D a ->
  same_result D (deval D w (c_sum (c_roll e d neg s) [d])) (deval D no_mask (c_sum e [d])).
Proof.
  intros SD LW NA HK HE HD NU. rewrite !sum_call, (roll_call D w e d neg s k NA HK), HE, (h_roll_one D a d k HD). cbn [option_map].
  pose proof (deval_local D SD e no_mask a no_mask_local HE) as LA.
  assert (LR : local {| a_dims := a_dims a; a_at := rolled D d k (a_at a) |}) by (apply rolled_local; [exact HD|destruct a; exact LA]).
  assert (NR : numbers D {| a_dims := a_dims a; a_at := rolled D d k (a_at a) |}).
  { intros p HP. cbn [a_at a_dims] in *. destruct (roll_one_at D a d k p LA (HP d HD)) as (i & HI & _ & ->). apply NU.
    intros x Hx. unfold put. destruct (String.eqb x d) eqn:EX; [|now apply HP]. apply String.eqb_eq in EX. subst x.
    apply nth_In. apply cyc_lt. lia. }
  cbn [same_result]. split; [reflexivity|]. intros p HP. cbn [h_sum a_dims] in HP.
  rewrite !h_sum_at by assumption. cbn [a_dims a_at]. rewrite (shared_one d (a_dims a) HD), !spread_one, !map_map.
  apply summed_perm, roll_entries; auto.
Qed.
Print Assumptions C40_total.
Example C40_total_example :
  value ex_D ex_mask (c_sum (c_roll (EName "flow") "timesteps" false "1") ["timesteps"]) (ex_at [("techs", "a")]) = Some (num 7) /\
  value ex_D no_mask (c_sum (EName "flow") ["timesteps"]) (ex_at [("techs", "a")]) = Some (num 7).
Proof. split; num_eq. Qed.

(** * C41 Sums *)

(** A sum over one dimension adds the entries that are not missing; it is missing exactly if all
    entries are. *)
Theorem C41_value D w e d a :
  sound D -> deval D w e = Some a -> In d (a_dims a) -> numbers D a ->
  exists r, deval D w (c_sum e [d]) = Some r /\
    (forall x, In x (a_dims r) <-> In x (a_dims a) /\ x <> d) /\
    forall p, inside D (a_dims r) p -> sum_of (along D d a p (whole_dim D d)) (a_at r p).
Proof.
  intros SD HE HD NU. rewrite sum_call, HE. exists (h_sum D [d] a). split; [reflexivity|].
  assert (W : a_dims (h_sum D [d] a) = without [d] (a_dims a)) by (cbn [h_sum a_dims]; now rewrite shared_one).
  rewrite W. split.
  { intros x. rewrite without_in. cbn. split; intros [H1 H2]; (split; [exact H1|]); [intros ->; apply H2; now left|intros [->|[]]; now apply H2]. }
  intros p HP. rewrite h_sum_at; [|exact NU|now rewrite shared_one]. rewrite (shared_one d (a_dims a) HD).
  rewrite spread_one, map_map. unfold along, whole_dim.
  rewrite <- (map_map (fun i => nth i (n_labels D d) "") (fun l => a_at a (put p d l))). unfold size.
  rewrite nth_map_seq. apply summed_spec.
Qed.
Print Assumptions C41_value.
Example C41_value_example :
  value ex_D no_mask (c_sum (EName "flow") ["techs"]) (ex_at [("timesteps", "t2")]) = Some (num 10) /\
  value ex_D no_mask (c_sum (EName "flow") ["techs"]) (ex_at [("timesteps", "t1")]) = Some (num 1) /\
  value ex_D no_mask (c_sum (EName "flow") ["timesteps"]) (ex_at [("techs", "c")]) = Some Miss.
Proof. split; [num_eq|split; num_eq]. Qed.

(** Summing over several dimensions is summing over one after the other. *)
Theorem C41_nested D w e A B a :
  sound D -> local_mask w -> deval D w e = Some a -> numbers D a ->
  same_result D (deval D w (c_sum (c_sum e A) B)) (deval D w (c_sum e (A ++ B))).
Proof.
  intros SD LW HE NU. rewrite !sum_call, HE. cbn [option_map same_result]. apply sum_sum; [|exact NU].
  apply (deval_local D SD e w a LW HE).
Qed.
Print Assumptions C41_nested.
(** The order in which dimensions are given, and whether they are repeated, is immaterial. *)
Theorem C41_order D w e A B a :
  sound D -> local_mask w -> deval D w e = Some a -> numbers D a ->
  (forall d, In d A <-> In d B) ->
  same_result D (deval D w (c_sum e A)) (deval D w (c_sum e B)).
Proof.
  intros SD LW HE NU H. rewrite !sum_call, HE. cbn [option_map same_result]. apply sum_same_set; auto.
  apply (deval_local D SD e w a LW HE).
Qed.
Print Assumptions C41_order.
Example C41_order_example :
  value ex_D no_mask (c_sum (c_sum (EName "flow") ["techs"]) ["timesteps"]) (ex_at []) = Some (num 15) /\
  value ex_D no_mask (c_sum (EName "flow") ["techs"; "timesteps"]) (ex_at []) = Some (num 15) /\
  value ex_D no_mask (c_sum (EName "flow") ["timesteps"; "techs"; "timesteps"]) (ex_at []) = Some (num 15).
Proof. split; [num_eq|split; num_eq]. Qed.

(** Dimensions that the summed array does not have change nothing. *)
Theorem C41_absent_dimension D w e ds a :
  deval D w e = Some a -> numbers D a -> (forall d, In d ds -> ~ In d (a_dims a)) ->
  exists r, deval D w (c_sum e ds) = Some r /\ a_dims r = a_dims a /\
    forall p, inside D (a_dims a) p -> sum_of [a_at a p] (a_at r p).
Proof.
  intros HE NU H. rewrite sum_call, HE. eexists. split; [reflexivity|]. cbn [h_sum a_dims a_at].
  rewrite (shared_none ds _ H), without_nil. split; [reflexivity|]. intros p HP. cbn [map].
  rewrite total_summed; [apply summed_spec|]. constructor; [now apply NU|constructor].
Qed.
Print Assumptions C41_absent_dimension.
Example C41_absent_dimension_example :
  value ex_D no_mask (c_sum (EName "price") ["techs"; "nodes"]) (ex_at [("timesteps", "t3")]) = Some (num 30).
Proof. num_eq. Qed.

(** Summing by groups and then over the groups gives the sum of the entries that have a group. *)
Theorem C41_groups D w e b gd a b' g :
  sound D -> local_mask w -> deval D no_mask e = Some a -> deval D no_mask b = Some b' ->
  numbers D a -> NoDup (a_dims b') -> ~ In gd (a_dims a) ->
  deval D w (c_group e b gd) = Some g ->
  same_result D (deval D w (c_sum (c_group e b gd) [gd])) (Some (h_sum D (a_dims b') (kept D gd b' a))).
Proof.
  intros SD LW HE HB NU ND NG HG. rewrite sum_call, HG. cbn [option_map same_result].
  rewrite group_call, HE, HB in HG. apply (h_group_total D SD a b' gd g); auto.
  - apply (deval_local D SD e no_mask a no_mask_local HE).
  - apply (deval_local D SD b no_mask b' no_mask_local HB).
Qed.
Print Assumptions C41_groups.
(** So if every entry has a group, the groups add up to the sum over the grouped dimensions. *)
Theorem C41_grouping_preserves_totals D w e b gd a b' g :
  sound D -> local_mask w -> deval D no_mask e = Some a -> deval D no_mask b = Some b' ->
  numbers D a -> NoDup (a_dims b') -> ~ In gd (a_dims a) ->
  (forall p, inside D (a_dims a) p -> exists l, a_at b' p = Txt l /\ In l (n_labels D gd)) ->
  deval D w (c_group e b gd) = Some g ->
  same_result D (deval D w (c_sum (c_group e b gd) [gd])) (deval D no_mask (c_sum e (a_dims b'))).
Proof.
  intros SD LW HE HB NU ND NG HA HG. pose proof (C41_groups D w e b gd a b' g SD LW HE HB NU ND NG HG) as X.
  rewrite (sum_call D no_mask e), HE. cbn [option_map]. rewrite sum_call, HG in *. cbn [option_map same_result] in *.
  destruct X as [X1 X2]. split; [exact X1|]. intros p HP. rewrite (X2 p HP). cbn [h_sum a_at kept a_dims]. f_equal.
  apply map_ext_in. intros q HQ. destruct (HA q) as (l & -> & HL).
  { apply (spread_inside D (shared (a_dims b') (a_dims a)) (a_dims a) p q); [|exact HQ]. intros d Hd. apply HP. now apply X1. }
  apply smem_in in HL. now rewrite HL.
Qed.
Print Assumptions C41_grouping_preserves_totals.
Example C41_grouping_example :
  value ex_D ex_mask (c_group (EName "flow") (EName "region") "groups") (ex_at [("groups", "h"); ("timesteps", "t2")]) = Some (num 8) /\
  value ex_D ex_mask (c_sum (c_group (EName "flow") (EName "region") "groups") ["groups"]) (ex_at [("timesteps", "t2")]) = Some (num 10) /\
  value ex_D no_mask (c_sum (EName "flow") ["techs"]) (ex_at [("timesteps", "t2")]) = Some (num 10).
Proof. split; [num_eq|split; num_eq]. Qed.

(** [group_datetime(x, o, g)] at a date part adds the entries of the time steps that have it. *)
Theorem C41_datetime D w e o g a r p :
  deval D no_mask e = Some a -> numbers D a -> deval D w (c_datetime e o g) = Some r -> inside D (without [o] (a_dims a)) p ->
  In o (a_dims a) /\ (forall d, In d (a_dims r) <-> In d (a_dims a) /\ d <> o \/ d = g) /\
  sum_of (map (fun t => a_at a (put p o t))
            (filter (fun t => match n_calendar D g t with Txt s => String.eqb s (p g) | _ => false end) (n_labels D o)))
         (a_at r p).
Proof.
  intros HE NU HR HP. rewrite datetime_call, HE in HR. unfold h_datetime in HR. destruct (smem o (a_dims a)) eqn:IO; [|discriminate].
  apply smem_in in IO. split; [exact IO|]. unfold h_group in HR. cbn [a_dims] in HR.
  match type of HR with (if ?b then _ else _) = _ => destruct b; [|discriminate] end. injection HR as <-. cbn [a_at a_dims]. split.
  { intros d. rewrite merge_in, without_in. cbn. intuition congruence. }
  rewrite total_summed.
  - replace (map (a_at a) _) with (map (fun t => a_at a (put p o t))
      (filter (fun t => match n_calendar D g t with Txt s => String.eqb s (p g) | _ => false end) (n_labels D o))); [apply summed_spec|].
    rewrite spread_cons. induction (n_labels D o) as [|t l IH]; [reflexivity|]. cbn [flat_map filter]. rewrite spread_nil. cbn [app filter].
    unfold in_group at 1. rewrite put_same. destruct (n_calendar D g t) as [| | | |s]; cbn [map]; try exact IH.
    destruct (String.eqb s (p g)); cbn [map]; [now rewrite IH|exact IH].
  - apply Forall_forall. intros c Hc. apply in_map_iff in Hc as (q & <- & Hq). apply filter_In in Hq as [Hq _].
    apply (proj1 (Forall_forall _ _) (numbers_spread D a [o] p NU HP)). now apply in_map.
Qed.
Print Assumptions C41_datetime.
Definition cal_D : denv :=
  {| n_labels := ex_labels; n_array := ex_array; n_default := fun _ => Miss; n_config := fun _ => Miss;
     n_ref := fun _ _ => None; n_slice := fun _ => None; n_odd := fun _ _ _ => Miss;
     n_calendar := fun part t => if String.eqb part "date" then Txt (if String.eqb t "t3" then "day2" else "day1") else Miss;
     n_carrier := fun dir => {| a_dims := ["techs"; "carriers"]; a_at := fun p => Boo (String.eqb (p "techs") "b" && String.eqb dir "in") |};
     n_matrix := n_matrix ex_D |}.
Example C41_datetime_example :
  value cal_D ex_mask (c_datetime (EName "flow") "timesteps" "date") (ex_at [("techs", "a"); ("date", "day1")]) = Some (num 3) /\
  value cal_D ex_mask (c_datetime (EName "flow") "timesteps" "date") (ex_at [("techs", "a"); ("date", "day2")]) = Some (num 4).
Proof. split; num_eq. Qed.

(** [reduce_carrier_dim(x, direction)] adds the entries of the carriers that flow that way. *)
Theorem C41_reduce D w e dir a r p :
  deval D w e = Some a -> numbers D a -> deval D w (c_reduce e dir) = Some r ->
  (forall d, In d (a_dims a) -> d <> "carriers" -> In (p d) (n_labels D d)) -> In "carriers" (a_dims a) ->
  sum_of (map (fun c => let q := put p "carriers" c in if truth (a_at (n_carrier D dir) q) then a_at a q else Miss) (n_labels D "carriers"))
         (a_at r p).
Proof.
  intros HE NU HR HP HC. rewrite reduce_call, HE in HR. injection HR as <-. unfold h_reduce, h_sum. cbn [a_at a_dims h_where].
  replace (shared ["carriers"] (merge (a_dims a) (a_dims (n_carrier D dir)))) with ["carriers"].
  2:{ unfold shared. cbn [nodup]. cbn [in_dec]. cbn. replace (smem "carriers" (merge (a_dims a) (a_dims (n_carrier D dir)))) with true; [reflexivity|].
      symmetry. apply smem_in. apply merge_in. now left. }
  rewrite total_summed.
  - replace (map _ (spread D ["carriers"] p)) with
      (map (fun c => let q := put p "carriers" c in if truth (a_at (n_carrier D dir) q) then a_at a q else Miss) (n_labels D "carriers")); [apply summed_spec|].
    rewrite spread_cons. induction (n_labels D "carriers") as [|t l IH]; [reflexivity|]. cbn [flat_map map]. rewrite spread_nil. cbn [app map].
    f_equal. exact IH.
  - apply Forall_forall. intros c Hc. apply in_map_iff in Hc as (q & <- & Hq).
    destruct (truth (a_at (n_carrier D dir) q)); [|exact I]. apply NU. intros d Hd.
    destruct (string_dec d "carriers") as [->|N].
    + apply (spread_labels D ["carriers"] p q "carriers" Hq). now left.
    + rewrite (spread_length_ok D ["carriers"] p q Hq d); [now apply HP|]. intros [H|[]]. congruence.
Qed.
Print Assumptions C41_reduce.
Example C41_reduce_example :
  value cal_D ex_mask (c_reduce (EName "flow") "in") (ex_at [("techs", "b"); ("timesteps", "t2")]) = Some (num 8) /\
  value cal_D ex_mask (c_reduce (EName "flow") "in") (ex_at [("techs", "a"); ("timesteps", "t2")]) = Some Miss /\
  value cal_D ex_mask (c_reduce (EName "flow") "out") (ex_at [("techs", "b"); ("timesteps", "t2")]) = Some Miss.
Proof. split; [num_eq|split; num_eq]. Qed.

(** [where] inside a sum leaves out the entries for which the condition does not hold. *)
Theorem C41_where D w e c a c' p :
  deval D w e = Some a -> deval D w c = Some c' ->
  exists r, deval D w (c_where e c) = Some r /\
    a_at r p = match a_at c' p with
               | Miss | Boo false => Miss
               | Val q => if Qc_eq_dec q 0%Qc then Miss else a_at a p
               | Txt s => if String.eqb s "" then Miss else a_at a p
               | _ => a_at a p
               end.
Proof.
  intros HE HC. rewrite where_call_eq, HE, HC. eexists. split; [reflexivity|]. cbn [h_where a_at truth].
  destruct (a_at c' p) as [|q|b|[]|s]; try reflexivity; unfold truth.
  - destruct (Qc_eq_dec q 0%Qc); reflexivity.
  - destruct (String.eqb s ""); reflexivity.
Qed.
Print Assumptions C41_where.
Example C41_where_example :
  value ex_D no_mask (c_sum (c_where (EName "flow") (EName "on")) ["techs"]) (ex_at [("timesteps", "t2")]) = Some (num 8).
Proof. num_eq. Qed.

(** * C42 Windows *)

(** [sum_next_n(x, d, N)] at place i adds the entries at places i to i + N - 1, as far as they
    exist. *)
Theorem C42_window D w e d s n a r p i :
  sound D -> local_mask w -> integer false s (Z.of_nat n) -> deval D w e = Some a -> numbers D a ->
  deval D w (c_next e d s) = Some r -> inside D (a_dims a) p -> i < size D d ->
  sum_of (along D d a p (filter (fun j => Nat.ltb j (size D d)) (seq i n)))
         (a_at r (put p d (nth i (n_labels D d) ""))).
Proof.
  intros SD LW HN HE NU HR HP HI. rewrite (next_call D w e d s n HN), HE in HR.
  pose proof (deval_local D SD e w a LW HE) as LA.
  rewrite (h_next_at D SD a d n r p i LA NU HR); [|now apply inside_without|exact HI].
  assert (F : forall n i, filter (fun j => Nat.ltb j (size D d)) (seq i n) = seq i (Nat.min n (size D d - i))).
  { clear. induction n as [|n IH]; intros i; [reflexivity|]. cbn [seq filter]. rewrite IH. destruct (Nat.ltb i (size D d)) eqn:E.
    - apply Nat.ltb_lt in E. replace (size D d - i) with (S (size D d - S i)) by lia. reflexivity.
    - apply Nat.ltb_ge in E. replace (size D d - i) with 0 by lia. replace (size D d - S i) with 0 by lia. now rewrite !Nat.min_0_r. }
  rewrite F. apply summed_spec.
Qed.
Print Assumptions C42_window.
(** Away from the end of the dimension these are exactly [N] entries. *)
Theorem C42_full_window D w e d s n a r p i :
  sound D -> local_mask w -> integer false s (Z.of_nat n) -> deval D w e = Some a -> numbers D a ->
  deval D w (c_next e d s) = Some r -> inside D (a_dims a) p -> i + n <= size D d -> i < size D d ->
  sum_of (along D d a p (seq i n)) (a_at r (put p d (nth i (n_labels D d) ""))).
Proof.
  intros SD LW HN HE NU HR HP HI HI'. pose proof (C42_window D w e d s n a r p i SD LW HN HE NU HR HP HI') as X.
  replace (filter (fun j => Nat.ltb j (size D d)) (seq i n)) with (seq i n) in X; [exact X|].
  clear X HN HR. revert i HI HI'. induction n as [|n IH]; intros i H1 H2; [reflexivity|]. cbn [seq filter].
  rewrite (proj2 (Nat.ltb_lt _ _) H2). f_equal. destruct n as [|n]; [reflexivity|]. apply IH; lia.
Qed.
Print Assumptions C42_full_window.
Example C42_window_example :
  map (fun t => value ex_D no_mask (c_next (EName "price") "timesteps" "2") (ex_at [("timesteps", t)])) ["t1"; "t2"; "t3"]
  = [Some (num 30); Some (num 50); Some (num 30)].
Proof. num_eq. Qed.

(** The formula shown in the documentation has limits from the current place to [N] places on,
    which is one entry more than is added. *)
Theorem C42_rendering_refuted : exists D w e d s n a r p i,
  sound D /\ local_mask w /\ integer false s (Z.of_nat n) /\ deval D w e = Some a /\ numbers D a /\
  deval D w (c_next e d s) = Some r /\ inside D (a_dims a) p /\ i + n < size D d /\
  let '(lo, hi) := next_limits n in
  ~ sum_of (along D d a p (seq (i + lo) (hi + 1 - lo))) (a_at r (put p d (nth i (n_labels D d) ""))).
Proof.
  exists ex_D, no_mask, (EName "price"), "timesteps", "2", 2. eexists. eexists. exists (ex_at [("timesteps", "t1")]), 0.
  split; [exact ex_sound|]. split; [apply no_mask_local|]. split; [num_eq|]. split; [reflexivity|]. split.
  { intros p _. change (numeric (fill Miss (if String.eqb (p "timesteps") "t1" then num 10 else if String.eqb (p "timesteps") "t2" then num 20 else num 30))).
    destruct (String.eqb (p "timesteps") "t1"); [exact I|]. destruct (String.eqb (p "timesteps") "t2"); exact I. }
  split; [reflexivity|]. split.
  { intros d [<-|[]]. cbn. now left. }
  split; [vm_compute; lia|]. cbn [next_limits]. intros [[H _]|[_ H]].
  - assert (X : num 10 = Miss) by (apply H; now left). discriminate X.
  - vm_compute in H. discriminate H.
Qed.
Print Assumptions C42_rendering_refuted.

(** * C64 Adding zero *)

(** If no summed dimension is one the equation is written for, [sum(x + 0, over=...)] is
    [sum(x, over=...)] wherever the equation applies. *)
Theorem C64_partial D w e ds a p :
  sound D -> local_mask w -> deval D w e = Some a -> plain D a ->
  (forall d, In d ds -> ~ In d (m_dims w)) ->
  m_at w p = true -> inside D (without ds (a_dims a)) p ->
  value D w (c_sum (c_plus_zero e) ds) p = value D w (c_sum e ds) p.
Proof.
  intros SD LW HE PA ND HW HP. unfold value. rewrite !sum_call, HE. unfold c_plus_zero. cbn [deval fold_left fst snd]. rewrite HE.
  cbn [option_map]. f_equal. now apply sum_plus_zero.
Qed.
Print Assumptions C64_partial.
Example C64_example :
  let w := {| m_dims := ["techs"]; m_at := fun p => String.eqb (p "techs") "a" |} in
  value ex_D w (c_sum (c_plus_zero (EName "flow")) ["timesteps"]) (ex_at [("techs", "a")]) = Some (num 7) /\
  value ex_D w (c_sum (EName "flow") ["timesteps"]) (ex_at [("techs", "a")]) = Some (num 7).
Proof. split; num_eq. Qed.
(** Otherwise it is not: arithmetic restricts its operands to the condition of the equation and
    repeats them along all its dimensions, plain names are left alone.  With a condition that
    selects one technology, [sum(flow, over=techs)] adds all technologies and
    [sum(flow + 0, over=techs)] the selected one only. *)
Theorem C64_refuted : exists D w e ds a p,
  sound D /\ local_mask w /\ deval D w e = Some a /\ plain D a /\ m_at w p = true /\ inside D (a_dims a) p /\
  value D w (c_sum (c_plus_zero e) ds) p <> value D w (c_sum e ds) p.
Proof.
  exists ex_D, ex_mask, (EName "flow"), ["techs"]. eexists. exists (ex_at [("timesteps", "t2"); ("techs", "a")]).
  split; [exact ex_sound|]. split; [exact ex_mask_local|]. split; [reflexivity|]. split.
  { intros p _. change (match fill Miss (ex_flow p) with Miss | Val _ => True | _ => False end). unfold ex_flow. repeat match goal with |- context [if ?b then _ else _] => destruct b end; exact I. }
  split; [reflexivity|]. split.
  { intros d [<-|[<-|[]]]; [now left|right; now left]. }
  vm_compute. intros H. discriminate H.
Qed.
Print Assumptions C64_refuted.
(** A number is then added once for every selected member of the dimension. *)
Theorem C64_scalar_refuted : exists D w e ds a p,
  sound D /\ local_mask w /\ deval D w e = Some a /\ a_dims a = [] /\ plain D a /\ m_at w p = true /\
  value D w (c_sum (c_plus_zero e) ds) p <> value D w (c_sum e ds) p.
Proof.
  exists ex_D, {| m_dims := ["techs"]; m_at := everywhere |}, (EName "cap"), ["techs"]. eexists. exists (ex_at [("techs", "a")]).
  split; [exact ex_sound|]. split; [intros p q _; reflexivity|]. split; [reflexivity|]. split; [reflexivity|]. split.
  { intros p _. exact I. }
  split; [reflexivity|]. vm_compute. intros H. discriminate H.
Qed.
Print Assumptions C64_scalar_refuted.

(** * C65 Picking entries *)

(** [select_from_lookup_arrays(x, d1=l1, ...)]: each entry is the entry of [x] at the labels
    that the lookup inputs hold at its own place; missing if one of them holds no label of
    its dimension. *)
Lemma select_call D w e ks : ~ In "array" (map fst ks) ->
  deval D w (c_select e ks) = opt2 (h_select D) (deval D w e) (Some (map (fun k => (fst k, n_array D (snd k))) ks)).
Proof.
  intros NA. unfold c_select. cbn [deval map]. change (ignores "select_from_lookup_arrays") with false. cbv iota. unfold call.
  repeat match goal with |- context [if String.eqb "select_from_lookup_arrays" ?s then _ else _] =>
    let b := eval vm_compute in (String.eqb "select_from_lookup_arrays" s) in
    change (String.eqb "select_from_lookup_arrays" s) with b; cbv iota end.
  unfold bind. cbn [bind_pos option_map app].
  set (kws := map _ (map _ ks)).
  assert (F : filter (fun k : string * arg => smem (fst k) ["array"]) kws = [] /\
              filter (fun k : string * arg => negb (smem (fst k) ["array"])) kws = kws).
  { subst kws. clear -NA. induction ks as [|[d s] ks IH]; [split; reflexivity|]. cbn [map filter fst snd].
    assert (E : smem d ["array"] = false).
    { destruct (smem d ["array"]) eqn:E; [|reflexivity]. apply smem_in in E as [<-|[]]. exfalso. apply NA. now left. }
    rewrite E. cbn [negb]. destruct IH as [I1 I2]; [intros X; apply NA; now right|]. rewrite I1, I2. split; reflexivity. }
  destruct F as [-> ->]. cbn [app map fst all_in forallb smem existsb orb andb]. rewrite String.eqb_refl. cbn [orb andb].
  unfold get_arr. cbn [d_get]. rewrite String.eqb_refl. f_equal. subst kws. rewrite map_map.
  clear. induction ks as [|[d s] ks IH]; [reflexivity|]. cbn [map all_some fst snd name_of option_map]. cbn in IH. now rewrite IH.
Qed.
Theorem C65_select D w e ks a r p q :
  sound D -> local_mask w -> ~ In "array" (map fst ks) ->
  deval D w e = Some a -> deval D w (c_select e ks) = Some r ->
  (forall d s, In (d, s) ks -> a_at (n_array D s) p = Txt (q d) /\ In (q d) (n_labels D d)) ->
  (forall d, ~ In d (map fst ks) -> q d = p d) ->
  a_at r p = a_at a q.
Proof.
  intros SD LW NA HE HR HK HO. rewrite select_call, HE in HR by assumption. cbn [opt2] in HR. unfold h_select in HR.
  match type of HR with (if ?b then _ else _) = _ => destruct b; [|discriminate] end. injection HR as <-. cbn [a_at].
  rewrite (proj2 (forallb_forall _ _)).
  - apply (deval_local D SD e w a LW HE). intros d _. rewrite !map_map. cbn [fst snd].
    destruct (in_dec string_dec d (map fst ks)) as [I1|N1].
    + apply (puts_in (map (fun x => fst x) ks) _ p d (fun x l => l = q x)); [|exact I1]. clear -HK.
      induction ks as [|[d s] ks IH]; cbn; constructor.
      * destruct (HK d s) as [-> _]; [now left|reflexivity].
      * apply IH. intros x y H. apply HK. now right.
    + rewrite puts_other by exact N1. symmetry. now apply HO.
  - intros k Hk. apply in_map_iff in Hk as ([d s] & <- & Hk). cbn [fst snd]. destruct (HK d s Hk) as [-> H]. cbn. now apply smem_in.
Qed.
Print Assumptions C65_select.
Theorem C65_select_nothing D w e ks a r p d s :
  ~ In "array" (map fst ks) -> deval D w e = Some a -> deval D w (c_select e ks) = Some r ->
  In (d, s) ks -> (forall l, In l (n_labels D d) -> a_at (n_array D s) p <> Txt l) ->
  a_at r p = Miss.
Proof.
  intros NA HE HR HK HN. rewrite select_call, HE in HR by assumption. cbn [opt2] in HR. unfold h_select in HR.
  match type of HR with (if ?b then _ else _) = _ => destruct b; [|discriminate] end. injection HR as <-. cbn [a_at].
  match goal with |- (if ?b then _ else _) = _ => destruct b eqn:E; [|reflexivity] end. exfalso.
  rewrite forallb_forall in E. specialize (E (d, n_array D s)). cbn [fst snd] in E.
  assert (X : found D d (a_at (n_array D s) p) = true).
  { apply E. apply in_map_iff. exists (d, s). split; [reflexivity|exact HK]. }
  unfold found in X. destruct (a_at (n_array D s) p) as [| | | |l] eqn:EL; try discriminate. apply smem_in in X. now apply (HN l X).
Qed.
Print Assumptions C65_select_nothing.
Example C65_select_example :
  map (fun t => value ex_D no_mask (c_select (EName "price") [("timesteps", "next_step")]) (ex_at [("timesteps", t)])) ["t1"; "t2"; "t3"]
  = [Some (num 30); Some (num 10); Some Miss] /\
  value ex_D no_mask (c_select (EName "flow") [("timesteps", "next_step")]) (ex_at [("timesteps", "t1"); ("techs", "a")]) = Some (num 4).
Proof. split; num_eq. Qed.

(** [get_val_at_index(d=k)] is the label at place k, from the end if k is negative; places
    that do not exist are errors. *)
Lemma val_call D w d neg s k : integer neg s k -> deval D w (c_val d neg s) = h_val D d k.
Proof.
  intros HK. change (deval D w (c_val d neg s)) with
    (match int_of (Some (scalar (number_cell neg s))) with Some z => h_val D d z | None => None end).
  now rewrite (int_literal _ _ _ HK).
Qed.
Theorem C65_value_at D w d neg s k :
  integer neg s k ->
  deval D w (c_val d neg s) = None <-> (k < - Z.of_nat (size D d) \/ Z.of_nat (size D d) <= k)%Z.
Proof.
  intros HK. rewrite (val_call D w d neg s k HK). unfold h_val, size.
  destruct (Z.ltb_spec k 0);
    match goal with |- context [Z.leb 0 ?x && Z.ltb ?x ?n] => destruct (Z.leb_spec 0 x); destruct (Z.ltb_spec x n) end;
    cbn [andb]; split; intros; try discriminate; try reflexivity; lia.
Qed.
Print Assumptions C65_value_at.
Theorem C65_value_from_start D w d s i a p :
  integer false s (Z.of_nat i) -> deval D w (c_val d false s) = Some a ->
  exists l, nth_error (n_labels D d) i = Some l /\ a_at a p = Txt l.
Proof.
  intros HK. rewrite (val_call D w d false s _ HK). unfold h_val. replace (Z.ltb (Z.of_nat i) 0) with false by (symmetry; apply Z.ltb_ge; lia).
  destruct (Z.leb_spec 0 (Z.of_nat i)); destruct (Z.ltb_spec (Z.of_nat i) (Z.of_nat (List.length (n_labels D d)))); cbn [andb]; try discriminate.
  intros [= <-]. cbn [a_at]. rewrite Nat2Z.id. exists (nth i (n_labels D d) ""). split; [apply nth_error_nth'; lia|reflexivity].
Qed.
Print Assumptions C65_value_from_start.
Theorem C65_value_from_end D w d s i a p :
  integer true s (- Z.of_nat (S i)) -> deval D w (c_val d true s) = Some a ->
  exists l, nth_error (rev (n_labels D d)) i = Some l /\ a_at a p = Txt l.
Proof.
  intros HK. rewrite (val_call D w d true s _ HK). unfold h_val. replace (Z.ltb (- Z.of_nat (S i)) 0) with true by (symmetry; apply Z.ltb_lt; lia).
  match goal with |- (if Z.leb 0 ?x && Z.ltb ?x ?n then _ else _) = _ -> _ => destruct (Z.leb_spec 0 x); destruct (Z.ltb_spec x n) end; cbn [andb]; try discriminate.
  set (n := List.length (n_labels D d)) in *. replace (Z.to_nat (Z.of_nat n + - Z.of_nat (S i))) with (n - S i) by lia.
  intros [= <-]. cbn [a_at]. unfold const.
  exists (nth (n - S i) (n_labels D d) ""). split; [|reflexivity].
  subst n. rewrite <- rev_nth by lia. apply nth_error_nth'. rewrite rev_length. lia.
Qed.
Print Assumptions C65_value_from_end.
Example C65_value_example :
  value ex_D no_mask (c_val "timesteps" false "0") (ex_at []) = Some (Txt "t1") /\
  value ex_D no_mask (c_val "timesteps" true "1") (ex_at []) = Some (Txt "t3") /\
  value ex_D no_mask (c_val "timesteps" false "3") (ex_at []) = None.
Proof. split; [num_eq|split; num_eq]. Qed.

(** [any(x, over=ds)] as a condition holds where the input has an entry - is true, for Boolean
    inputs - for some choice of labels of [ds]. *)
Definition given (boolean : bool) (c : cell) : Prop :=
  if boolean then c = Boo true else c <> Miss /\ forall b, c <> Inf b.
Theorem C65_any D bools w s ds p :
  sound D -> exists r, deval (present D bools) w (c_any s ds) = Some r /\
  (a_at r p = Boo true <->
   exists q, (forall d, In d ds -> In d (a_dims (n_array D s)) -> In (q d) (n_labels D d)) /\
             (forall d, ~ In d ds -> q d = p d) /\ given (bools s) (a_at (n_array D s) q)).
Proof.
  intros SD. set (P := present D bools). exists (h_any P ds (named P s)). split.
  { change (deval P w (c_any s ds)) with (opt2 (fun a o => Some (h_any P o a)) (Some (named P s)) (all_some (map name_of (map EName ds)))).
    now rewrite all_names. }
  assert (G : forall q, is_true (a_at (named P s) q) = true <-> given (bools s) (a_at (n_array D s) q)).
  { intros q. cbn [named a_at P present n_array n_default fill is_true missing]. unfold given, is_true.
    destruct (bools s), (a_at (n_array D s) q) as [|x|x|[]|x]; cbn; split; try discriminate; try reflexivity; try (intros _; split; congruence).
    - intros [H _]. now elim H.
    - intros [_ H]. now elim (H x). }
  cbn [h_any a_at]. change (a_dims (named P s)) with (a_dims (n_array D s)). set (a := n_array D s) in *. split.
  - intros [= H]. apply existsb_spread in H as (q & HQ & HT). exists q. split; [|split].
    + intros d H1 H2. apply (spread_labels P (shared ds (a_dims a)) p q d HQ). now apply shared_in.
    + intros d ND. apply (spread_length_ok P (shared ds (a_dims a)) p q HQ). rewrite shared_in. tauto.
    + now apply G.
  - intros (q & H1 & H2 & H3). f_equal. apply existsb_spread.
    destruct (put_in_spread P a (shared ds (a_dims a)) p q) as (q' & Q1 & Q2).
    + apply SD.
    + apply shared_nodup.
    + intros d Hd. apply shared_in in Hd. now apply H1.
    + intros d Hd Nd. apply H2. rewrite shared_in in Nd. tauto.
    + exists q'. split; [exact Q1|]. apply G. fold a. now rewrite Q2.
Qed.
Print Assumptions C65_any.
Example C65_any_example :
  let P := present ex_D (String.eqb "on") in
  map (fun t => value P no_mask (c_any "flow" ["timesteps"; "nodes"]) (ex_at [("techs", t)])) ["a"; "b"; "c"]
  = [Some (Boo true); Some (Boo true); Some (Boo false)] /\
  value P no_mask (c_any "on" ["techs"; "nodes"]) (ex_at []) = Some (Boo true) /\
  value P no_mask (c_any "nothing" ["techs"]) (ex_at []) = Some (Boo false).
Proof. split; [reflexivity|split; reflexivity]. Qed.

(** [defined(d=[...], within=v, how=any)] holds where one of the named members is combined with
    the member of [v], [how=all] where all of them are. *)
Definition combined (D : denv) (d m v l : string) : Prop :=
  exists q, inside D (a_dims (n_matrix D)) q /\ q d = m /\ q v = l /\ a_at (n_matrix D) q = Boo true.
Lemma defined_call D w d ms v how : d <> "within" -> d <> "how" ->
  deval D w (c_defined d ms v how) =
  if String.eqb how "all" then h_defined D v true [(d, ms)]
  else if String.eqb how "any" then h_defined D v false [(d, ms)] else None.
Proof.
  intros N1 N2. unfold c_defined. cbn [deval map fst snd]. change (ignores "defined") with false. cbv iota. unfold call.
  repeat match goal with |- context [if String.eqb "defined" ?s then _ else _] =>
    let b := eval vm_compute in (String.eqb "defined" s) in
    change (String.eqb "defined" s) with b; cbv iota end.
  unfold bind. cbn [bind_pos app filter fst smem existsb].
  rewrite (proj2 (String.eqb_neq d "within") N1), (proj2 (String.eqb_neq d "how") N2).
  change (String.eqb "within" "within") with true. change (String.eqb "how" "how") with true. change (String.eqb "how" "within") with false.
  cbn [orb negb app filter map fst snd all_in forallb smem existsb].
  change (String.eqb "within" "within") with true. change (String.eqb "how" "how") with true. change (String.eqb "how" "within") with false.
  cbn [orb andb negb]. unfold get_name. cbn [d_get]. change (String.eqb "within" "within") with true. change (String.eqb "how" "how") with true. change (String.eqb "how" "within") with false.
  assert (A : all_some (map name_of (map EStr ms)) = Some ms).
  { induction ms as [|m ms IH]; [reflexivity|]. cbn [map all_some name_of]. now rewrite IH. }
  cbv iota. cbn [name_of names_of all_some map fst snd]. rewrite A. reflexivity.
Qed.
Lemma known_combined D d m v p :
  sound D -> In d (a_dims (n_matrix D)) -> In v (a_dims (n_matrix D)) -> In m (n_labels D d) -> In (p v) (n_labels D v) -> d <> v ->
  existsb (fun r => is_true (a_at (n_matrix D) r)) (spread D (without [d; v] (a_dims (n_matrix D))) (put p d m)) = true
  <-> combined D d m v (p v).
Proof.
  intros SD HD HV HM HL NE. set (M := n_matrix D) in *. rewrite existsb_spread. split.
  - intros (q & HQ & HT). exists q.
    assert (QD : q d = m).
    { rewrite (spread_length_ok D _ _ q HQ); [apply put_same|]. rewrite without_in. cbn. tauto. }
    assert (QV : q v = p v).
    { rewrite (spread_length_ok D _ _ q HQ); [apply put_other; congruence|]. rewrite without_in. cbn. tauto. }
    split; [|split; [exact QD|split; [exact QV|]]].
    + intros x Hx. destruct (string_dec x d) as [->|N1]; [now rewrite QD|]. destruct (string_dec x v) as [->|N2]; [now rewrite QV|].
      apply (spread_labels D _ _ q x HQ). apply without_in. split; [exact Hx|]. intros [E|[E|[]]]; congruence.
    + fold M. destruct (a_at M q) as [| | |[]|]; try discriminate. reflexivity.
  - intros (q & HI & QD & QV & HT). fold M in HI, HT.
    destruct (put_in_spread D M (nodup string_dec (without [d; v] (a_dims M))) (put p d m) q) as (q' & Q1 & Q2).
    + apply SD.
    + apply NoDup_nodup.
    + intros x Hx. apply nodup_In in Hx. apply HI. now apply without_in in Hx.
    + intros x Hx Nx. rewrite nodup_In, without_in in Nx. destruct (string_dec x d) as [->|N1]; [now rewrite put_same|].
      rewrite put_other by congruence. destruct (string_dec x v) as [->|N2]; [exact QV|]. exfalso. apply Nx. split; [exact Hx|]. intros [E|[E|[]]]; congruence.
    + destruct (spread_in D _ _ _ Q1) as (ls & -> & HF).
      assert (INS : forall x, In x (without [d; v] (a_dims M)) -> In (puts (put p d m) (nodup string_dec (without [d; v] (a_dims M))) ls x) (n_labels D x)).
      { intros x Hx. apply (spread_labels D _ _ _ x Q1). now apply nodup_In. }
      set (q1 := puts _ _ ls) in *.
      assert (Z : exists q2, In q2 (spread D (without [d; v] (a_dims M)) (put p d m)) /\ a_at M q2 = a_at M q1).
      { exists (puts (put p d m) (without [d; v] (a_dims M)) (map q1 (without [d; v] (a_dims M)))). split.
        - unfold spread. apply in_map. apply CliProofs.product_in. clear -INS. revert INS. generalize (without [d; v] (a_dims M)).
          intros l. intros INS. induction l as [|y l IH]; cbn; constructor; [apply INS; now left|]. apply IH. intros x Hx. apply INS. now right.
        - apply (proj2 (proj2 (proj2 (proj2 (proj2 SD))))). intros x Hx. destruct (in_dec string_dec x (without [d; v] (a_dims M))) as [I1|N1].
          + apply (puts_in _ (map q1 (without [d; v] (a_dims M))) (put p d m) x (fun y l => l = q1 y)); [|exact I1].
            generalize q1. clear. intros f. induction (without [d; v] (a_dims M)) as [|y l IH]; cbn; [constructor|]. constructor; [reflexivity|exact IH].
          + rewrite puts_other by exact N1. subst q1. now rewrite puts_other by (rewrite nodup_In; exact N1). }
      destruct Z as (q2 & Z1 & Z2). exists q2. split; [exact Z1|]. now rewrite Z2, Q2, HT.
Qed.
Theorem C65_defined D w d ms v how r p :
  sound D -> d <> "within" -> d <> "how" -> d <> v -> In (p v) (n_labels D v) ->
  deval D w (c_defined d ms v how) = Some r ->
  (how = "any" /\ (a_at r p = Boo true <-> exists m, In m ms /\ combined D d m v (p v))) \/
  (how = "all" /\ (a_at r p = Boo true <-> forall m, In m ms -> combined D d m v (p v))).
Proof.
  intros SD N1 N2 NE HL. rewrite (defined_call D w d ms v how N1 N2). intros HR.
  assert (K : forall all, h_defined D v all [(d, ms)] = Some r ->
    (forall m, In m ms -> In m (n_labels D d)) /\ In d (a_dims (n_matrix D)) /\ In v (a_dims (n_matrix D)) /\
    a_at r p = Boo (if all then forallb (fun m => existsb (fun r => is_true (a_at (n_matrix D) r)) (spread D (without [d; v] (a_dims (n_matrix D))) (put p d m))) ms
                    else existsb (fun m => existsb (fun r => is_true (a_at (n_matrix D) r)) (spread D (without [d; v] (a_dims (n_matrix D))) (put p d m))) ms)).
  { intros all H. unfold h_defined in H. cbn [map fst snd app forallb] in H.
    destruct (all_in [d; v] (a_dims (n_matrix D))) eqn:E1; [|discriminate].
    destruct (all_in ms (n_labels D d)) eqn:E2; [|discriminate]. cbn [andb] in H. injection H as <-. cbn [a_at].
    rewrite all_in_spec in E1, E2. split; [exact E2|]. split; [apply E1; now left|]. split; [apply E1; right; now left|].
    assert (C : chosen [(d, ms)] p = map (put p d) ms).
    { unfold chosen. cbn [map fst snd CliModel.product]. clear. induction ms as [|m ms IH]; [reflexivity|]. cbn. f_equal. exact IH. }
    rewrite C. f_equal. clear. destruct all; induction ms as [|m ms IH]; cbn; congruence. }
  destruct (String.eqb how "all") eqn:E1; [apply String.eqb_eq in E1; right|destruct (String.eqb how "any") eqn:E2; [apply String.eqb_eq in E2; left|discriminate]].
  - split; [exact E1|]. destruct (K true HR) as (KM & KD & KV & ->). split.
    + intros [= H] m Hm. rewrite forallb_forall in H. apply known_combined; auto.
    + intros H. f_equal. apply forallb_forall. intros m Hm. apply known_combined; auto.
  - split; [exact E2|]. destruct (K false HR) as (KM & KD & KV & ->). split.
    + intros [= H]. apply existsb_exists in H as (m & Hm & H). exists m. split; [exact Hm|]. apply known_combined; auto.
    + intros (m & Hm & H). f_equal. apply existsb_exists. exists m. split; [exact Hm|]. apply known_combined; auto.
Qed.
Print Assumptions C65_defined.
(** The example of its documentation (helper_functions.py:283-300) is wrong: with [tech1] and
    [tech3] at the first node, [tech2] and [tech3] at the second, [how=any] is said to give
    true and false; it gives true for both. *)
Theorem C65_documented_example_refuted :
  let D := ex_D in
  (forall m l, combined D "techs" m "nodes" l <->
     In (l, m) [("n1", "a"); ("n1", "c"); ("n2", "b"); ("n2", "c")]) /\
  map (fun l => value D no_mask (c_defined "techs" ["a"; "b"] "nodes" "any") (ex_at [("nodes", l)])) ["n1"; "n2"]
  <> [Some (Boo true); Some (Boo false)].
Proof.
  split; [|vm_compute; discriminate]. intros m l. split.
  - intros (q & HI & <- & <- & HT). pose proof (HI "techs") as T. pose proof (HI "nodes") as N. cbn in T, N.
    specialize (T (or_intror (or_introl eq_refl))). specialize (N (or_introl eq_refl)). cbn in HT.
    destruct N as [N|[N|[]]]; destruct T as [T|[T|[T|[]]]]; rewrite <- N, <- T in *; vm_compute in HT; try discriminate HT; cbn; auto.
  - intros H. assert (X : forall n t, In n ["n1"; "n2"] -> In t ["a"; "b"; "c"] -> a_at (n_matrix ex_D) (ex_at [("nodes", n); ("techs", t); ("carriers", "el")]) = Boo true -> combined ex_D "techs" t "nodes" n).
    { intros n t Hn Ht HT. exists (ex_at [("nodes", n); ("techs", t); ("carriers", "el")]). split; [|split; [reflexivity|split; [reflexivity|exact HT]]].
      intros d [<-|[<-|[<-|[]]]]; [exact Hn|exact Ht|now left]. }
    repeat (destruct H as [H|H]; [injection H as <- <-; apply X; cbn; auto|]). destruct H.
Qed.
Print Assumptions C65_documented_example_refuted.
(** Names that are no members are an error, also the base name of a transmission technology,
    for which the documentation (helper_functions.py:273) promises all links. *)
Theorem C65_unknown_member D w d ms v how m :
  d <> "within" -> d <> "how" -> In m ms -> ~ In m (n_labels D d) -> deval D w (c_defined d ms v how) = None.
Proof.
  intros N1 N2 Hm NM. rewrite (defined_call D w d ms v how N1 N2).
  assert (K : forall all, h_defined D v all [(d, ms)] = None).
  { intros all. unfold h_defined. cbn [map fst snd app forallb].
    destruct (all_in ms (n_labels D d)) eqn:E; [exfalso; rewrite all_in_spec in E; now apply NM, E|]. cbn [andb]. now rewrite andb_false_r. }
  rewrite !K. destruct (String.eqb how "all"); [reflexivity|]. destruct (String.eqb how "any"); reflexivity.
Qed.
Print Assumptions C65_unknown_member.
Example C65_defined_example :
  value ex_D no_mask (c_defined "techs" ["a"; "c"] "nodes" "all") (ex_at [("nodes", "n1")]) = Some (Boo true) /\
  value ex_D no_mask (c_defined "techs" ["a"; "c"] "nodes" "all") (ex_at [("nodes", "n2")]) = Some (Boo false) /\
  value ex_D no_mask (c_defined "techs" ["a"; "line"] "nodes" "any") (ex_at [("nodes", "n2")]) = None.
Proof. split; [reflexivity|split; reflexivity]. Qed.

(** * C66 Sub-expressions *)

(** An equation that refers to sub-expressions has the value it has with the sub-expressions
    written in their place, in brackets. *)
Theorem C66_in_place D sb w e a :
  deval (subs_in D sb) w e = Some a -> deval D w (inline sb e) = Some a.
Proof. apply inline_ok. Qed.
Print Assumptions C66_in_place.
Example C66_example :
  let sb := [("total", EChain (EName "flow") [(OMul, EName "price")])] in
  value (subs_in ex_D sb) ex_mask (c_sum (ERef "total") ["timesteps"]) (ex_at [("techs", "a")]) = Some (num 170) /\
  inline sb (c_sum (ERef "total") ["timesteps"]) = c_sum (EChain (EName "flow") [(OMul, EName "price")]) ["timesteps"].
Proof. split; [num_eq|reflexivity]. Qed.
(** Without calls the value is that of EvalModel.v, about which C33 and C34 speak. *)
Theorem C66_call_free D w e a p :
  call_free e = true -> deval D w e = Some a -> a_at a p = aeval (plain_env D) (m_at w) e p.
Proof. intros CF HE. now apply deval_call_free. Qed.
Print Assumptions C66_call_free.
Example C66_call_free_example :
  call_free (EChain (EName "flow") [(OMul, EName "price")]) = true /\
  value ex_D ex_mask (EChain (EName "flow") [(OMul, EName "price")]) (ex_at [("techs", "a"); ("timesteps", "t3")]) = Some (num 120).
Proof. split; [reflexivity|num_eq]. Qed.

(** * Slices *)
(** A component sliced by a reference takes, at each place, the entry at the label that the text
    of the slice has there; a slice that does not exist is an error. *)
Theorem C66_slices D sl w x d s :
  In d (a_dims (n_array D x)) ->
  match d_get s sl with
  | Some e =>
      match deval D no_mask e with
      | Some b => exists r, deval (slices_in D sl) w (EIndex x [(d, ESlice s)]) = Some r /\
          (forall k, In k (a_dims r) <-> (In k (a_dims (n_array D x)) /\ k <> d) \/ In k (a_dims b)) /\
          forall p l, a_at b p = Txt l ->
            a_at r p = match a_at (n_array D x) (put p d l) with Miss => n_default D x | c => c end
      | None => deval (slices_in D sl) w (EIndex x [(d, ESlice s)]) = None
      end
  | None => deval (slices_in D sl) w (EIndex x [(d, ESlice s)]) = None
  end.
Proof.
  intros HD. apply smem_in in HD. cbn [deval fold_right fst snd]. unfold slice_dim. cbn [named a_dims slices_in n_array n_slice]. rewrite HD. cbn [negb].
  destruct (d_get s sl) as [e|] eqn:Es; [|reflexivity]. destruct (deval D no_mask e) as [b|] eqn:Eb; [|reflexivity].
  eexists. split; [reflexivity|]. cbn [a_dims a_at]. split.
  - intros k. rewrite merge_in, without_in. cbn. intuition congruence.
  - intros p l Hl. unfold slice_at, plain_env. cbn [e_slice n_slice slices_in]. rewrite Es, Eb, Hl. cbn [label].
    unfold named. cbn [a_at n_array n_default slices_in]. unfold fill. now destruct (a_at (n_array D x) (put p d l)).
Qed.
Print Assumptions C66_slices.
Example C66_slices_example :
  value (slices_in ex_D [("next", EName "next_step")]) no_mask (EIndex "price" [("timesteps", ESlice "next")]) (ex_at [("timesteps", "t1")]) = Some (num 30) /\
  value (slices_in ex_D [("last", EStr "t3")]) no_mask (EIndex "flow" [("timesteps", ESlice "last")]) (ex_at [("techs", "a")]) = Some (num 4).
Proof. split; num_eq. Qed.
