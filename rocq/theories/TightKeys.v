(** Further theorems on C01 and C85, found missing by changing the model. *)
From Verif Require Import Base BaseProofs AttrDictModel AttrDictSpec AttrDictProofs AttrDictUnion.
From Verif Require DataModel TableModel.
Local Open Scope string_scope.
Local Open Scope list_scope.

(** * C01: looking up *)
(** Looking up a key gives what is stored there, also if that is None; the default, or an error if there is none, is
    given exactly if nothing is stored there. *)
Theorem C01_lookup key def d : wf (VDict d) ->
  (forall v, at_path (VDict d) (split_dot key) v -> api_get key d = Ok v /\ get_key_default (split_dot key) def d = v) /\
  ((~ exists v, at_path (VDict d) (split_dot key) v) -> (exists e, api_get key d = Err e) /\ get_key_default (split_dot key) def d = def).
Proof.
  intros W; assert (NN : split_dot key <> []) by apply split_on_nonnil.
  unfold api_get, get_key_default; split.
  - intros v H; apply (at_lk _ _ _ W), (get_key_lk _ _ _ NN) in H; rewrite H; split; reflexivity.
  - intros H; destruct (get_key (split_dot key) d) as [v|e] eqn:G; [|split; [exists e; reflexivity|reflexivity]].
    exfalso; apply H; exists v; apply (at_lk _ _ _ W), (get_key_lk _ _ _ NN), G.
Qed.
Print Assumptions C01_lookup.
Example C01_lookup_example :
  let d := [("config", VDict [("subset", VNone); ("mode", VStr "plan")])] in
  get_key_default (split_dot "config.subset") (VInt 1) d = VNone /\
  get_key_default (split_dot "config.mode.x") (VInt 1) d = VInt 1 /\ api_get "config.other" d = Err EKey.
Proof. repeat split. Qed.

(** * C85: names of levels, missing labels and dropped levels *)
Section Tables.
Import DataModel TableModel.

(** A level of a frame may be called [d] in the table: it has no name, the name [d] or one that is changed to [d]. *)
Definition may_be (changes : list (string * string)) (level : option string) (d : string) : Prop :=
  forall s, level = Some s -> d_get s changes = Some d \/ d_get s changes = None /\ s = d.
Definition fits (changes : list (string * string)) (levels : list (option string)) (dims : option (list string)) : Prop :=
  match dims with Some ds => Forall2 (may_be changes) levels ds | None => List.length levels = 1 end.
Lemma fit_all m levels : forall ds, List.length levels = List.length ds -> (names_fit (map (renamed m) levels) ds = true <-> Forall2 (may_be m) levels ds).
Proof.
  induction levels as [|o levels IH]; intros [|d ds] L; try discriminate L; [split; [constructor|reflexivity]|].
  injection L as L; specialize (IH ds L); cbn [map].
  assert (R : Forall2 (may_be m) (o :: levels) (d :: ds) <-> may_be m o d /\ Forall2 (may_be m) levels ds)
    by (split; [intros F; inversion F; auto|intros [A B]; constructor; assumption]).
  rewrite R; destruct o as [s|]; cbn [renamed].
  - assert (M : may_be m (Some s) d <-> match d_get s m with Some s' => s' | None => s end = d).
    { unfold may_be; split.
      - intros H; destruct (H s eq_refl) as [-> |[-> E]]; auto.
      - intros H s' E; injection E as <-; destruct (d_get s m) as [x|]; [left; congruence|right; auto]. }
    rewrite M, <- IH; destruct (d_get s m) as [x|]; cbn [names_fit]; rewrite andb_true_iff, String.eqb_eq; tauto.
  - cbn [names_fit]; rewrite IH; unfold may_be; split; [intros H; split; [discriminate|exact H]|tauto].
Qed.
Lemma axis_all m levels dims : snd (name_axis m levels dims) = Ok tt <-> fits m levels dims.
Proof.
  unfold name_axis, fits; destruct dims as [ds|].
  - destruct (Nat.eqb_spec (List.length levels) (List.length ds)) as [L|L]; cbn [negb].
    + rewrite <- (fit_all m levels ds L); destruct (names_fit _ _); cbn [snd]; split; congruence.
    + cbn [snd]; split; [discriminate|]; intros F; destruct L; induction F; cbn [List.length]; congruence.
  - cbn [snd]; destruct (Nat.eqb_spec (List.length levels) 1); split; congruence.
Qed.
(** The levels of a frame are named iff they fit the dimensions of rows and columns one by one; loading fails otherwise. *)
Theorem C85_levels t f : snd (name_levels t f) = Ok tt <-> fits (t_rename t) (f_cols f) (t_cols t) /\ fits (t_rename t) (f_rows f) (t_rows t).
Proof.
  rewrite <- !axis_all; unfold name_levels; destruct (name_axis (t_rename t) (f_cols f) (t_cols t)) as [c [[]|e]]; cbn [fst snd]; [tauto|].
  split; [discriminate|intros [A _]; discriminate A].
Qed.
Print Assumptions C85_levels.
Theorem C85_levels_refused strict t f ds : snd (load strict t f) = Ok ds -> fits (t_rename t) (f_cols f) (t_cols t) /\ fits (t_rename t) (f_rows f) (t_rows t).
Proof.
  intros L; apply C85_levels; unfold load in L; cbn [snd] in L; destruct (snd (name_levels t f)) as [[]|e]; [reflexivity|discriminate L].
Qed.
Print Assumptions C85_levels_refused.
Example C85_levels_example :
  let t := {| t_rows := Some ["techs"]; t_cols := Some ["nodes"]; t_select := []; t_drop := []; t_add := [("inputs", ["flow_cap_max"])]; t_rename := [("site", "nodes")] |} in
  let f s := {| f_rows := [None]; f_cols := [Some s]; f_header := [["north"]]; f_body := [(["pv"], [Num 1])] |} in
  snd (name_levels t (f "site")) = Ok tt /\ snd (name_levels t (f "place")) = Err EModel /\
  map fst (coords (match snd (load true t (f "site")) with Ok ds => ds | Err _ => {| coords := []; vars := [] |} end)) = ["techs"; "nodes"].
Proof. repeat split. Qed.

(** Where pandas refuses labels that are not there, each label to be selected is there. *)
Theorem C85_labels sel s s' k d want l : select_labels true sel s = Ok s' -> nth_error (s_names s) k = Some (Some d) -> d_get d sel = Some want -> In l want ->
  exists e, In e (s_entries s) /\ nth k (fst e) "" = l.
Proof.
  unfold select_labels; destruct (present true sel s) eqn:P; [intros _|discriminate]; intros K G I.
  unfold present in P; cbn [negb orb] in P; rewrite forallb_forall in P.
  specialize (P k); rewrite (nth_error_nth _ _ None K), G in P.
  assert (J : In k (seq 0 (List.length (s_names s)))) by (apply in_seq; split; [apply Nat.le_0_l|apply nth_error_Some; congruence]).
  apply P in J; rewrite forallb_forall in J; apply J in I; apply existsb_exists in I; destruct I as (e & E & X).
  exists e; split; [exact E|apply String.eqb_eq, X].
Qed.
Print Assumptions C85_labels.
Example C85_labels_example :
  let s := {| s_names := [Some "techs"]; s_entries := [(["pv"], Num 1); (["wind"], Num 2)] |} in
  select_labels true [("techs", ["pv"])] s = Ok {| s_names := [Some "techs"]; s_entries := [(["pv"], Num 1)] |} /\
  select_labels true [("techs", ["pv"; "gas"])] s = Err EKey /\
  select_labels false [("techs", ["pv"; "gas"])] s = Ok {| s_names := [Some "techs"]; s_entries := [(["pv"], Num 1)] |}.
Proof. repeat split. Qed.

(** Dropping removes the levels that are named, and no other: levels without a name stay. *)
Theorem C85_dropped ds s s' n : drop_levels ds s = Ok s' -> (In n (s_names s') <-> In n (s_names s) /\ forall d, In d ds -> n <> Some d).
Proof.
  assert (D : forall n, dropped ds n = false <-> forall d, In d ds -> n <> Some d).
  { intros [s0|]; cbn [dropped]; [|split; [discriminate|reflexivity]].
    split; [intros F d I E; injection E as ->; apply smem_in in I; congruence|].
    intros H; destruct (smem s0 ds) eqn:X; [|reflexivity]; apply smem_in in X; destruct (H s0 X eq_refl). }
  rewrite <- D; unfold drop_levels; destruct ds as [|d0 ds0].
  - intros E; injection E as <-; destruct n; cbn [dropped smem existsb]; tauto.
  - destruct (existsb _ _); [discriminate|]; destruct (existsb _ _); [discriminate|]; destruct (forallb _ _); [discriminate|].
    intros E; injection E as <-; cbn [s_names]; rewrite filter_In, negb_true_iff; tauto.
Qed.
Print Assumptions C85_dropped.
Example C85_dropped_example :
  drop_levels ["unit"] {| s_names := [Some "techs"; None; Some "unit"]; s_entries := [(["pv"; "a"; "kW"], Num 1)] |} =
  Ok {| s_names := [Some "techs"; None]; s_entries := [(["pv"; "a"], Num 1)] |}.
Proof. reflexivity. Qed.

(** In a table that passes the checks no two levels have the same name, and at most one has none; one is "inputs". *)
Theorem C85_distinct s s' : checked s = Ok s' -> NoDup (s_names s) /\ In (Some "inputs") (s_names s).
Proof.
  assert (T : forall l, twice_names l = false -> NoDup l).
  { induction l as [|x l IH]; cbn [twice_names]; [constructor|]; intros F; apply orb_false_iff in F; destruct F as [A B]; constructor; [|auto].
    intros I; enough (X : existsb (fun y => match x, y with Some a, Some b => String.eqb a b | None, None => true | _, _ => false end) l = true) by congruence.
    apply existsb_exists; exists x; split; [exact I|]; destruct x; [apply String.eqb_refl|reflexivity]. }
  unfold checked; destruct (existsb (named "inputs") (s_names s)) eqn:N; cbn [negb]; [|discriminate].
  destruct (twice _); [discriminate|]; destruct (twice_names (s_names s)) eqn:D; [discriminate|]; intros _.
  split; [apply T, D|]; apply existsb_exists in N; destruct N as ([x|] & I & E); [|discriminate E].
  apply String.eqb_eq in E; subst x; exact I.
Qed.
Print Assumptions C85_distinct.
Example C85_distinct_example :
  let s n := {| s_names := [Some "inputs"; None; n]; s_entries := [(["flow_cap_max"; "a"; "b"], Num 1)] |} in
  checked (s (Some "techs")) = Ok (s (Some "techs")) /\ checked (s None) = Err EModel.
Proof. split; reflexivity. Qed.
End Tables.
