(** Properties of data tables (C85-C88). *)
From Verif Require Import Base AttrDictModel NodeModel DataModel DataSpec TableModel TableSpec TableProofs.
Local Open Scope string_scope.
Local Open Scope list_scope.

(** The table of docs/basic/data_tables.md on scenarios, with a comment and two inputs to fill. *)
Definition scen_frame : frame :=
  {| f_rows := [Some "techs"; None]; f_cols := [None];
     f_header := [["s1"]; ["s2"]];
     f_body := [(["pv"; "north"], [Num 100; Num 200]); (["pv"; "south"], [Num 3; NaN]); (["wind"; "north"], [NaN; Num 45])] |}.
Definition scen_table : table :=
  {| t_rows := Some ["techs"; "nodes"]; t_cols := Some ["scenarios"]; t_select := [("scenarios", ["s1"])]; t_drop := ["scenarios"];
     t_add := [("inputs", ["flow_cap_min"; "flow_cap_max"])]; t_rename := [] |}.
Definition here2 (n t : string) : pos := fun d => if String.eqb d "nodes" then n else if String.eqb d "techs" then t else "".

(** C85.  A loaded table has, for every input and position, exactly the selected entries of the frame that belong there. *)
Theorem C85_cells strict t f ds i p c : accepted t -> regular f -> squared t f -> snd (load strict t f) = Ok ds -> c <> NaN ->
  (holds ds i p c <-> exists a j r h, entry_at f a j r h c /\ picked t (labels_of t r h) /\ lands t (labels_of t r h) (place i p)).
Proof. intros A R Q L. now apply load_holds with (strict := strict). Qed.
Print Assumptions C85_cells.

(** Every array has the dimensions of rows and columns that are not dropped and those added. *)
Theorem C85_dims strict t f ds i a d : accepted t -> regular f -> squared t f -> snd (load strict t f) = Ok ds -> In (i, a) (vars ds) ->
  (In d (a_dims a) <-> (kept_dim t d \/ added_dim t d) /\ d <> "inputs").
Proof. intros A R Q L. now apply load_dims with (strict := strict) (f := f). Qed.
Print Assumptions C85_dims.

(** Two entries for the same place are refused: no entry is lost. *)
Theorem C85_no_loss strict t f a j r h c a' j' r' h' c' q : accepted t -> regular f -> squared t f ->
  entry_at f a j r h c -> entry_at f a' j' r' h' c' -> c <> NaN -> c' <> NaN -> (a, j) <> (a', j') ->
  picked t (labels_of t r h) -> picked t (labels_of t r' h') -> lands t (labels_of t r h) q -> lands t (labels_of t r' h') q ->
  forall ds, snd (load strict t f) <> Ok ds.
Proof.
  intros A R Q AT AT' NC NC' NE PK PK' LA LA' ds L. apply NE.
  destruct (load_once strict t f ds A R Q L a j r h c a' j' r' h' c' q q NC NC' AT AT' PK PK' LA LA') as [-> ->]; trivial.
Qed.
Print Assumptions C85_no_loss.

(** Names kept for the model definition are refused; loaded arrays depend on their dimensions only. *)
Theorem C85_protected strict t f ds i p c : snd (load strict t f) = Ok ds -> holds ds i p c -> ~ In i ["active"; "definition_matrix"; "template"; "templates"].
Proof. intros L (a & X & _). exact (load_unprotected strict t f ds i a L X). Qed.
Print Assumptions C85_protected.
Theorem C85_wellformed strict t f ds : accepted t -> regular f -> squared t f -> snd (load strict t f) = Ok ds -> proper_dset ds.
Proof. intros A R Q L. now apply load_proper with (strict := strict) (t := t) (f := f). Qed.
Print Assumptions C85_wellformed.

Example C85_accepted : accepted scen_table /\ regular scen_frame /\ squared scen_table scen_frame.
Proof.
  split; [|split].
  - repeat split; cbn; repeat constructor; cbn; intuition discriminate.
  - split; cbn.
    + intros r cs [E|[E|[E|[]]]]; injection E as <- <-; now split.
    + intros h [<-|[<-|[]]]; reflexivity.
  - split; discriminate.
Qed.
Example C85_loaded : exists ds, snd (load true scen_table scen_frame) = Ok ds /\
  holds ds "flow_cap_max" (here2 "south" "pv") (Num 3) /\ holds ds "flow_cap_min" (here2 "north" "pv") (Num 100) /\
  ~ holds ds "flow_cap_max" (here2 "north" "wind") (Num 45).
Proof.
  destruct (snd (load true scen_table scen_frame)) as [ds|e] eqn:L; [|vm_compute in L; discriminate L]. exists ds. split; [trivial|].
  destruct C85_accepted as (A & R & Q).
  pose proof (fun i p c => C85_cells true scen_table scen_frame ds i p c A R Q L) as C.
  assert (forall r h, In "s1" h -> h = ["s1"] -> picked scen_table (labels_of scen_table r h)) as PK.
  { intros r h _ -> d w l [E|[]] X. injection E as <- <-. unfold labels_of in X. cbn in X. destruct r as [|r1 [|r2 r]]; cbn in X; repeat (destruct X as [X|X]); try contradiction; try discriminate X; inversion X; subst; now left. }
  assert (forall i n t, In i ["flow_cap_min"; "flow_cap_max"] -> lands scen_table (labels_of scen_table [t; n] ["s1"]) (place i (here2 n t))) as LA.
  { intros i n t I. split.
    - intros d [D ND]. cbn in D, ND. destruct D as [<-|[<-|[<-|[]]]]; cbn; [now left|right; now left|]. contradiction ND. now left.
    - intros d items [E|[]]. injection E as <- <-. exact I. }
  split; [|split].
  - apply C; [discriminate|]. exists 1, 0, ["pv"; "south"], ["s1"]. split; [now eexists|]. split; [apply PK; [now left|trivial]|]. apply LA. right. now left.
  - apply C; [discriminate|]. exists 0, 0, ["pv"; "north"], ["s1"]. split; [now eexists|]. split; [apply PK; [now left|trivial]|]. apply LA. now left.
  - intros H. apply C in H; [|discriminate]. destruct H as (a & j & r & h & (cs & B & H & X) & P & _).
    assert (h = ["s1"]) as ->.
    { destruct j as [|[|j]]; cbn in H; [now injection H as <-| |destruct j; discriminate H]. injection H as <-. exfalso.
      specialize (P "scenarios" ["s1"] "s2" (or_introl eq_refl)). destruct P as [P|[]]; [|discriminate P]. unfold labels_of. apply in_app_iff. right. now left. }
    destruct j as [|[|j]]; cbn in H; [|discriminate H|destruct j; discriminate H].
    destruct a as [|[|[|a]]]; cbn in B; [injection B as <- <-|injection B as <- <-|injection B as <- <-|destruct a; discriminate B]; cbn in X; discriminate X.
Qed.
Example C85_clash : forall strict ds, snd (load strict {| t_rows := Some ["techs"; "nodes"]; t_cols := Some ["scenarios"]; t_select := []; t_drop := ["scenarios"]; t_add := [("inputs", ["flow_cap_max"])]; t_rename := [] |} scen_frame) <> Ok ds.
Proof. intros [] ds L; vm_compute in L; discriminate L. Qed.

(** The statement fails for a frame with several columns and no dimension for them: an array gets a dimension nobody has
    named. *)
Theorem C85_unnamed_refuted : exists strict t f ds i a, accepted t /\ regular f /\ snd (load strict t f) = Ok ds /\ In (i, a) (vars ds) /\
  exists d, In d (a_dims a) /\ ~ In d (own_dims t) /\ ~ added_dim t d.
Proof.
  exists true, {| t_rows := Some ["techs"]; t_cols := None; t_select := []; t_drop := []; t_add := [("inputs", ["flow_cap_max"])]; t_rename := [] |},
    {| f_rows := [Some "techs"]; f_cols := [None]; f_header := [["2030"]; ["2050"]]; f_body := [(["pv"], [Num 1; Num 2])] |}.
  do 3 eexists. split; [|split; [|split; [vm_compute; reflexivity|split; [now left|]]]].
  - repeat split; cbn; repeat constructor; cbn; intuition discriminate.
  - split; cbn; [intros r cs [E|[]]; injection E as <- <-; now split|intros h [<-|[<-|[]]]; reflexivity].
  - exists "level_1". split; [right; now left|]. split; cbn; intuition discriminate.
Qed.
Print Assumptions C85_unnamed_refuted.

(** A dimension to select from that the table does not have is passed over: everything is loaded. *)
Theorem C85_select_refuted : exists strict t f ds d want, accepted t /\ regular f /\ squared t f /\ In (d, want) (t_select t) /\ ~ In d (own_dims t) /\
  snd (load strict t f) = Ok ds /\ holds ds "flow_cap_max" (here2 "" "pv") (Num 1) /\ holds ds "flow_cap_max" (here2 "" "wind") (Num 2).
Proof.
  exists true, {| t_rows := Some ["techs"]; t_cols := None; t_select := [("tech", ["pv"])]; t_drop := []; t_add := [("inputs", ["flow_cap_max"])]; t_rename := [] |},
    {| f_rows := [Some "techs"]; f_cols := [None]; f_header := [["0"]]; f_body := [(["pv"], [Num 1]); (["wind"], [Num 2])] |}.
  do 3 eexists. split; [|split; [|split; [|split; [now left|split; [|split; [vm_compute; reflexivity|]]]]]].
  - repeat split; cbn; repeat constructor; cbn; intuition discriminate.
  - split; cbn; [intros r cs [E|[E|[]]]; injection E as <- <-; now split|intros h [<-|[]]; reflexivity].
  - split; [reflexivity|discriminate].
  - cbn. intuition discriminate.
  - split; (eexists; split; [now left|split; [|reflexivity]]); intros d [<-|[]]; eexists; (split; [now left|]); cbn; tauto.
Qed.
Print Assumptions C85_select_refuted.

(** C86.  Tables that share a frame are loaded as if alone, provided that they name its levels in the same way. *)
Theorem C86_partial strict ts dfs out :
  (forall n t df, In (n, (df, t)) ts -> forall d, In d (own_dims t) -> ~ In d (map fst (t_rename t))) ->
  (forall n t n' t' df, In (n, (df, t)) ts -> In (n', (df, t')) ts -> t_rows t = t_rows t' /\ t_cols t = t_cols t' /\ t_rename t = t_rename t') ->
  snd (load_all strict ts dfs) = Ok out ->
  Forall2 (fun d o => fst d = fst o /\ exists f, d_get (fst (snd d)) dfs = Some f /\ snd (load strict (snd (snd d)) f) = Ok (snd o)) ts out.
Proof.
  intros UN AL L. apply (load_all_alone strict ts dfs dfs out); trivial.
  - intros df f G. exists f. split; [trivial|now left].
  - intros n t df X d D. cbn. destruct (d_get d (t_rename t)) as [s'|] eqn:G; [|trivial]. exfalso. apply (UN _ _ _ X d D). apply d_get_found in G. now apply (in_map fst) in G.
Qed.
Print Assumptions C86_partial.
Example C86_example : exists out,
  snd (load_all true [("min", ("df", scen_table)); ("max", ("df", {| t_rows := Some ["techs"; "nodes"]; t_cols := Some ["scenarios"]; t_select := [("scenarios", ["s2"])]; t_drop := ["scenarios"];
     t_add := [("inputs", ["source_use_max"])]; t_rename := [] |}))] [("df", scen_frame)]) = Ok out /\ List.length out = 2.
Proof. eexists. split; [vm_compute; reflexivity|reflexivity]. Qed.

(** Otherwise not: the frame given by the caller is changed, and tables that load alone fail together. *)
Theorem C86_refuted : exists strict t u f ds du e, accepted t /\ accepted u /\ regular f /\ squared t f /\ squared u f /\
  snd (load strict t f) = Ok ds /\ snd (load strict u f) = Ok du /\
  fst (load strict t f) <> f /\ snd (load_all strict [("a", ("df", t)); ("b", ("df", u))] [("df", f)]) = Err e.
Proof.
  exists true, {| t_rows := Some ["techs"]; t_cols := None; t_select := []; t_drop := []; t_add := [("inputs", ["flow_cap_max"])]; t_rename := [] |},
    {| t_rows := Some ["nodes"]; t_cols := None; t_select := []; t_drop := []; t_add := [("inputs", ["available_area"])]; t_rename := [] |},
    {| f_rows := [None]; f_cols := [None]; f_header := [["0"]]; f_body := [(["a"], [Num 1]); (["b"], [Num 2])] |}.
  do 3 eexists.
  split; [repeat split; cbn; repeat constructor; cbn; intuition discriminate|]. split; [repeat split; cbn; repeat constructor; cbn; intuition discriminate|].
  split; [split; cbn; [intros r cs [E|[E|[]]]; injection E as <- <-; now split|intros h [<-|[]]; reflexivity]|].
  split; [split; [reflexivity|discriminate]|]. split; [split; [reflexivity|discriminate]|].
  split; [vm_compute; reflexivity|]. split; [vm_compute; reflexivity|]. split; [cbn; discriminate|]. vm_compute. reflexivity.
Qed.
Print Assumptions C86_refuted.

(** C87.  Technologies at nodes are taken from tables exactly where an input over nodes and technologies has an entry; it
    is refused exactly if one of these technologies is unknown or a link. *)
Theorem C87_nodes techs links ds d : proper_dset ds -> (forall i a, In (i, a) (vars ds) -> NoDup (a_dims a)) -> node_dict techs links ds = Ok d ->
  forall n t, lists_tech d n t <-> data_at ds n t.
Proof. intros P N. now apply node_dict_lists. Qed.
Print Assumptions C87_nodes.
Theorem C87_refusal techs links ds : proper_dset ds -> (forall i a, In (i, a) (vars ds) -> NoDup (a_dims a)) ->
  ((exists d, node_dict techs links ds = Ok d) <-> forall n t, data_at ds n t -> In t techs /\ ~ In t links).
Proof. intros P N. symmetry. now apply node_dict_total. Qed.
Print Assumptions C87_refusal.
Definition site_table (t : string) : dset :=
  {| coords := [("techs", ["pv"; "wind"]); ("nodes", ["north"; "south"])];
     vars := [("flow_cap_max", {| a_dims := ["techs"; "nodes"]; a_bool := false;
        a_at := fun p => if String.eqb (p "techs") t && String.eqb (p "nodes") "south" then Num 5 else NaN |})] |}.
Example C87_example : node_dict ["pv"; "wind"] [] (site_table "wind") = Ok [("north", VDict [("techs", VDict [])]); ("south", VDict [("techs", VDict [("wind", VNone)])])].
Proof. reflexivity. Qed.
Example C87_example_ok : proper_dset (site_table "wind") /\ data_at (site_table "wind") "south" "wind".
Proof.
  split.
  - constructor; cbn.
    + repeat constructor; cbn; intuition discriminate.
    + repeat constructor; cbn; intuition discriminate.
    + intros n a [E|[]]. injection E as <- <-. intros i j A. cbn in *. rewrite (A "techs") by now left. now rewrite (A "nodes") by (right; now left).
  - do 2 eexists. exists (here2 "south" "wind"). split; [now left|]. cbn. repeat split; try tauto; [|discriminate].
    intros d [<-|[<-|[]]]; eexists; (split; [cbn; tauto|cbn; tauto]).
Qed.

(** A technology that is switched off ("active: false") and has such an entry is unknown at this point: the model cannot be
    loaded, although the same model with the technology on can. *)
Theorem C87_inactive_refuted : exists lookups nodes tables techs_on techs_off out e,
  techs_on = [("pv", VDict [("base_tech", VStr "supply"); ("active", VBool true)]); ("wind", VDict [("base_tech", VStr "supply")])] /\
  techs_off = [("pv", VDict [("base_tech", VStr "supply"); ("active", VBool false)]); ("wind", VDict [("base_tech", VStr "supply")])] /\
  from_tables lookups techs_on nodes tables = Ok out /\ from_tables lookups techs_off nodes tables = Err e /\ e = EKey.
Proof. exists [], [], [("caps", site_table "pv")]. do 4 eexists. split; [reflexivity|]. split; [reflexivity|]. split; [vm_compute; reflexivity|]. split; vm_compute; reflexivity. Qed.
Print Assumptions C87_inactive_refuted.

(** C88.  A lookup array in a table gives for each technology the labels at which it has an entry. *)
Theorem C88_lookup param dim ds d : proper_dset ds -> (forall i a, In (i, a) (vars ds) -> NoDup (a_dims a)) -> NoDup (members ds "techs") -> dim <> "techs" ->
  lookup_dict param dim ds = Ok d -> forall t l, gives d t param l <-> entry_for ds param dim t l.
Proof. intros P N M NE L. now apply lookup_dict_gives. Qed.
Print Assumptions C88_lookup.
Definition carrier_table (c : cell) : dset :=
  {| coords := [("techs", ["pv"; "chp"]); ("carriers", ["power"; "heat"])];
     vars := [("carrier_out", {| a_dims := ["techs"; "carriers"]; a_bool := false;
        a_at := fun p => if String.eqb (p "carriers") "power" then Num 1 else if String.eqb (p "techs") "chp" then c else NaN |})] |}.
Example C88_example : lookup_dict "carrier_out" "carriers" (carrier_table (Num 1)) =
  Ok [("pv", VDict [("carrier_out", VStr "power")]); ("chp", VDict [("carrier_out", VList [VStr "power"; VStr "heat"])])].
Proof. reflexivity. Qed.
(** Entries of False or zero count as well. *)
Theorem C88_false_refuted : exists ds d t l a p, lookup_dict "carrier_out" "carriers" ds = Ok d /\ d_get "carrier_out" (vars ds) = Some a /\
  p "techs" = t /\ p "carriers" = l /\ within ds (a_dims a) p /\ a_at a p = Bo false /\ gives d t "carrier_out" l.
Proof.
  exists (carrier_table (Bo false)), [("pv", VDict [("carrier_out", VStr "power")]); ("chp", VDict [("carrier_out", VList [VStr "power"; VStr "heat"])])], "chp", "heat".
  eexists. exists (fun d => if String.eqb d "techs" then "chp" else "heat"). split; [reflexivity|]. split; [reflexivity|]. repeat split.
  - intros d [<-|[<-|[]]]; eexists; (split; [cbn; tauto|cbn; tauto]).
  - eexists. split; [reflexivity|]. right. eexists. split; [reflexivity|]. right. now left.
Qed.
Print Assumptions C88_false_refuted.

(** "If a new table has data which clashes with preceding tables, it will override that data" (docs/basic/data_tables.md): true of arrays
    (C27), not of base technologies, link ends and lookup arrays. *)
Definition base_table (b : string) : dset :=
  {| coords := [("techs", ["pv"])]; vars := [("base_tech", {| a_dims := ["techs"]; a_bool := false; a_at := fun _ => Str b |})] |}.
Theorem C88_override_refuted : exists tables out1 out2 e,
  from_tables [] [] [] (firstn 1 tables) = Ok out1 /\ from_tables [] [] [] (skipn 1 tables) = Ok out2 /\ from_tables [] [] [] tables = Err e /\ e = EKey.
Proof. exists [("a", base_table "supply"); ("b", base_table "conversion")]. do 3 eexists. split; [vm_compute; reflexivity|]. split; [vm_compute; reflexivity|]. split; vm_compute; reflexivity. Qed.
Print Assumptions C88_override_refuted.
