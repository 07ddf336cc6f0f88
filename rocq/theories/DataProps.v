(** Cleaning, merging and subsetting the model inputs: C26, C27, C62. *)
From Verif Require Import Base BaseProofs DataModel DataSpec DataProofs DataMore.
Local Open Scope string_scope.
Local Open Scope list_scope.

(** *** C26 *)
(** Carrier arrays are over nodes, techs and carriers. *)
Definition carrier_dims (ds : dset) : Prop :=
  forall n a, n = "carrier_in" \/ n = "carrier_out" -> In (n, a) (vars ds) -> incl (a_dims a) ["nodes"; "techs"; "carriers"].

(** A member survives cleaning iff, for nodes, techs and carriers, it takes part in a combination. *)
Theorem C26_members ds ds' : proper_dset ds -> carrier_dims ds -> clean ds = Ok ds' ->
  forall d m, member ds' d m <->
    member ds d m /\ (In d ["nodes"; "techs"; "carriers"] -> exists i, combination ds i /\ i d = m).
Proof. intros P C H d m; exact (clean_members ds P C ds' d m H). Qed.
Print Assumptions C26_members.

(** Data of retained combinations is the same before and after; other entries are gone; the definition
    matrix is true exactly at the combinations. *)
Theorem C26_data ds ds' : proper_dset ds -> carrier_dims ds -> (forall n a, In (n, a) (vars ds) -> typed a) -> clean ds = Ok ds' ->
  (forall n a i c, n <> "definition_matrix" -> In (n, a) (vars ds) -> within ds' (a_dims a) i ->
     (exists j, agree (a_dims a) i j /\ combination ds j) -> c <> NaN -> (holds ds' n i c <-> holds ds n i c)) /\
  (forall n i c, n <> "definition_matrix" -> holds ds' n i c ->
     (forall a, In (n, a) (vars ds) -> ~ exists j, agree (a_dims a) i j /\ combination ds j) -> c = NaN \/ c = Bo false) /\
  (forall i c, holds ds' "definition_matrix" i c -> (c = Bo true <-> combination ds i)).
Proof.
  intros P C T H; split; [|split].
  - intros n a i c NM I W R N; exact (clean_holds ds P C ds' n a i c H NM I (T n a I) W R N).
  - intros n i c NM HO R; exact (clean_irrelevant ds P C ds' n i c H NM HO R).
  - intros i c HO; destruct (clean_matrix ds P C ds' i c H HO) as [[-> X]|[-> X]]; split; congruence || tauto.
Qed.
Print Assumptions C26_data.

(** Data of retained combinations never disappears together with its members. *)
Theorem C26_combinations ds ds' : proper_dset ds -> carrier_dims ds -> clean ds = Ok ds' ->
  forall i, combination ds i -> within ds' ["nodes"; "techs"; "carriers"] i.
Proof.
  intros P C H i CI d D; apply (C26_members ds ds' P C H); destruct CI as [W E]; split; [apply W; exact D|].
  intros _; exists i; split; [split; assumption|reflexivity].
Qed.
Print Assumptions C26_combinations.

Definition ex_out : array :=
  {| a_dims := ["nodes"; "techs"; "carriers"]; a_bool := true;
     a_at := fun i => Bo (String.eqb (i "carriers") "power" &&
        ((String.eqb (i "techs") "pv" && String.eqb (i "nodes") "A") ||
         (String.eqb (i "techs") "line" && (String.eqb (i "nodes") "A" || String.eqb (i "nodes") "B")))) |}.
Definition ex_in : array :=
  {| a_dims := ["nodes"; "techs"; "carriers"]; a_bool := true;
     a_at := fun i => Bo (String.eqb (i "carriers") "power" &&
         String.eqb (i "techs") "line" && (String.eqb (i "nodes") "A" || String.eqb (i "nodes") "B")) |}.
Definition ex_cap : array :=
  {| a_dims := ["nodes"; "techs"]; a_bool := false;
     a_at := fun i => if String.eqb (i "techs") "pv" then Num 10 else NaN |}.
Definition ex_base : array :=
  {| a_dims := ["techs"]; a_bool := false; a_at := fun i => if String.eqb (i "techs") "line" then Str "transmission" else Str "supply" |}.
Definition ex_ds : dset :=
  {| coords := [("nodes", ["A"; "B"; "C"]); ("techs", ["pv"; "line"; "unused"]); ("carriers", ["power"; "heat"])];
     vars := [("carrier_in", ex_in); ("carrier_out", ex_out); ("flow_cap_max", ex_cap); ("base_tech", ex_base)] |}.

Lemma ex_proper : proper_dset ex_ds.
Proof.
  split.
  - simpl; repeat (apply NoDup_cons; [simpl; intuition discriminate|]); apply NoDup_nil.
  - simpl; repeat (apply NoDup_cons; [simpl; intuition discriminate|]); apply NoDup_nil.
  - intros n a [E|[E|[E|[E|[]]]]]; injection E as <- <-; intros i j A; cbn [a_dims ex_in ex_out ex_cap ex_base] in A; cbn [a_at ex_in ex_out ex_cap ex_base].
    + rewrite (A "nodes"), (A "techs"), (A "carriers"); simpl; tauto.
    + rewrite (A "nodes"), (A "techs"), (A "carriers"); simpl; tauto.
    + rewrite (A "techs"); simpl; tauto.
    + rewrite (A "techs"); simpl; tauto.
Qed.
Lemma ex_carrier_dims : carrier_dims ex_ds.
Proof. intros n a [->| ->] [E|[E|[E|[E|[]]]]]; try discriminate; injection E as <-; intros x X; exact X. Qed.
Example C26_example_ok : proper_dset ex_ds /\ carrier_dims ex_ds /\
  exists ds', clean ex_ds = Ok ds' /\ coords ds' = [("nodes", ["A"; "B"]); ("techs", ["pv"; "line"]); ("carriers", ["power"])] /\
    map fst (vars ds') = ["carrier_in"; "carrier_out"; "flow_cap_max"; "base_tech"; "definition_matrix"].
Proof. split; [exact ex_proper|split; [exact ex_carrier_dims|]]; eexists; split; [reflexivity|split; vm_compute; reflexivity]. Qed.
(** A capacity given for the technology at a node without it is removed. *)
Example C26_example_masked : exists ds', clean ex_ds = Ok ds' /\
  exists a, d_get "flow_cap_max" (vars ds') = Some a /\ a_at a (at3 "A" "pv" "power") = Num 10 /\ a_at a (at3 "B" "pv" "power") = NaN.
Proof. eexists; split; [reflexivity|eexists; split; [vm_compute; reflexivity|split; vm_compute; reflexivity]]. Qed.

(** *** C27 *)
Theorem C27_one new old n i c : proper_dset new -> proper_dset old ->
  (forall d, In d (dims_of new n) \/ In d (dims_of old n) -> member new d (i d) \/ member old d (i d)) -> c <> NaN ->
  (holds (add_to_dataset new old) n i c <->
   holds new n i c \/ ((forall c', c' <> NaN -> ~ holds new n i c') /\ holds old n i c)).
Proof. exact (add_holds new old n i c). Qed.
Print Assumptions C27_one.

(** For any sequence of additions whose members are known from the start. *)
Theorem C27_sequence news base n i c : proper_dset base -> (forall d, In d news -> proper_dset d) ->
  (forall ds d, In ds (base :: news) -> In d (dims_of ds n) -> member base d (i d)) -> c <> NaN ->
  (holds (fold_left (fun old new => add_to_dataset new old) news base) n i c <-> latest news base n i c).
Proof. intros P Q W N; exact (add_history n i c N news base P Q W). Qed.
Print Assumptions C27_sequence.

(** No member is lost or invented. *)
Theorem C27_members new old : proper_dset new -> proper_dset old ->
  forall d m, member (add_to_dataset new old) d m <-> member new d m \/ member old d m.
Proof.
  intros PN PO d m; rewrite (member_in _ d m (pd_coords _ (add_proper new old PN PO))), (member_in new d m (pd_coords _ PN)), (member_in old d m (pd_coords _ PO)).
  apply add_members.
Qed.
Print Assumptions C27_members.

Definition ex_table : dset :=
  {| coords := [("techs", ["pv"; "wind"])];
     vars := [("flow_cap_max", {| a_dims := ["techs"]; a_bool := false; a_at := fun i => if String.eqb (i "techs") "pv" then Num 3 else NaN |})] |}.
Definition ex_defs : dset :=
  {| coords := [("nodes", ["A"; "B"]); ("techs", ["pv"; "wind"])];
     vars := [("flow_cap_max", {| a_dims := ["nodes"; "techs"]; a_bool := false;
                                  a_at := fun i => if String.eqb (i "techs") "wind" && String.eqb (i "nodes") "A" then Num 7
                                                   else if String.eqb (i "techs") "pv" && String.eqb (i "nodes") "B" then Num 5 else NaN |})] |}.
Lemma ex_table_proper : proper_dset ex_table.
Proof.
  split.
  - simpl; repeat (apply NoDup_cons; [simpl; intuition discriminate|]); apply NoDup_nil.
  - simpl; repeat (apply NoDup_cons; [simpl; intuition discriminate|]); apply NoDup_nil.
  - intros n a [E|[]]; injection E as <- <-; intros i j A; cbn [a_dims] in A; cbn [a_at]; rewrite (A "techs"); simpl; tauto.
Qed.
Lemma ex_defs_proper : proper_dset ex_defs.
Proof.
  split.
  - simpl; repeat (apply NoDup_cons; [simpl; intuition discriminate|]); apply NoDup_nil.
  - simpl; repeat (apply NoDup_cons; [simpl; intuition discriminate|]); apply NoDup_nil.
  - intros n a [E|[]]; injection E as <- <-; intros i j A; cbn [a_dims] in A; cbn [a_at]; rewrite (A "techs"), (A "nodes"); simpl; tauto.
Qed.
Example C27_example_ok : proper_dset ex_defs /\ proper_dset ex_table /\
  (forall d, In d (dims_of ex_defs "flow_cap_max") \/ In d (dims_of ex_table "flow_cap_max") ->
     member ex_defs d (at3 "A" "wind" "" d) \/ member ex_table d (at3 "A" "wind" "" d)) /\
  map (fun i => read (add_to_dataset ex_defs ex_table) "flow_cap_max" i)
      [at3 "A" "pv" ""; at3 "B" "pv" ""; at3 "A" "wind" ""; at3 "B" "wind" ""] = [Num 3; Num 5; Num 7; NaN].
Proof.
  split; [exact ex_defs_proper|split; [exact ex_table_proper|split; [|vm_compute; reflexivity]]].
  intros d X; left; assert (D : d = "nodes" \/ d = "techs") by (simpl in X; intuition congruence).
  destruct D as [->| ->]; [exists ["A"; "B"]|exists ["pv"; "wind"]]; vm_compute; auto.
Qed.
Example C27_example_sequence :
  (forall ds d, In ds [ex_defs; ex_table; ex_table] -> In d (dims_of ds "flow_cap_max") -> member ex_defs d (at3 "B" "pv" "" d)) /\
  latest [ex_table; ex_table] ex_defs "flow_cap_max" (at3 "B" "pv" "") (Num 3).
Proof.
  split.
  - intros ds d I J; assert (D : d = "nodes" \/ d = "techs").
    { destruct I as [<-|[<-|[<-|[]]]]; simpl in J; intuition congruence. }
    destruct D as [->| ->]; [exists ["A"; "B"]|exists ["pv"; "wind"]]; vm_compute; auto.
  - left; exists [ex_table], ex_table, []; split; [reflexivity|split; [|intros ? ? []]].
    eexists; split; [left; reflexivity|split; [|reflexivity]]; intros d [<-|[]]; exists ["pv"; "wind"]; vm_compute; auto.
Qed.

(** *** C62 *)
(** What a dataset must look like to have nodes selected from it. *)
Record subsettable (ds : dset) (dm bt : array) (l : list string) : Prop := {
  sb_proper : proper_dset ds;
  sb_dm : In ("definition_matrix", dm) (vars ds);
  sb_bt : In ("base_tech", bt) (vars ds);
  sb_dims : incl (a_dims dm) ["nodes"; "techs"; "carriers"];
  sb_bdims : incl (a_dims bt) ["techs"];
  sb_nodup : NoDup l;
  sb_nodes : In "nodes" (map fst (coords ds))
}.

(** A link stays iff both its ends are selected; any other technology iff a node with it is.  Missing for the full
    property: links whose carriers differ between the ends, see below. *)
Theorem C62_links_partial ds ds' dm bt l : subsettable ds dm bt l -> subset_dims [("nodes", l)] ds = Ok ds' ->
  (forall t a b, member ds "techs" t -> a_at bt (at3 "" t "") = Str "transmission" -> link_between ds dm t a b ->
     (member ds' "techs" t <-> In a l /\ In b l)) /\
  (forall t, a_at bt (at3 "" t "") <> Str "transmission" ->
     (member ds' "techs" t <-> member ds "techs" t /\ exists n c, In n l /\ member ds "carriers" c /\ a_at dm (at3 n t c) = Bo true)).
Proof.
  intros [P D B X Y N Z] H; split.
  - intros t a b M T L; exact (subset_link ds ds' l dm bt P D B X Y N Z H t a b "" "" M T L).
  - intros t T; exact (subset_other ds ds' l dm bt P D B X Y N Z H t "" "" T).
Qed.
Print Assumptions C62_links_partial.

Definition ex_dm : array :=
  {| a_dims := ["nodes"; "techs"; "carriers"]; a_bool := true;
     a_at := fun i => Bo (String.eqb (i "carriers") "power" &&
        (String.eqb (i "techs") "pv" ||
         (String.eqb (i "techs") "line" && (String.eqb (i "nodes") "A" || String.eqb (i "nodes") "B")))) |}.
Definition ex_net : dset :=
  {| coords := [("nodes", ["A"; "B"; "C"]); ("techs", ["pv"; "line"]); ("carriers", ["power"])];
     vars := [("definition_matrix", ex_dm); ("base_tech", ex_base)] |}.
Lemma ex_net_subsettable l : NoDup l -> subsettable ex_net ex_dm ex_base l.
Proof.
  intros N; split; [|left; reflexivity|right; left; reflexivity|intros x X; exact X|intros x X; exact X|exact N|left; reflexivity].
  split.
  - simpl; repeat (apply NoDup_cons; [simpl; intuition discriminate|]); apply NoDup_nil.
  - simpl; repeat (apply NoDup_cons; [simpl; intuition discriminate|]); apply NoDup_nil.
  - intros n a [E|[E|[]]]; injection E as <- <-; intros i j A; cbn [a_dims ex_dm ex_base] in A; cbn [a_at ex_dm ex_base].
    + rewrite (A "nodes"), (A "techs"), (A "carriers"); simpl; tauto.
    + rewrite (A "techs"); simpl; tauto.
Qed.
Example C62_example_ok : subsettable ex_net ex_dm ex_base ["A"; "C"] /\ link_between ex_net ex_dm "line" "A" "B" /\
  (exists ds', subset_dims [("nodes", ["A"; "C"])] ex_net = Ok ds' /\ coords ds' = [("nodes", ["A"; "C"]); ("techs", ["pv"]); ("carriers", ["power"])]) /\
  (exists ds', subset_dims [("nodes", ["A"; "B"])] ex_net = Ok ds' /\ coords ds' = [("nodes", ["A"; "B"]); ("techs", ["pv"; "line"]); ("carriers", ["power"])]).
Proof.
  split; [|split; [|split]].
  - apply ex_net_subsettable; repeat (apply NoDup_cons; [simpl; intuition discriminate|]); apply NoDup_nil.
  - split; [discriminate|]; exists ["power"]; split; [discriminate|split].
    + intros c [<-|[]]; exists ["power"]; vm_compute; auto.
    + intros n c [ln [[E|[E|[E|[]]]] I]] [lc [[F|[F|[F|[]]]] J]]; try discriminate; injection E as <-; injection F as <-.
      destruct J as [<-|[]]; destruct I as [<-|[<-|[<-|[]]]]; vm_compute; intuition (discriminate || auto).
  - eexists; split; [reflexivity|vm_compute; reflexivity].
  - eexists; split; [reflexivity|vm_compute; reflexivity].
Qed.

(** A one-way link that takes in gas at one end and puts out power at the other is dropped by a selection
    of all nodes, although none of its ends is lost. *)
Theorem C62_two_carriers_refuted : exists ds dm bt l ds',
  subsettable ds dm bt l /\ subset_dims [("nodes", l)] ds = Ok ds' /\
  (forall n, member ds "nodes" n -> In n l) /\
  member ds "techs" "line" /\ a_at bt (at3 "" "line" "") = Str "transmission" /\
  a_at dm (at3 "A" "line" "gas") = Bo true /\ a_at dm (at3 "B" "line" "power") = Bo true /\
  ~ member ds' "techs" "line".
Proof.
  pose (dm := {| a_dims := ["nodes"; "techs"; "carriers"]; a_bool := true;
     a_at := fun i => Bo ((String.eqb (i "techs") "pv" && String.eqb (i "carriers") "power") ||
         (String.eqb (i "techs") "line" && ((String.eqb (i "nodes") "A" && String.eqb (i "carriers") "gas")
                                         || (String.eqb (i "nodes") "B" && String.eqb (i "carriers") "power")))) |}).
  pose (ds := {| coords := [("nodes", ["A"; "B"]); ("techs", ["pv"; "line"]); ("carriers", ["power"; "gas"])];
     vars := [("definition_matrix", dm); ("base_tech", ex_base)] |}).
  exists ds, dm, ex_base, ["A"; "B"]; eexists; split; [|split; [reflexivity|]].
  - split; [|left; reflexivity|right; left; reflexivity|intros x X; exact X|intros x X; exact X| |left; reflexivity].
    + split.
      * simpl; repeat (apply NoDup_cons; [simpl; intuition discriminate|]); apply NoDup_nil.
      * simpl; repeat (apply NoDup_cons; [simpl; intuition discriminate|]); apply NoDup_nil.
      * intros n a [E|[E|[]]]; injection E as <- <-; intros i j A; cbn [a_dims dm ex_base] in A; cbn [a_at dm ex_base].
        -- rewrite (A "nodes"), (A "techs"), (A "carriers"); simpl; tauto.
        -- rewrite (A "techs"); simpl; tauto.
    + repeat (apply NoDup_cons; [simpl; intuition discriminate|]); apply NoDup_nil.
  - split; [|split; [|split; [reflexivity|split; [reflexivity|split; [reflexivity|]]]]].
    + intros n [ln [[E|[E|[E|[]]]] I]]; try discriminate; injection E as <-; exact I.
    + exists ["pv"; "line"]; split; [right; left; reflexivity|right; left; reflexivity].
    + intros [k [I J]]; vm_compute in I; destruct I as [E|[E|[E|[]]]]; try discriminate; injection E as <-.
      destruct J as [J|[]]; discriminate.
Qed.
Print Assumptions C62_two_carriers_refuted.
