(** Further theorems on C87 and C88, found missing by changing the model. *)
From Verif Require Import Base BaseProofs AttrDictModel AttrDictSpec AttrDictProofs AttrDictUnion AttrDictMore NodeModel DataModel DataSpec TableModel TableSpec TableProofs.
Local Open Scope string_scope.
Local Open Scope list_scope.

(** * C88: lookup arrays that were read are taken out of the table, everything else stays *)
Theorem C88_taken_out lookups : forall ds data ds' data', NoDup (map fst (vars ds)) -> table_lookups lookups ds data = Ok (ds', data') ->
  coords ds' = coords ds /\ (forall i dim, In (i, dim) lookups -> d_get i (vars ds') = None) /\
  forall i, (~ exists dim, In (i, dim) lookups) -> d_get i (vars ds') = d_get i (vars ds).
Proof.
  induction lookups as [|[p dim] r IH]; intros ds data ds' data' ND; cbn [table_lookups].
  - intros E; injection E as <- _; split; [reflexivity|split; [intros i d []|reflexivity]].
  - destruct (lookup_dict p dim ds) as [l|]; [|discriminate]; cbn [bind].
    destruct (to_result (union false data l)) as [data1|]; [|discriminate]; cbn [bind]; intros E.
    destruct (IH {| coords := coords ds; vars := d_del p (vars ds) |} _ _ _ (d_nodup_del p (vars ds) ND) E) as (C & G & O); cbn [coords vars] in *; split; [exact C|split].
    + intros i d [X|I]; [injection X as -> ->|exact (G i d I)].
      destruct (in_dec string_dec i (map fst r)) as [I|N].
      * apply in_map_iff in I; destruct I as ([i' d'] & X & I); cbn in X; subst i'; exact (G i d' I).
      * rewrite O; [apply d_get_del_same, ND|]; intros (d' & I); apply N; exact (in_map fst _ _ I).
    + intros i N; rewrite O; [apply d_get_del_other|].
      * intros ->; apply N; exists dim; left; reflexivity.
      * intros (d & I); apply N; exists d; right; exact I.
Qed.
Print Assumptions C88_taken_out.
Example C88_taken_out_example :
  let a := {| a_dims := ["techs"; "carriers"]; a_bool := false; a_at := fun _ => Num 1 |} in
  let ds := {| coords := [("techs", ["pv"]); ("carriers", ["power"])]; vars := [("carrier_in", a); ("flow_cap_max", a)] |} in
  exists data, table_lookups [("carrier_in", "carriers")] ds [] =
    Ok ({| coords := [("techs", ["pv"]); ("carriers", ["power"])]; vars := [("flow_cap_max", a)] |}, data) /\
    data = [("pv", VDict [("carrier_in", VStr "power")])].
Proof. eexists; split; reflexivity. Qed.

(** * C87: tables never change what is defined for nodes *)
Lemma not_leaf d : ~ leaf (VDict d).
Proof. unfold leaf; discriminate. Qed.
Lemma node_dict_shape techs links ds d : NoDup (members ds "nodes") -> NoDup (members ds "techs") -> node_dict techs links ds = Ok d ->
  wf (VDict d) /\ forall q x, at_path (VDict d) q x -> leaf x -> x = VNone.
Proof.
  intros NN NT; unfold node_dict; destruct (negb _).
  - intros E; injection E as <-; split; [apply wf_dict; constructor|].
    intros q x A L; inversion A as [|? ? ? ? ? I]; subst; [destruct (not_leaf _ L)|destruct I].
  - generalize NN; generalize (members ds "nodes") as ns; clear NN; intros ns NN; revert d.
    set (go := fix go (ns : list string) : result dict := _).
    enough (G : forall d, go ns = Ok d -> map fst d = ns /\ forall n v, In (n, v) d -> exists ts, NoDup ts /\ v = VDict [("techs", VDict (map (fun t => (t, VNone)) ts))]).
    { intros d E; destruct (G d E) as [K S]; split.
      - apply wf_dict; [rewrite K; exact NN|]; apply Forall_forall; intros [n v] I; destruct (S n v I) as (ts & Nt & ->); cbn [snd].
        apply wf_dict; [repeat constructor; intros []|]; constructor; [|constructor]; cbn [snd].
        apply wf_dict; [rewrite map_map; cbn [fst]; rewrite map_id; exact Nt|]; apply Forall_forall; intros kv I'.
        apply in_map_iff in I'; destruct I' as (t & <- & _); apply wf_leaf; reflexivity.
      - intros q x A L; inversion A as [|k w it r y I A1]; subst; [destruct (not_leaf _ L)|].
        destruct (S k w I) as (ts & _ & ->); inversion A1 as [|k1 w1 it1 r1 y1 I1 A2]; subst; [destruct (not_leaf _ L)|].
        destruct I1 as [E1|[]]; injection E1 as <- <-; inversion A2 as [|k2 w2 it2 r2 y2 I2 A3]; subst; [destruct (not_leaf _ L)|].
        apply in_map_iff in I2; destruct I2 as (t & E2 & _); injection E2 as _ <-; inversion A3; reflexivity. }
    clear NN; induction ns as [|n r IH]; intros d; cbn [go].
    + intros E; injection E as <-; split; [reflexivity|intros n v []].
    + destruct (existsb _ _); [discriminate|]; destruct (existsb _ _); [discriminate|].
      change ((fix go (ns : list string) : result dict := _) r) with (go r).
      destruct (go r) as [o|] eqn:Eo; [|discriminate]; cbn [bind]; intros E; injection E as <-; destruct (IH o eq_refl) as [K S]; split.
      * cbn [map fst]; rewrite K; reflexivity.
      * intros n' v [X|I]; [injection X as <- <-; eexists; split; [|reflexivity]; apply NoDup_filter, NT|exact (S n' v I)].
Qed.

Theorem C87_definition_wins lookups techs links tables : forall nodes data out data' tables',
  (forall n ds, In (n, ds) tables -> NoDup (members ds "nodes") /\ NoDup (members ds "techs")) -> wf (VDict nodes) ->
  tables_nodes lookups techs links tables nodes data = Ok (out, data', tables') ->
  forall q v, leaf v -> v <> VNone -> (at_path (VDict out) q v <-> at_path (VDict nodes) q v).
Proof.
  induction tables as [|[n ds] r IH]; intros nodes data out data' tables' P W; cbn [tables_nodes].
  - intros E; injection E as <- _ _; tauto.
  - destruct (node_dict techs links ds) as [nd|] eqn:ND; [|discriminate]; cbn [bind].
    destruct (P n ds (or_introl eq_refl)) as [P1 P2]; destruct (node_dict_shape _ _ _ _ P1 P2 ND) as [Wn ON].
    destruct (union_override_leaves nd nodes Wn W) as (A' & E & W' & L).
    { intros k w _ (q & _ & _ & x & A & Lx & NX); exact (NX (ON q x A Lx)). }
    rewrite E; cbn [to_result bind]; destruct (table_lookups lookups ds data) as [x|]; [|discriminate]; cbn [bind].
    destruct (tables_nodes lookups techs links r A' (snd x)) as [[[o dt] ts]|] eqn:Er; [|discriminate]; cbn [bind fst snd].
    intros X; injection X as <- _ _; intros q v Lv NV.
    rewrite (IH A' (snd x) o dt ts (fun n0 ds0 I => P n0 ds0 (or_intror I)) W' Er q v Lv NV), (L q v Lv); unfold merged_leaf; split.
    + intros [[A _]|[A _]]; [exact A|]; destruct (NV (ON q v A Lv)).
    + intros A; left; auto.
Qed.
Print Assumptions C87_definition_wins.
Definition ex_caps : dset :=
  {| coords := [("techs", ["pv"]); ("nodes", ["north"; "south"])];
     vars := [("flow_cap_max", {| a_dims := ["techs"; "nodes"]; a_bool := false; a_at := fun _ => Num 1 |})] |}.
Example C87_definition_wins_example :
  exists ts, tables_nodes [] ["pv"] [] [("caps", ex_caps)] [("north", VDict [("techs", VDict [("pv", VDict [("cost", VInt 3)])])])] [] =
  Ok ([("north", VDict [("techs", VDict [("pv", VDict [("cost", VInt 3)])])]); ("south", VDict [("techs", VDict [("pv", VNone)])])], [], ts).
Proof. eexists; vm_compute; reflexivity. Qed.

(** A model with a table that has data of a transmission technology, or of an unknown one, at a node is refused. *)
Lemma tables_nodes_each lookups techs links tables : forall nodes data y, tables_nodes lookups techs links tables nodes data = Ok y ->
  forall n ds, In (n, ds) tables -> exists d, node_dict techs links ds = Ok d.
Proof.
  induction tables as [|[n0 ds0] r IH]; intros nodes data y; cbn [tables_nodes]; [intros _ n ds []|].
  destruct (node_dict techs links ds0) as [nd|] eqn:E0; [|discriminate]; cbn [bind].
  destruct (to_result _) as [nodes1|]; [|discriminate]; cbn [bind].
  destruct (table_lookups lookups ds0 data) as [x|]; [|discriminate]; cbn [bind].
  destruct (tables_nodes lookups techs links r nodes1 (snd x)) as [z|] eqn:Er; [|discriminate]; intros _ n ds [X|I].
  - injection X as -> ->; eauto.
  - exact (IH _ _ _ Er n ds I).
Qed.
Theorem C87_no_links lookups techs nodes tables techs' out data rest :
  (forall n ds, In (n, ds) tables -> proper_dset ds /\ forall i a, In (i, a) (vars ds) -> NoDup (a_dims a)) ->
  from_tables lookups techs nodes tables = Ok (techs', out, data, rest) ->
  exists said known x, tables_techs tables techs [] = Ok (techs', said) /\ inherit_techs techs' said techs' = Ok (known, x) /\
    forall n ds node t, In (n, ds) tables -> data_at ds node t -> exists def, In (t, def) known /\ forall d, In (t, d) known -> d_get "base_tech" d <> Some (VStr "transmission").
Proof.
  intros P; unfold from_tables; destruct (tables_techs tables techs []) as [[t1 said]|] eqn:T; [|discriminate]; cbn [bind fst snd].
  destruct (inherit_techs t1 said t1) as [[known x]|] eqn:I; [|discriminate]; cbn [bind fst snd].
  destruct (tables_nodes _ _ _ _ _ _) as [y|] eqn:N; [|discriminate]; cbn [bind]; intros E; injection E as -> _ _ _.
  exists said, known, x; split; [reflexivity|split; [exact I|]]; intros n ds node t In1 D.
  destruct (P n ds In1) as [P1 P2]; destruct (tables_nodes_each _ _ _ _ _ _ _ N n ds In1) as [d Ed].
  destruct (proj2 (node_dict_total ds P1 P2 _ _) (ex_intro _ d Ed) node t D) as [K L].
  apply in_map_iff in K; destruct K as ([t' def] & X & K); cbn in X; subst t'; exists def; split; [exact K|].
  intros d' K' B; apply L; apply in_map_iff; exists (t, d'); split; [reflexivity|]; apply filter_In; split; [exact K'|].
  cbn [snd]; unfold is_link; rewrite B; reflexivity.
Qed.
Print Assumptions C87_no_links.
Example C87_no_links_example :
  from_tables [] [("pv", VDict [("base_tech", VStr "transmission")])] [] [("caps", ex_caps)] = Err EModel /\
  exists y, from_tables [] [("pv", VDict [("base_tech", VStr "supply")])] [] [("caps", ex_caps)] = Ok y.
Proof. split; [vm_compute; reflexivity|eexists; vm_compute; reflexivity]. Qed.
