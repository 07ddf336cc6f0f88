(** C89-C91: how the settings of the model definition become arrays. *)
From Coq Require Import Lia.
From Verif Require Import Base BaseProofs AttrDictModel AttrDictSpec AttrDictProofs AttrDictUnion AttrDictMore AttrDictLayers NodeModel NodeProofs NodeSpec DataModel DataSpec DataProofs DataMore TableModel TableProofs.
From Verif Require Import InputModel InputSpec InputProofs InputShared InputTop.
Local Open Scope string_scope.
Local Open Scope list_scope.

Lemma holds_read ds v p c : proper_dset ds -> c <> NaN -> (holds ds v p c <-> read ds v p = c).
Proof. intros P N. symmetry. apply read_holds; trivial; apply P. Qed.
Lemma has_dims ds v d : proper_dset ds -> (In d (dims_of ds v) <-> exists a, In (v, a) (vars ds) /\ In d (a_dims a)).
Proof.
  intros P. unfold dims_of. split.
  - destruct (d_get v (vars ds)) as [a|] eqn:G; [|intros []]. intros D. exists a. split; [now apply d_get_in|trivial].
  - intros (a & A & D). now rewrite (d_in_get _ _ _ (pd_vars _ P) A).
Qed.

Lemma in_del (d : dict) k v raw : NoDup (d_keys d) -> In (v, raw) (d_del k d) -> v <> k /\ In (v, raw) d.
Proof.
  induction d as [|[a x] d IH]; intros N B; [destruct B|]. cbn in N. inversion N as [|? ? NI N']; subst. cbn [d_del] in B. destruct (String.eqb_spec k a) as [<-|NE].
  - split; [intros ->; apply NI; now apply (in_map fst) in B|now right].
  - destruct B as [B|B]; [injection B as -> ->; split; [congruence|now left]|]. destruct (IH N' B) as [X Y]. split; [trivial|now right].
Qed.

(** ** C89 *)

(** What a technology's settings at a node are.  For a setting that is no dictionary: the node's own, else that of the technology, else that of
    the data tables; all other settings of the technology and of other nodes are irrelevant. *)
Theorem C89_source techs tables nodes table_nodes nd ps n node items t item own tech table v raw :
  sane techs tables nodes -> definitions techs tables nodes table_nodes = Ok (nd, ps) ->
  In (n, VDict node) nodes -> (forall x, In ("active", x) node -> x = VBool true) -> In ("techs", VDict items) node -> In (t, item) items ->
  sources techs tables t item own tech table ->
  (forall x, In ("active", x) own \/ In ("active", x) tech \/ In ("active", x) table -> x = VBool true) ->
  (forall x, In (v, x) own \/ In (v, x) tech \/ In (v, x) table -> leaf x /\ x <> VNone) -> leaf raw ->
  (setting_at ps n t v raw <-> inherited own tech table [v] raw).
Proof.
  intros SN E IN AN IT II SO AC SI LR.
  assert (wf (VDict node)) as Wn. { pose proof (sn_nodes _ _ _ SN) as W. apply wf_inv in W. destruct W as [_ F]. rewrite Forall_forall in F. exact (F _ IN). }
  assert (wf (VDict items)) as Wi. { apply wf_inv in Wn. destruct Wn as [_ F]. rewrite Forall_forall in F. exact (F _ IT). }
  assert (wf item) as W. { apply wf_inv in Wi. destruct Wi as [_ F]. rewrite Forall_forall in F. exact (F _ II). }
  assert (active node = true) as AN'. { unfold active. destruct (d_get "active" node) eqn:G; [|trivial]. apply d_get_in in G. now rewrite (AN _ G). }
  destruct (definitions_shared techs tables nodes table_nodes SN nd ps E) as (_ & TP & _).
  assert (exists d, inherit_tech techs tables t item = Ok d) as (d & HI).
  { clear -E IN AN' IT II Wn. unfold definitions in E. destruct (inherit_nodes nodes) as [[out off]|] eqn:HN; cbn [bind fst] in E; [|discriminate E].
    destruct (links_to_nodes techs tables (map fst out ++ table_nodes)) as [links|]; cbn [bind] in E; [|discriminate E].
    destruct (each_named (node_techs techs tables links) out) as [rts|] eqn:HE; cbn [bind] in E; [|discriminate E].
    assert (In (n, node) out) as O.
    { clear -HN IN AN'. revert out off HN. induction nodes as [|[m i] l IH]; intros out off HN; [destruct IN|]. cbn [inherit_nodes] in HN.
      destruct (as_dict i) as [x|] eqn:A; cbn [bind] in HN; [|discriminate HN]. destruct (inherit_nodes l) as [[o f]|]; cbn [bind fst snd] in HN; [|discriminate HN].
      destruct IN as [X|X]; [injection X as -> ->; cbn in A; injection A as <-; rewrite AN' in HN; injection HN as <- <-; now left|].
      pose proof (IH X o f eq_refl) as J. destruct (active x); injection HN as <- <-; [now right|trivial]. }
    destruct (each_named_ok _ _ _ HE) as (_ & FW & _). destruct (FW _ _ O) as (y & _ & H). unfold node_techs in H.
    unfold items_at in H. rewrite (get_in_nodup _ _ _ (wf_nodup _ Wn) IT) in H. cbn [as_dict bind] in H. unfold techs_at_node in H.
    destruct (existsb (fun ni => base_tech_at_node (snd ni)) items); [discriminate H|]. destruct (inherit_techs techs tables items) as [[o f]|] eqn:HT; [|discriminate H].
    destruct (NodeProofs.inherit_techs_split _ _ _ _ _ HT) as (_ & _ & ALL). exact (ALL _ _ II). }
  pose proof (inherit_value techs tables nodes SN t item d own tech table v HI W SO SI) as DV.
  assert (active d = true) as AD.
  { unfold active. rewrite (inherit_value techs tables nodes SN t item d own tech table "active" HI W SO).
    - destruct (d_get "active" own) eqn:G1; [apply d_get_in in G1; now rewrite (AC v0) by tauto|]. destruct (d_get "active" tech) eqn:G2; [apply d_get_in in G2; now rewrite (AC v0) by tauto|].
      destruct (d_get "active" table) eqn:G3; [apply d_get_in in G3; now rewrite (AC v0) by tauto|trivial].
    - intros x X. rewrite (AC x X). split; [reflexivity|discriminate]. }
  destruct (definitions_listed techs tables nodes table_nodes SN nd ps n node items t item d E IN AN' IT II HI AD) as (refs & ts & IP & IT').
  assert (setting_at ps n t v raw <-> d_get v d = Some raw) as SD.
  { split.
    - intros (refs' & ts' & d' & A & B & C). destruct TP as [NP TP]. 
      pose proof (TableProofs.d_get_nodup _ _ _ NP IP) as G. rewrite (TableProofs.d_get_nodup _ _ _ NP A) in G. injection G as -> ->.
      destruct (TP _ _ _ IP) as [NT TT]. pose proof (TableProofs.d_get_nodup _ _ _ NT IT') as G. rewrite (TableProofs.d_get_nodup _ _ _ NT B) in G. injection G as ->.
      destruct (TT _ _ IT') as [ND _]. now apply d_in_get.
    - intros G. exists refs, ts, d. split; [trivial|split; [trivial|now apply d_get_in]]. }
  rewrite SD, DV. clear SD DV.
  assert (forall x, wf (VDict x) -> (at_path (VDict x) [v] raw <-> d_get v x = Some raw)) as AP.
  { intros x WX. split.
    - intros A. inversion A as [|? k r x0 v0 I A']; subst. inversion A'; subst. now apply get_in_nodup; [apply wf_nodup|].
    - intros G. apply d_get_in in G. econstructor; [exact G|constructor]. }
  assert (forall x, (forall y, In (v, y) x -> leaf y) -> (sets x [v] <-> d_get v x <> None)) as ST.
  { intros x LX. split.
    - intros (y & _ & A) G. inversion A as [|? k r x0 v0 I A']; subst. apply d_get_none in G. apply G. now apply (in_map fst) in I.
    - destruct (d_get v x) as [y|] eqn:G; [|congruence]. intros _. apply d_get_in in G. exists y. split; [now apply LX|]. econstructor; [exact G|constructor]. }
  destruct SO as [SX SB ST0].
  assert (wf (VDict own)) as WO by (destruct SX as [[-> ->]| ->]; [apply wf_nil|trivial]).
  assert (wf (VDict tech)) as WTe. { pose proof (sn_techs _ _ _ SN) as WT. apply wf_inv in WT. destruct WT as [_ F]. rewrite Forall_forall in F. exact (F _ SB). }
  assert (wf (VDict table)) as WTa. { destruct ST0 as [[_ ->]|ST0]; [apply wf_nil|]. pose proof (sn_tables _ _ _ SN) as WT. apply wf_inv in WT. destruct WT as [_ F]. rewrite Forall_forall in F. exact (F _ ST0). }
  unfold inherited. rewrite !AP by trivial. rewrite (ST own), (ST tech) by (intros y Y; apply (SI y); tauto).
  destruct (d_get v own) as [w|]; [split; [now left|intros [X|[[X _]|[X _]]]; [trivial|contradiction X; discriminate|contradiction X; discriminate]]|].
  destruct (d_get v tech) as [w|]; [split; [intros X; right; left; split; [intros Y; now contradiction Y|trivial]|intros [X|[[_ X]|[_ [X _]]]]; [discriminate X|trivial|contradiction X; discriminate]]|].
  split; [intros X; right; right; repeat split; trivial; intros Y; now contradiction Y|intros [X|[[_ X]|[_ [_ X]]]]; [discriminate X|discriminate X|trivial]].
Qed.
Print Assumptions C89_source.

(** Nothing but settings gets into the arrays: an entry is what the setting of the technology says - at the node, if the array is over
    nodes - or what the node's setting says. *)
Theorem C89_only lookups bc techs tables nodes table_nodes ds v p c : NoDup (map fst lookups) -> sane techs tables nodes ->
  add_node_tech_data lookups bc techs tables nodes table_nodes = Ok ds -> c <> NaN -> holds ds v p c ->
  (exists nd ps n raw, definitions techs tables nodes table_nodes = Ok (nd, ps) /\ setting_at ps n (p "techs") v raw /\ says lookups v raw p c /\
     ((exists a, In (v, a) (vars ds) /\ In "nodes" (a_dims a)) -> p "nodes" = n))
  \/ (exists node raw, In (p "nodes", VDict node) nodes /\ v <> "techs" /\ In (v, raw) node /\ says lookups v raw p c).
Proof.
  intros NL SN E N H. unfold add_node_tech_data in E. destruct (definitions techs tables nodes table_nodes) as [[nd ps]|] eqn:D; cbn [bind] in E; [|discriminate E].
  destruct (definitions_shared techs tables nodes table_nodes SN nd ps D) as (TN & TP & _).
  pose proof (arrays_proper lookups bc nd ps ds TN TP E) as P. apply (holds_read ds v p c P N) in H.
  destruct (arrays_sound lookups bc nd ps ds NL TN TP E v p c N H) as [(n & raw & A & B & C)|(s & raw & A & B & C)].
  - left. exists nd, ps, n, raw. repeat split; trivial. intros X. apply C. now apply has_dims.
  - right. assert (exists node, In (p "nodes", node) nodes /\ exists d, as_dict node = Ok d /\ s = d_del "techs" d) as (node & I & d & AD & ->).
    { clear -D A SN. unfold definitions in D. destruct (inherit_nodes nodes) as [[out off]|] eqn:HN; cbn [bind fst] in D; [|discriminate D].
      destruct (links_to_nodes techs tables (map fst out ++ table_nodes)) as [links|]; cbn [bind] in D; [|discriminate D].
      destruct (each_named (node_techs techs tables links) out) as [rts|]; cbn [bind] in D; [|discriminate D]. injection D as <- <-.
      apply in_map_iff in A. destruct A as ([m d] & X & A). cbn in X. injection X as -> <-.
      destruct (nodes_out _ _ _ HN (wf_nodup _ (sn_nodes _ _ _ SN))) as [_ HO]. destruct (HO _ _ A) as (i & I & AD). exists i. split; [trivial|]. now exists d. }
    assert (v <> "techs" /\ In (v, raw) d) as [NV IV].
    { apply in_del; [|exact B]. apply wf_nodup, (as_dict_wf node); [|trivial].
      pose proof (sn_nodes _ _ _ SN) as W. apply wf_inv in W. destruct W as [_ F]. rewrite Forall_forall in F. exact (F _ I). }
    destruct node as [|q1|q2|q3|q4|node]; cbn in AD; try discriminate AD; injection AD as <-; [destruct IV|]. now exists node, raw.
Qed.
Print Assumptions C89_only.

(** What a technology's setting says is there, at every node that has the technology, provided that the array has no more dimensions than the
    setting (beyond nodes and technologies). *)
Theorem C89_techs lookups bc techs tables nodes table_nodes nd ps ds v p c raw o : NoDup (map fst lookups) -> sane techs tables nodes ->
  definitions techs tables nodes table_nodes = Ok (nd, ps) -> add_node_tech_data lookups bc techs tables nodes table_nodes = Ok ds -> c <> NaN ->
  setting_at ps (p "nodes") (p "techs") v raw -> says lookups v raw p c -> over lookups v raw o ->
  (forall a d, In (v, a) (vars ds) -> In d (a_dims a) -> d = "nodes" \/ d = "techs" \/ In d o) -> holds ds v p c.
Proof.
  intros NL SN D E N SA S O W. unfold add_node_tech_data in E. rewrite D in E. cbn [bind] in E.
  destruct (definitions_shared techs tables nodes table_nodes SN nd ps D) as (TN & TP & CO).
  pose proof (arrays_proper lookups bc nd ps ds TN TP E) as P. apply (holds_read ds v p c P N).
  apply (arrays_techs lookups bc nd ps ds NL TN TP E v p c raw o N SA S O (CO _ _)). intros d X. apply (has_dims ds v d P) in X. destruct X as (a & A & X). now apply (W a).
Qed.
Print Assumptions C89_techs.
(** The same for settings of nodes. *)
Theorem C89_nodes lookups bc techs tables nodes table_nodes ds v p c node raw o : NoDup (map fst lookups) -> sane techs tables nodes ->
  add_node_tech_data lookups bc techs tables nodes table_nodes = Ok ds -> c <> NaN ->
  In (p "nodes", VDict node) nodes -> (forall x, In ("active", x) node -> x = VBool true) -> In (v, raw) node -> v <> "techs" ->
  says lookups v raw p c -> over lookups v raw o ->
  (forall a d, In (v, a) (vars ds) -> In d (a_dims a) -> d = "nodes" \/ In d o) -> holds ds v p c.
Proof.
  intros NL SN E N IN AN IV NV S O W. unfold add_node_tech_data in E. destruct (definitions techs tables nodes table_nodes) as [[nd ps]|] eqn:D; cbn [bind] in E; [|discriminate E].
  destruct (definitions_shared techs tables nodes table_nodes SN nd ps D) as (TN & TP & CO).
  pose proof (arrays_proper lookups bc nd ps ds TN TP E) as P. apply (holds_read ds v p c P N).
  assert (In (p "nodes", d_del "techs" node) nd) as IS.
  { assert (active node = true) as AN'. { unfold active. destruct (d_get "active" node) eqn:G; [|trivial]. apply d_get_in in G. now rewrite (AN _ G). }
    clear -D IN AN'. unfold definitions in D. destruct (inherit_nodes nodes) as [[out off]|] eqn:HN; cbn [bind fst] in D; [|discriminate D].
    destruct (links_to_nodes techs tables (map fst out ++ table_nodes)) as [links|]; cbn [bind] in D; [|discriminate D].
    destruct (each_named (node_techs techs tables links) out) as [rts|]; cbn [bind] in D; [|discriminate D]. injection D as <- <-.
    apply in_map_iff. exists (p "nodes", node). split; [trivial|].
    revert out off HN. induction nodes as [|[m i] l IH]; intros out off HN; [destruct IN|]. cbn [inherit_nodes] in HN.
    destruct (as_dict i) as [x|] eqn:A; cbn [bind] in HN; [|discriminate HN]. destruct (inherit_nodes l) as [[o' f]|]; cbn [bind fst snd] in HN; [|discriminate HN].
    destruct IN as [X|X]; [injection X as -> ->; cbn in A; injection A as <-; rewrite AN' in HN; injection HN as <- <-; now left|].
    pose proof (IH X o' f eq_refl) as J. destruct (active x); injection HN as <- <-; [now right|trivial]. }
  assert (In (v, raw) (d_del "techs" node)) as IV'.
  { clear -IV NV. induction node as [|[k x] d IH]; [destruct IV|]. cbn [d_del]. destruct (String.eqb_spec "techs" k) as [<-|NE].
    - destruct IV as [X|X]; [injection X as <- _; now contradiction NV|trivial].
    - destruct IV as [X|X]; [now left|right; now apply IH]. }
  apply (arrays_nodes lookups bc nd ps ds NL TN TP E v p c _ raw o N IS IV' S O). intros d X. apply (has_dims ds v d P) in X. destruct X as (a & A & X). now apply (W a).
Qed.
Print Assumptions C89_nodes.

(** the dataset of a definition that is accepted *)
Definition accepted {A} (r : result A) : bool := match r with Ok _ => true | Err _ => false end.
Definition made (r : result dset) : dset := match r with Ok ds => ds | Err _ => no_data end.
Lemma made_ok r : accepted r = true -> r = Ok (made r).
Proof. destruct r; [trivial|discriminate]. Qed.

(** A solar plant, of which the north allows less, a demand, and a line. *)
Definition two_techs : dict :=
  [("pv", VDict [("base_tech", VStr "supply"); ("carrier_out", VStr "power"); ("flow_cap_max", VInt 10);
                 ("cost_flow_cap", VDict [("data", VInt 7); ("index", VStr "monetary"); ("dims", VStr "costs")])]);
   ("use", VDict [("base_tech", VStr "demand"); ("carrier_in", VList [VStr "power"; VStr "heat"])]);
   ("line", VDict [("base_tech", VStr "transmission"); ("carrier_in", VStr "power"); ("carrier_out", VStr "power"); ("flow_cap_max", VInt 3);
                   ("link_from", VStr "north"); ("link_to", VStr "south")])].
Definition two_nodes : dict :=
  [("north", VDict [("latitude", VInt 60); ("techs", VDict [("pv", VDict [("flow_cap_max", VInt 5)]); ("use", VNone)])]);
   ("south", VDict [("latitude", VInt 50); ("techs", VDict [("pv", VNone)])])].
Definition two_lookups : list (string * string) := [("carrier_in", "carriers"); ("carrier_out", "carriers")].
Lemma two_sane : sane two_techs [] two_nodes.
Proof.
  split.
  - repeat (apply wf_dict || constructor); cbn; intuition discriminate.
  - apply wf_nil.
  - repeat (apply wf_dict || constructor); cbn; intuition discriminate.
  - intros t d x I J. cbn in I. repeat (destruct I as [I|I]; [injection I as <- <-; cbn in J; repeat (destruct J as [J|J]; [first [discriminate J|injection J as <-; reflexivity]|]); destruct J|]). destruct I.
  - intros n node items t d x I J K L. cbn in I. 
    repeat (destruct I as [I|I]; [injection I as <- <-; cbn in J; repeat (destruct J as [J|J]; [first [discriminate J|injection J as <-;
      cbn in K; repeat (destruct K as [K|K]; [first [discriminate K|injection K as <- <-; cbn in L; repeat (destruct L as [L|L]; [discriminate L|]); destruct L]|]); destruct K]|]); destruct J|]). destruct I.
Qed.
Definition spot (n t c : string) : pos := fun d => if String.eqb d "nodes" then n else if String.eqb d "techs" then t else if String.eqb d "carriers" then c else "monetary".
Example C89_example : exists ds, add_node_tech_data two_lookups true two_techs [] two_nodes [] = Ok ds /\
  read ds "flow_cap_max" (spot "north" "pv" "") = Num 5 /\ read ds "flow_cap_max" (spot "south" "pv" "") = Num 10 /\ read ds "flow_cap_max" (spot "south" "line" "") = Num 3 /\
  read ds "flow_cap_max" (spot "south" "use" "") = NaN /\ read ds "carrier_in" (spot "north" "use" "heat") = Bo true /\ read ds "carrier_in" (spot "south" "use" "heat") = NaN /\
  read ds "cost_flow_cap" (spot "south" "pv" "") = Num 7 /\ read ds "latitude" (spot "south" "" "") = Num 50.
Proof. eexists. split; [apply made_ok; vm_compute; reflexivity|]. repeat split; vm_compute; reflexivity. Qed.
Example C89_example_source : exists nd ps, definitions two_techs [] two_nodes [] = Ok (nd, ps) /\ setting_at ps "north" "pv" "flow_cap_max" (VInt 5) /\
  setting_at ps "south" "pv" "flow_cap_max" (VInt 10).
Proof.
  do 2 eexists. split; [vm_compute; reflexivity|]. split.
  - eexists _, _, _. split; [left; reflexivity|]. split; [left; reflexivity|]. cbn. tauto.
  - eexists _, _, _. split; [right; left; reflexivity|]. split; [left; reflexivity|]. cbn. tauto.
Qed.
Example C89_example_says : says two_lookups "flow_cap_max" (VInt 5) (spot "north" "pv" "") (Num 5) /\ over two_lookups "flow_cap_max" (VInt 5) [] /\
  says two_lookups "carrier_in" (VList [VStr "power"; VStr "heat"]) (spot "north" "use" "heat") (Bo true).
Proof.
  assert (plain two_lookups "flow_cap_max" (VInt 5)) as P by (right; repeat split; [intros dim [X|[X|[]]]; discriminate X|discriminate|discriminate]).
  repeat split.
  - apply sa_plain; [exact P|constructor].
  - now constructor.
  - apply (sa_label _ _ _ "carriers" ["power"; "heat"]); [split; [now left|split; discriminate]|constructor|right; now left].
Qed.

(** A technology can be switched off for the whole model ("active: false"), but not if a node has a setting for it: the setting refers to an
    array that no longer exists. *)
Theorem C89_inactive_refuted : exists on off nodes,
  on = [("pv", VDict [("base_tech", VStr "supply"); ("active", VBool true)]); ("use", VDict [("base_tech", VStr "demand")])] /\
  off = [("pv", VDict [("base_tech", VStr "supply"); ("active", VBool false)]); ("use", VDict [("base_tech", VStr "demand")])] /\
  nodes = [("north", VDict [("techs", VDict [("pv", VDict [("flow_cap_max", VInt 5)]); ("use", VNone)])])] /\
  (exists ds, add_node_tech_data [] true on [] nodes [] = Ok ds) /\ add_node_tech_data [] true off [] nodes [] = Err EKey.
Proof.
  do 3 eexists. do 3 (split; [reflexivity|]). split; [eexists; apply made_ok; vm_compute; reflexivity|vm_compute; reflexivity].
Qed.
Print Assumptions C89_inactive_refuted.

(** A setting without index of one technology and settings with index of others: the first is copied to those labels only that were met
    before it is combined with the next technology, so the order of technologies matters. *)
Definition class_cost (n : Z) (cl : string) : val := VDict [("data", VInt n); ("index", VStr cl); ("dims", VStr "costs")].
Theorem C89_order_refuted : exists a b c nodes_ac nodes_ca ds1 ds2 p,
  let techs := [("a", VDict [("cost_flow_cap", a)]); ("b", VDict [("cost_flow_cap", b)]); ("c", VDict [("cost_flow_cap", c)])] in
  a = VInt 7 /\ b = class_cost 1 "monetary" /\ c = class_cost 2 "co2" /\
  nodes_ac = [("north", VDict [("techs", VDict [("a", VNone); ("b", VNone); ("c", VNone)])])] /\
  nodes_ca = [("north", VDict [("techs", VDict [("c", VNone); ("b", VNone); ("a", VNone)])])] /\
  add_node_tech_data [] true techs [] nodes_ac [] = Ok ds1 /\ add_node_tech_data [] true techs [] nodes_ca [] = Ok ds2 /\
  p "techs" = "a" /\ member ds1 "costs" (p "costs") /\ member ds2 "costs" (p "costs") /\ says [] "cost_flow_cap" a p (Num 7) /\
  read ds1 "cost_flow_cap" p = NaN /\ read ds2 "cost_flow_cap" p = Num 7.
Proof.
  do 5 eexists. do 2 eexists. exists (fun d => if String.eqb d "techs" then "a" else "co2"). cbv zeta. do 5 (split; [reflexivity|]).
  split; [apply made_ok; vm_compute; reflexivity|]. split; [apply made_ok; vm_compute; reflexivity|]. split; [reflexivity|].
  split; [exists ["co2"; "monetary"]; vm_compute; tauto|]. split; [exists ["monetary"; "co2"]; vm_compute; tauto|].
  split; [apply sa_plain; [right; repeat split; try discriminate; intros dim []|constructor]|]. split; vm_compute; reflexivity.
Qed.
Print Assumptions C89_order_refuted.

(** ** C90 *)

(** Data definitions at the top level override what is there, exactly at their index: at a position of the model built so far, the input has the value
    that the definition says, or else the one that it had. *)
Theorem C90_override lookups bc settings ds ds' v raw o p c : NoDup (map fst lookups) -> proper_dset ds -> NoDup (d_keys settings) ->
  add_data_definitions lookups bc settings ds = Ok ds' -> In (v, raw) settings -> proper_setting raw -> over lookups v raw o -> (o = [] -> plain lookups v raw) ->
  (forall d, In d o -> member ds d (p d)) -> (forall a, In (v, a) (vars ds) -> within ds (a_dims a) p) -> c <> NaN ->
  (holds ds' v p c <-> says lookups v raw p c \/ ((forall c', c' <> NaN -> ~ says lookups v raw p c') /\ holds ds v p c)).
Proof.
  intros NL P ND E I PS OV PL WO WD N. pose proof (definitions_proper lookups bc settings ds ds' P E) as P'. rewrite (holds_read ds' v p c P' N), (holds_read ds v p c P N).
  apply (definitions_read lookups bc NL settings v raw o p c N ND I PS); trivial.
  - intros Z. apply PL.
    destruct (definitions_prepared_at lookups bc settings ds ds' v raw E I) as (w & PW).
    apply (over_dims lookups bc v raw w _ NL PS PW) in Z. apply (over_dims lookups bc v raw w _ NL PS PW) in OV. congruence.
  - intros d [D|D]; apply member_in; try apply P; [|now apply WO]. apply (has_dims ds v d P) in D. destruct D as (a & A & D). exact (WD a A d D).
Qed.
Print Assumptions C90_override.
(** All other inputs stay as they are. *)
Theorem C90_others lookups bc settings ds ds' v p c : proper_dset ds -> add_data_definitions lookups bc settings ds = Ok ds' -> ~ In v (d_keys settings) -> c <> NaN ->
  (holds ds' v p c <-> holds ds v p c).
Proof.
  intros P E NV N. pose proof (definitions_proper lookups bc settings ds ds' P E) as P'. rewrite (holds_read ds' v p c P' N), (holds_read ds v p c P N).
  now apply (definitions_other lookups bc settings v p c N).
Qed.
Print Assumptions C90_others.
Definition caps : dset :=
  {| coords := [("techs", ["pv"; "wind"]); ("nodes", ["north"; "south"])];
     vars := [("flow_cap_max", {| a_dims := ["techs"]; a_bool := false; a_at := fun p => if String.eqb (p "techs") "pv" then Num 5 else Num 6 |})] |}.
Definition changes : dict :=
  [("flow_cap_max", VDict [("data", VList [VInt 1; VInt 2]); ("index", VList [VList [VStr "pv"; VStr "north"]; VList [VStr "wind"; VStr "south"]]); ("dims", VList [VStr "techs"; VStr "nodes"])]);
   ("bigM", VInt 100)].
Lemma caps_proper : proper_dset caps.
Proof.
  split; cbn; [repeat constructor; cbn; intuition discriminate|repeat constructor; cbn; intuition discriminate|].
  intros n a [E|[]]. injection E as <- <-. intros i j A. cbn in *. now rewrite (A "techs") by now left.
Qed.
Example C90_example : exists ds, add_data_definitions two_lookups true changes caps = Ok ds /\
  read ds "flow_cap_max" (spot "north" "pv" "") = Num 1 /\ read ds "flow_cap_max" (spot "south" "pv" "") = Num 5 /\
  read ds "flow_cap_max" (spot "north" "wind" "") = Num 6 /\ read ds "flow_cap_max" (spot "south" "wind" "") = Num 2 /\ read ds "bigM" (spot "" "" "") = Num 100.
Proof. eexists. split; [apply made_ok; vm_compute; reflexivity|]. repeat split; vm_compute; reflexivity. Qed.
Example C90_example_over : over two_lookups "flow_cap_max" (snd (hd ("", VNone) changes)) ["techs"; "nodes"] /\
  says two_lookups "flow_cap_max" (snd (hd ("", VNone) changes)) (spot "south" "wind" "") (Num 2) /\ over two_lookups "bigM" (VInt 100) [] /\ plain two_lookups "bigM" (VInt 100).
Proof.
  assert (plain two_lookups "bigM" (VInt 100)) as P by (right; repeat split; [intros dim [X|[X|[]]]; discriminate X|discriminate|discriminate]).
  assert (indexed [("data", VList [VInt 1; VInt 2]); ("index", VList [VList [VStr "pv"; VStr "north"]; VList [VStr "wind"; VStr "south"]]); ("dims", VList [VStr "techs"; VStr "nodes"])]
    (VList [VInt 1; VInt 2]) [VList [VStr "pv"; VStr "north"]; VList [VStr "wind"; VStr "south"]] ["techs"; "nodes"]) as IX.
  { split; [now left| |]; (eexists; split; [cbn; eauto|constructor]). }
  repeat split; [exact (ov_index _ _ _ _ _ _ IX)| |now constructor|exact P].
  apply (sa_index _ _ _ _ _ _ 1 (VList [VStr "wind"; VStr "south"]) _ _ IX); [reflexivity|constructor|apply (da_each _ _ (VInt 2)); [reflexivity|constructor]].
Qed.

(** ** C91 *)

(** Every technology has a colour; one that is given stays. *)
Theorem C91_colors palette ds p : proper_dset ds -> palette <> [] -> member ds "techs" (p "techs") -> (forall a, In ("color", a) (vars ds) -> within ds (a_dims a) p) ->
  (forall c, c <> NaN -> holds ds "color" p c -> holds (add_colors palette ds) "color" p c) /\
  ((forall c, c <> NaN -> ~ holds ds "color" p c) -> exists s, In s palette /\ holds (add_colors palette ds) "color" p (Str s)).
Proof.
  intros P NP M W. assert (proper_dset (add_colors palette ds)) as P'. { unfold add_colors. apply fill_proper; trivial. intros i j A. cbn in *. now rewrite (A "techs") by now left. }
  apply member_in in M; [|apply P]. split.
  - intros c N H. apply (holds_read _ _ _ _ P' N). apply (holds_read _ _ _ _ P N) in H. unfold add_colors. apply fill_kept; trivial. cbn. intros d [<-|[]]. exact M.
  - intros NG. assert (read ds "color" p = NaN) as R.
    { destruct (read ds "color" p) eqn:R; trivial; exfalso; (eapply NG; [|apply (holds_read _ _ _ _ P); [|exact R]]; discriminate). }
    assert (List.length palette <> 0) as LP by (destruct palette; [contradiction|discriminate]).
    exists (nth (Nat.modulo (index_of (p "techs") (members ds "techs")) (List.length palette)) palette ""). split; [apply nth_In; now apply Nat.mod_upper_bound|].
    apply (holds_read _ _ _ _ P'); [discriminate|]. unfold add_colors. rewrite (fill_gap "color" _ ds p); [reflexivity| |exact R].
    intros d [[<-|[]]|D]; [exact M|]. apply (has_dims ds "color" d P) in D. destruct D as (a & A & D). apply member_in; [apply P|]. exact (W a A d D).
Qed.
Print Assumptions C91_colors.
(** If there are enough colours and none is given, technologies can be told apart. *)
Theorem C91_distinct palette ds p q c : proper_dset ds -> NoDup palette -> List.length (members ds "techs") <= List.length palette -> (forall a, ~ In ("color", a) (vars ds)) ->
  member ds "techs" (p "techs") -> member ds "techs" (q "techs") -> holds (add_colors palette ds) "color" p c -> holds (add_colors palette ds) "color" q c -> p "techs" = q "techs".
Proof.
  intros P ND L NO MP MQ HP HQ. apply member_in in MP; [|apply P]. apply member_in in MQ; [|apply P].
  assert (d_get "color" (vars ds) = None) as G. { apply d_get_none. intros X. apply in_map_iff in X. destruct X as ([n a] & Y & X). cbn in Y. subst n. now apply (NO a). }
  assert (forall r, holds (add_colors palette ds) "color" r c -> c = Str (nth (Nat.modulo (index_of (r "techs") (members ds "techs")) (List.length palette)) palette "")) as C.
  { intros r (a & A & _ & E). apply d_in_get in A; [|apply fill_proper; trivial; intros i j AG; cbn in *; now rewrite (AG "techs") by now left].
    unfold add_colors in A. rewrite fill_get, String.eqb_refl, G in A. injection A as <-. now symmetry. }
  apply C in HP. apply C in HQ. rewrite HP in HQ. injection HQ as E. apply index_of_lt in MP as LP. apply index_of_lt in MQ as LQ.
  rewrite !Nat.mod_small in E by lia. apply (index_of_inj _ _ (members ds "techs")); trivial. apply (proj1 (NoDup_nth palette "") ND); trivial; lia.
Qed.
Print Assumptions C91_distinct.


Example C91_colors_example : proper_dset caps /\ read (add_colors ["#1"; "#2"; "#3"] caps) "color" (spot "" "wind" "") = Str "#2".
Proof. split; [exact caps_proper|reflexivity]. Qed.

(** Links without a distance get the geodesic one between their two nodes, in the unit of the configuration; distances that are given
    stay. *)
Theorem C91_distance geodesic thousandth km ds ds' p : proper_dset ds -> usual_dims ds -> In "latitude" (map fst (vars ds)) -> In "longitude" (map fst (vars ds)) ->
  add_link_distances geodesic thousandth km ds = Ok ds' -> member ds "techs" (p "techs") -> link ds (p "techs") ->
  (forall a, In ("distance", a) (vars ds) -> within ds (a_dims a) p) ->
  (forall c, c <> NaN -> holds ds "distance" p c -> holds ds' "distance" p c) /\
  ((forall c, c <> NaN -> ~ holds ds "distance" p c) ->
    exists a b, ends ds (p "techs") [a; b] /\ forall pa pb la oa lb ob, pa "nodes" = a -> pb "nodes" = b -> la <> NaN -> oa <> NaN -> lb <> NaN -> ob <> NaN ->
      holds ds "latitude" pa la -> holds ds "longitude" pa oa -> holds ds "latitude" pb lb -> holds ds "longitude" pb ob ->
      let c := if km then thousandth (geodesic la oa lb ob) else geodesic la oa lb ob in c <> NaN -> holds ds' "distance" p c).
Proof.
  intros P US LA LO E M LK W. apply member_in in M; [|apply P]. unfold add_link_distances in E.
  apply d_mem_keys in LA. apply d_mem_keys in LO. rewrite LA, LO in E. cbn [andb] in E.
  assert (existsb (transmission ds) (members ds "techs") = true) as X. { apply existsb_exists. exists (p "techs"). split; [trivial|]. now apply transmission_spec. }
  rewrite X in E. destruct (link_distances geodesic ds (members ds "techs")) as [l|] eqn:L; cbn [bind] in E; [|discriminate E]. injection E as E.
  assert (proper_dset ds') as P'. { rewrite <- E. apply fill_proper; trivial. intros i j A. cbn in *. now rewrite (A "techs") by now left. }
  split.
  - intros c N H. apply (holds_read _ _ _ _ P' N). apply (holds_read _ _ _ _ P N) in H. rewrite <- E. apply fill_kept; trivial. cbn. intros d [<-|[]]. exact M.
  - intros NG. destruct (distances_get ds P US geodesic _ _ L _ M LK) as (a & b & NO & G). exists a, b. split; [rewrite <- NO; now apply nodes_of_ends|].
    intros pa pb la oa lb ob PA PB N1 N2 N3 N4 H1 H2 H3 H4 c NC. apply (holds_read _ _ _ _ P' NC).
    assert (read ds "distance" p = NaN) as R.
    { destruct (read ds "distance" p) eqn:R; trivial; exfalso; (eapply NG; [|apply (holds_read _ _ _ _ P); [|exact R]]; discriminate). }
    assert (forall v q x n, (v = "latitude" \/ v = "longitude") -> x <> NaN -> q "nodes" = n -> holds ds v q x -> InputModel.at_node ds v n = x) as AT.
    { intros v q x n V N Q H. apply (holds_read _ _ _ _ P N) in H. rewrite <- H. unfold InputModel.at_node. apply read_agree; trivial. intros a0 A d D.
      rewrite (us_place _ US v a0 V A) in D. destruct D as [<-|[]]. unfold upd. now rewrite String.eqb_refl. }
    rewrite <- E, (fill_gap "distance" _ ds p); [|intros d [[<-|[]]|D]; [exact M|]; apply (has_dims ds "distance" d P) in D; destruct D as (a0 & A & D); apply member_in; [apply P|]; exact (W a0 A d D)|exact R].
    cbn [a_at]. rewrite G. unfold length_of. rewrite (AT "latitude" pa la a), (AT "longitude" pa oa a), (AT "latitude" pb lb b), (AT "longitude" pb ob b) by (trivial; tauto). reflexivity.
Qed.
Print Assumptions C91_distance.
(** Distances of other technologies, and all other inputs, are left alone. *)
Theorem C91_others geodesic thousandth km ds ds' v p c : proper_dset ds -> usual_dims ds -> add_link_distances geodesic thousandth km ds = Ok ds' -> c <> NaN ->
  v <> "distance" \/ (~ link ds (p "techs") /\ member ds "techs" (p "techs")) -> (holds ds' v p c <-> holds ds v p c).
Proof.
  intros P US E N O. unfold add_link_distances in E. destruct (_ && _ && _); [|injection E as <-; tauto].
  destruct (link_distances geodesic ds (members ds "techs")) as [l|] eqn:L; cbn [bind] in E; [|discriminate E]. injection E as E.
  assert (proper_dset ds') as P'. { rewrite <- E. apply fill_proper; trivial. intros i j A. cbn in *. now rewrite (A "techs") by now left. }
  rewrite (holds_read _ _ _ _ P' N), (holds_read _ _ _ _ P N), <- E. destruct (string_dec v "distance") as [->|NV]; [|now rewrite fill_other].
  destruct O as [O|[NL M]]; [now contradiction O|]. apply member_in in M; [|apply P]. split.
  - intros R. destruct (is_nan (read ds "distance" p)) eqn:Q.
    + exfalso. apply is_nan_spec in Q. unfold read in R. rewrite fill_get, String.eqb_refl in R. unfold read in Q. destruct (d_get "distance" (vars ds)) as [o|].
      * cbn [a_dims a_at] in R. destruct (here (fill _ _ _) _ p) eqn:H; [|congruence].
        assert (here ds (a_dims o) p = true) as HO. { unfold here in *. rewrite forallb_forall in *. intros d D. rewrite <- (H d) by (apply join_in; now left). now rewrite fill_members. }
        rewrite HO in Q. rewrite Q in R. cbn [is_nan] in R. rewrite (distances_none ds P US geodesic _ _ L _ NL) in R. congruence.
      * cbn [a_dims a_at] in R. destruct (here _ _ p); [|congruence]. rewrite (distances_none ds P US geodesic _ _ L _ NL) in R. congruence.
    + assert (read ds "distance" p <> NaN) as Q' by (intros X; apply is_nan_spec in X; congruence). rewrite <- R. symmetry. apply fill_kept; trivial. cbn. intros d [<-|[]]. exact M.
  - intros R. apply fill_kept; trivial. cbn. intros d [<-|[]]. exact M.
Qed.
Print Assumptions C91_others.
(** With coordinates, a model is refused exactly if a link is not defined at two nodes. *)
Theorem C91_refusal geodesic thousandth km ds : proper_dset ds -> usual_dims ds -> In "latitude" (map fst (vars ds)) -> In "longitude" (map fst (vars ds)) ->
  ((exists ds', add_link_distances geodesic thousandth km ds = Ok ds') <->
   forall t, member ds "techs" t -> link ds t -> exists a b, a <> b /\ ends ds t [a; b]).
Proof.
  intros P US LA LO. unfold add_link_distances. apply d_mem_keys in LA. apply d_mem_keys in LO. rewrite LA, LO. cbn [andb].
  assert (forall t, member ds "techs" t <-> In t (members ds "techs")) as ME by (intros t; apply member_in, P).
  destruct (existsb (transmission ds) (members ds "techs")) eqn:X.
  - pose proof (distances_ok ds P US geodesic (members ds "techs")) as D. destruct (link_distances geodesic ds (members ds "techs")) as [l|]; cbn [bind].
    + split; [|eauto]. intros _ t T. apply (proj1 D); [eauto|now apply ME].
    + split; [intros (y & Y); discriminate Y|]. intros H. destruct (proj2 D) as (y & Y); [|discriminate Y]. intros t T. apply H. now apply ME.
  - split; [|eauto]. intros _ t T LK. exfalso. assert (existsb (transmission ds) (members ds "techs") = true); [|congruence].
    apply existsb_exists. exists t. split; [now apply ME|now apply transmission_spec].
Qed.
Print Assumptions C91_refusal.
Definition grid (far : string) : dset :=
  {| coords := [("techs", ["line"; "pv"]); ("nodes", ["north"; "south"]); ("carriers", ["power"])];
     vars := [("base_tech", {| a_dims := ["techs"]; a_bool := false; a_at := fun p => if String.eqb (p "techs") "line" then Str "transmission" else Str "supply" |});
              ("definition_matrix", {| a_dims := ["nodes"; "techs"; "carriers"]; a_bool := true;
                 a_at := fun p => Bo (String.eqb (p "nodes") "north" || (String.eqb (p "techs") "line" && String.eqb (p "nodes") far)) |});
              ("latitude", {| a_dims := ["nodes"]; a_bool := false; a_at := fun p => if String.eqb (p "nodes") "north" then Num 60 else Num 50 |});
              ("longitude", {| a_dims := ["nodes"]; a_bool := false; a_at := fun _ => Num 7 |})] |}.
Lemma grid_proper far : proper_dset (grid far).
Proof.
  split; cbn; [repeat constructor; cbn; intuition discriminate|repeat constructor; cbn; intuition discriminate|].
  intros n a I. repeat (destruct I as [I|I]; [injection I as <- <-; intros i j A; cbn in *;
    first [reflexivity|now rewrite (A "techs") by (cbn; tauto)|now rewrite (A "nodes") by (cbn; tauto)|(rewrite (A "nodes") by (cbn; tauto); now rewrite (A "techs") by (cbn; tauto))] |]). destruct I.
Qed.
Lemma grid_usual far : usual_dims (grid far).
Proof.
  split; cbn.
  - repeat constructor; cbn; intuition discriminate.
  - intros a I. repeat (destruct I as [I|I]; [first [discriminate I|injection I as <-; reflexivity]|]). destruct I.
  - intros a I d D. repeat (destruct I as [I|I]; [first [discriminate I|injection I as <-; cbn in D; intuition]|]). destruct I.
  - intros n a [->| ->] I; repeat (destruct I as [I|I]; [first [discriminate I|injection I as <-; reflexivity]|]); destruct I.
Qed.
Definition crow (a b c d : cell) : cell := match a, c with Num x, Num y => Num (Z.abs (x - y) * 111000) | _, _ => NaN end.
Definition per_mille (c : cell) : cell := match c with Num x => Num (x / 1000) | _ => NaN end.
Example C91_distance_example : exists ds, add_link_distances crow per_mille true (grid "south") = Ok ds /\ read ds "distance" (spot "" "line" "") = Num 1110 /\ read ds "distance" (spot "" "pv" "") = NaN.
Proof. eexists. split; [apply made_ok; vm_compute; reflexivity|]. split; vm_compute; reflexivity. Qed.
Example C91_distance_example_ends : link (grid "south") "line" /\ ends (grid "south") "line" ["north"; "south"] /\ add_link_distances crow per_mille true (grid "north") = Err EValue.
Proof.
  split; [|split].
  - apply (transmission_spec (grid "south") (grid_proper _) (grid_usual _)). reflexivity.
  - exact (nodes_of_ends (grid "south") (grid_proper _) (grid_usual _) "line").
  - reflexivity.
Qed.
