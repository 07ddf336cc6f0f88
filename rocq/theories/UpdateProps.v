(** Updating inputs of a built problem: C43, C44. *)
From Coq Require Import QArith Qcanon Lia.
From Verif Require Import Base BaseProofs EvalModel HelperModel HelperSpec HelperProofs
  UpdateModel UpdateSpec UpdateProofs UpdateFresh UpdateRebuild UpdateStep UpdateSeq.
Local Open Scope nat_scope.
Local Open Scope string_scope.
Local Open Scope list_scope.

(** * Example: two nodes, a variable that exists where a capacity is given, its sum, a limit *)
Definition ex_L (d : string) : list string := if String.eqb d "nodes" then ["n1"; "n2"] else [].
Definition num (z : Z) : cell := Val (Q2Qc (inject_Z z)).
Definition nodes (x y : cell) : darr :=
  {| a_dims := ["nodes"];
     a_at := fun p => if String.eqb (p "nodes") "n1" then x else if String.eqb (p "nodes") "n2" then y else Miss |}.
Definition one (x : cell) : darr := {| a_dims := []; a_at := fun _ => x |}.
Definition at_node (n : string) : pos := put (fun _ => "") "nodes" n.
Definition n1 : pos := at_node "n1".
Definition n2 : pos := at_node "n2".
Definition here : pos := fun _ => "".

Definition flow : comp := {| k_kind := KVariable; k_name := "flow"; k_prog :=
  Ask "cap" n1 (fun _ c1 => Ask "cap" n2 (fun _ c2 =>
    Done ["nodes"] (fun p => if String.eqb (p "nodes") "n1" then if missing c1 then INull else IObj "flow" n1
                             else if String.eqb (p "nodes") "n2" then if missing c2 then INull else IObj "flow" n2
                             else INull))) |}.
Definition total : comp := {| k_kind := KExpression; k_name := "total"; k_prog :=
  Look "flow" n1 (fun _ f1 => Look "flow" n2 (fun _ f2 =>
    Look "cap" n1 (fun _ c1 => Look "cap" n2 (fun _ c2 => Done [] (fun _ => INode "+" [f1; c1; f2; c2]))))) |}.
Definition limit : comp := {| k_kind := KConstraint; k_name := "limit"; k_prog :=
  Look "total" here (fun _ t => Look "demand" here (fun _ d => Done [] (fun _ => INode "<=" [t; d]))) |}.
Definition ex_M : math := {| m_inputs := [("cap", false); ("demand", false)]; m_comps := [limit; total; flow] |}.
Definition ex_R (c : comp) : list string :=
  if String.eqb (k_name c) "flow" then ["cap"] else if String.eqb (k_name c) "total" then ["flow"; "cap"] else ["total"; "demand"].
Definition ex_I (cap : darr) : inputs := fun n => if String.eqb n "cap" then cap else one (num 100).

Lemma nodes_proper x y : proper ex_L (nodes x y).
Proof.
  split; [|split].
  - intros p q H. cbn. rewrite (H "nodes" (or_introl eq_refl)). reflexivity.
  - repeat constructor. intros [].
  - intros p d [<-|[]] N. cbn [nodes a_at]. destruct (String.eqb_spec (p "nodes") "n1") as [E|E]; [exfalso; apply N; rewrite E; vm_compute; auto|].
    destruct (String.eqb_spec (p "nodes") "n2") as [E2|E2]; [exfalso; apply N; rewrite E2; vm_compute; auto|reflexivity].
Qed.
Lemma one_proper x : proper ex_L (one x).
Proof. split; [intros p q _; reflexivity|]. split; [constructor|]. intros p d []. Qed.
Lemma ex_proper x y n : proper ex_L (ex_I (nodes x y) n).
Proof. unfold ex_I. destruct (String.eqb n "cap"); [apply nodes_proper|apply one_proper]. Qed.
Lemma ex_wf : well_formed ex_M.
Proof.
  split; [|split].
  - repeat constructor; cbn; intuition discriminate.
  - intros c [<-|[<-|[<-|[]]]]; cbn; tauto.
  - intros c [<-|[<-|[<-|[]]]]; cbn; intuition auto.
Qed.
Lemma ex_static : static_reads ex_M ex_R.
Proof.
  intros c [<-|[<-|[<-|[]]]] I D refs res H r; cbn in H; unfold ex_R; cbn [k_name limit total flow String.eqb Ascii.eqb Bool.eqb];
    repeat match type of H with context [d_get ?x ?y] => destruct (d_get x y); try discriminate end;
    injection H as <- _; cbn; intuition auto.
Qed.
Lemma ex_no_peek s c : In c (m_comps ex_M) -> never_peeks s (k_prog c).
Proof. intros [<-|[<-|[<-|[]]]]; cbn; auto. Qed.
Lemma ex_blind c : In c (m_comps ex_M) -> blind "cap" (k_prog c).
Proof.
  intros [<-|[<-|[<-|[]]]] I J D E1 E2 E3; cbn; try reflexivity.
  destruct (E3 n1) as [P1 _]. destruct (E3 n2) as [P2 _]. rewrite P1, P2. reflexivity.
Qed.
Definition pick (a b : cell) : cell := match a with Miss => b | _ => a end.
Lemma ex_replaced x y x' y' :
  replaced ex_L "cap" (nodes x' y') (ex_I (nodes x y)) (ex_I (nodes (pick x' x) (pick y' y))).
Proof.
  split; [intros n N; apply String.eqb_neq in N; unfold ex_I; now rewrite N|]. split; [reflexivity|].
  split; [apply nodes_proper|]. intros p _. cbn.
  destruct (String.eqb (p "nodes") "n1"); [now destruct x'|]. destruct (String.eqb (p "nodes") "n2"); [now destruct y'|reflexivity].
Qed.

(** * C44: the first update *)
(** Right after a build, an update gives the problem that a build with the new values would
    give. *)
Theorem C44_update_first : forall L mutable M I J st F s new,
  well_formed M -> (forall n, In n (map fst (m_inputs M)) -> proper L (I n)) ->
  fresh L mutable M I = Some st -> fresh L mutable M J = Some F ->
  replaced L s new I J -> harmless L mutable M I s new ->
  exists st', update_input L mutable M s new st = Ok st' /\ same_problem st' F.
Proof. intros L mutable M I J st F s new WF PR FI FJ RP HA. eapply update_first; eauto. Qed.
Print Assumptions C44_update_first.

Definition ex_fresh (mutable : bool) (cap : darr) : state :=
  match fresh ex_L mutable ex_M (ex_I cap) with Some st => st | None => {| s_inputs := ex_I cap; s_data := []; s_vals := fun _ _ => Miss |} end.
Lemma ex_builds mutable x y : fresh ex_L mutable ex_M (ex_I (nodes x y)) = Some (ex_fresh mutable (nodes x y)).
Proof. reflexivity. Qed.
Lemma ex_harmless mutable x y x' y' : is_inf x = is_inf (pick x' x) -> is_inf y = is_inf (pick y' y) ->
  harmless ex_L mutable ex_M (ex_I (nodes x y)) "cap" (nodes x' y').
Proof.
  intros E1 E2. split; [now left|]. split; [apply nodes_proper|]. split; [intros c; apply ex_no_peek|].
  intros _ _ _. split; [right; auto|]. split; [apply ex_blind|]. intros p N. cbn in *.
  destruct (String.eqb (p "nodes") "n1"); [rewrite E1; destruct x'; cbn; congruence|].
  destruct (String.eqb (p "nodes") "n2"); [rewrite E2; destruct y'; cbn; congruence|congruence].
Qed.
(** A capacity appears at n2 and the one at n1 changes: the variable gets a new entry and the sum
    and the limit follow. *)
Example C44_update_first_ex : exists st', update_input ex_L true ex_M "cap" (nodes (num 5) (num 7)) (ex_fresh true (nodes (num 3) Miss)) = Ok st' /\
  same_problem st' (ex_fresh true (nodes (num 5) (num 7))).
Proof.
  apply (C44_update_first ex_L true ex_M (ex_I (nodes (num 3) Miss)) (ex_I (nodes (num 5) (num 7)))).
  - apply ex_wf.
  - intros n _. apply ex_proper.
  - apply ex_builds.
  - apply ex_builds.
  - apply (ex_replaced (num 3) Miss (num 5) (num 7)).
  - now apply ex_harmless.
Qed.
Example C44_update_first_ex2 : match update_input ex_L true ex_M "cap" (nodes (num 5) (num 7)) (ex_fresh true (nodes (num 3) Miss)) with
  | Ok st => match d_get "limit" (s_data st) with Some e => t_at e here | None => INull end
             = INode "<=" [INode "+" [IObj "flow" n1; IObj "cap" n1; IObj "flow" n2; IObj "cap" n2]; IObj "demand" here]
             /\ s_vals st "cap" n2 = num 7
  | Err _ => False
  end.
Proof. vm_compute. auto. Qed.

(** * C44, C43: series of updates *)
(** If the names that components read do not depend on the inputs, the same holds after any
    series of updates; each component exists once, is stored after everything it refers to, and
    the references are those of a fresh build. *)
Theorem C44_update_series : forall L mutable M R us I J st F,
  well_formed M -> static_reads M R -> (forall n, In n (map fst (m_inputs M)) -> proper L (I n)) ->
  fresh L mutable M I = Some st -> fresh L mutable M J = Some F -> series L mutable M us I J ->
  exists st', update_all L mutable M us st = Ok st' /\ same_problem st' F.
Proof.
  intros L mutable M R us I J st F WF SR PR FI FJ SE.
  destruct (fresh_good L mutable M WF I st FI) as (G & EI & _).
  assert (FX : fixed M R) by (intros c HC; apply SR; now apply (order_in M WF)).
  destruct (update_series L mutable M WF R FX us I J F st) as (st' & U & SP & _); auto.
  - eapply fresh_in_order; eauto.
  - eapply exact_fresh; eauto.
  - intros n. rewrite EI. split; reflexivity.
  - eauto.
Qed.
Print Assumptions C44_update_series.

Lemma before_stored D r c : NoDup (d_keys D) -> before (d_keys D) r c -> stored_before D r c.
Proof.
  intros _ (a & b & E & Hr & Hc). unfold d_keys in E.
  assert (S1 : forall (D : dataset) a b, map fst D = a ++ b -> exists x y, D = x ++ y /\ map fst x = a /\ map fst y = b).
  { clear. induction D as [|d D IH]; intros a b E.
    - exists [], []. destruct a; [|discriminate]. destruct b; [auto|discriminate].
    - destruct a as [|x a].
      + exists [], (d :: D). auto.
      + cbn in E. injection E as <- E. destruct (IH a b E) as (u & v & -> & <- & <-). exists (d :: u), v. auto. }
  destruct (S1 D a b E) as (x & y & -> & <- & <-). exists x, y. auto.
Qed.
Theorem C43_update_series_partial : forall L mutable M R us I J st F,
  well_formed M -> static_reads M R -> (forall n, In n (map fst (m_inputs M)) -> proper L (I n)) ->
  fresh L mutable M I = Some st -> fresh L mutable M J = Some F -> series L mutable M us I J ->
  exists st', update_all L mutable M us st = Ok st' /\
    NoDup (map fst (s_data st')) /\
    (forall n, In n (map fst (s_data st')) <-> In n (map fst (m_inputs M)) \/ In n (map k_name (m_comps M))) /\
    (forall c r, In c (m_comps M) -> refers st' c r -> stored_before (s_data st') r (k_name c)) /\
    (forall r e e', d_get r (s_data st') = Some e -> d_get r (s_data F) = Some e' ->
       forall n, In n (t_refs e) <-> In n (t_refs e')).
Proof.
  intros L mutable M R us I J st F WF SR PR FI FJ SE.
  destruct (fresh_good L mutable M WF I st FI) as (G & EI & _).
  destruct (fresh_good L mutable M WF J F FJ) as (GF & _).
  assert (FX : fixed M R) by (intros c HC; apply SR; now apply (order_in M WF)).
  destruct (update_series L mutable M WF R FX us I J F st) as (st' & U & SP & G' & IO & EX); auto.
  - eapply fresh_in_order; eauto.
  - eapply exact_fresh; eauto.
  - intros n. rewrite EI. split; reflexivity.
  - exists st'. split; [exact U|]. split; [apply (g_nodup _ _ _ _ _ G')|]. split; [|split].
    + intros n. rewrite (g_set _ _ _ _ _ G' n : In n (map fst (s_data st')) <-> _). unfold names. rewrite in_app_iff.
      assert (E : In n (map k_name (build_order M)) <-> In n (map k_name (m_comps M))).
      { rewrite !in_map_iff. split; intros (c & E & HC); exists c; (split; [exact E|]); now apply (order_in M WF). }
      now rewrite E.
    + intros c r HC RF. apply before_stored; [apply (g_nodup _ _ _ _ _ G')|]. apply IO; [now apply (order_in M WF)|exact RF].
    + apply (refs_same L mutable M R st' F FX G' GF EX). eapply exact_fresh; eauto.
Qed.
Print Assumptions C43_update_series_partial.

Example ex_series : series ex_L true ex_M [("cap", nodes Miss (num 7)); ("cap", nodes (num 4) Miss)]
  (ex_I (nodes (num 3) Miss)) (ex_I (nodes (num 4) (num 7))).
Proof.
  exists (ex_I (nodes (num 3) (num 7))). split; [apply (ex_replaced (num 3) Miss Miss (num 7))|].
  split; [now apply ex_harmless|]. split; [eexists; apply ex_builds|].
  exists (ex_I (nodes (num 4) (num 7))). split; [apply (ex_replaced (num 3) (num 7) (num 4) Miss)|].
  split; [now apply ex_harmless|]. split; [eexists; apply ex_builds|]. reflexivity.
Qed.
(** A rebuild followed by a change in place. *)
Example C44_update_series_ex : exists st', update_all ex_L true ex_M [("cap", nodes Miss (num 7)); ("cap", nodes (num 4) Miss)]
    (ex_fresh true (nodes (num 3) Miss)) = Ok st' /\
  same_problem st' (ex_fresh true (nodes (num 4) (num 7))).
Proof.
  refine (C44_update_series ex_L true ex_M ex_R _ _ _ _ _ ex_wf ex_static _ (ex_builds _ _ _) (ex_builds _ _ _) ex_series).
  intros n _. apply ex_proper.
Qed.
Example C43_update_series_ex : match update_all ex_L true ex_M [("cap", nodes Miss (num 7)); ("cap", nodes (num 4) Miss)]
    (ex_fresh true (nodes (num 3) Miss)) with
  | Ok st => map fst (s_data st) = ["demand"; "cap"; "flow"; "total"; "limit"] /\
             map (fun e => t_refs (snd e)) (s_data st) = [["limit"]; ["flow"; "total"]; ["total"]; ["limit"]; []]
  | Err _ => False
  end.
Proof. vm_compute. auto. Qed.

(** With parameters as plain numbers (Gurobi) every update rebuilds: nothing need be known about
    what components do with values. *)
Theorem C44_update_numbers : forall L M I J st F s new,
  well_formed M -> (forall n, In n (map fst (m_inputs M)) -> proper L (I n)) ->
  fresh L false M I = Some st -> fresh L false M J = Some F -> replaced L s new I J ->
  In s (map fst (m_inputs M)) -> proper L new -> (forall c, In c (m_comps M) -> never_peeks s (k_prog c)) ->
  exists st', update_input L false M s new st = Ok st' /\ same_problem st' F.
Proof.
  intros L M I J st F s new WF PR FI FJ RP HI PN NP. eapply C44_update_first; eauto.
  repeat (split; [assumption|]). discriminate.
Qed.
Print Assumptions C44_update_numbers.

(** * Where updates go wrong *)
(** What a user would expect of every update, without the conditions of [harmless]. *)
Definition update_fails (L : string -> list string) (mutable : bool) (M : math) (I J : inputs) (s : string) (new : darr) : Prop :=
  well_formed M /\ (forall n, In n (map fst (m_inputs M)) -> proper L (I n)) /\ proper L new /\
  In s (map fst (m_inputs M)) /\ replaced L s new I J /\
  exists st F, fresh L mutable M I = Some st /\ fresh L mutable M J = Some F /\
    match update_input L mutable M s new st with Ok st' => ~ same_problem st' F | Err _ => True end.

(** A condition on the size of a parameter ([where: cap > 5]) is not looked at again when its
    value is changed in place. *)
Definition big : comp := {| k_kind := KConstraint; k_name := "big"; k_prog :=
  Ask "cap" n1 (fun _ c => Look "cap" n1 (fun _ i =>
    Done [] (fun _ => match c with Val q => if Qclt_le_dec (Q2Qc 5) q then INode "<=" [i] else INull | _ => INull end))) |}.
Definition big_M : math := {| m_inputs := [("cap", false)]; m_comps := [big] |}.
Theorem C44_condition_refuted : exists L M I J s new, update_fails L true M I J s new.
Proof.
  exists ex_L, big_M, (ex_I (nodes (num 10) (num 1))), (ex_I (nodes (num 3) (num 1))), "cap", (nodes (num 3) Miss).
  split; [|split; [intros n _; apply ex_proper|split; [apply nodes_proper|split; [now left|split]]]].
  - split; [repeat constructor; cbn; intuition discriminate|]. split; intros c [<-|[]]; cbn; intuition auto.
  - apply (ex_replaced (num 10) (num 1) (num 3) Miss).
  - do 2 eexists. split; [reflexivity|]. split; [reflexivity|].
    intros [H _]. specialize (H "big"). vm_compute in H. destruct H as (_ & _ & H). specialize (H here). discriminate.
Qed.
Print Assumptions C44_condition_refuted.

(** Lookups read without being noted ([reduce_carrier_dim] reads [carrier_in]) do not cause a
    rebuild. *)
Definition reduced : comp := {| k_kind := KExpression; k_name := "reduced"; k_prog :=
  Peek "carrier_in" here (fun _ c => Done [] (fun _ => match c with Boo true => INode "flow" [] | _ => INull end)) |}.
Definition reduced_M : math := {| m_inputs := [("carrier_in", true)]; m_comps := [reduced] |}.
Theorem C44_unnoted_refuted : exists L mutable M I J s new, update_fails L mutable M I J s new.
Proof.
  exists ex_L, true, reduced_M, (fun _ => one (Boo true)), (fun n => if String.eqb n "carrier_in" then one (Boo false) else one (Boo true)),
    "carrier_in", (one (Boo false)).
  split; [|split; [intros n _; apply one_proper|split; [apply one_proper|split; [now left|split]]]].
  - split; [repeat constructor; cbn; intuition discriminate|]. split; intros c [<-|[]]; cbn; intuition auto.
  - split; [intros n N; apply String.eqb_neq in N; now rewrite N|]. split; [reflexivity|]. split; [apply one_proper|]. reflexivity.
  - do 2 eexists. split; [reflexivity|]. split; [reflexivity|].
    intros [H _]. specialize (H "reduced"). vm_compute in H. destruct H as (_ & _ & H). specialize (H here). discriminate.
Qed.
Print Assumptions C44_unnoted_refuted.

(** New values for some of the dimensions, some of them missing: the mask is laid over the wrong
    axis.  Here a capacity by node and technology is to become 5 at n1 and stay at n2; instead
    both nodes change for technology t1 (n2 to "missing") and none for t2. *)
Definition grid_L (d : string) : list string :=
  if String.eqb d "nodes" then ["n1"; "n2"] else if String.eqb d "techs" then ["t1"; "t2"] else [].
Definition grid (f : string -> string -> cell) : darr :=
  {| a_dims := ["nodes"; "techs"];
     a_at := fun p => if smem (p "nodes") ["n1"; "n2"] && smem (p "techs") ["t1"; "t2"] then f (p "nodes") (p "techs") else Miss |}.
Definition grid_M : math := {| m_inputs := [("cap", false)]; m_comps := [] |}.
Definition cell_at (n t : string) : pos := put (at_node n) "techs" t.
Lemma grid_proper f : proper grid_L (grid f).
Proof.
  split; [|split].
  - intros p q H. cbn [grid a_at]. rewrite (H "nodes"), (H "techs"); cbn; auto.
  - repeat constructor; cbn; intuition discriminate.
  - intros p d [<-|[<-|[]]] N; cbn [grid a_at].
    + destruct (smem (p "nodes") ["n1"; "n2"]) eqn:E; [|reflexivity]. apply smem_in in E. now destruct N.
    + destruct (smem (p "techs") ["t1"; "t2"]) eqn:E; [|now rewrite Bool.andb_false_r]. apply smem_in in E. now destruct N.
Qed.
Lemma nodes_proper_grid x y : proper grid_L (nodes x y).
Proof.
  split; [|split].
  - intros p q H. cbn. rewrite (H "nodes" (or_introl eq_refl)). reflexivity.
  - repeat constructor. intros [].
  - intros p d [<-|[]] N. cbn [nodes a_at]. destruct (String.eqb_spec (p "nodes") "n1") as [E|E]; [exfalso; apply N; rewrite E; vm_compute; auto|].
    destruct (String.eqb_spec (p "nodes") "n2") as [E2|E2]; [exfalso; apply N; rewrite E2; vm_compute; auto|reflexivity].
Qed.
Definition some_dims_values (st : state) : list cell :=
  map (fun nt => s_vals st "cap" (cell_at (fst nt) (snd nt))) [("n1", "t1"); ("n1", "t2"); ("n2", "t1"); ("n2", "t2")].
Theorem C44_some_dims_refuted : exists L M I J s new, update_fails L true M I J s new.
Proof.
  exists grid_L, grid_M, (fun _ => grid (fun _ _ => num 1)),
    (fun n => if String.eqb n "cap" then grid (fun n _ => if String.eqb n "n1" then num 5 else num 1) else grid (fun _ _ => num 1)),
    "cap", (nodes (num 5) Miss).
  split; [|split; [intros n _; apply grid_proper|split; [apply nodes_proper_grid|split; [now left|split]]]].
  - split; [repeat constructor; cbn; intuition discriminate|]. split; intros c [].
  - split; [intros n N; apply String.eqb_neq in N; now rewrite N|]. split; [reflexivity|]. split; [apply grid_proper|].
    intros p W. specialize (W "nodes" (or_introl eq_refl)) as W1. specialize (W "techs" (or_intror (or_introl eq_refl))) as W2.
    change (In (p "nodes") ["n1"; "n2"]) in W1. change (In (p "techs") ["t1"; "t2"]) in W2.
    cbn -[num smem]. rewrite (proj2 (smem_in _ _) W1), (proj2 (smem_in _ _) W2). cbn -[num].
    destruct W1 as [<-|[<-|[]]]; reflexivity.
  - do 2 eexists. split; [reflexivity|]. split; [reflexivity|].
    intros [_ H]. specialize (H "cap").
    match type of H with forall e p, d_get _ ?D = _ -> _ => destruct (d_get "cap" D) as [e|] eqn:E; [|discriminate] end.
    vm_compute in E. injection E as <-. specialize (H _ (cell_at "n1" "t2") eq_refl eq_refl eq_refl). vm_compute in H. discriminate.
Qed.
Print Assumptions C44_some_dims_refuted.
Example C44_some_dims_ex : match fresh grid_L true grid_M (fun _ => grid (fun _ _ => num 1)) with
  | Some st => match update_input grid_L true grid_M "cap" (nodes (num 5) Miss) st with
               | Ok st' => some_dims_values st' = [num 5; num 1; Miss; num 1]
               | Err _ => False
               end
  | None => False
  end.
Proof. vm_compute. reflexivity. Qed.

(** * C43: the order of rebuilding *)
(** [first] is [p1 + p] where [p] is given and [p1] elsewhere; [second] is twice [first] where [p]
    is given and 0 elsewhere.  Updating [p1] moves [first] behind [second]; giving [p] a value
    afterwards rebuilds [second] with the old [first]. *)
Definition first : comp := {| k_kind := KExpression; k_name := "first"; k_prog :=
  Look "p1" here (fun _ a => Ask "p" here (fun _ c =>
    if missing c then Done [] (fun _ => a) else Look "p" here (fun _ b => Done [] (fun _ => INode "+" [a; b])))) |}.
Definition second : comp := {| k_kind := KExpression; k_name := "second"; k_prog :=
  Ask "p" here (fun _ c =>
    if missing c then Done [] (fun _ => INum (num 0)) else Look "first" here (fun _ a => Done [] (fun _ => INode "*" [INum (num 2); a]))) |}.
Definition order_M : math := {| m_inputs := [("p1", false); ("p", false)]; m_comps := [first; second] |}.
Definition order_I (p1 p : cell) : inputs := fun n => if String.eqb n "p1" then one p1 else if String.eqb n "p" then one p else one Miss.
Theorem C43_order_refuted : exists L M us I J, well_formed M /\
  (forall n, In n (map fst (m_inputs M)) -> proper L (I n)) /\ series L true M us I J /\
  exists st F, fresh L true M I = Some st /\ fresh L true M J = Some F /\
    match update_all L true M us st with
    | Ok st' => ~ same_problem st' F /\
        (exists c r, In c (m_comps M) /\ refers st' c r /\ ~ stored_before (s_data st') r (k_name c)) /\
        (exists r e e' n, d_get r (s_data st') = Some e /\ d_get r (s_data F) = Some e' /\ In n (t_refs e') /\ ~ In n (t_refs e))
    | Err _ => False
    end.
Proof.
  exists ex_L, order_M, [("p1", one (num 1)); ("p", one (num 2))], (order_I Miss Miss), (order_I (num 1) (num 2)).
  split; [|split; [|split]].
  - split; [repeat constructor; cbn; intuition discriminate|].
    split; intros c [<-|[<-|[]]]; cbn; intuition auto; destruct (missing _); cbn; auto.
  - intros n _. unfold order_I. destruct (String.eqb n "p1"); [apply one_proper|]. destruct (String.eqb n "p"); apply one_proper.
  - assert (HA : forall I s x, In s ["p1"; "p"] -> a_at (I s) here = Miss -> a_dims (I s) = [] -> x <> Miss -> harmless ex_L true order_M I s (one x)).
    { intros I s x Hs HM HD Hx. split; [exact Hs|]. split; [apply one_proper|]. split.
      - intros c [<-|[<-|[]]]; cbn; intros; destruct (missing _); cbn; auto.
      - intros _ _ [_ V]. exfalso. apply (V here); auto. rewrite HD. intros d []. }
    exists (order_I (num 1) Miss). split; [|split; [apply HA; cbn; auto; discriminate|split; [eexists; reflexivity|]]].
    { split; [intros n N; unfold order_I; apply String.eqb_neq in N; now rewrite N|]. split; [reflexivity|]. split; [apply one_proper|reflexivity]. }
    exists (order_I (num 1) (num 2)). split; [|split; [apply HA; cbn; auto; discriminate|split; [eexists; reflexivity|reflexivity]]].
    split; [intros n N; unfold order_I; apply String.eqb_neq in N; now rewrite N|]. split; [reflexivity|]. split; [apply one_proper|reflexivity].
  - do 2 eexists. split; [reflexivity|]. split; [reflexivity|].
    match goal with |- match ?x with _ => _ end => destruct x as [st'|st'] eqn:U; [|vm_compute in U; discriminate] end.
    vm_compute in U. injection U as <-. split; [|split].
    + intros [H _]. specialize (H "second"). vm_compute in H. destruct H as (_ & _ & H). specialize (H here). discriminate.
    + exists second, "first". split; [right; now left|]. split.
      * do 2 eexists. split; [reflexivity|]. right. now left.
      * intros (a & b & E & Hr & Hc). cbn [s_data] in E.
        apply (f_equal (map fst)) in E. rewrite map_app in E. cbn in E.
        apply (before_split ["p1"; "p"; "second"; "first"] ["p1"; "p"; "second"] ["first"] "first" "second");
          [repeat constructor; cbn; intuition discriminate|exists (map fst a), (map fst b); auto|reflexivity|cbn; auto|cbn; auto].
    + exists "first". do 2 eexists. exists "second". split; [reflexivity|]. split; [reflexivity|]. split; [now left|intros []].
Qed.
Print Assumptions C43_order_refuted.

(** A failing update leaves the problem without the component that could not be rebuilt. *)
Definition needy : comp := {| k_kind := KConstraint; k_name := "needy"; k_prog :=
  Ask "p" here (fun _ c => match c with Val q => if Qclt_le_dec (Q2Qc 5) q then Stop else Done [] (fun _ => INode "p" []) | _ => Done [] (fun _ => INull) end) |}.
Definition needy_M : math := {| m_inputs := [("p", false)]; m_comps := [needy] |}.
Theorem C43_failed_update_refuted : exists L mutable M I s new st st', well_formed M /\
  (forall n, In n (map fst (m_inputs M)) -> proper L (I n)) /\ proper L new /\
  fresh L mutable M I = Some st /\ update_input L mutable M s new st = Err st' /\
  exists c, In c (m_comps M) /\ In (k_name c) (map fst (s_data st)) /\ ~ In (k_name c) (map fst (s_data st')).
Proof.
  exists ex_L, false, needy_M, (fun _ => one (num 1)), "p", (one (num 9)).
  do 2 eexists. split; [|split; [intros n _; apply one_proper|split; [apply one_proper|split; [reflexivity|split; [vm_compute; reflexivity|]]]]].
  - split; [repeat constructor; cbn; intuition discriminate|].
    split; intros c [<-|[]]; cbn; intuition auto. destruct c; cbn; auto. destruct (Qclt_le_dec _ _); cbn; auto.
  - exists needy. cbn. intuition discriminate.
Qed.
Print Assumptions C43_failed_update_refuted.

(** * The values in a built problem *)
(** What the problem has for an input: the value of a parameter object, or a number. *)
Definition value_in (st : state) (i : item) : option cell :=
  match i with INull => Some Miss | INum c => Some c | IObj s p => Some (s_vals st s p) | INode _ _ => None end.
(** A built problem has the values of its inputs; lookups and, with Gurobi, parameters are plain
    numbers, with Pyomo parameters are objects. *)
Theorem C44_built_values : forall L mutable M I st s lookup, well_formed M -> proper L (I s) ->
  fresh L mutable M I = Some st -> In (s, lookup) (m_inputs M) ->
  exists e, d_get s (s_data st) = Some e /\ t_kind e = (if lookup then KLookup else KParameter) /\
    forall p, value_in st (t_at e p) = Some (a_at (I s) p) /\
      (forall n q, t_at e p = IObj n q -> lookup = false /\ mutable = true /\ n = s /\ q = p) /\
      (lookup = false -> mutable = true -> a_at (I s) p <> Miss -> t_at e p = IObj s p).
Proof.
  intros L mutable M I st s lookup WF PR F HI. destruct (fresh_good L mutable M WF I st F) as (G & EI & _).
  pose proof (g_input _ _ _ _ _ G s lookup HI) as S1. rewrite EI in S1.
  destruct (d_get s (s_data st)) as [e|] eqn:Ge; [|destruct S1]. exists e. split; [reflexivity|]. destruct S1 as (K & _ & T).
  split; [rewrite K; unfold input_entry; destruct (all_missing L (I s)); now destruct lookup|].
  intros p. rewrite T. unfold input_entry. destruct (all_missing L (I s)) eqn:AM; cbn [t_at].
  - assert (Z : a_at (I s) p = Miss).
    { destruct (within L (a_dims (I s)) p) eqn:W.
      - destruct (cell_of L (a_dims (I s)) p W) as (q & Hq & A). unfold all_missing in AM.
        pose proof (proj1 (forallb_forall _ _) AM q Hq) as MQ. destruct PR as (LC & _).
        cbv beta in MQ. rewrite (LC q p A) in MQ. destruct (a_at (I s) p); [reflexivity|discriminate..].
      - destruct (a_at (I s) p) eqn:E; [reflexivity|exfalso..];
          rewrite (proper_within L (I s) p PR) in W by congruence; discriminate. }
    rewrite Z. cbn. repeat split; try discriminate; congruence.
  - destruct (a_at (I s) p) eqn:E; cbn [missing]; [cbn; repeat split; try discriminate; congruence|..];
    (destruct lookup; cbn [orb]; [cbn; repeat split; try discriminate; congruence|];
     destruct mutable; cbn [orb negb]; [|cbn; repeat split; try discriminate; congruence];
     split; [cbn [value_in]; f_equal; rewrite (g_vals _ _ _ _ _ G s p HI), EI, E; [reflexivity|];
             rewrite EI; apply proper_within; [exact PR|congruence]|];
     split; [intros n q0 H; injection H as <- <-; auto|auto]).
Qed.
Print Assumptions C44_built_values.
Example C44_built_values_ex : exists e, d_get "cap" (s_data (ex_fresh true (nodes (num 3) Miss))) = Some e /\
  t_at e n1 = IObj "cap" n1 /\ t_at e n2 = INull /\ s_vals (ex_fresh true (nodes (num 3) Miss)) "cap" n1 = num 3.
Proof.
  destruct (C44_built_values ex_L true ex_M (ex_I (nodes (num 3) Miss)) _ "cap" false ex_wf (ex_proper _ _ _) (ex_builds true _ _)) as (e & G & _ & H).
  - cbn. auto.
  - exists e. split; [exact G|]. destruct (H n1) as (V1 & _ & O1). specialize (O1 eq_refl eq_refl ltac:(discriminate)).
    split; [exact O1|]. rewrite O1 in V1. cbn in V1. split; [|reflexivity].
    vm_compute in G. injection G as <-. reflexivity.
Qed.
