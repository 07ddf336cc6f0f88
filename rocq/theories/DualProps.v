(** C103: shadow prices in results are those of the solution. *)
From Verif Require Import Base BaseProofs BuildProofs DualModel DualSpec.
From Coq Require Import QArith.
Local Open Scope string_scope.
Local Open Scope list_scope.

Lemma price_in n l d q : price_of n l d = Some q -> In (n, l, q) d.
Proof.
  induction d as [|[[n' l'] q'] r IH]; cbn; [discriminate|]; destruct (String.eqb n n') eqn:E; [apply String.eqb_eq in E as ->|intros H; right; exact (IH H)].
  destruct (list_eq_dec string_dec l l') as [->|]; [intros H; injection H as <-; left; reflexivity|intros H; right; exact (IH H)].
Qed.
Lemma price_some n l d q : In (n, l, q) d -> exists q', price_of n l d = Some q'.
Proof.
  induction d as [|[[n' l'] q'] r IH]; cbn; [intros []|]; intros [E|I].
  - injection E as -> -> ->; rewrite String.eqb_refl; destruct (list_eq_dec string_dec l l); [eauto|contradiction].
  - destruct (String.eqb n n'); [destruct (list_eq_dec string_dec l l'); [eauto|]|]; exact (IH I).
Qed.
Lemma prices_of_in p d n l q : In (l, q) (prices_of p d n) -> stands p n l /\ In (n, l, q) d.
Proof.
  unfold prices_of, stands; destruct (d_get n (p_constraints p)) as [ls|]; [|intros []]; rewrite in_flat_map; intros (l' & I & H).
  destruct (price_of n l' d) as [q'|] eqn:E; [|destruct H]; destruct H as [H|[]]; injection H as -> ->; split; [eauto|exact (price_in _ _ _ _ E)].
Qed.
Lemma prices_of_all p o n l q : unique o -> stands p n l -> In (n, l, q) (o_prices o) -> In (l, q) (prices_of p (o_prices o) n).
Proof.
  intros U (ls & E & I) J; unfold prices_of; rewrite E; apply in_flat_map; exists l; split; [exact I|]; destruct (price_some _ _ _ _ J) as (q' & Q); rewrite Q.
  left; rewrite (U _ _ _ _ J (price_in _ _ _ _ Q)); reflexivity.
Qed.
Lemma shows_in f (names : list string) x l q :
  shows (filter (fun x : string * list (label * Q) => match snd x with [] => false | _ => true end) (map (fun n => (("shadow_price_" ++ n)%string, f n)) names)) x l q <->
  exists n, x = ("shadow_price_" ++ n)%string /\ In n names /\ In (l, q) (f n).
Proof.
  unfold shows; split.
  - intros (ps & I & J); rewrite filter_In, in_map_iff in I; destruct I as ((n & E & N) & _); injection E as <- <-; exists n; split; [reflexivity|split; assumption].
  - intros (n & -> & N & J); exists (f n); split; [|exact J]; rewrite filter_In, in_map_iff; split; [exists n; split; [reflexivity|exact N]|]; cbn [snd]; destruct (f n); [destruct J|reflexivity].
Qed.
Lemma keys_in {V} n (l : list (string * V)) : smem n (d_keys l) = true <-> d_get n l <> None.
Proof.
  rewrite smem_in; unfold d_keys; induction l as [|[k v] r IH]; cbn; [tauto|]; destruct (String.eqb n k) eqn:E.
  - apply String.eqb_eq in E as ->; split; [discriminate|auto].
  - apply String.eqb_neq in E; rewrite <- IH; split; [intros [H|H]; [congruence|exact H]|auto].
Qed.
Lemma valid_in p names n : In n (filter (fun n => smem n (d_keys (p_constraints p))) names) <-> In n names /\ d_get n (p_constraints p) <> None.
Proof. rewrite filter_In, keys_in; tauto. Qed.
Lemma stands_there p n l : stands p n l -> d_get n (p_constraints p) <> None.
Proof. intros (ls & E & _); rewrite E; discriminate. Qed.
Lemma tracked_of p names t : t_tracked (track p names t) = filter (fun n => smem n (d_keys (p_constraints p))) names.
Proof. reflexivity. Qed.
Lemma results_shows p t x l q : shows (results p t) x l q <-> exists n, x = ("shadow_price_" ++ n)%string /\ In n (t_tracked t) /\ In (l, q) (prices_of p (t_dual t) n).
Proof. apply shows_in. Qed.

(** Whatever was done before (any state of the tracker), the results have the shadow prices of their own solution, for exactly the constraints
    asked for, if no variable is binary or integer and the solver gives shadow prices. *)
Theorem C103_prices_partial p t names solver o t' r :
  p_integer p = false -> solver <> "cbc" -> o_ok o = true -> unique o ->
  solve p names solver o t = (t', r) -> right p names o r.
Proof.
  intros NI NS OK U H x l q; unfold solve in H; apply String.eqb_neq in NS; rewrite NS, OK in H; cbn [andb] in H; injection H as <- <-.
  rewrite results_shows; cbn [load t_tracked]; rewrite tracked_of; split.
  - intros (n & -> & N & J); apply valid_in in N as (N & _); exists n; split; [reflexivity|split; [exact N|]].
    unfold track in J; cbn [load t_dual t_active] in J; destruct (filter (fun n => smem n (d_keys (p_constraints p))) names) as [|v vs] eqn:V.
    + exfalso; assert (K : In n []) by (rewrite <- V; apply valid_in; split; [exact N|]; apply prices_of_in in J as (J & _); exact (stands_there _ _ _ J)); exact K.
    + unfold activate in J; rewrite NI in J; cbn [t_active] in J; exact (prices_of_in _ _ _ _ _ J).
  - intros (n & -> & N & S & J); exists n; split; [reflexivity|]; assert (VI : In n (filter (fun n => smem n (d_keys (p_constraints p))) names)) by (apply valid_in; split; [exact N|exact (stands_there _ _ _ S)]).
    split; [exact VI|]; unfold track; cbn [load t_dual t_active]; destruct (filter (fun n => smem n (d_keys (p_constraints p))) names) as [|v vs]; [destruct VI|].
    unfold activate; rewrite NI; cbn [t_active]; apply prices_of_all; assumption.
Qed.
Print Assumptions C103_prices_partial.

(** Shadow prices are only ever shown for constraints asked for that exist, and never without a solution. *)
Theorem C103_asked p t names solver o t' r x ps :
  solve p names solver o t = (t', r) -> In (x, ps) r -> o_ok o = true /\ exists n, x = ("shadow_price_" ++ n)%string /\ In n names /\ d_get n (p_constraints p) <> None /\ ps <> [].
Proof.
  unfold solve; intros H I; set (t1 := if String.eqb solver "cbc" && t_active (track p names t) then deactivate (track p names t) else track p names t) in *.
  assert (TR : t_tracked t1 = filter (fun n => smem n (d_keys (p_constraints p))) names) by (unfold t1; destruct (String.eqb solver "cbc" && t_active (track p names t)); reflexivity).
  destruct (o_ok o); injection H as _ <-; [|destruct I]; split; [reflexivity|]; unfold results in I; rewrite filter_In, in_map_iff in I; destruct I as ((n & E & N) & S); injection E as <- <-.
  cbn [load t_tracked] in N; rewrite TR in N; apply valid_in in N as (N & D); exists n; split; [reflexivity|split; [exact N|split; [exact D|]]]; intros E0; cbn [snd] in S; rewrite E0 in S; discriminate.
Qed.
Print Assumptions C103_asked.

(** A model that was only solved with CBC has no shadow prices. *)
Lemma dual_kept t p names : t_dual (track p names t) = t_dual t.
Proof. unfold track, activate; destruct (filter _ names); [reflexivity|]; destruct (p_integer p); reflexivity. Qed.
Lemma solve_dual p names solver o t : solver = "cbc" \/ (p_integer p = true /\ t_active t = false) -> t_dual (fst (solve p names solver o t)) = t_dual t.
Proof.
  intros H; unfold solve; set (t1 := if String.eqb solver "cbc" && t_active (track p names t) then deactivate (track p names t) else track p names t).
  assert (A : t_active t1 = false /\ t_dual t1 = t_dual t).
  { unfold t1; destruct H as [->|(H & A)].
    - rewrite String.eqb_refl; cbn [andb]; destruct (t_active (track p names t)) eqn:E; [split; [reflexivity|apply dual_kept]|split; [exact E|apply dual_kept]].
    - assert (B : t_active (track p names t) = false) by (unfold track, activate; rewrite H; destruct (filter _ names); exact A); rewrite B, andb_false_r; split; [exact B|apply dual_kept]. }
  destruct A as (A & D); destruct (o_ok o); cbn [fst]; [cbn [load t_dual]; rewrite A|]; exact D.
Qed.
Lemma no_dual_no_results p t : t_dual t = [] -> results p t = [].
Proof.
  intros D; unfold results; rewrite D; assert (N : forall n, prices_of p [] n = []).
  { intros n; unfold prices_of; destruct (d_get n (p_constraints p)) as [ls|]; [|reflexivity]; induction ls; [reflexivity|exact IHls]. }
  induction (t_tracked t) as [|n r IH]; [reflexivity|]; cbn [map filter]; rewrite N; exact IH.
Qed.
Lemma solve_none p names solver o t : t_dual t = [] -> solver = "cbc" \/ (p_integer p = true /\ t_active t = false) -> snd (solve p names solver o t) = [].
Proof.
  intros D H; pose proof (solve_dual p names solver o t H) as E; rewrite D in E; unfold solve in *; destruct (o_ok o); [|reflexivity]; cbn [fst snd] in *; apply no_dual_no_results, E.
Qed.
Theorem C103_cbc_partial p0 h p t names o :
  Forall (fun a => match a with Solve _ s _ => s = "cbc" | _ => True end) h -> after (p0, new_tracker) h = (p, t) -> snd (solve p names "cbc" o t) = [].
Proof.
  intros F H; apply solve_none; [|left; reflexivity]; assert (G : forall h s, Forall (fun a => match a with Solve _ s _ => s = "cbc" | _ => True end) h -> t_dual (snd s) = [] -> t_dual (snd (after s h)) = []).
  { clear; induction h as [|a h IH]; intros s F D; [exact D|]; inversion F as [|? ? FA FH]; subst; cbn [after fold_left]; apply (IH (act s a) FH).
    destruct a as [ns sv o| | |p r]; cbn [act snd fst].
    - rewrite solve_dual by (left; exact FA); exact D.
    - unfold activate; destruct (p_integer (fst s)); exact D.
    - exact D.
    - unfold forget; cbn [t_dual]; rewrite D; reflexivity. }
  specialize (G h (p0, new_tracker) F eq_refl); rewrite H in G; exact G.
Qed.
Print Assumptions C103_cbc_partial.

(** Nor has one that has had binary or integer variables all the time. *)
Theorem C103_integer_partial p0 h p t names solver o :
  p_integer p0 = true -> Forall (fun a => match a with Change q _ => p_integer q = true | _ => True end) h -> after (p0, new_tracker) h = (p, t) ->
  t_active t = false /\ snd (solve p names solver o t) = [].
Proof.
  intros I0 F H.
  assert (G : forall h s, Forall (fun a => match a with Change q _ => p_integer q = true | _ => True end) h -> p_integer (fst s) = true /\ t_active (snd s) = false /\ t_dual (snd s) = [] ->
    p_integer (fst (after s h)) = true /\ t_active (snd (after s h)) = false /\ t_dual (snd (after s h)) = []).
  { clear; induction h as [|a h IH]; intros s F D; [exact D|]; inversion F as [|? ? FA FH]; subst; cbn [after fold_left]; apply (IH (act s a) FH); destruct D as (I & A & D).
    destruct a as [ns sv o| | |p r]; cbn [act snd fst].
    - split; [exact I|]; split; [|rewrite solve_dual by (right; auto); exact D]; unfold solve.
      assert (B : t_active (track (fst s) ns (snd s)) = false) by (unfold track, activate; rewrite I; destruct (filter _ ns); exact A).
      rewrite B, andb_false_r; destruct (o_ok o); exact B.
    - unfold activate; rewrite I; auto.
    - auto.
    - split; [exact FA|split; [exact A|]]; unfold forget; cbn [t_dual]; rewrite D; reflexivity. }
  specialize (G h (p0, new_tracker) F (conj I0 (conj eq_refl eq_refl))); rewrite H in G; cbn [fst snd] in G; destruct G as (I & A & D); split; [exact A|]; apply solve_none; auto.
Qed.
Print Assumptions C103_integer_partial.

(** With the Gurobi interface the prices are right in both cases, whatever was done before. *)
Theorem C103_gurobi p names o : unique o -> o_ok o = true ->
  (p_integer p = false -> right p names o (results_gurobi p names o)) /\ (p_integer p = true -> results_gurobi p names o = []).
Proof.
  intros U OK; unfold results_gurobi; rewrite OK; split; intros I; rewrite I.
  - intros x l q; rewrite shows_in; split.
    + intros (n & -> & N & J); apply valid_in in N as (N & _); apply prices_of_in in J as (S & J); eauto 10.
    + intros (n & -> & N & S & J); exists n; split; [reflexivity|split; [apply valid_in; split; [exact N|exact (stands_there _ _ _ S)]|apply prices_of_all; assumption]].
  - induction (filter (fun n => smem n (d_keys (p_constraints p))) names) as [|n r IH]; [reflexivity|exact IH].
Qed.
Print Assumptions C103_gurobi.

(** ** Examples and refutations *)
Definition ex_p : problem := {| p_constraints := [("system_balance", [["n1"]; ["n2"]]); ("limit", [])]; p_integer := false |}.
Definition ex_i : problem := {| p_constraints := p_constraints ex_p; p_integer := true |}.
Definition ex_o : outcome := {| o_ok := true; o_prices := [("system_balance", ["n1"], 3); ("system_balance", ["n2"], 4); ("other", ["n1"], 9)] |}.
Definition ex_o2 : outcome := {| o_ok := true; o_prices := [("system_balance", ["n1"], 5); ("system_balance", ["n2"], 6)] |}.
Lemma ex_unique : unique ex_o /\ unique ex_o2.
Proof. split; intros n l q q' I J; cbn in I, J; repeat match goal with H : _ \/ _ |- _ => destruct H | H : False |- _ => destruct H end; congruence. Qed.
Example C103_example :
  p_integer ex_p = false /\ "glpk" <> "cbc" /\ unique ex_o2 /\
  let s := after (ex_p, new_tracker) [Solve ["system_balance"; "limit"; "unknown"] "glpk" ex_o; Activate; Change ex_p ["system_balance"]] in
  snd (solve (fst s) ["system_balance"; "limit"; "unknown"] "glpk" ex_o2 (snd s)) = [("shadow_price_system_balance", [(["n1"], 5); (["n2"], 6)])] /\
  snd (solve (fst s) [] "glpk" ex_o2 (snd s)) = [] /\ snd (solve ex_p ["system_balance"] "cbc" ex_o new_tracker) = [] /\ snd (solve ex_i ["system_balance"] "glpk" ex_o new_tracker) = [] /\
  results_gurobi ex_p ["system_balance"] ex_o = [("shadow_price_system_balance", [(["n1"], 3); (["n2"], 4)])].
Proof. split; [reflexivity|split; [discriminate|split; [apply ex_unique|vm_compute; repeat split]]]. Qed.

(** Solved with GLPK and then again with CBC: the tracker is switched off, but the constraints stay tracked and the results
    of the second solution have the prices of the first. *)
Theorem C103_stale_refuted : exists p h t names o r t',
  after (p, new_tracker) h = (p, t) /\ p_integer p = false /\ o_ok o = true /\ unique o /\ solve p names "cbc" o t = (t', r) /\ t_active t' = false /\
  exists x l q, shows r x l q /\ forall q', In ("system_balance", l, q') (o_prices o) -> ~ q' == q.
Proof.
  exists ex_p, [Solve ["system_balance"] "glpk" ex_o]; eexists; exists ["system_balance"], ex_o2; do 2 eexists.
  split; [vm_compute; reflexivity|]; split; [reflexivity|]; split; [reflexivity|]; split; [apply ex_unique|]; split; [vm_compute; reflexivity|]; split; [reflexivity|].
  exists "shadow_price_system_balance", ["n1"], 3; split; [exists [(["n1"], 3); (["n2"], 4)]; split; left; reflexivity|].
  intros q' I; cbn in I; destruct I as [E|[E|[]]]; [injection E as <-; discriminate|discriminate].
Qed.
Print Assumptions C103_stale_refuted.

(** An integer variable added to a model whose prices were tracked: tracking stays switched on, against the warning that
    says it is not activated, and after switching it off by hand the results still have the old prices. *)
Theorem C103_integer_refuted :
  (exists p h p' t names solver o, after (p, new_tracker) h = (p', t) /\ p_integer p' = true /\ t_active (fst (solve p' names solver o t)) = true) /\
  (exists p h p' t names solver o, after (p, new_tracker) h = (p', t) /\ p_integer p' = true /\ o_prices o = [] /\ snd (solve p' names solver o t) <> []).
Proof.
  split; [exists ex_p, [Solve ["system_balance"] "glpk" ex_o; Change ex_i []]|exists ex_p, [Solve ["system_balance"] "glpk" ex_o; Deactivate; Change ex_i []]];
  do 2 eexists; exists ["system_balance"], "glpk", {| o_ok := true; o_prices := [] |}; (split; [vm_compute; reflexivity|split; [reflexivity|]]); [reflexivity|split; [reflexivity|vm_compute; discriminate]].
Qed.
Print Assumptions C103_integer_refuted.
