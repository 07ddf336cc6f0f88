(** Property theorem C100: piecewise constraints. *)
From Verif Require Import Base CurveModel CurveSpec CurveProofs.
From Coq Require Import QArith Sorted Lqa Lia.
Local Open Scope string_scope.
Local Open Scope list_scope.

(** * The problem built *)
(** A piecewise constraint that was built allows, with Pyomo, exactly the pairs on the curve through the points of the
    breakpoints, at each label its condition chooses, and anything elsewhere.
    Partial: the values of x and y are missing at the same breakpoints; see below. *)
Theorem C100_curve_partial {L} accept (ls : list L) p s :
  add accept true ls p nothing = (s, Ok tt) -> p_active p = true ->
  (forall l, In l ls -> p_where p l = true -> aligned (p_x p l) (p_y p l)) ->
  forall x y, allowed s x y <->
    forall l, In l ls -> p_where p l = true -> exists c, given (p_x p l) (p_y p l) c /\ joined c (x l) (y l).
Proof.
  unfold add; cbn [nothing s_array s_problem]; destruct (smem "breakpoints" (p_foreach p)); [discriminate|]; intros E A AL; rewrite A in E; cbn [negb] in E.
  assert (W : exists cs, s_problem s = cs /\ Forall2 (fun l x => fst x = l /\ make accept p l = Ok (snd x)) (filter (p_where p) ls) cs).
  { destruct (filter (p_where p) ls) as [|l0 ls0]; [injection E as <-; exists []; split; [reflexivity|constructor]|].
    destruct (smem "breakpoints" (p_x_dims p)); [|discriminate]; cbn [negb] in E; destruct (smem "breakpoints" (p_y_dims p)); [|discriminate]; cbn [negb] in E.
    destruct (make_all accept p (l0 :: ls0)) as [cs [e|]] eqn:M; [discriminate|]; injection E as <-; exists cs; split; [reflexivity|apply make_all_ok; exact M]. }
  destruct W as (cs & EC & F); intros x y; unfold allowed; rewrite EC; split.
  - intros H l I W; assert (I' : In l (filter (p_where p) ls)) by (apply filter_In; split; assumption).
    destruct (dropna_given _ _ (AL l I W)) as (_ & G); eexists; split; [exact G|].
    clear EC E; induction F as [|l' [k c] ls' cs' (K & M) F IH]; [destruct I'|]; cbn [fst snd] in *; subst k; destruct I' as [->|I'].
    + apply make_curve in M as (_ & _ & ->); apply weighted_joined; apply (H l _ (or_introl eq_refl)).
    + apply IH; [intros l2 c2 J; apply H; right; exact J|exact I'].
  - intros H l c I.
    assert (J : In l (filter (p_where p) ls) /\ make accept p l = Ok c).
    { clear EC E H AL; induction F as [|l' [k c'] ls' cs' (K & M) F IH]; [destruct I|]; cbn [fst snd] in *; subst k; destruct I as [Q|I]; [injection Q as -> ->; split; [left; reflexivity|exact M]|].
      destruct (IH I) as (J & M'); split; [right; exact J|exact M']. }
    destruct J as (J & M); apply filter_In in J as (J & W); destruct (H l J W) as (c' & G & JO); destruct (dropna_given _ _ (AL l J W)) as (_ & G').
    apply make_curve in M as (_ & _ & ->); rewrite (given_fun _ _ _ _ G' G); apply joined_weighted; exact JO.
Qed.
Print Assumptions C100_curve_partial.
(** Along ascending x values the curve is a function that takes the given values at the breakpoints, and is defined from
    the first to the last. *)
Theorem C100_function c x y : ascending c -> joined c x y ->
  (forall y', joined c x y' -> y == y') /\ (forall a, In a c -> x == fst a -> y == snd a) /\
  fst (hd (0, 0) c) <= x <= fst (last c (0, 0)).
Proof.
  intros A J; assert (U : forall x y y', joined c x y -> joined c x y' -> y == y').
  { clear x y J; intros x y y' J J'; destruct c as [|a [|b r]]; [destruct (joined_nil _ _ J)|apply joined_one in J as (_ & Y); apply joined_one in J' as (_ & Y'); rewrite Y, Y'; reflexivity|].
    destruct (joined_through _ A ltac:(cbn; lia) _ _ J) as (q & E & Q); destruct (joined_through _ A ltac:(cbn; lia) _ _ J') as (q' & E' & Q'); rewrite E in E'; injection E' as <-; rewrite <- Q, <- Q'; reflexivity. }
  split; [intros y'; apply U; exact J|split].
  - intros a I X; apply (U (fst a)); [|apply joined_at; exact I].
    revert J; clear -X; intros J; remember c as c0; destruct J as [z x y X' Y|pre a' b post t x y T X' Y]; [apply jo_point; [rewrite <- X; exact X'|exact Y]|apply (jo_piece pre a' b post t); [exact T|rewrite <- X; exact X'|exact Y]].
  - split; [|exact (joined_high c A x y J)]; destruct c as [|b r]; [destruct (joined_nil _ _ J)|]; cbn [hd]; apply (joined_low b r A x y J).
Qed.
Print Assumptions C100_function.

Definition ex_piecewise (xs ys : list (option Q)) : piecewise string :=
  {| p_foreach := ["techs"]; p_active := true; p_where := fun l => negb (String.eqb l "wind");
     p_x_dims := ["breakpoints"]; p_y_dims := ["breakpoints"]; p_x := fun _ => xs; p_y := fun _ => ys |}.
Definition any {L : Type} (_ : L) (_ : curve) : bool := true.
Definition qs (l : list Q) : list (option Q) := map Some l.
Example C100_example :
  exists s, add any true ["gas"; "wind"] (ex_piecewise (qs [0; 10; 20] ++ [None]) (qs [0; 8; 10] ++ [None])) nothing = (s, Ok tt) /\
    s_problem s = [("gas", [(0, 0); (10, 8); (20, 10)])] /\
    joined [(0, 0); (10, 8); (20, 10)] 15 9 /\ ascending [(0, 0); (10, 8); (20, 10)].
Proof.
  eexists; split; [reflexivity|split; [reflexivity|split]].
  - apply joined_cons; right; apply joined_cons; left; exists (1 # 2); split; [lra|split; reflexivity].
  - repeat constructor.
Qed.

(** x and y lose their missing values apart from each other: with one at different breakpoints, values of different
    breakpoints make up a point, although the numbers agree. *)
Theorem C100_gaps_refuted :
  exists (ls : list string) p s x y, add any true ls p nothing = (s, Ok tt) /\ p_active p = true /\ allowed s x y /\
    exists l c, In l ls /\ p_where p l = true /\ given (p_x p l) (p_y p l) c /\ ~ joined c (x l) (y l).
Proof.
  exists ["gas"], (ex_piecewise [Some 0; Some 10; None; Some 20] [Some 0; None; Some 8; Some 10]).
  eexists; exists (fun _ => 10), (fun _ => 8); split; [reflexivity|split; [reflexivity|split]].
  - intros l c [E|[]]; injection E as <- <-; apply joined_weighted, joined_cons; left; exists 1; split; [lra|split; reflexivity].
  - exists "gas", [(0, 0); (20, 10)]; split; [left; reflexivity|split; [reflexivity|split; [cbn [p_x p_y ex_piecewise]; apply gi_both, gi_no_y, gi_no_x, gi_both, gi_nil|]]].
    intros J; apply joined_cons in J as [(t & T & X & Y)|J]; cbn [fst snd] in *; [lra|apply joined_one in J as (X & _); cbn in X; lra].
Qed.
Print Assumptions C100_gaps_refuted.

(** * What is refused *)
(** Breakpoints among the dimensions, values without breakpoints, different numbers of values and descending x values at a
    chosen label are refused, and with Pyomo the problem stays as it was. *)
Theorem C100_refused {L} accept (ls : list L) p s l : p_active p = true -> s_array s = None -> In l ls -> p_where p l = true ->
  In "breakpoints" (p_foreach p) \/ ~ In "breakpoints" (p_x_dims p) \/ ~ In "breakpoints" (p_y_dims p) \/
  List.length (filter present (p_x p l)) <> List.length (filter present (p_y p l)) \/
  (exists c pre a b post, aligned (p_x p l) (p_y p l) /\ given (p_x p l) (p_y p l) c /\ c = pre ++ a :: b :: post /\ fst b < fst a) ->
  add accept true ls p s = (s, Err EBackend).
Proof.
  intros A N I W H; unfold add; rewrite A, N; cbn [negb].
  assert (SM : forall k d, smem k d = true <-> In k d) by (intros k d; unfold smem; rewrite existsb_exists; split; [intros (z & Z & E); apply String.eqb_eq in E; subst; exact Z|intros Z; exists k; split; [exact Z|apply String.eqb_refl]]).
  destruct (smem "breakpoints" (p_foreach p)) eqn:E1; [reflexivity|].
  assert (J : In l (filter (p_where p) ls)) by (apply filter_In; split; assumption).
  destruct (filter (p_where p) ls) as [|l0 r] eqn:FL; [destruct J|].
  destruct (smem "breakpoints" (p_x_dims p)) eqn:E2; cbn [negb]; [|reflexivity]; destruct (smem "breakpoints" (p_y_dims p)) eqn:E3; cbn [negb]; [|reflexivity].
  assert (LN : forall v, List.length (dropna v) = List.length (filter present v)) by (induction v as [|[q|] v IH]; [reflexivity| |]; cbn [dropna filter List.length]; rewrite IH; reflexivity).
  assert (M : make accept p l = Err EBackend).
  { unfold make; cbv zeta; destruct H as [H|[H|[H|[H|(c & pre & a & b & post & AL & G & -> & D)]]]].
    - apply SM in H; congruence.
    - apply SM in E2; contradiction.
    - apply SM in E3; contradiction.
    - rewrite <- !LN in H; apply Nat.eqb_neq in H; rewrite H; reflexivity.
    - destruct (dropna_given _ _ AL) as (EL & G'); pose proof (given_fun _ _ _ _ G' G) as EC.
      assert (X : dropna (p_x p l) = map fst (pre ++ a :: b :: post)).
      { rewrite <- EC; clear -EL; revert EL; generalize (dropna (p_x p l)) (dropna (p_y p l)); intros u; induction u as [|q u IH]; intros [|q' v] EL; try discriminate; [reflexivity|]; cbn [combine map fst]; rewrite <- IH; [reflexivity|injection EL as EL; exact EL]. }
      assert (ND : nondecreasing (map fst (pre ++ a :: b :: post)) = false).
      { clear -D; induction pre as [|z pre IH]; cbn [app map nondecreasing].
        - destruct (Qle_bool (fst a) (fst b)) eqn:Q; [apply Qle_bool_iff in Q; lra|reflexivity].
        - destruct (map fst (pre ++ a :: b :: post)) as [|w ws] eqn:EW; [destruct pre; discriminate|]; rewrite IH, Bool.andb_false_r; reflexivity. }
      rewrite X, ND, Bool.andb_false_r; reflexivity. }
  destruct (make_all_bad accept p (l0 :: r) l J M) as (cs & MA); rewrite MA; destruct s as [sa sp]; cbn [s_array s_problem] in *; rewrite N; reflexivity.
Qed.
Print Assumptions C100_refused.
Example C100_refused_example :
  add any true ["gas"] (ex_piecewise (qs [0; 20; 10]) (qs [0; 8; 10])) nothing = (nothing, Err EBackend) /\
  add any true ["gas"] (ex_piecewise (qs [0; 10]) (qs [0; 8; 10])) nothing = (nothing, Err EBackend).
Proof. split; reflexivity. Qed.
(** A deactivated constraint, or one whose condition holds nowhere, limits nothing. *)
Theorem C100_inactive {L} accept pyomo (ls : list L) p s s' r :
  add accept pyomo ls p s = (s', r) -> p_active p = false \/ (forall l, In l ls -> p_where p l = false) -> s_problem s' = s_problem s.
Proof.
  unfold add; destruct (smem "breakpoints" (p_foreach p)); [intros E _; injection E as <- _; reflexivity|].
  intros E [A|W]; [rewrite A in E; cbn [negb] in E; injection E as <- _; reflexivity|].
  destruct (p_active p); cbn [negb] in E; [|injection E as <- _; reflexivity]; destruct (s_array s); [injection E as <- _; reflexivity|].
  destruct (filter (p_where p) ls) as [|l r'] eqn:F; [injection E as <- _; reflexivity|].
  assert (I : In l (filter (p_where p) ls)) by (rewrite F; left; reflexivity); apply filter_In in I as (I & T); rewrite (W l I) in T; discriminate.
Qed.
Print Assumptions C100_inactive.
Example C100_inactive_example : add any true ["wind"] (ex_piecewise (qs [0; 20]) (qs [0; 8])) nothing = ({| s_array := Some []; s_problem := [] |}, Ok tt).
Proof. reflexivity. Qed.

(** * Building again, and Gurobi *)
(** With Pyomo, a constraint built again after its values changed is as built from the start. *)
Theorem C100_rebuild {L} accept (ls : list L) p s : rebuild accept true ls p s = add accept true ls p nothing.
Proof. reflexivity. Qed.
Print Assumptions C100_rebuild.
(** Not so with Gurobi, which keeps the old curve: what the new values allow is forbidden. *)
Theorem C100_rebuild_refuted :
  exists (ls : list string) p p' s s' fresh x y,
    add any false ls p nothing = (s, Ok tt) /\ rebuild any false ls p' s = (s', Ok tt) /\ add any false ls p' nothing = (fresh, Ok tt) /\
    allowed fresh x y /\ ~ allowed s' x y.
Proof.
  exists ["gas"], (ex_piecewise (qs [0; 10]) (qs [0; 8])), (ex_piecewise (qs [0; 10]) (qs [0; 4])); do 3 eexists; exists (fun _ => 10), (fun _ => 4).
  split; [reflexivity|split; [reflexivity|split; [reflexivity|split]]].
  - intros l c [E|[]]; injection E as <- <-; apply joined_weighted, joined_cons; left; exists 1; split; [lra|split; reflexivity].
  - intros A; specialize (A "gas" [(0, 0); (10, 8)] (or_introl eq_refl)); apply weighted_joined in A; apply joined_cons in A as [(t & T & X & Y)|J]; cbn [fst snd] in *; [lra|apply joined_one in J as (_ & Y); cbn in Y; lra].
Qed.
Print Assumptions C100_rebuild_refuted.
(** Gurobi also keeps the objects made before an error. *)
Theorem C100_failed_refuted :
  exists (ls : list string) p s, add any false ls p nothing = (s, Err EBackend) /\ s_problem s <> [].
Proof.
  exists ["gas"; "oil"], {| p_foreach := ["techs"]; p_active := true; p_where := fun _ => true; p_x_dims := ["techs"; "breakpoints"]; p_y_dims := ["breakpoints"];
    p_x := fun l => if String.eqb l "gas" then qs [0; 10] else qs [10; 0]; p_y := fun _ => qs [0; 8] |}; eexists; split; [reflexivity|discriminate].
Qed.
Print Assumptions C100_failed_refuted.
(** From the first to the last breakpoint both solvers know the same function. *)
Theorem C100_solvers_partial c x y : ascending c -> (2 <= List.length c)%nat -> fst (hd (0, 0) c) <= x <= fst (last c (0, 0)) ->
  ((exists q, through c x = Some q /\ q == y) <-> weighted c x y).
Proof.
  intros A LN R; split.
  - intros (q & E & Q); apply joined_weighted; pose proof (through_joined c A LN x q R E) as J; remember c as c0; destruct J as [z x q X Y|pre a b post t x q T X Y].
    + apply jo_point; [exact X|rewrite <- Q; exact Y].
    + apply (jo_piece pre a b post t); [exact T|exact X|rewrite <- Q; exact Y].
  - intros W; apply weighted_joined in W; apply joined_through; assumption.
Qed.
Print Assumptions C100_solvers_partial.
(** Beyond them, Pyomo allows nothing and Gurobi continues the curve. *)
Theorem C100_solvers_refuted :
  exists c x y, ascending c /\ (2 <= List.length c)%nat /\ through c x = Some y /\ ~ weighted c x y.
Proof.
  exists [(0, 0); (10, 8)], 20, (line (0, 0) (10, 8) 20); split; [repeat constructor|split; [cbn; lia|split; [reflexivity|]]].
  intros W; apply weighted_joined in W; apply joined_cons in W as [(t & T & X & _)|J]; cbn [fst snd] in *; [lra|apply joined_one in J as (X & _); cbn in X; lra].
Qed.
Print Assumptions C100_solvers_refuted.
