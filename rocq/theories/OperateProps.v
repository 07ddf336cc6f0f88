(** Property theorems C17, C18 and C60: receding-horizon mode. *)
From Coq Require Import QArith Sorted.
From Verif Require Import Base OperateModel OperateSpec OperateProofs.
Local Open Scope string_scope.
Local Open Scope list_scope.
Local Open Scope Z_scope.

(** * C17 *)
(** With at least two windows, a horizon no shorter than the window and no window without
    time stamps, the result has one value per time stamp, in order, and it comes from the
    optimisation of the window that decides about it.  The full property also asks this
    for a single window, short horizons and series with gaps; see the refutations. *)
Theorem C17_every_timestep_once_partial ts par look init_frac cap window horizon R storage solver :
  (forall p l i n, List.length (solver p l i n) = n) ->
  ordered ts -> ts <> [] -> 0 < window <= horizon -> NoDup (map fst par) -> no_gap ts window ->
  (exists w, window_start ts window w /\ hd_error ts <> Some w) ->
  exists r, solve_operate ts par look init_frac cap window horizon R storage solver = Ok r /\
    map fst r = ts /\
    forall t x, In (t, x) r ->
      exists w p l i, window_start ts window w /\ decides window w t /\
        In (t, x) (combine (looks_at ts horizon w) (solver p l i (List.length (looks_at ts horizon w)))).
Proof.
  intros SL O N [W H] PA G [w [WS HW]].
  assert (TWO : OperateModel.first ts + window <= OperateModel.final ts).
  { destruct WS as [f [l [n [E1 [E2 [P [-> B]]]]]]]; unfold OperateModel.first, OperateModel.final.
    destruct ts as [|a r]; [congruence|]; injection E1 as <-; simpl hd; rewrite last_cons in *; subst l.
    assert (n <> 0) by (intros ->; apply HW; simpl; f_equal; lia). nia. }
  destruct (run_covers ts par look init_frac cap window horizon R storage solver SL O N W H PA (or_introl G) TWO) as [r [E [T C]]].
  exists r; split; [exact E|split; [exact T|]]; intros t x I; destruct (C t x I) as [w' [b [A [B [D _]]]]]; eauto 8.
Qed.
Print Assumptions C17_every_timestep_once_partial.

(** An example: five time stamps, windows of two, horizon of three; the "solver" records the
    parameter values it is given and a storage level rising by one each step. *)
Definition ex_ts : list Z := [0; 1; 2; 3; 4].
Definition ex_par : list (string * (Z -> Z)) := [("demand", fun t => 10 + t)].
Definition ex_cap (d : string) : Q := 2%Q.
Definition ex_R : Type := (Z * Q)%type.
Definition ex_storage (x : ex_R) : option level := Some (fun _ => snd x).
Fixpoint rising (vals : list Z) (keep lvl : Q) (n : nat) : list ex_R :=
  match n with
  | O => []
  | S m => (hd 0 vals, Qred (lvl + 1)) :: rising (tl vals) keep (keep * Qred (lvl + 1)) m
  end.
Definition ex_solver (keep : Q) (p l : table) (i : level) (n : nat) : list ex_R :=
  rising (match p with (_, v) :: _ => v | [] => [] end) keep (i "d" * ex_cap "d")%Q n.
Example C17_example :
  solve_operate ex_ts ex_par [] (fun _ => 0%Q) ex_cap 2 3 ex_R ex_storage (ex_solver 1) =
  Ok [(0, (10, 1%Q)); (1, (11, 2%Q)); (2, (12, 3%Q)); (3, (13, 4%Q)); (4, (14, 5%Q))].
Proof. vm_compute; reflexivity. Qed.
Example C17_example_hypotheses :
  (forall p l i n, List.length (ex_solver 1 p l i n) = n) /\ ordered ex_ts /\ no_gap ex_ts 2 /\
  (exists w, window_start ex_ts 2 w /\ hd_error ex_ts <> Some w).
Proof.
  split; [|split; [|split]].
  - intros p l i n; unfold ex_solver; generalize (i "d" * ex_cap "d")%Q; generalize (match p with (_, v) :: _ => v | [] => [] end).
    induction n as [|n IH]; intros v q; simpl; [reflexivity|rewrite IH; reflexivity].
  - repeat constructor; simpl; lia.
  - intros w [f [l [n [E [<- [N [-> B]]]]]]]; injection E as <-; simpl in B; exists (0 + n * 2); unfold decides; split; [|lia].
    assert (n = 0 \/ n = 1 \/ n = 2) as [->|[->| ->]] by lia; simpl; tauto.
  - exists 2; split; [exists 0, 4, 1; simpl; repeat split; lia|discriminate].
Qed.

(** A series that fits into one window cannot be solved: the run ends in a NameError. *)
Theorem C17_single_window_refuted :
  (forall ts par look init_frac cap window horizon R storage solver,
     ordered ts -> ts <> [] -> 0 < window -> last ts 0 < hd 0 ts + window ->
     solve_operate ts par look init_frac cap window horizon R storage solver = Err EName) /\
  solve_operate ex_ts ex_par [] (fun _ => 0%Q) ex_cap 24 48 ex_R ex_storage (ex_solver 1) = Err EName.
Proof.
  split; [|vm_compute; reflexivity].
  intros ts par look init_frac cap window horizon R storage solver O N W L.
  assert (F : OperateModel.first ts <= OperateModel.final ts) by (apply first_final; assumption).
  destruct (wss_shape (OperateModel.first ts) (OperateModel.final ts) window W F) as [ws [E C]].
  assert (WN : ws = []).
  { destruct ws as [|w ws]; [reflexivity|exfalso]; inversion C; subst.
    assert (X : In (OperateModel.first ts + window) (windowsteps (OperateModel.first ts) (OperateModel.final ts) window)) by (rewrite E; right; left; reflexivity).
    apply wss_in in X; [|exact W|exact F]; destruct X as [n [_ [_ B]]]; unfold OperateModel.first, OperateModel.final in *; lia. }
  subst ws; unfold solve_operate; cbv zeta; unfold wss; rewrite E; cbn [tl loop bind rev]; reflexivity.
Qed.
Print Assumptions C17_single_window_refuted.

(** Nothing stops a horizon shorter than the window; time stamps are then missing. *)
Theorem C17_short_horizon_refuted :
  exists r, solve_operate ex_ts ex_par [] (fun _ => 0%Q) ex_cap 2 1 ex_R ex_storage (ex_solver 1) = Ok r /\
    map fst r = [0; 2; 4].
Proof. eexists; split; vm_compute; reflexivity. Qed.
Print Assumptions C17_short_horizon_refuted.

(** A gap in the series longer than a window ends the run of a model with storage in an
    error. *)
Theorem C17_gap_refuted :
  solve_operate [0; 1; 4; 5] ex_par [] (fun _ => 0%Q) ex_cap 2 3 ex_R ex_storage (ex_solver 1) = Err EKey.
Proof. vm_compute; reflexivity. Qed.
Print Assumptions C17_gap_refuted.

(** * C60: each window is optimised with the data of its own time stamps *)
Theorem C60_window_data_partial ts par init_frac cap window horizon R storage solver :
  (forall p l i n, List.length (solver p l i n) = n) ->
  ordered ts -> ts <> [] -> 0 < window <= horizon -> NoDup (map fst par) -> no_gap ts window ->
  (exists w, window_start ts window w /\ hd_error ts <> Some w) ->
  exists r, solve_operate ts par [] init_frac cap window horizon R storage solver = Ok r /\
    forall t x, In (t, x) r ->
      exists w i, window_start ts window w /\ decides window w t /\
        In (t, x) (combine (looks_at ts horizon w)
          (solver (map (fun nf => (fst nf, map (snd nf) (looks_at ts horizon w))) par) [] i
                  (List.length (looks_at ts horizon w)))).
Proof.
  intros SL O N [W H] PA G [w [WS HW]].
  assert (TWO : OperateModel.first ts + window <= OperateModel.final ts).
  { destruct WS as [f [l [n [E1 [E2 [P [-> B]]]]]]]; unfold OperateModel.first, OperateModel.final.
    destruct ts as [|a r]; [congruence|]; injection E1 as <-; simpl hd; rewrite last_cons in *; subst l.
    assert (n <> 0) by (intros ->; apply HW; simpl; f_equal; lia). nia. }
  destruct (run_covers ts par [] init_frac cap window horizon R storage solver SL O N W H PA (or_introl G) TWO) as [r [E [T C]]].
  exists r; split; [exact E|]; intros t x I; destruct (C t x I) as [w' [b [A [B [D [L _]]]]]].
  rewrite (L eq_refl) in D; eauto 8.
Qed.
Print Assumptions C60_window_data_partial.

(** Without storage nothing is carried from one window to the next: whatever gaps the series has, every time
    stamp has one result, and it is the one found for the data of its window alone. *)
Theorem C60_no_storage ts par init_frac cap window horizon R storage solver :
  (forall p l i n, List.length (solver p l i n) = n) -> (forall p l i n x, In x (solver p l i n) -> storage x = None) ->
  ordered ts -> ts <> [] -> 0 < window <= horizon -> NoDup (map fst par) ->
  (exists w, window_start ts window w /\ hd_error ts <> Some w) ->
  exists r, solve_operate ts par [] init_frac cap window horizon R storage solver = Ok r /\ map fst r = ts /\
    forall t x, In (t, x) r ->
      exists w, window_start ts window w /\ decides window w t /\
        In (t, x) (combine (looks_at ts horizon w)
          (solver (map (fun nf => (fst nf, map (snd nf) (looks_at ts horizon w))) par) [] init_frac
                  (List.length (looks_at ts horizon w)))).
Proof.
  intros SL NS O N [W H] PA [w [WS HW]].
  assert (TWO : OperateModel.first ts + window <= OperateModel.final ts).
  { destruct WS as [f [l [n [E1 [E2 [P [-> B]]]]]]]; unfold OperateModel.first, OperateModel.final.
    destruct ts as [|a r]; [congruence|]; injection E1 as <-; simpl hd; rewrite last_cons in *; subst l.
    assert (n <> 0) by (intros ->; apply HW; simpl; f_equal; lia). nia. }
  destruct (run_covers ts par [] init_frac cap window horizon R storage solver SL O N W H PA (or_intror NS) TWO) as [r [E [T C]]].
  exists r; split; [exact E|split; [exact T|]]; intros t x I; destruct (C t x I) as [w' [b [A [B [D [L J]]]]]].
  rewrite (L eq_refl), (J NS) in D; eauto 8.
Qed.
Print Assumptions C60_no_storage.
Example C60_no_storage_example :
  exists r, solve_operate [0; 1; 4; 5] ex_par [] (fun _ => 0%Q) ex_cap 2 3 ex_R (fun _ => None) (ex_solver 1) = Ok r /\ map fst r = [0; 1; 4; 5].
Proof. eexists; split; vm_compute; reflexivity. Qed.

(** Look-up arrays over time are not updated: the second window still sees those of the
    first. *)
Definition ex_look_solver (p l : table) (i : level) (n : nat) : list ex_R :=
  map (fun v => (v, 0%Q)) (match l with (_, v) :: _ => v | [] => [] end).
Theorem C60_lookups_refuted :
  exists r, solve_operate [0; 1; 2; 3] [] [("season", fun t => 10 + t)] (fun _ => 0%Q) ex_cap 2 2 ex_R (fun _ => None) ex_look_solver = Ok r /\
    map (fun tx => (fst tx, fst (snd tx))) r = [(0, 10); (1, 11); (2, 10); (3, 11)].
Proof. eexists; split; vm_compute; reflexivity. Qed.
Print Assumptions C60_lookups_refuted.

(** * C18 *)
(** If the solution of every window obeys the storage balance from the initial levels that are met
    during the run, the stitched trajectory obeys it from the initial level of the model, except
    that nothing is lost between the last step of one window and the first of the next. *)
Theorem C18_met_balance_partial ts par look init_frac cap window horizon R storage solver d net keep (met : OperateModel.level -> Prop) :
  (forall p l i n, List.length (solver p l i n) = n) ->
  ordered ts -> ts <> [] -> 0 < window <= horizon -> NoDup (map fst par) -> no_gap ts window ->
  (exists w, window_start ts window w /\ hd_error ts <> Some w) ->
  ~ (cap d == 0)%Q ->
  (forall p l i n x, In x (solver p l i n) -> storage x <> None) ->
  let level_of (x : R) := match storage x with Some v => v d | None => 0%Q end in
  met init_frac ->
  (forall p l i w, met i -> window_start ts window w ->
     balanced_from level_of net (fun x _ k => k = keep x) (i d * cap d)%Q (solver p l i (List.length (looks_at ts horizon w)))) ->
  (forall p l i w x v, met i -> window_start ts window w -> In x (solver p l i (List.length (looks_at ts horizon w))) ->
     storage x = Some v -> met (fun d => if Qeq_bool (cap d) 0 then 0%Q else (v d / cap d)%Q)) ->
  exists r, solve_operate ts par look init_frac cap window horizon R storage solver = Ok r /\ map fst r = ts /\
    balanced_from (fun tx => level_of (snd tx)) (fun tx => net (snd tx))
      (fun x y k => (opens ts window (fst y) /\ k = 1%Q) \/ (~ opens ts window (fst y) /\ k = keep (snd x)))
      (init_frac d * cap d)%Q r.
Proof.
  intros SL O N [W H] PA G [w [WS HW]] CAP HAS lv MI BAL KEEP.
  assert (TWO : OperateModel.first ts + window <= OperateModel.final ts).
  { destruct WS as [f [l [n [E1 [E2 [P [-> B]]]]]]]; unfold OperateModel.first, OperateModel.final.
    destruct ts as [|a r]; [congruence|]; injection E1 as <-; simpl hd; rewrite last_cons in *; subst l.
    assert (n <> 0) by (intros ->; apply HW; simpl; f_equal; lia). nia. }
  exact (run_balanced ts par look init_frac cap window horizon R storage solver SL O N W H PA (or_introl G) d net keep G CAP HAS met MI BAL KEEP TWO).
Qed.
Print Assumptions C18_met_balance_partial.
(** In particular if the solution of every problem obeys it. *)
Theorem C18_stitched_balance_partial ts par look init_frac cap window horizon R storage solver d net keep :
  (forall p l i n, List.length (solver p l i n) = n) ->
  ordered ts -> ts <> [] -> 0 < window <= horizon -> NoDup (map fst par) -> no_gap ts window ->
  (exists w, window_start ts window w /\ hd_error ts <> Some w) ->
  ~ (cap d == 0)%Q ->
  (forall p l i n x, In x (solver p l i n) -> storage x <> None) ->
  let level_of (x : R) := match storage x with Some v => v d | None => 0%Q end in
  (forall p l i n, balanced_from level_of net (fun x _ k => k = keep x) (i d * cap d)%Q (solver p l i n)) ->
  exists r, solve_operate ts par look init_frac cap window horizon R storage solver = Ok r /\ map fst r = ts /\
    balanced_from (fun tx => level_of (snd tx)) (fun tx => net (snd tx))
      (fun x y k => (opens ts window (fst y) /\ k = 1%Q) \/ (~ opens ts window (fst y) /\ k = keep (snd x)))
      (init_frac d * cap d)%Q r.
Proof.
  intros SL O N W PA G WS CAP HAS lv BAL.
  apply (C18_met_balance_partial ts par look init_frac cap window horizon R storage solver d net keep (fun _ => True)); auto.
Qed.
Print Assumptions C18_stitched_balance_partial.

(** Without losses the stitched trajectory obeys the balance of a single run. *)
Theorem C18_no_loss ts par look init_frac cap window horizon R storage solver d net :
  (forall p l i n, List.length (solver p l i n) = n) ->
  ordered ts -> ts <> [] -> 0 < window <= horizon -> NoDup (map fst par) -> no_gap ts window ->
  (exists w, window_start ts window w /\ hd_error ts <> Some w) ->
  ~ (cap d == 0)%Q ->
  (forall p l i n x, In x (solver p l i n) -> storage x <> None) ->
  let level_of (x : R) := match storage x with Some v => v d | None => 0%Q end in
  (forall p l i n, balanced_from level_of net (fun _ _ k => k = 1%Q) (i d * cap d)%Q (solver p l i n)) ->
  exists r, solve_operate ts par look init_frac cap window horizon R storage solver = Ok r /\ map fst r = ts /\
    balanced_from (fun tx => level_of (snd tx)) (fun tx => net (snd tx)) (fun _ _ k => k = 1%Q) (init_frac d * cap d)%Q r.
Proof.
  intros SL O N W PA G WS CAP HAS lv BAL.
  destruct (C18_stitched_balance_partial ts par look init_frac cap window horizon R storage solver d net (fun _ => 1%Q) SL O N W PA G WS CAP HAS BAL) as [r [E [T B]]].
  exists r; split; [exact E|split; [exact T|]]; destruct r as [|x r]; [exact Logic.I|]; destruct B as [B1 B2]; split; [exact B1|].
  revert B2; apply balance_impl; intros a b k _ [[_ K]|[_ K]]; exact K.
Qed.
Print Assumptions C18_no_loss.
Example C18_example : forall keep p l i n,
  balanced_from (snd : ex_R -> Q) (fun _ => 1%Q) (fun _ _ k => k = keep) (i "d" * ex_cap "d")%Q (ex_solver keep p l i n).
Proof.
  intros keep p l i n; unfold ex_solver.
  generalize (i "d" * ex_cap "d")%Q; generalize (match p with (_, v) :: _ => v | [] => [] end); intros v q.
  destruct n as [|n]; cbn [rising balanced_from]; [exact Logic.I|split; [apply Qred_correct|]].
  generalize (hd 0 v), (Qred (q + 1)), (tl v); clear; induction n as [|n IH]; intros h q v; cbn [rising]; [constructor|].
  econstructor; [reflexivity| |apply IH]; cbn [snd]; apply Qred_correct.
Qed.

(** With a loss of one half per step the stitched trajectory breaks the balance at the
    window boundary. *)
Theorem C18_loss_refuted :
  exists r, solve_operate ex_ts ex_par [] (fun _ => 0%Q) ex_cap 2 3 ex_R ex_storage (ex_solver (1 # 2)) = Ok r /\
    map (fun tx => (fst tx, snd (snd tx))) r = [(0, 1%Q); (1, 3 # 2); (2, 5 # 2); (3, 9 # 4); (4, 13 # 4)] /\
    ~ balanced_from (fun tx => snd (snd tx)) (fun _ => 1%Q) (fun _ _ k => k = (1 # 2)%Q) 0%Q r.
Proof.
  eexists; split; [vm_compute; reflexivity|split; [reflexivity|]].
  assert (INV : forall X (lev net : X -> Q) (f : X -> X -> Q -> Prop) x y l, balance lev net f x (y :: l) ->
    (exists k, f x y k /\ (lev y == k * lev x + net y)%Q) /\ balance lev net f y l).
  { intros X lev net f x y l B; inversion B; subst; eauto. }
  intros [_ B]; apply INV in B; destruct B as [_ B]; apply INV in B; destruct B as [[k [-> K]] _].
  vm_compute in K; discriminate.
Qed.
Print Assumptions C18_loss_refuted.
