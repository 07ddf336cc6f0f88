(** Property theorem C112: storage over a whole run of the receding-horizon mode. *)
From Coq Require Import QArith Qcanon Lia.
From Verif Require Import Base BaseProofs LangModel MathText EvalModel EvalSpec BuildModel BuildSpec
  HelperModel HelperSpec ShipModel ShipSpec ShipEntry ShipStorage ShipExample ShipStorageProps.
From Verif Require OperateModel OperateProofs OperateProps.
From Verif Require Import OperateSpec RunSpec.
Local Open Scope nat_scope.
Local Open Scope string_scope.
Local Open Scope list_scope.
Local Arguments Qcplus : simpl never.
Local Arguments Qcmult : simpl never.
Local Arguments Qcminus : simpl never.

Lemma this_plus a b : (this (a + b)%Qc == this a + this b)%Q.
Proof. unfold Qcplus; cbn [this Q2Qc]; apply Qred_correct. Qed.
Lemma this_mult a b : (this (a * b)%Qc == this a * this b)%Q.
Proof. unfold Qcmult; cbn [this Q2Qc]; apply Qred_correct. Qed.
Lemma this_minus a b : (this (a - b)%Qc == this a - this b)%Q.
Proof. unfold Qcminus, Qcopp; rewrite this_plus; cbn [this Q2Qc]; rewrite Qred_correct; reflexivity. Qed.

(** One window: the balance that comes with the package is what the theorems on the run ask of
    every solution. *)
Theorem C112_window order files c U len n t fade share capacity place d :
  lists_set order -> In files chronological -> find_in (h_constraints (layered files)) "balance_storage" = Some c ->
  place d = (n, t) -> solves order files c U len n t fade share capacity ->
  balanced_from (fun x => stored place x d) (gained place d) (fun x _ k => k = this (fade (snd x))) (share * capacity)%Q
    (map (pair U) (seq 0 len)).
Proof.
  intros OR IF FC PL [ST SO OP FA SH CA HO].
  destruct len as [|len]; [exact I|]; cbn [seq map balanced_from]; unfold stored, gained; rewrite PL; cbn [fst snd]; split.
  - assert (S0 : start U n t fade (amount U "storage_initial" (asset n t) * amount U "storage_cap" (asset n t))%Qc).
    { split; [intros CY; destruct (OP CY)|reflexivity]. }
    rewrite (C51_level order files U n t fade c _ OR IF SO FA S0 FC HO 0) by (rewrite ST; lia).
    rewrite compound_self, sum_steps_next, compound_self; change (sum_steps 0 _) with 0%Qc.
    rewrite this_plus, this_mult, this_mult, SH, CA, this_plus, this_mult, this_minus; cbn [this Q2Qc]; change (Qred 0) with 0%Q; change (Qred 1) with 1%Q; ring.
  - assert (B : forall m k, k + m < steps U -> balance (fun x : moment => this (level (fst x) n t (snd x)))
      (fun x => (this (charged (fst x) n t (snd x)) - this (discharged (fst x) n t (snd x)))%Q)
      (fun x _ q => q = this (fade (snd x))) (U, k) (map (pair U) (seq (S k) m))).
    { induction m as [|m IH]; intros k LT; cbn [seq map]; [constructor|].
      econstructor; [reflexivity| |apply IH; lia]; cbn [fst snd].
      rewrite (C51_step order files U n t fade c OR IF SO FA FC HO k) by lia.
      rewrite this_minus, this_plus, this_mult; ring. }
    apply (B len 0); rewrite ST; lia.
Qed.
Print Assumptions C112_window.

(** The run: the windows are problems of the package's math, each solved from the level the previous
    one left.  The trajectory put together from them obeys the storage balance of one problem over
    the whole period, with the flows that were kept, except that nothing is lost at the start of a
    window.  [met] are the initial shares that occur. *)
Theorem C112_run_partial order files c place d ts par look init_frac cap window horizon
  (W : OperateModel.table -> OperateModel.table -> OperateModel.level -> nat -> world) (fades : world -> nat -> Qc) (met : OperateModel.level -> Prop) :
  let lens w := List.length (looks_at ts horizon w) in
  lists_set order -> In files chronological -> find_in (h_constraints (layered files)) "balance_storage" = Some c ->
  ordered ts -> ts <> [] -> (0 < window <= horizon)%Z -> NoDup (map fst par) -> no_gap ts window ->
  (exists w, window_start ts window w /\ hd_error ts <> Some w) ->
  ~ (cap d == 0)%Q ->
  met init_frac ->
  (forall p l i w, met i -> window_start ts window w ->
     solves order files c (W p l i (lens w)) (lens w) (fst (place d)) (snd (place d)) (fades (W p l i (lens w))) (i d) (cap d)) ->
  (forall p l i w k, met i -> window_start ts window w -> k < lens w ->
     met (fun d => if Qeq_bool (cap d) 0 then 0%Q else (stored place (W p l i (lens w), k) d / cap d)%Q)) ->
  exists r, OperateModel.solve_operate ts par look init_frac cap window horizon moment (fun x => Some (stored place x))
      (fun p l i n => map (pair (W p l i n)) (seq 0 n)) = Ok r /\
    map fst r = ts /\
    balanced_from (fun tx => stored place (snd tx) d) (fun tx => gained place d (snd tx))
      (fun x y k => (opens ts window (fst y) /\ k = 1%Q) \/ (~ opens ts window (fst y) /\ k = this (fades (fst (snd x)) (snd (snd x)))))
      (init_frac d * cap d)%Q r.
Proof.
  intros lens OR IF FC O N WH PA G WS CAP MI SOL KEEP.
  apply (OperateProps.C18_met_balance_partial ts par look init_frac cap window horizon moment (fun x => Some (stored place x))
    (fun p l i n => map (pair (W p l i n)) (seq 0 n)) d (gained place d) (fun x => this (fades (fst x) (snd x))) met); try assumption.
  - intros; rewrite map_length; apply seq_length.
  - intros; discriminate.
  - intros p l i w MT WI.
    pose proof (C112_window order files c _ _ _ _ _ _ _ place d OR IF FC (surjective_pairing _) (SOL p l i w MT WI)) as B.
    unfold lens in B; revert B; generalize (List.length (looks_at ts horizon w)); intros m B.
    destruct m as [|m]; [exact I|]; cbn [seq map balanced_from] in *; destruct B as [B1 B2]; split; [exact B1|].
    revert B2; generalize (W p l i (S m)); intros U; generalize 0; intros a B2.
    assert (X : forall m a, balance (fun x : moment => stored place x d) (gained place d) (fun (x _ : moment) k => k = this (fades U (snd x))) (U, a) (map (pair U) (seq (S a) m)) ->
      balance (fun x : moment => stored place x d) (gained place d) (fun (x _ : moment) k => k = this (fades (fst x) (snd x))) (U, a) (map (pair U) (seq (S a) m))); [|apply X, B2].
    clear; induction m as [|m IH]; intros a B; cbn [seq map] in *; [constructor|].
    inversion B as [|? ? ? k F E B']; subst; econstructor; [reflexivity|exact E|apply IH, B'].
  - intros p l i w x v MT WI IX E; injection E as <-; apply in_map_iff in IX; destruct IX as (k & <- & IK); apply in_seq in IK.
    apply (KEEP p l i w k MT WI); unfold lens; lia.
Qed.
Print Assumptions C112_run_partial.

Lemma balance_total {X} (lv nt : X -> Q) (f : X -> X -> Q -> Prop) : (forall a b k, f a b k -> (k == 1)%Q) ->
  forall l x y m, balance lv nt f x (l ++ y :: m) -> (lv y == lv x + sum_of nt l + nt y)%Q.
Proof.
  intros ONE; induction l as [|z l IH]; intros x y m B; inversion B as [|? ? ? k F E B']; subst; apply ONE in F.
  - rewrite E, F; cbn; ring.
  - rewrite (IH z y m B'), E, F; unfold sum_of; cbn [fold_right]; ring.
Qed.
(** Without losses no energy appears or vanishes over the run: at any timestep of the result the
    storage holds what it held at first and all that was put in and not taken out in the timesteps
    of the result so far, across windows. *)
Theorem C112_energy order files c place d ts par look init_frac cap window horizon
  (W : OperateModel.table -> OperateModel.table -> OperateModel.level -> nat -> world) (met : OperateModel.level -> Prop) :
  let lens w := List.length (looks_at ts horizon w) in
  lists_set order -> In files chronological -> find_in (h_constraints (layered files)) "balance_storage" = Some c ->
  ordered ts -> ts <> [] -> (0 < window <= horizon)%Z -> NoDup (map fst par) -> no_gap ts window ->
  (exists w, window_start ts window w /\ hd_error ts <> Some w) ->
  ~ (cap d == 0)%Q ->
  met init_frac ->
  (forall p l i w, met i -> window_start ts window w ->
     solves order files c (W p l i (lens w)) (lens w) (fst (place d)) (snd (place d)) (fun _ => 1%Qc) (i d) (cap d)) ->
  (forall p l i w k, met i -> window_start ts window w -> k < lens w ->
     met (fun d => if Qeq_bool (cap d) 0 then 0%Q else (stored place (W p l i (lens w), k) d / cap d)%Q)) ->
  exists r, OperateModel.solve_operate ts par look init_frac cap window horizon moment (fun x => Some (stored place x))
      (fun p l i n => map (pair (W p l i n)) (seq 0 n)) = Ok r /\
    map fst r = ts /\
    forall before time x after, r = before ++ (time, x) :: after ->
      (stored place x d == init_frac d * cap d + sum_of (gained place d) (map snd before) + gained place d x)%Q.
Proof.
  intros lens OR IF FC O N WH PA G WS CAP MI SOL KEEP.
  destruct (C112_run_partial order files c place d ts par look init_frac cap window horizon W (fun _ _ => 1%Qc) met OR IF FC O N WH PA G WS CAP MI SOL KEEP) as (r & E & T & B).
  exists r; split; [exact E|split; [exact T|]]; intros before time x after ER; subst r.
  assert (SM : forall l : list (Z * moment), (sum_of (fun tx => gained place d (snd tx)) l == sum_of (gained place d) (map snd l))%Q).
  { induction l as [|z l IH]; unfold sum_of; cbn [fold_right map]; [reflexivity|]; unfold sum_of in IH; rewrite IH; reflexivity. }
  destruct before as [|z before]; cbn [app] in B; destruct B as [B1 B2].
  - cbn [snd] in B1; rewrite B1; cbn; ring.
  - apply balance_total in B2; [|intros a b k [[_ ->]|[_ ->]]; reflexivity].
    cbn [snd] in B2; rewrite B2, B1, SM; unfold sum_of; cbn [fold_right map]; ring.
Qed.
Print Assumptions C112_energy.

(** * Examples *)
Local Set Warnings "-unused-intro-pattern".
(** Four hours, windows of two hours that look three hours ahead.  The first problem charges 2 in its
    first hour and would take them out in its third; the second takes them out in its first hour. *)
Definition run_arrays (lossy full : bool) : list (string * darr) :=
  let three a b c := table ["nodes"; "techs"; "timesteps"] (battery_series a b c) in
  let four a b c := table ["nodes"; "techs"; "carriers"; "timesteps"] (battery_series a b c) in
  [("base_tech", table ["techs"] (fun l => match l with ["battery"] => Txt "storage" | ["plant"] => Txt "supply" | ["load"] => Txt "demand" | _ => Miss end));
   ("cyclic_storage", table ["nodes"; "techs"] (battery_only (fun _ => Boo false)));
   ("storage_initial", table ["nodes"; "techs"] (battery_only (fun _ => if full then Val (if lossy then quarter else half) else num 0)));
   ("storage_cap", table ["nodes"; "techs"] (battery_only (fun _ => num 4)));
   ("storage_loss", table ["nodes"; "techs"] (battery_only (fun _ => if lossy then Val half else num 0)));
   ("timestep_resolution", table ["timesteps"] (fun _ => num 1));
   ("storage", if full then three 0 0 0 else if lossy then three 2 1 0 else three 2 2 0);
   ("flow_in_inc_eff", if full then four 0 0 0 else four 2 0 0);
   ("flow_out_inc_eff", if full then (if lossy then four 1 0 0 else four 2 0 0) else
                        if lossy then table ["nodes"; "techs"; "carriers"; "timesteps"] (battery_only (fun s => if String.eqb s "t2" then Val half else num 0)) else four 0 0 2)]%Z.
Definition run_labels (n : nat) : list (string * list string) :=
  [("nodes", ["north"; "south"]); ("techs", ["battery"; "plant"; "load"]); ("carriers", ["power"]); ("timesteps", firstn n ["t0"; "t1"; "t2"])].
Definition run_world (lossy full : bool) (n : nat) : world :=
  system (run_labels n) (run_arrays lossy full) [("cyclic_storage", Boo true); ("cluster_first_timestep", Boo false); ("storage", Val 0%Qc)] battery_matrix.
Definition run_place (_ : string) : string * string := ("north", "battery").
Definition run_ts : list Z := [0; 1; 2; 3]%Z.
Definition run_cap : OperateModel.level := fun _ => 4%Q.
Definition run_W (lossy : bool) (p l : OperateModel.table) (i : OperateModel.level) (n : nat) : world := run_world lossy (negb (Qeq_bool (i "b") 0)) n.
Definition run_met (i : OperateModel.level) : Prop := (i "b" == 0)%Q \/ (i "b" == 1 # 2)%Q.
Definition run_math : list math_file := [operate_file].
Definition run_balance := the (h_constraints (layered run_math)) "balance_storage".
Lemma run_in : In run_math chronological. Proof. right; right; left; reflexivity. Qed.
Definition run_cases : list (bool * bool * nat) :=
  [(false, false, 3); (false, false, 2); (false, true, 3); (false, true, 2); (true, false, 3); (true, true, 2)].
Lemma run_holds lossy full n : In (lossy, full, n) run_cases -> holds_in as_listed (layered run_math) (run_world lossy full n) run_balance.
Proof.
  intros IC; apply holds_check_sound.
  assert (A : forallb (fun x => holds_check as_listed (layered run_math) (run_world (fst (fst x)) (snd (fst x)) (snd x)) run_balance) run_cases = true) by (vm_cast_no_check (eq_refl true)).
  rewrite forallb_forall in A; exact (A _ IC).
Qed.
Lemma run_upto (P : nat -> Prop) n : n = 3 \/ n = 2 -> P 0 -> P 1 -> P 2 -> forall k, k < n -> P k.
Proof. intros [-> | ->] H0 H1 H2 [|[|[|k]]] LT; auto; lia. Qed.
Lemma run_steps lossy full n : n = 3 \/ n = 2 -> steps (run_world lossy full n) = n.
Proof. intros [-> | ->]; reflexivity. Qed.
Lemma run_storing lossy full n : n = 3 \/ n = 2 -> storing (run_world lossy full n) "north" "battery".
Proof.
  intros N; constructor.
  - split; [|destruct N as [-> | ->]; vm_compute; repeat constructor; cbn; intuition discriminate]; apply system_sound.
    + intros d l H; destruct N as [-> | ->]; repeat (destruct H as [E|H]; [injection E as <- <-; repeat constructor; cbn; intuition discriminate|]); destruct H.
    + intros s a H; destruct lossy, full; repeat (destruct H as [E|H]; [injection E as <- <-; apply table_local|]); destruct H.
    + apply table_local.
  - intros d H E; destruct N as [-> | ->]; vm_compute in H; repeat (destruct H as [<- |H]; [vm_compute in E; discriminate|]); destruct H.
  - intros d H; vm_compute in H |- *; intuition.
  - vm_compute; auto.
  - vm_compute; auto.
  - intros d H; exact H.
  - exists "power"; split; [vm_compute; auto|reflexivity].
  - intros s H; repeat (destruct H as [<- |H]; [intros d ID; destruct lossy, full; vm_compute in ID |- *; intuition|]); destruct H.
  - left; reflexivity.
  - split; intros d ID; vm_compute in ID |- *; intuition.
  - intros k _ [E|E]; discriminate E.
  - split; [intros d ID; destruct lossy, full; vm_compute in ID |- *; intuition|]; rewrite (run_steps _ _ _ N); apply (run_upto _ _ N); destruct N as [-> | ->], lossy, full; eexists; vm_compute; reflexivity.
  - intros s [E|E]; subst s; (split; [intros d ID; destruct lossy, full; vm_compute in ID |- *; intuition|]); (split; [destruct lossy, full; vm_compute; intuition|]);
      rewrite (run_steps _ _ _ N); intros c k [<- |[]]; revert k; apply (run_upto _ _ N); destruct N as [-> | ->], lossy, full; eexists; vm_compute; reflexivity.
  - intros s H; repeat (destruct H as [<- |H]; [destruct lossy, full; eexists; vm_compute; reflexivity|]); destruct H.
  - rewrite (run_steps _ _ _ N); apply (run_upto _ _ N); destruct N as [-> | ->]; eexists; vm_compute; reflexivity.
Qed.
Lemma run_solves lossy full n : In (lossy, full, n) run_cases ->
  solves as_listed run_math run_balance (run_world lossy full n) n "north" "battery" (fun _ => if lossy then half else 1%Qc) (if full then (if lossy then 1 # 4 else 1 # 2) else 0)%Q 4%Q.
Proof.
  intros IC; assert (N : n = 3 \/ n = 2) by (repeat (destruct IC as [IC|IC]; [injection IC as _ _ <-; auto|]); destruct IC).
  constructor.
  - apply run_steps, N.
  - apply run_storing, N.
  - intros [E|E]; discriminate E.
  - unfold fading; rewrite (run_steps _ _ _ N); apply (run_upto _ _ N); left; exists 1%nat; destruct N as [-> | ->], lossy; split; apply Qc_is_canon; vm_compute; reflexivity.
  - destruct lossy, full; vm_compute; reflexivity.
  - vm_compute; reflexivity.
  - apply run_holds, IC.
Qed.
Lemma run_starts w : window_start run_ts 2 w -> w = 0%Z \/ w = 2%Z.
Proof. intros (f & l & n & F & L & N & -> & LE); injection F as <-; cbn in L; subst l; lia. Qed.
Lemma run_share i : run_met i -> (i "b" == if negb (Qeq_bool (i "b") 0) then 1 # 2 else 0)%Q.
Proof.
  intros [E|E]; destruct (Qeq_bool (i "b") 0) eqn:B; cbn [negb]; auto.
  - apply Qeq_bool_neq in B; contradiction.
  - apply Qeq_bool_iff in B; exact B.
Qed.
Lemma run_ok p l i w : run_met i -> window_start run_ts 2 w ->
  solves as_listed run_math run_balance (run_W false p l i (List.length (looks_at run_ts 3 w))) (List.length (looks_at run_ts 3 w)) "north" "battery" (fun _ => 1%Qc) (i "b") (run_cap "b").
Proof.
  intros M WS; apply run_starts in WS; unfold run_W, run_cap.
  assert (NL : List.length (looks_at run_ts 3 w) = 3 \/ List.length (looks_at run_ts 3 w) = 2) by (destruct WS as [-> | ->]; [left|right]; reflexivity).
  assert (IC : In (false, negb (Qeq_bool (i "b") 0), List.length (looks_at run_ts 3 w)) run_cases).
  { destruct NL as [-> | ->], (negb (Qeq_bool (i "b") 0)); cbn; auto 9. }
  destruct (run_solves _ _ _ IC) as [H1 H2 H3 H4 H5 H6 H7].
  constructor; try assumption; rewrite H5; symmetry; apply run_share, M.
Qed.
Definition run_shown (lossy : bool) : option (list Q * list Q) :=
  match OperateModel.solve_operate run_ts [] [] (fun _ => 0%Q) run_cap 2 3 moment (fun x => Some (stored run_place x))
    (fun p l i n => map (pair (run_W lossy p l i n)) (seq 0 n)) with
  | Ok r => Some (map (fun tx => stored run_place (snd tx) "b") r, map (fun tx => gained run_place "b" (snd tx)) r)
  | Err _ => None
  end.
Lemma run_shown_levels : run_shown false = Some ([2; 2; 0; 0], [2; 0; -(2); 0])%Q.
Proof. vm_compute; reflexivity. Qed.
Lemma run_shown_lossy : run_shown true = Some ([2; 1; 0; 0], [2; 0; -(1); 0])%Q.
Proof. vm_compute; reflexivity. Qed.
Example C112_window_ex : balanced_from (fun x => stored run_place x "b") (gained run_place "b") (fun _ _ k => k = 1%Q) (0 * 4)%Q
    (map (pair (run_world false false 3)) (seq 0 3)) /\
  map (fun x => stored run_place x "b") (map (pair (run_world false false 3)) (seq 0 3)) = [2; 2; 0]%Q.
Proof.
  split; [|vm_compute; reflexivity].
  apply (C112_window as_listed run_math run_balance (run_world false false 3) 3 "north" "battery" (fun _ => 1%Qc) 0 4 run_place "b");
    [apply as_listed_set|apply run_in|vm_compute; reflexivity|reflexivity|apply (run_solves false false 3); left; reflexivity].
Qed.
Example C112_energy_ex : exists r,
  OperateModel.solve_operate run_ts [] [] (fun _ => 0%Q) run_cap 2 3 moment (fun x => Some (stored run_place x))
    (fun p l i n => map (pair (run_W false p l i n)) (seq 0 n)) = Ok r /\
  map (fun tx => stored run_place (snd tx) "b") r = [2; 2; 0; 0]%Q /\ map (fun tx => gained run_place "b" (snd tx)) r = [2; 0; -(2); 0]%Q /\
  map fst r = run_ts /\
  forall before time x after, r = before ++ (time, x) :: after ->
    (stored run_place x "b" == 0 * 4 + sum_of (gained run_place "b") (map snd before) + gained run_place "b" x)%Q.
Proof.
  destruct (C112_energy as_listed run_math run_balance run_place "b" run_ts [] [] (fun _ => 0%Q) run_cap 2 3 (run_W false) run_met) as (r & E & T & B);
    [apply as_listed_set|apply run_in|vm_compute; reflexivity|repeat constructor|discriminate|lia|constructor| | |intros E; vm_compute in E; discriminate|left; reflexivity|exact run_ok| |].
  - intros w WS; apply run_starts in WS; exists w; destruct WS as [-> | ->]; unfold decides; cbn; intuition lia.
  - exists 2%Z; split; [exists 0%Z, 3%Z, 1%Z; cbn; intuition lia|discriminate].
  - intros p l i w k M WS LT; apply run_starts in WS; unfold run_W, run_met.
    assert (NL : List.length (looks_at run_ts 3 w) = 3 \/ List.length (looks_at run_ts 3 w) = 2) by (destruct WS as [-> | ->]; [left|right]; reflexivity).
    destruct NL as [EN|EN]; rewrite EN in *; clear EN; destruct (negb (Qeq_bool (i "b") 0)); destruct k as [|[|[|k]]]; try lia;
      first [left; vm_compute; reflexivity|right; vm_compute; reflexivity].
  - exists r; split; [exact E|]; pose proof run_shown_levels as V; unfold run_shown in V; rewrite E in V; injection V as V1 V2; auto.
Qed.
(** With losses the windows obey the balance and the trajectory does not: half of what is stored is
    lost every hour, but not in the hour a window starts with, so of the 2 charged at first 1 is left
    to be taken out in the third hour instead of one half. *)
Theorem C112_run_refuted : exists r,
  solves as_listed run_math run_balance (run_world true false 3) 3 "north" "battery" (fun _ => half) 0 4 /\
  solves as_listed run_math run_balance (run_world true true 2) 2 "north" "battery" (fun _ => half) (1 # 4) 4 /\
  OperateModel.solve_operate run_ts [] [] (fun _ => 0%Q) run_cap 2 3 moment (fun x => Some (stored run_place x))
    (fun p l i n => map (pair (run_W true p l i n)) (seq 0 n)) = Ok r /\
  map (fun tx => stored run_place (snd tx) "b") r = [2; 1; 0; 0]%Q /\ map (fun tx => gained run_place "b" (snd tx)) r = [2; 0; -(1); 0]%Q /\
  ~ balanced_from (fun tx => stored run_place (snd tx) "b") (fun tx => gained run_place "b" (snd tx)) (fun _ _ k => k = this half) (0 * 4)%Q r.
Proof.
  pose proof run_shown_lossy as V; unfold run_shown in V.
  destruct (OperateModel.solve_operate _ _ _ _ _ _ _ _ _ _) as [r|e] eqn:E; [|discriminate V]; injection V as V1 V2.
  exists r; split; [apply (run_solves true false 3); cbn; auto 9|split; [apply (run_solves true true 2); cbn; auto 9|]]; split; [reflexivity|split; [exact V1|split; [exact V2|]]].
  destruct r as [|x0 [|x1 [|x2 [|x3 [|x4 r]]]]]; try discriminate V1; cbn [map] in V1, V2.
  pose proof (f_equal (fun l => nth 1 l 0%Q) V1) as L1; pose proof (f_equal (fun l => nth 2 l 0%Q) V1) as L2; pose proof (f_equal (fun l => nth 2 l 0%Q) V2) as G2; cbn [nth] in L1, L2, G2.
  assert (INV : forall X (lev net : X -> Q) (f : X -> X -> Q -> Prop) x y l, balance lev net f x (y :: l) ->
    (exists k, f x y k /\ (lev y == k * lev x + net y)%Q) /\ balance lev net f y l).
  { intros X lev net f x y l B; inversion B; subst; eauto. }
  intros [_ B]; apply INV in B; destruct B as [_ B]; apply INV in B; destruct B as [[k [-> K]] _].
  rewrite L1, L2, G2 in K; vm_compute in K; discriminate K.
Qed.
Print Assumptions C112_run_refuted.
