(** Property theorems C98 and C99: time subsets, and models opened again. *)
From Coq Require Import Sorted.
From Verif Require Import Base BaseProofs TimeModel TimeSpec TimeProofs AgainModel AgainSpec AgainProofs.
Local Open Scope string_scope.
Local Open Scope list_scope.
Local Open Scope Z_scope.

(** * C98: time subsets *)
(** A subset whose end names a day or a time within one: it is refused exactly if none of its days is a day of the
    data; otherwise exactly the time steps in the range stay, both ends included, with their values.
    Partial: not for an end that names a longer period; see below. *)
Theorem C98_subset_partial days d a b : consistent d -> date (fst b) = date (snd b) ->
  (apart (t_times d) (fst a) (snd b) -> open days (limited [a; b]) (defined d) = Err EModel) /\
  (~ apart (t_times d) (fst a) (snd b) -> exists o, open days (limited [a; b]) (defined d) = Ok o /\
     (forall t, In t (t_times (o_data o)) <-> In t (t_times d) /\ fst a <= t <= snd b) /\
     forall n t q, ~ inferred n -> (value (o_data o) n t (Some q) <-> value d n t (Some q) /\ fst a <= t <= snd b)).
Proof.
  intros (O & N & _) D; rewrite open_limited; destruct (check_spec (t_times d) a b O N D) as [(E & A)|(E & A)]; rewrite E; cbn [bind]; (split; [intros H|intros H]); try contradiction; [reflexivity|].
  assert (R : forall t, (fst a <=? t) && (t <=? snd b) = true <-> fst a <= t <= snd b) by (intros t; rewrite Bool.andb_true_iff, !Z.leb_le; reflexivity).
  eexists; split; [reflexivity|]; cbn [o_data fst snd]; split.
  - intros t; rewrite infer_times; cbn [drop t_times]; rewrite keep_times, R; reflexivity.
  - intros n t q NI; rewrite infer_value, drop_value, keep_value, drop_value, R by exact NI; reflexivity.
Qed.
Print Assumptions C98_subset_partial.
(** Whatever the periods, what is accepted is cut to the range. *)
Theorem C98_range days d a b o : open days (limited [a; b]) (defined d) = Ok o ->
  (forall t, In t (t_times (o_data o)) <-> In t (t_times d) /\ fst a <= t <= snd b) /\
  forall n t q, ~ inferred n -> (value (o_data o) n t (Some q) <-> value d n t (Some q) /\ fst a <= t <= snd b).
Proof.
  rewrite open_limited; destruct (check_subset (t_times d) [a; b]) as [[a' b']|] eqn:E; [|discriminate]; cbn [bind]; intros Q; injection Q as <-.
  assert (a' = a /\ b' = b) as [-> ->] by (cbn [check_subset] in E; destruct (_ || _); [discriminate|injection E as <- <-; split; reflexivity]).
  assert (R : forall t, (fst a <=? t) && (t <=? snd b) = true <-> fst a <= t <= snd b) by (intros t; rewrite Bool.andb_true_iff, !Z.leb_le; reflexivity).
  cbn [o_data fst snd]; split; [intros t; rewrite infer_times; cbn [drop t_times]; rewrite keep_times, R; reflexivity|].
  intros n t q NI; rewrite infer_value, drop_value, keep_value, drop_value, R by exact NI; reflexivity.
Qed.
Print Assumptions C98_range.
(** A subset that is not a pair is refused. *)
Theorem C98_pair days d l : List.length l <> 2%nat -> open days (limited l) (defined d) = Err EModel.
Proof. intros L; rewrite open_limited; destruct l as [|a [|b [|c l]]]; try reflexivity; cbn in L; congruence. Qed.
Print Assumptions C98_pair.

Definition hourly (t0 : Z) (n : nat) : list Z := map (fun i => t0 + Z.of_nat i * 60) (seq 0 n).
Definition ex_data (t0 : Z) (vs : list Q) : tdata :=
  {| t_times := hourly t0 (List.length vs);
     t_series := [("sink_use_equals", (Some MSum, combine (hourly t0 (List.length vs)) (map Some vs)));
                  ("source_eff", (Some MMean, combine (hourly t0 (List.length vs)) (map Some vs)))] |}.
Definition no_days (_ : string) : option (list (Z * Z)) := None.
Definition times_of (r : result opened) : option (list Z) := match r with Ok o => Some (t_times (o_data o)) | Err _ => None end.
Definition series_of (n : string) (r : result opened) : option (list (Z * option Q)) :=
  match r with Ok o => option_map (fun ms => map (fun tv => (fst tv, option_map Qred (snd tv))) (snd ms)) (d_get n (t_series (o_data o))) | Err _ => None end.
Example ex_consistent : consistent (ex_data 60 [1; 2; 6]%Q).
Proof.
  split; [apply Sorted_StronglySorted; [intros x y z; lia|repeat constructor]|split; [discriminate|split; [repeat (apply NoDup_cons; [cbn; intuition discriminate|]); apply NoDup_nil|]]].
  intros n m s I; cbn in I; destruct I as [E|[E|[]]]; injection E as <- <- <-; reflexivity.
Qed.
Example C98_example :
  times_of (open no_days (limited [(90, 90); (0, 1439)]) (defined (ex_data 60 [1; 2; 6]%Q))) = Some [120; 180] /\
  ~ apart (t_times (ex_data 60 [1; 2; 6]%Q)) 90 1439 /\
  open no_days (limited [(1440, 1440); (1440, 2879)]) (defined (ex_data 60 [1; 2; 6]%Q)) = Err EModel.
Proof.
  split; [vm_compute; reflexivity|split; [|vm_compute; reflexivity]]; intros [H|H]; specialize (H 120 ltac:(vm_compute; tauto)); vm_compute in H; discriminate.
Qed.

(** The end is compared by the first day it names: with data from the fifth of a month, the subset of that
    month is refused as "outside the input data time range". *)
Theorem C98_month_refuted :
  exists d a b, consistent d /\ (forall t, In t (t_times d) -> fst a <= t <= snd b) /\ open no_days (limited [a; b]) (defined d) = Err EModel.
Proof.
  exists (ex_data (4 * 1440) [1; 2; 6]%Q), (0, 31 * 1440 - 1), (0, 31 * 1440 - 1); split; [|split; [|vm_compute; reflexivity]].
  - split; [apply Sorted_StronglySorted; [intros x y z; lia|repeat constructor]|split; [discriminate|split; [repeat (apply NoDup_cons; [cbn; intuition discriminate|]); apply NoDup_nil|]]].
    intros n m s I; cbn in I; destruct I as [E|[E|[]]]; injection E as <- <- <-; reflexivity.
  - intros t I; cbn in I; cbn [fst snd]; lia.
Qed.
Print Assumptions C98_month_refuted.
(** A subset given from late to early, or between two time steps, is accepted and leaves a model without time steps.
    (Taken for granted: xarray makes empty arrays of empty ones.) *)
Theorem C98_empty_refuted :
  exists d o1 o2, consistent d /\
    open no_days (limited [(180, 180); (60, 60)]) (defined d) = Ok o1 /\ t_times (o_data o1) = [] /\
    open no_days (limited [(70, 70); (100, 100)]) (defined d) = Ok o2 /\ t_times (o_data o2) = [].
Proof.
  exists (ex_data 60 [1; 2; 6]%Q); eexists; eexists; split; [exact ex_consistent|split; [vm_compute; reflexivity|split; [reflexivity|split; [vm_compute; reflexivity|reflexivity]]]].
Qed.
Print Assumptions C98_empty_refuted.

(** * C99: models opened again *)
(** Opening a model again with the settings it was opened with changes nothing, however often. *)
Theorem C99_again days c o o' n : open days c o = Ok o' ->
  exists o'', opens days (repeat c n) o' = Ok o'' /\ o_runtime o'' = o_runtime o' /\ same_content (o_data o'') (o_data o').
Proof.
  intros E; assert (G : forall n o1, o_runtime o1 = o_runtime o' -> same_content (o_data o1) (o_data o') ->
    exists o'', opens days (repeat c n) o1 = Ok o'' /\ o_runtime o'' = o_runtime o' /\ same_content (o_data o'') (o_data o')).
  { clear n; induction n as [|n IH]; intros o1 R (T & V); [exists o1; repeat split; try assumption; apply V|].
    cbn [repeat opens]; rewrite (open_same days c o1 (eq_trans R (open_runtime _ _ _ _ E))); cbn [bind]; apply IH; [exact R|split; [exact T|]].
    cbn [o_data]; intros m t q; rewrite drop_value; apply V. }
  apply G; [reflexivity|split; [reflexivity|intros; reflexivity]].
Qed.
Print Assumptions C99_again.
Example C99_again_example :
  exists o', open (fun _ => Some [(0, 0); (1, 0)]) {| s_subset := Some [(60, 60); (240, 240)]; s_resample := Some 120; s_cluster := Some "days" |} (defined (ex_data 60 [1; 2; 6; 3; 5]%Q)) = Ok o' /\
    t_times (o_data o') = [0; 120; 240] /\ series_of "timestep_weights" (Ok o') = Some [(0, Some 2%Q); (120, Some 2%Q); (240, Some 2%Q)].
Proof. eexists; split; [vm_compute; reflexivity|split; vm_compute; reflexivity]. Qed.
(** Clustering cannot be changed or taken back. *)
Theorem C99_cluster_kept days c o n o' : s_cluster (r_applied (o_runtime o)) = Some n -> s_cluster c <> Some n -> open days c o <> Ok o'.
Proof.
  intros R C; unfold open; cbv zeta; destruct (if opt_eqb list_eqb _ _ then _ else _); [|discriminate]; cbn [bind]; destruct (if opt_eqb Z.eqb _ _ then _ else _); [|discriminate]; cbn [bind].
  rewrite R; destruct (s_cluster c) as [x|]; cbn [opt_eqb bind]; [|discriminate]; destruct (String.eqb_spec x n) as [->|_]; [congruence|discriminate].
Qed.
Print Assumptions C99_cluster_kept.
(** However often a model is opened with other resolutions, totals of summed arrays stay; after the first time,
    that includes the hours. *)
Theorem C99_totals days cs o o' n q :
  Forall (fun c => s_subset c = None /\ s_cluster c = None /\ forall step, s_resample c = Some step -> 0 < step) (r_applied (o_runtime o) :: cs) ->
  consistent (o_data o) -> r_instantiated (o_runtime o) = true \/ ~ inferred n ->
  opens days cs o = Ok o' -> amount (o_data o) n q -> exists q', amount (o_data o') n q' /\ (q == q')%Q.
Proof. intros F; inversion F as [|? ? F1 F2]; subst; intros C I E; exact (opens_amount days n cs o o' q F2 F1 C I E). Qed.
Print Assumptions C99_totals.
(** Going to a coarser resolution in two steps is as going there directly, for sums and first values. *)
Theorem C99_two_steps_partial days step k d o1 o2 n m s : 0 < step -> 1 < k -> consistent d -> ~ inferred n ->
  In (n, (Some m, s)) (t_series d) -> (exists t x, In (t, Some x) s) -> m = MSum \/ m = MFirst ->
  open days (resampled (k * step)) (defined d) = Ok o1 -> opens days [resampled step; resampled (k * step)] (defined d) = Ok o2 ->
  t_times (o_data o1) = t_times (o_data o2) /\
  exists s1 s2, In (n, (Some m, s1)) (t_series (o_data o1)) /\ In (n, (Some m, s2)) (t_series (o_data o2)) /\
    Forall2 (fun a b => fst a = fst b /\ same_value (snd a) (snd b)) s1 s2.
Proof. intros S K C NI I V M; apply two_steps; try assumption; exists s; split; [exact I|exact V]. Qed.
Print Assumptions C99_two_steps_partial.
Example C99_two_steps_example :
  series_of "sink_use_equals" (open no_days (resampled 240) (defined (ex_data 60 [1; 2; 6; 3]%Q))) = Some [(0, Some 9%Q); (240, Some 3%Q)] /\
  series_of "sink_use_equals" (opens no_days [resampled 120; resampled 240] (defined (ex_data 60 [1; 2; 6; 3]%Q))) = Some [(0, Some 9%Q); (240, Some 3%Q)].
Proof. split; vm_compute; reflexivity. Qed.
Example C99_totals_example :
  series_of "timestep_resolution" (opens no_days [no_settings] (defined (ex_data 60 [1; 2; 6; 3]%Q))) = Some [(60, Some 60%Q); (120, Some 60%Q); (180, Some 60%Q); (240, Some 60%Q)] /\
  series_of "timestep_resolution" (opens no_days [no_settings; resampled 120; resampled 240] (defined (ex_data 60 [1; 2; 6; 3]%Q))) = Some [(0, Some 180%Q); (240, Some 60%Q)].
Proof. split; vm_compute; reflexivity. Qed.

(** Not so for means: the mean of means is another one if the intervals hold different numbers of steps. *)
Theorem C99_means_refuted :
  exists d, consistent d /\
    series_of "source_eff" (open no_days (resampled 240) (defined d)) = Some [(0, Some 3%Q)] /\
    series_of "source_eff" (opens no_days [resampled 120; resampled 240] (defined d)) = Some [(0, Some (5 # 2)%Q)].
Proof. exists (ex_data 60 [1; 2; 6]%Q); split; [exact ex_consistent|split; vm_compute; reflexivity]. Qed.
Print Assumptions C99_means_refuted.
(** The settings kept with a model do not tell what was applied to it: taking a resolution or a subset back leaves
    the data as they are but clears the record. *)
Theorem C99_record_refuted :
  exists d o1 o2 wide t, consistent d /\
    opens no_days [resampled 120; no_settings] (defined d) = Ok o1 /\ r_applied (o_runtime o1) = no_settings /\
    t_times (o_data o1) <> t_times d /\
    opens no_days [limited [(60, 60); (120, 120)]; limited wide] (defined d) = Ok o2 /\ r_applied (o_runtime o2) = limited wide /\
    (exists a b, wide = [a; b] /\ fst a <= t <= snd b) /\ In t (t_times d) /\ ~ In t (t_times (o_data o2)).
Proof.
  exists (ex_data 60 [1; 2; 6]%Q); eexists; eexists; exists [(60, 60); (180, 180)], 180; split; [exact ex_consistent|].
  split; [vm_compute; reflexivity|split; [reflexivity|split; [discriminate|split; [vm_compute; reflexivity|split; [reflexivity|split; [do 2 eexists; split; [reflexivity|cbn; lia]|split; [vm_compute; tauto|vm_compute; intuition discriminate]]]]]]].
Qed.
Print Assumptions C99_record_refuted.
