(** C22 and C23: resampling and clustering of time series. *)
From Coq Require Import Sorted.
From Verif Require Import Base TimeModel TimeSpec TimeProofs.
Local Open Scope list_scope.
Local Open Scope Z_scope.

(** Every time stamp lies in exactly one of the resampled steps, read as intervals of
    [step] minutes from their label on. *)
Theorem C22_every_timestep_in_one_bin m step s t : 0 < step -> ordered (map fst s) -> In t (map fst s) ->
  exists! l, In l (map fst (resample m step s)) /\ l <= t < l + step.
Proof.
  intros S O I.
  assert (L : map fst (resample m step s) = labels (map fst s) step) by (unfold resample; rewrite map_map; apply map_id).
  rewrite L; exists (bin (origin (map fst s)) step t); split.
  - split; [apply labels_in; assumption|apply bin_range; exact S].
  - intros l [X R]; apply (label_bin (map fst s) step l t S X); exact R.
Qed.
Print Assumptions C22_every_timestep_in_one_bin.

(** Each resampled value is the sum, mean or first of the values in its interval. *)
Theorem C22_bin_values m step s l v : 0 < step -> In (l, v) (resample m step s) ->
  meets m (window l step s) v.
Proof. intros S I; rewrite (resample_windows m step s l v S I); apply aggregate_meets. Qed.
Print Assumptions C22_bin_values.

(** The total of a summed quantity is kept, whatever the length of the series, its gaps and
    missing values. *)
Theorem C22_sum_total step s a b : 0 < step -> ordered (map fst s) ->
  total (map snd s) a -> total (map snd (resample MSum step s)) b -> (a == b)%Q.
Proof. apply resample_total. Qed.
Print Assumptions C22_sum_total.

(** Means and first values stay in the range of the series. *)
Theorem C22_range m step s lo hi : m <> MSum -> within lo hi s -> within lo hi (resample m step s).
Proof. apply resample_range. Qed.
Print Assumptions C22_range.

Definition ex_series : series :=
  [(60, Some 1%Q); (120, Some 2%Q); (180, None); (300, Some 4%Q); (660, Some 8%Q)].
Lemma ordered_check (l : list Z) : Sorted Z.lt l -> ordered l.
Proof. apply Sorted_StronglySorted; intros x y z; lia. Qed.
Example ex_series_ordered : ordered (map fst ex_series).
Proof. apply ordered_check; repeat constructor. Qed.
Example C22_example_sum : resample MSum 120 ex_series =
  [(0, Some 1%Q); (120, Some 2%Q); (240, Some 4%Q); (360, None); (480, None); (600, Some 8%Q)].
Proof. vm_compute; reflexivity. Qed.
Example C22_example_mean : resample MMean 240 ex_series =
  [(0, Some (3 # 2)%Q); (240, Some 4%Q); (480, Some 8%Q)].
Proof. vm_compute; reflexivity. Qed.
Example C22_example_total : total (map snd ex_series) (1 + (2 + (4 + (8 + 0)))).
Proof. repeat constructor. Qed.

(** On a model read from file the number of hours is kept, for every series and step. *)
Theorem C22_loaded_hours ts step q : 0 < step -> ordered ts ->
  total (map snd (resolution_loaded ts step)) q -> (q == inject_Z (zsum (resolutions ts)))%Q.
Proof. apply resolution_loaded_total. Qed.
Print Assumptions C22_loaded_hours.
Example C22_loaded_hours_example : resolution_loaded (regular 60 60 5) 120 =
  [(0, Some (60 + 0)%Q); (120, Some (60 + (60 + 0))%Q); (240, Some (60 + (60 + 0))%Q)].
Proof. vm_compute; reflexivity. Qed.

(** On a model made from its definition the hours are kept if the series is regular, starts on a
    bin edge and fills at least two whole bins.  Partial: not in other cases; see below. *)
Theorem C22_first_hours_partial t0 h k n : 0 < h -> (0 < k)%nat -> (2 <= n)%nat ->
  (t0 - midnight (date t0)) mod (Z.of_nat k * h) = 0 ->
  zsum (resolution_first (regular t0 h (k * n)) (Z.of_nat k * h)) = zsum (resolutions (regular t0 h (k * n))).
Proof. apply resolution_first_total. Qed.
Print Assumptions C22_first_hours_partial.
Example C22_first_hours_example :
  resolution_first (regular 1440 60 48) 360 = repeat 360 8.
Proof. vm_compute; reflexivity. Qed.

(** An hourly series of an odd number of hours, an unaligned one and a single day lose or gain
    hours: 5 become 6, 4 become 6, 24 become 1. *)
Theorem C22_first_hours_refuted :
  exists ts1 ts2 ts3, ordered ts1 /\ ordered ts2 /\ ordered ts3 /\
    (zsum (resolutions ts1) = 300 /\ zsum (resolution_first ts1 120) = 360) /\
    (zsum (resolutions ts2) = 240 /\ zsum (resolution_first ts2 120) = 360) /\
    (zsum (resolutions ts3) = 1440 /\ zsum (resolution_first ts3 1440) = 60).
Proof.
  exists (regular 0 60 5), (regular 60 60 4), (regular 0 60 24).
  split; [apply ordered_check; vm_compute; repeat constructor|].
  split; [apply ordered_check; vm_compute; repeat constructor|].
  split; [apply ordered_check; vm_compute; repeat constructor|].
  vm_compute; repeat split.
Qed.
Print Assumptions C22_first_hours_refuted.

(** * Clustering *)
(** The weights of the first time steps of the kept days add up to the number of dates whose
    representative day occurs in the data. *)
Theorem C23_weights_count assignment ts n : ordered ts ->
  first_weights (c_first (cluster assignment ts)) (c_weight (cluster assignment ts)) n ->
  represented ts assignment n.
Proof. apply cluster_weights. Qed.
Print Assumptions C23_weights_count.

(** Hence to the number of dates, if every representative day is in the data.  Partial: this is
    not checked; see below. *)
Theorem C23_weights_total_partial assignment ts n : ordered ts ->
  (forall d r, In (d, r) assignment -> exists t, In t ts /\ date t = r) ->
  first_weights (c_first (cluster assignment ts)) (c_weight (cluster assignment ts)) n ->
  n = List.length assignment.
Proof. intros O C F; apply (represented_all ts assignment n C), cluster_weights; assumption. Qed.
Print Assumptions C23_weights_total_partial.

(** All time steps of a kept day have the weight of that day. *)
Theorem C23_weights_uniform assignment ts t w t' w' :
  In (t, w) (c_weight (cluster assignment ts)) -> In (t', w') (c_weight (cluster assignment ts)) ->
  date t = date t' -> w = w'.
Proof.
  intros I I' E; cbn [cluster c_weight] in I, I'; apply in_map_iff in I; apply in_map_iff in I'.
  destruct I as [x [X _]], I' as [y [Y _]]; injection X as <- <-; injection Y as <- <-; rewrite E; reflexivity.
Qed.
Print Assumptions C23_weights_uniform.

(** The kept time steps are those of the representative days; two of them are in one cluster
    exactly if they are of one day, and every date is in the cluster of its
    representative day. *)
Theorem C23_clusters assignment ts :
  (forall t, (exists k, In (t, k) (c_cluster (cluster assignment ts))) <-> In t ts /\ exists d, In (d, date t) assignment) /\
  (forall t k t' k', In (t, k) (c_cluster (cluster assignment ts)) -> In (t', k') (c_cluster (cluster assignment ts)) ->
    (k = k' <-> date t = date t')) /\
  (forall d r t k, In (d, r) assignment -> In (t, k) (c_cluster (cluster assignment ts)) -> date t = r ->
    In (d, k) (c_date_cluster (cluster assignment ts))).
Proof.
  split; [|split; [apply cluster_same|apply date_cluster_spec]].
  intros t; split.
  - intros [k I]; destruct (cluster_steps _ _ _ _ I) as [T [D _]]; auto.
  - intros [T [d D]]; exact (cluster_kept _ _ _ _ T D).
Qed.
Print Assumptions C23_clusters.

(** The last time step looked up for a date is the last one of its representative day; nothing
    is looked up only if that day has no time steps. *)
Theorem C23_date_last assignment ts d o : ordered ts -> In (d, o) (c_date_last (cluster assignment ts)) ->
  exists r, In (d, r) assignment /\
    match o with
    | Some t => In t ts /\ date t = r /\ forall t', In t' ts -> date t' = r -> t' <= t
    | None => forall t, In t ts -> date t <> r
    end.
Proof. apply date_last_spec. Qed.
Print Assumptions C23_date_last.

(** The last time step looked up for a time step is the last one of its day.  Partial: it is
    found only at midnight. *)
Theorem C23_step_last_partial assignment ts t o : ordered ts -> In (t, o) (c_last (cluster assignment ts)) ->
  match o with
  | Some f => t = midnight (date t) /\ In f ts /\ date f = date t /\ forall t', In t' ts -> date t' = date t -> t' <= f
  | None => t <> midnight (date t)
  end.
Proof. apply step_last_spec. Qed.
Print Assumptions C23_step_last_partial.

Definition ex_days : list Z := regular 0 360 12.
Definition ex_assignment : list (Z * Z) := [(0, 2); (1, 0); (2, 2)].
Example C23_example :
  cluster ex_assignment ex_days =
  {| c_cluster := [(0, Some 0%nat); (360, Some 0%nat); (720, Some 0%nat); (1080, Some 0%nat);
                   (2880, Some 1%nat); (3240, Some 1%nat); (3600, Some 1%nat); (3960, Some 1%nat)];
     c_weight := [(0, 1%nat); (360, 1%nat); (720, 1%nat); (1080, 1%nat); (2880, 2%nat); (3240, 2%nat); (3600, 2%nat); (3960, 2%nat)];
     c_first := [(0, true); (360, false); (720, false); (1080, false);
                 (2880, true); (3240, false); (3600, false); (3960, false)];
     c_last := [(0, Some 1080); (360, None); (720, None); (1080, None);
                (2880, Some 3960); (3240, None); (3600, None); (3960, None)];
     c_date_cluster := [(0, Some 1%nat); (1, Some 0%nat); (2, Some 1%nat)];
     c_date_last := [(0, Some 3960); (1, Some 1080); (2, Some 3960)] |}.
Proof. vm_compute; reflexivity. Qed.
Example C23_example_ordered : ordered ex_days.
Proof. apply ordered_check; vm_compute; repeat constructor. Qed.
Example C23_example_present : forall d r, In (d, r) ex_assignment -> exists t, In t ex_days /\ date t = r.
Proof.
  intros d r [E|[E|[E|[]]]]; injection E as <- <-; [exists 2880|exists 0|exists 2880]; (split; [vm_compute; tauto|reflexivity]).
Qed.

(** A representative day outside the (subset of the) data is not noticed: its dates are not
    accounted for by any weight. *)
Theorem C23_missing_day_refuted :
  exists assignment ts n, ordered ts /\
    first_weights (c_first (cluster assignment ts)) (c_weight (cluster assignment ts)) n /\
    (n < List.length assignment)%nat /\ c_weight (cluster assignment ts) <> [].
Proof.
  exists [(0, 2); (1, 0); (2, 2)], (regular 0 720 4), 1%nat; split; [apply ordered_check; vm_compute; repeat constructor|].
  split; [|split; [simpl; lia|vm_compute; discriminate]].
  change (first_weights [(0, true); (720, false)] [(0, 1%nat); (720, 1%nat)] (1 + 0)); repeat constructor.
Qed.
Print Assumptions C23_missing_day_refuted.

(** Days whose first time stamp is not midnight have no last time step looked up at their first
    time step. *)
Theorem C23_step_last_refuted :
  exists assignment ts t, ordered ts /\ In (t, true) (c_first (cluster assignment ts)) /\
    In (t, None) (c_last (cluster assignment ts)).
Proof.
  exists [(0, 1); (1, 1)], (regular 30 60 48), 1470; split; [apply ordered_check; vm_compute; repeat constructor|].
  split; vm_compute; left; reflexivity.
Qed.
Print Assumptions C23_step_last_refuted.
