(** Model of the processing of time series: src/calliope/preprocess/time.py:18-45, 70-173,
    260-293.  Time is counted in minutes. *)
From Coq Require Export QArith.
From Verif Require Import Base.
Local Open Scope list_scope.
Local Open Scope Z_scope.

Definition day : Z := 1440.
(** [.dt.date]: days are numbered. *)
Definition date (t : Z) : Z := t / day.
Definition midnight (d : Z) : Z := d * day.

(** A series: time stamps with values, missing values being NaN.  Values of further
    dimensions are resampled independently of each other, so one series is enough. *)
Definition series := list (Z * option Q).

(** pandas [resample]: bins of [step] minutes counted from the midnight before the first time
    stamp, from the bin of the first to that of the last time stamp, labelled by their
    left edge.  Simplification: [step] is a fixed length of time. *)
Definition origin (ts : list Z) : Z := midnight (date (hd 0 ts)).
Definition bin (o step t : Z) : Z := o + (t - o) / step * step.
Definition labels (ts : list Z) (step : Z) : list Z :=
  let o := origin ts in
  let a := bin o step (hd 0 ts) in
  let b := bin o step (last ts 0) in
  map (fun i => a + Z.of_nat i * step) (seq 0 (Z.to_nat ((b - a) / step + 1))).

Inductive method := MSum | MMean | MFirst.
Fixpoint values (l : list (option Q)) : list Q :=
  match l with
  | [] => []
  | Some q :: r => q :: values r
  | None :: r => values r
  end.
Definition qsum (l : list Q) : Q := fold_right Qplus 0%Q l.
(** time.py:109-121: missing values are skipped; [min_count=1] for sums. *)
Definition aggregate (m : method) (l : list (option Q)) : option Q :=
  match values l with
  | [] => None
  | q :: r =>
      Some (match m with
            | MSum => qsum (q :: r)
            | MMean => (qsum (q :: r) / inject_Z (Z.of_nat (List.length (q :: r))))%Q
            | MFirst => q
            end)
  end.

(** time.py:70-128 [resample], one series. *)
Definition resample (m : method) (step : Z) (s : series) : series :=
  let ts := map fst s in
  map (fun l => (l, aggregate m (map snd (filter (fun tv => bin (origin ts) step (fst tv) =? l) s))))
      (labels ts step).

(** time.py:18-45 [add_inferred_time_params]: length of the time steps in minutes; the last one
    is given the length of the one before. *)
Fixpoint diffs (ts : list Z) : list Z :=
  match ts with
  | a :: ((b :: _) as r) => (b - a) :: diffs r
  | _ => []
  end.
Definition resolutions (ts : list Z) : list Z :=
  match ts with
  | [] => []
  | [_] => [60]
  | _ => diffs ts ++ [last (diffs ts) 0]
  end.

(** model_data.py:782-810: on the first instantiation of a model the resolution is inferred
    after resampling; a model loaded from file already has it, and it is resampled like
    any other parameter, with the method "sum" (math/base.yaml:437-441). *)
Definition resolution_first (ts : list Z) (step : Z) : list Z := resolutions (labels ts step).
Definition resolution_loaded (ts : list Z) (step : Z) : series :=
  resample MSum step (combine ts (map (fun z => Some (inject_Z z)) (resolutions ts))).

(** * Clustering *)
(** Groups of a pandas group-by: the sorted distinct keys. *)
Fixpoint insert_new (x : Z) (l : list Z) : list Z :=
  match l with
  | [] => [x]
  | y :: r => if x <? y then x :: l else if x =? y then l else y :: insert_new x r
  end.
Definition groups (l : list Z) : list Z := fold_right insert_new [] l.
Fixpoint index_of (x : Z) (l : list Z) : option nat :=
  match l with
  | [] => None
  | y :: r => if x =? y then Some O else option_map S (index_of x r)
  end.
Definition count (x : Z) (l : list Z) : nat := List.length (filter (Z.eqb x) l).
Definition memZ (x : Z) (l : list Z) : bool := existsb (Z.eqb x) l.

(** The clustered data: per kept time step its cluster and weight, whether it is the first of
    its day, the last time step looked up for it; per date its cluster and the last time
    step of that cluster. *)
Record clustered := {
  c_cluster : list (Z * option nat);
  c_weight : list (Z * nat);
  c_first : list (Z * bool);
  c_last : list (Z * option Z);
  c_date_cluster : list (Z * option nat);
  c_date_last : list (Z * option Z)
}.

(** [groupby("timesteps.date").first()] and [.last()] *)
Definition of_date (d : Z) (ts : list Z) : list Z := filter (fun t => date t =? d) ts.
Definition first_of (d : Z) (ts : list Z) : option Z := hd_error (of_date d ts).
Definition last_of (d : Z) (ts : list Z) : option Z := hd_error (rev (of_date d ts)).

(** time.py:131-173 [cluster] and 260-293 [_lookup_clusters].  [assignment] gives the representative
    day of each date, in the order of the dates.  Simplifications: every date has a
    representative day; the look-up of the last time step by date is re-indexed from the
    midnights of the dates to the time steps (276-281), so it is found only at midnight. *)
Definition cluster (assignment : list (Z * Z)) (ts : list Z) : clustered :=
  let reps := map snd assignment in
  let kept := filter (fun t => memZ (date t) reps) ts in
  let id d := index_of d (groups reps) in
  let step_cluster := map (fun t => (t, id (date t))) kept in
  let eqb a b := match a, b with Some x, Some y => Nat.eqb x y | _, _ => false end in
  {| c_cluster := step_cluster;
     c_weight := map (fun t => (t, count (date t) reps)) kept;
     c_first := map (fun t => (t, match first_of (date t) kept with Some f => f =? t | None => false end)) kept;
     c_last := map (fun t => (t, if t =? midnight (date t) then last_of (date t) kept else None)) kept;
     c_date_cluster := map (fun dr => (fst dr, id (snd dr))) assignment;
     c_date_last := map (fun dr => (fst dr,
         option_map fst (hd_error (rev (filter (fun tc => eqb (snd tc) (id (snd dr))) step_cluster))))) assignment |}.
