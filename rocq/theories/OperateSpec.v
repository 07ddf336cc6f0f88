(** Specification vocabulary for the receding-horizon mode. *)
From Coq Require Import QArith Sorted.
From Verif Require Import Base.
Local Open Scope list_scope.
Local Open Scope Z_scope.

(** Time stamps in strictly increasing order. *)
Definition ordered (ts : list Z) : Prop := StronglySorted Z.lt ts.

(** The windows start at the first time stamp and follow each other at the window length, as
    long as they start within the series. *)
Definition window_start (ts : list Z) (window w : Z) : Prop :=
  exists first lst n, hd_error ts = Some first /\ last ts first = lst /\ 0 <= n /\ w = first + n * window /\ w <= lst.

(** The time stamps a window looks at, and those it decides about. *)
Definition looks_at (ts : list Z) (horizon w : Z) : list Z := filter (fun t => (w <=? t) && (t <? w + horizon)) ts.
Definition decides (window w t : Z) : Prop := w <= t < w + window.

(** Every window decides about at least one time stamp. *)
Definition no_gap (ts : list Z) (window : Z) : Prop :=
  forall w, window_start ts window w -> exists t, In t ts /\ decides window w t.

(** The first time stamp some window decides about. *)
Definition opens (ts : list Z) (window t : Z) : Prop :=
  exists w, window_start ts window w /\ decides window w t /\ forall t', In t' ts -> w <= t' -> t <= t'.

(** Storage balance over a list of steps: the level after a step is what is kept of the
    previous level plus the net inflow of the step. *)
Inductive balance {X} (lev : X -> Q) (net : X -> Q) (factor : X -> X -> Q -> Prop) : X -> list X -> Prop :=
| bal_nil x : balance lev net factor x []
| bal_cons x y l k : factor x y k -> (lev y == k * lev x + net y)%Q ->
    balance lev net factor y l -> balance lev net factor x (y :: l).
(** The first step starts from a given initial level. *)
Definition balanced_from {X} (lev : X -> Q) (net : X -> Q) (factor : X -> X -> Q -> Prop) (start : Q) (l : list X) : Prop :=
  match l with
  | [] => True
  | x :: r => (lev x == start + net x)%Q /\ balance lev net factor x r
  end.
