(** Specification vocabulary for time series. *)
From Coq Require Import Sorted.
From Verif Require Import Base TimeModel.
Local Open Scope list_scope.
Local Open Scope Z_scope.

Definition ordered (ts : list Z) : Prop := StronglySorted Z.lt ts.

(** Total of a series, missing values not counted. *)
Inductive total : list (option Q) -> Q -> Prop :=
| to_nil : total [] 0
| to_some q l s : total l s -> total (Some q :: l) (q + s)
| to_none l s : total l s -> total (None :: l) s.

Definition within (lo hi : Q) (s : series) : Prop :=
  forall t q, In (t, Some q) s -> (lo <= q <= hi)%Q.

(** Time stamps at regular distance. *)
Definition regular (t0 h : Z) (n : nat) : list Z := map (fun i => t0 + Z.of_nat i * h) (seq 0 n).

Definition zsum (l : list Z) : Z := fold_right Z.add 0 l.

(** The representative days that occur in the time series, counted with multiplicity. *)
Inductive represented (ts : list Z) : list (Z * Z) -> nat -> Prop :=
| re_nil : represented ts [] 0
| re_yes d r l n : (exists t, In t ts /\ date t = r) -> represented ts l n -> represented ts ((d, r) :: l) (S n)
| re_no d r l n : (forall t, In t ts -> date t <> r) -> represented ts l n -> represented ts ((d, r) :: l) n.

(** Sum of the weights of the time steps marked as first of their day. *)
Inductive first_weights : list (Z * bool) -> list (Z * nat) -> nat -> Prop :=
| fw_nil : first_weights [] [] 0
| fw_first t w f l n : first_weights f l n -> first_weights ((t, true) :: f) ((t, w) :: l) (w + n)
| fw_other t w f l n : first_weights f l n -> first_weights ((t, false) :: f) ((t, w) :: l) n.

(** What a method makes of the values of a bin, in their order. *)
Inductive meets : method -> list (option Q) -> option Q -> Prop :=
| me_none m l : (forall v, In v l -> v = None) -> meets m l None
| me_sum l q : (exists x, In (Some x) l) -> total l q -> meets MSum l (Some q)
| me_mean l n q s : present l n -> (0 < n)%nat -> total l s ->
    (q * inject_Z (Z.of_nat n) == s)%Q -> meets MMean l (Some q)
| me_first pre q rest : (forall v, In v pre -> v = None) -> meets MFirst (pre ++ Some q :: rest) (Some q)
with present : list (option Q) -> nat -> Prop :=
| pr_nil : present [] 0
| pr_some q l n : present l n -> present (Some q :: l) (S n)
| pr_none l n : present l n -> present (None :: l) n.

(** The values at time stamps [l <= t < l + step]. *)
Definition window (l step : Z) (s : series) : list (option Q) :=
  map snd (filter (fun tv => (l <=? fst tv) && (fst tv <? l + step)) s).
