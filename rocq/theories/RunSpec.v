(** Specification vocabulary for storage over a whole run of the receding-horizon mode. *)
From Coq Require Import QArith Qcanon.
From Verif Require Import Base MathText ShipModel ShipSpec.
Local Open Scope nat_scope.
Local Open Scope string_scope.
Local Open Scope list_scope.

(** Results of the run are kept as timesteps of the optimised problems they come from. *)
Definition moment := (world * nat)%type.
(** What is stored, and what was put in and not taken out, during such a timestep; [place] names the
    node and the technology of each storage. *)
Definition stored (place : string -> string * string) (x : moment) (d : string) : Q :=
  this (level (fst x) (fst (place d)) (snd (place d)) (snd x)).
Definition gained (place : string -> string * string) (d : string) (x : moment) : Q :=
  (this (charged (fst x) (fst (place d)) (snd (place d)) (snd x)) - this (discharged (fst x) (fst (place d)) (snd (place d)) (snd x)))%Q.
(** The solution [U] of a problem over [len] timesteps obeys the storage balance that comes with the
    package, for a storage that is not cyclic, and the problem was given this initial share and this
    capacity; [fade] is what remains after each timestep. *)
Record solves (order : list string -> list string) (files : list math_file) (c : component)
  (U : world) (len : nat) (n t : string) (fade : nat -> Qc) (share capacity : Q) : Prop := {
  sv_steps : steps U = len;
  sv_storing : storing U n t;
  sv_open : ~ cyclic U n t;
  sv_fading : fading U n t fade;
  sv_share : (this (amount U "storage_initial" (asset n t)) == share)%Q;
  sv_capacity : (this (amount U "storage_cap" (asset n t)) == capacity)%Q;
  sv_holds : holds_in order (layered files) U c }.
Definition sum_of {X} (f : X -> Q) (l : list X) : Q := fold_right (fun x s => f x + s)%Q 0%Q l.
