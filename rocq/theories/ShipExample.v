(** A small system for the examples: two regions, a battery, a plant and a demand, three hours.
    It is not code of the package; it only provides data. *)
From Coq Require Import QArith Qcanon.
From Verif Require Import Base BaseProofs LangModel MathText EvalModel EvalSpec BuildModel BuildSpec HelperModel HelperSpec ShipModel ShipSpec.
From Verif Require CliModel.
Local Open Scope nat_scope.
Local Open Scope string_scope.
Local Open Scope list_scope.

(** An array by its entries. *)
Definition table (ds : list string) (f : list string -> cell) : darr := {| a_dims := ds; a_at := fun p => f (map p ds) |}.
Lemma table_local ds f : local (table ds f).
Proof. intros p q H; cbn [a_at table]; f_equal; apply map_ext_in; intros d ID; apply H, ID. Qed.
Definition ex_labels : list (string * list string) :=
  [("nodes", ["north"; "south"]); ("techs", ["battery"; "plant"; "load"]); ("carriers", ["power"]);
   ("timesteps", ["t0"; "t1"; "t2"]); ("costs", ["monetary"])].
Definition labels_from (l : list (string * list string)) (d : string) : list string := match d_get d l with Some x => x | None => [] end.
Definition array_from (l : list (string * darr)) (s : string) : darr := match d_get s l with Some a => a | None => scalar Miss end.
Definition default_from (l : list (string * cell)) (s : string) : cell := match d_get s l with Some c => c | None => Miss end.
(** A system from tables. *)
Definition system (dims : list (string * list string)) (arrays : list (string * darr)) (defaults : list (string * cell)) (matrix : darr) : world :=
  {| u_dims := d_keys dims;
     u_env := {| n_labels := labels_from dims; n_array := array_from arrays; n_default := default_from defaults;
                 n_config := fun _ => Miss; n_ref := fun _ _ => None; n_slice := fun _ => None;
                 n_odd := fun _ _ _ => Miss; n_calendar := fun _ _ => Miss; n_carrier := fun _ => scalar Miss; n_matrix := matrix |};
     u_bool := fun _ => false; u_less := fun _ _ => false |}.
Lemma system_sound dims arrays defaults matrix : (forall d l, In (d, l) dims -> NoDup l) -> (forall s a, In (s, a) arrays -> local a) -> local matrix ->
  sound (u_env (system dims arrays defaults matrix)).
Proof.
  intros HD HA HM; cbn [u_env system]; unfold sound; cbn [n_labels n_array n_ref n_slice n_carrier n_matrix].
  repeat split; try (intros; discriminate); auto.
  - intros d; unfold labels_from; destruct (d_get d dims) as [l|] eqn:G; [apply d_get_in in G; exact (HD d l G)|constructor].
  - intros s; unfold array_from; destruct (d_get s arrays) as [a|] eqn:G; [apply d_get_in in G; exact (HA s a G)|intros p q _; reflexivity].
Qed.

(** Checking constraints of a system. *)
Definition order_check (c : cmp) (x y : Qc) : bool :=
  match c, Qccompare x y with
  | CEq, Datatypes.Eq | CLe, Datatypes.Eq | CGe, Datatypes.Eq | CLt, Datatypes.Lt | CLe, Datatypes.Lt | CGt, Datatypes.Gt | CGe, Datatypes.Gt => true
  | _, _ => false
  end.
Definition entry_check (e : entry) : bool := match e with VRel (Val x) c (Val y) => order_check c x y | VRel _ _ _ => false | VCell _ => true end.
Definition holds_check (order : list string -> list string) (m : math_file) (U : world) (c : component) : bool :=
  match build_all order m U "constraints" c with
  | Built r => forallb (fun f => entry_check (r f)) (CliModel.product (map (n_labels (u_env U)) (c_foreach c)))
  | Broken _ => false
  end.
Lemma order_check_sound c x y : order_check c x y = true -> in_order c x y.
Proof.
  unfold order_check; destruct (Qccompare x y) eqn:E; destruct c; intros H; try discriminate H; cbn [in_order].
  all: first [apply Qceq_alt in E; subst; first [reflexivity|apply Qcle_refl] | apply Qclt_alt in E; first [exact E|apply Qclt_le_weak; exact E] | apply Qcgt_alt in E; first [exact E|apply Qclt_le_weak; exact E]].
Qed.
Lemma holds_check_sound order m U c : holds_check order m U c = true -> holds_in order m U c.
Proof.
  unfold holds_check, holds_in; destruct (build_all order m U "constraints" c) as [r|]; [|discriminate]; intros H; exists r; split; [reflexivity|].
  intros f IF; rewrite forallb_forall in H; specialize (H f IF); unfold entry_check in H; destruct (r f) as [a|a o b]; [exact I|].
  destruct a; try discriminate H; destruct b; try discriminate H; cbn [related]; apply order_check_sound, H.
Qed.
Definition the (l : list component) (n : string) : component :=
  match find_in l n with Some c => c | None => {| c_name := ""; c_foreach := []; MathText.c_where := ""; c_equations := []; c_subs := []; c_slices := [] |} end.
Definition num (n : Z) : cell := Val (Q2Qc (inject_Z n)).

(** ** A battery that is charged and discharged *)
Definition battery_only (f : string -> cell) : list string -> cell :=
  fun l => match l with "north" :: "battery" :: r => f (last r "") | _ => Miss end.
Definition battery_series (a b c : Z) : list string -> cell :=
  battery_only (fun s => if String.eqb s "t0" then num a else if String.eqb s "t1" then num b else num c).
Definition half : Qc := Q2Qc (1 # 2).
Definition quarter : Qc := Q2Qc (1 # 4).
Definition battery_arrays (cyc : bool) : list (string * darr) :=
  let three a b c := table ["nodes"; "techs"; "timesteps"] (battery_series a b c) in
  let four a b c := table ["nodes"; "techs"; "carriers"; "timesteps"] (battery_series a b c) in
  [("base_tech", table ["techs"] (fun l => match l with ["battery"] => Txt "storage" | ["plant"] => Txt "supply" | ["load"] => Txt "demand" | _ => Miss end));
   ("cyclic_storage", table ["nodes"; "techs"] (battery_only (fun _ => Boo cyc)));
   ("storage_initial", table ["nodes"; "techs"] (battery_only (fun _ => Val (if cyc then quarter else half))));
   ("storage_cap", table ["nodes"; "techs"] (battery_only (fun _ => num 8)));
   ("storage_loss", table ["nodes"; "techs"] (battery_only (fun _ => Val (if cyc then 0%Qc else half))));
   ("timestep_resolution", table ["timesteps"] (fun _ => num 1));
   ("storage", if cyc then three 3 1 2 else three 6 4 1);
   ("flow_in_inc_eff", if cyc then four 1 0 1 else four 2 1 0);
   ("flow_out_inc_eff", if cyc then four 0 2 0 else four 0 0 1)]%Z.
Definition battery_matrix : darr :=
  table ["nodes"; "techs"; "carriers"] (fun l => match l with ["north"; "battery"; "power"] => Boo true | _ => Boo false end).
Definition battery (cyc : bool) : world := system ex_labels (battery_arrays cyc) [("cyclic_storage", Boo true); ("cluster_first_timestep", Boo false); ("storage", Val 0%Qc)] battery_matrix.
Lemma battery_proper cyc : proper (battery cyc).
Proof.
  split; [|vm_compute; repeat constructor; cbn; intuition discriminate]; apply system_sound.
  - intros d l H; repeat (destruct H as [E|H]; [injection E as <- <-; repeat constructor; cbn; intuition discriminate|]); destruct H.
  - intros s a H; destruct cyc; repeat (destruct H as [E|H]; [injection E as <- <-; apply table_local|]); destruct H.
  - apply table_local.
Qed.
Lemma below3 (P : nat -> Prop) : P 0 -> P 1 -> P 2 -> forall k, k < 3 -> P k.
Proof. intros H0 H1 H2 [|[|[|k]]] LT; auto; exfalso; repeat apply le_S_n in LT; inversion LT. Qed.
Lemma battery_storing cyc : storing (battery cyc) "north" "battery".
Proof.
  constructor.
  - apply battery_proper.
  - intros d H E; vm_compute in H; repeat (destruct H as [<- |H]; [vm_compute in E; discriminate|]); destruct H.
  - intros d H; vm_compute in H |- *; intuition.
  - vm_compute; auto.
  - vm_compute; auto.
  - intros d H; exact H.
  - exists "power"; split; [vm_compute; auto|reflexivity].
  - intros s H; repeat (destruct H as [<- |H]; [intros d ID; destruct cyc; vm_compute in ID |- *; intuition|]); destruct H.
  - left; destruct cyc; reflexivity.
  - split; intros d ID; destruct cyc; vm_compute in ID |- *; intuition.
  - intros k _ [E|E]; destruct cyc; discriminate E.
  - split; [intros d ID; destruct cyc; vm_compute in ID |- *; intuition|]; destruct cyc; apply below3; eexists; vm_compute; reflexivity.
  - intros s [E|E]; subst s; (split; [intros d ID; destruct cyc; vm_compute in ID |- *; intuition|]); (split; [destruct cyc; vm_compute; intuition|]);
      intros c k [<- |[]]; revert k; destruct cyc; apply below3; eexists; vm_compute; reflexivity.
  - intros s H; repeat (destruct H as [<- |H]; [destruct cyc; eexists; vm_compute; reflexivity|]); destruct H.
  - destruct cyc; apply below3; eexists; vm_compute; reflexivity.
Qed.

(** Sets as they are met; the base math alone. *)
Definition as_listed : list string -> list string := nodup string_dec.
Lemma as_listed_set : lists_set as_listed.
Proof. intros l; split; [apply NoDup_nodup|intros s; apply nodup_In]. Qed.
Definition base_math : list math_file := [].
