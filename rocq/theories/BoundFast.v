(** Checking limits and domains of variables.  For examples and counterexamples only. *)
From Coq Require Import QArith Qcanon.
From Verif Require Import Base BaseProofs LangModel MathText EvalModel EvalSpec BuildModel BuildSpec HelperModel HelperSpec ShipModel ShipSpec PlaceSpec RuleText BoundModel BoundSpec.
From Verif Require CliModel.
Local Open Scope nat_scope.
Local Open Scope string_scope.
Local Open Scope list_scope.

Definition aboveb (l : cell) (x : Qc) : bool := match l with Val a => Qle_bool a x | Inf true | Miss => true | _ => false end.
Definition belowb (x : Qc) (l : cell) : bool := match l with Val b => Qle_bool x b | Inf false | Miss => true | _ => false end.
Definition integralb (x : Qc) : bool := Pos.eqb (Qden x) 1.
Lemma above_sound l x : aboveb l x = true -> above l x.
Proof. destruct l as [|a|b| |]; try exact (fun H => I); cbn; try discriminate; [apply Qle_bool_imp_le|destruct b; [trivial|discriminate]]. Qed.
Lemma below_sound x l : belowb x l = true -> below x l.
Proof. destruct l as [|a|b| |]; try exact (fun H => I); cbn; try discriminate; [apply Qle_bool_imp_le|destruct b; [discriminate|trivial]]. Qed.
Lemma integral_sound x : integralb x = true -> integral x.
Proof.
  intros H; apply Pos.eqb_eq in H; exists (Qnum x); apply Qc_is_canon; cbn [this Q2Qc]; rewrite Qred_correct; unfold inject_Z; destruct x as ((a & b) & C); cbn in *; subst b; reflexivity.
Qed.
Definition valued_check (m : math_file) (bs : list vbound) (U : world) (c : component) : bool :=
  let s := c_name c in let fe := c_foreach c in
  match add_variable m bs U c with
  | Built r => forallb (fun d => smem d fe) (a_dims (n_array (u_env U) s)) && negb (u_bool U s) &&
      forallb (fun f => match r f, a_at (n_array (u_env U) s) (at_index fe f) with
                        | Some e, Val x => aboveb (e_lb e) x && belowb x (e_ub e) && (negb (e_whole e) || integralb x)
                        | None, Miss => true
                        | _, _ => false
                        end) (CliModel.product (map (n_labels (u_env U)) fe))
  | Broken _ => false
  end.
Lemma valued_sound m bs U c : valued_check m bs U c = true -> valued_in m bs U c.
Proof.
  unfold valued_check, valued_in; destruct (add_variable _ _ _ _) as [r|]; [|discriminate]; intros H; apply andb_prop in H as (H & H3); apply andb_prop in H as (H1 & H2); exists r; rewrite negb_true_iff in H2.
  split; [reflexivity|split; [|split; [exact H2|]]].
  - intros d ID; rewrite forallb_forall in H1; apply smem_in, H1, ID.
  - intros f IF; rewrite forallb_forall in H3; specialize (H3 f IF); destruct (r f) as [e|], (a_at _ _) as [|x| | |]; try discriminate; [|reflexivity].
    apply andb_prop in H3 as (H4 & H5); apply andb_prop in H4 as (H6 & H7); exists x; split; [reflexivity|split; [apply above_sound, H6|split; [apply below_sound, H7|]]].
    intros EW; rewrite EW in H5; apply integral_sound, H5.
Qed.
Definition variables_check (files : list math_file) (U : world) : bool :=
  let m := layered files in let bs := bounds files in forallb (valued_check m bs U) (active m (h_variables m)).
Lemma solution_sound order files U : feasible order (layered files) U -> variables_check files U = true -> solution order files U.
Proof. intros FE H; split; [exact FE|]; unfold variables_check in H; rewrite forallb_forall in H; intros c IC; apply valued_sound, H, IC. Qed.
