(** Systems given by rows of tables, for the examples.  It is not code of the package; it only provides data. *)
From Coq Require Import QArith Qcanon.
From Verif Require Import Base BaseProofs LangModel MathText EvalModel EvalSpec BuildModel BuildSpec HelperModel HelperSpec ShipModel ShipSpec ShipExample NetSpec.
From Verif Require CliModel.
Local Open Scope nat_scope.
Local Open Scope string_scope.
Local Open Scope list_scope.

(** An array by its rows. *)
Definition same_key (a b : list string) : bool := if list_eq_dec string_dec a b then true else false.
Fixpoint look (rows : list (list string * cell)) (key : list string) : cell :=
  match rows with [] => Miss | (k, c) :: r => if same_key k key then c else look r key end.
Definition rows_of (ds : list string) (rows : list (list string * cell)) : darr := table ds (look rows).
Lemma look_in rows key : look rows key <> Miss -> exists c, In (key, c) rows /\ look rows key = c.
Proof.
  induction rows as [|(k, c) r IH]; cbn; [intros H; destruct (H eq_refl)|]; unfold same_key; destruct (list_eq_dec string_dec k key) as [->|N].
  - intros _; exists c; auto.
  - intros H; destruct (IH H) as (d & ID & E); exists d; auto.
Qed.
Definition all_numbers (rows : list (list string * cell)) : bool := forallb (fun r => match snd r with Val _ => true | _ => false end) rows.
Lemma rows_number ds rows : all_numbers rows = true -> forall p, a_at (rows_of ds rows) p = Miss \/ is_number (a_at (rows_of ds rows) p).
Proof.
  intros H p; cbn [a_at rows_of table]; destruct (look rows (map p ds)) as [|q|b|b|s] eqn:E; [left; reflexivity|right; exists q; reflexivity|..].
  all: destruct (look_in rows (map p ds)) as (c & IC & E2); [rewrite E; discriminate|]; unfold all_numbers in H; rewrite forallb_forall in H; specialize (H _ IC); cbn [snd] in H; rewrite E in E2; subst c; discriminate H.
Qed.
Definition none_of (s : string) : darr := scalar Miss.

(** Checking values of expressions. *)
Definition same_cell (a b : cell) : bool :=
  match a, b with
  | Miss, Miss => true
  | Val x, Val y => match Qccompare x y with Datatypes.Eq => true | _ => false end
  | Inf x, Inf y | Boo x, Boo y => Bool.eqb x y
  | Txt x, Txt y => String.eqb x y
  | _, _ => false
  end.
Lemma same_cell_sound a b : same_cell a b = true -> a = b.
Proof.
  destruct a as [|x|x|x|x], b as [|y|y|y|y]; cbn; intros H; try discriminate H; auto.
  - f_equal; apply Qceq_alt; destruct (Qccompare x y); [reflexivity|discriminate H|discriminate H].
  - f_equal; apply Bool.eqb_prop, H.
  - f_equal; apply Bool.eqb_prop, H.
  - f_equal; apply String.eqb_eq, H.
Qed.
Definition defined_check (order : list string -> list string) (m : math_file) (U : world) (c : component) : bool :=
  match build_all order m U "global_expressions" c with
  | Built r => same_key (a_dims (n_array (u_env U) (c_name c))) (c_foreach c) &&
      forallb (fun f => match r f with VCell v => same_cell v (a_at (n_array (u_env U) (c_name c)) (at_index (c_foreach c) f)) | VRel _ _ _ => false end)
        (CliModel.product (map (n_labels (u_env U)) (c_foreach c)))
  | Broken _ => false
  end.
Lemma defined_check_sound order m U c : defined_check order m U c = true -> defined_in order m U c.
Proof.
  unfold defined_check, defined_in; destruct (build_all order m U "global_expressions" c) as [r|]; [|discriminate]; intros H; apply andb_prop in H as (H1 & H2); exists r; split; [reflexivity|].
  split; [unfold same_key in H1; destruct (list_eq_dec string_dec _ _) as [E|]; [exact E|discriminate]|].
  intros f IF; rewrite forallb_forall in H2; specialize (H2 f IF); destruct (r f) as [v|]; [|discriminate H2]; f_equal; apply same_cell_sound, H2.
Qed.
Definition check_constraint (order : list string -> list string) (m : math_file) (U : world) (s : string) : bool :=
  match find_in (h_constraints m) s with Some c => holds_check order m U c | None => false end.
Definition check_expression (order : list string -> list string) (m : math_file) (U : world) (s : string) : bool :=
  match find_in (h_expressions m) s with Some c => defined_check order m U c | None => false end.
Lemma check_constraint_sound order m U s : check_constraint order m U s = true -> constraint_holds order m U s.
Proof. unfold check_constraint, constraint_holds; destruct (find_in (h_constraints m) s) as [c|]; [|discriminate]; intros H; exists c; split; [reflexivity|apply holds_check_sound, H]. Qed.
Lemma check_expression_sound order m U s : check_expression order m U s = true -> expression_is order m U s.
Proof. unfold check_expression, expression_is; destruct (find_in (h_expressions m) s) as [c|]; [|discriminate]; intros H; exists c; split; [reflexivity|apply defined_check_sound, H]. Qed.

(** ** A plant in the north, a load in the south, a line between them. *)
Definition grid_labels : list (string * list string) :=
  [("nodes", ["north"; "south"]); ("techs", ["plant"; "load"; "line"]); ("carriers", ["power"]); ("timesteps", ["t0"])].
Definition grid_placed : list (list string * cell) :=
  [(["north"; "plant"; "power"], Boo true); (["south"; "load"; "power"], Boo true); (["north"; "line"; "power"], Boo true); (["south"; "line"; "power"], Boo true)].
Definition grid_out (lossy : bool) : list (list string * cell) :=
  [(["north"; "plant"; "power"; "t0"], num 8); (["north"; "line"; "power"; "t0"], num 0); (["south"; "line"; "power"; "t0"], num (if lossy then 2 else 8))].
Definition grid_in (lossy : bool) : list (list string * cell) :=
  [(["south"; "load"; "power"; "t0"], num (if lossy then 3 else 9)); (["north"; "line"; "power"; "t0"], num 8); (["south"; "line"; "power"; "t0"], num 0)].
Definition four : list string := ["nodes"; "techs"; "carriers"; "timesteps"].
Definition grid_arrays (lossy : bool) : list (string * darr) :=
  [("base_tech", rows_of ["techs"] [(["plant"], Txt "supply"); (["load"], Txt "demand"); (["line"], Txt "transmission")]);
   ("flow_out", rows_of four (grid_out lossy)); ("flow_in", rows_of four (grid_in lossy));
   ("flow_out_eff_per_distance", rows_of ["techs"] (if lossy then [(["line"], Val half)] else []));
   ("distance", rows_of ["techs"] [(["line"], num 2)]);
   ("unmet_demand", rows_of ["nodes"; "carriers"; "timesteps"] [(["south"; "power"; "t0"], num 1)]);
   ("flow_out_inc_eff", rows_of four [(["north"; "plant"; "power"; "t0"], num 8); (["north"; "line"; "power"; "t0"], num 0); (["south"; "line"; "power"; "t0"], num 8)]);
   ("flow_in_inc_eff", rows_of four (grid_in lossy))].
Definition grid_defaults : list (string * cell) :=
  map (fun s => (s, num 0)) (flows ++ slacks ++ ["flow_out_inc_eff"; "flow_in_inc_eff"]) ++
  map (fun s => (s, num 1)) ["flow_out_eff"; "flow_out_parasitic_eff"; "flow_out_eff_per_distance"; "distance"; "flow_in_eff"; "flow_in_eff_per_distance"].
Definition grid (lossy : bool) : world := system grid_labels (grid_arrays lossy) grid_defaults (rows_of ["nodes"; "techs"; "carriers"] grid_placed).
Lemma grid_proper lossy : proper (grid lossy).
Proof.
  split; [|vm_compute; repeat constructor; cbn; intuition discriminate]; apply system_sound.
  - intros d l H; repeat (destruct H as [E|H]; [injection E as <- <-; repeat constructor; cbn; intuition discriminate|]); destruct H.
  - intros s a H; repeat (destruct H as [E|H]; [injection E as <- <-; apply table_local|]); destruct H.
  - apply table_local.
Qed.
Lemma grid_network lossy : network (grid lossy).
Proof.
  constructor.
  - apply grid_proper.
  - intros d H E; vm_compute in H; repeat (destruct H as [<- |H]; [vm_compute in E; discriminate|]); destruct H.
  - intros d H; vm_compute in H |- *; intuition.
  - intros d H; exact H.
  - intros s H; repeat (destruct H as [<- |H]; [reflexivity|]); destruct H.
  - intros s H; destruct H as [<- |[<- |[<- |[]]]]; [left|left|right; intros p; reflexivity]; split; intros ID; exact ID.
  - intros s H; destruct H as [<- |[<- |[]]]; intros d ID; vm_compute in ID |- *; intuition.
  - intros s p H; repeat (destruct H as [<- |H]; [first [left; reflexivity|apply rows_number; destruct lossy; reflexivity]|]); destruct H.
  - intros s n t c k H TH; destruct H as [<- |[<- |[<- |[]]]]; [| |destruct (TH eq_refl)].
    all: apply look_in in TH as (v & IV & _); destruct lossy; repeat (destruct IV as [E|IV]; [cbn in E; injection E as <- <- <- <- <-; reflexivity|]); destruct IV.
  - intros s n c k H TH; destruct H as [<- |[<- |[]]]; [|destruct (TH eq_refl)].
    apply look_in in TH as (v & IV & _); destruct IV as [E|[]]; cbn in E; injection E as <- <- <- <-; exists "load"; split; [vm_compute; auto|reflexivity].
Qed.
Definition grid_oshare (lossy : bool) (n t c k : string) : Qc := if lossy then quarter else 1%Qc.
Definition grid_ishare (n t c k : string) : Qc := 1%Qc.
Lemma grid_links lossy : links (grid lossy) (grid_oshare lossy) grid_ishare.
Proof.
  constructor.
  - intros d ID; vm_compute in ID |- *; intuition.
  - intros s H; repeat (destruct H as [<- |H]; [intros d ID; vm_compute in ID |- *; intuition|]); destruct H.
  - intros n t c k I1 I2 I3 I4 IL TH; apply look_in in TH as (v & IV & _).
    assert (T : t = "line").
    { destruct I2 as [<- |[<- |[<- |[]]]]; [vm_compute in IL; discriminate IL|vm_compute in IL; discriminate IL|reflexivity]. }
    subst t; destruct I3 as [<- |[]]; destruct I4 as [<- |[]]; split; [|destruct lossy; vm_compute; discriminate]; split.
    + intros s H; destruct I1 as [<- |[<- |[]]]; repeat (destruct H as [<- |H]; [destruct lossy; eexists; vm_compute; reflexivity|]); destruct H.
    + exists (grid_oshare lossy n "line" "power" "t0"); split.
      * left; exists 2%nat; destruct lossy, I1 as [<- |[<- |[]]]; split; apply Qc_is_canon; vm_compute; reflexivity.
      * destruct lossy, I1 as [<- |[<- |[]]]; apply Qc_is_canon; vm_compute; reflexivity.
  - intros n t c k I1 I2 I3 I4 IL TH; apply look_in in TH as (v & IV & _).
    assert (T : t = "line").
    { destruct I2 as [<- |[<- |[<- |[]]]]; [vm_compute in IL; discriminate IL|vm_compute in IL; discriminate IL|reflexivity]. }
    subst t; destruct I3 as [<- |[]]; destruct I4 as [<- |[]]; split.
    + intros s H; destruct I1 as [<- |[<- |[]]]; repeat (destruct H as [<- |H]; [destruct lossy; eexists; vm_compute; reflexivity|]); destruct H.
    + exists 1%Qc; split.
      * left; exists 2%nat; destruct lossy, I1 as [<- |[<- |[]]]; split; apply Qc_is_canon; vm_compute; reflexivity.
      * destruct lossy, I1 as [<- |[<- |[]]]; apply Qc_is_canon; vm_compute; reflexivity.
Qed.
Lemma grid_single lossy : single_carrier (grid lossy) "power" "t0".
Proof. intros t I2 IL; left; intros n c s _ [<- |[]] NC; destruct (NC eq_refl). Qed.
Lemma grid_holds lossy : check_constraint as_listed (layered base_math) (grid lossy) "system_balance" && check_constraint as_listed (layered base_math) (grid lossy) "balance_transmission" &&
  check_expression as_listed (layered base_math) (grid lossy) "flow_out_inc_eff" && check_expression as_listed (layered base_math) (grid lossy) "flow_in_inc_eff" = true.
Proof. destruct lossy; vm_compute; reflexivity. Qed.
