(** Further theorems on C26, C27 and C85, found missing by changing the model. *)
From Verif Require Import Base BaseProofs DataModel DataSpec DataProofs DataMore DataProps TableModel TableSpec.
Local Open Scope string_scope.
Local Open Scope list_scope.

(** * C26: flags *)
(** Cleaning keeps the dimensions and types of arrays.  Arrays of flags have no missing entries afterwards; where
    nothing is defined they are false, and all other arrays have no entries there. *)
Theorem C26_flags ds ds' n a : proper_dset ds -> carrier_dims ds -> clean ds = Ok ds' -> n <> "definition_matrix" -> In (n, a) (vars ds') ->
  (exists b, In (n, b) (vars ds) /\ a_dims b = a_dims a /\ a_bool b = a_bool a) /\
  (a_bool a = true -> forall i, a_at a i <> NaN) /\
  (forall i, within ds (a_dims a) i -> (~ exists j, agree (a_dims a) i j /\ combination ds j) ->
     a_at a i = if a_bool a then Bo false else NaN).
Proof.
  intros P C H NM I; unfold clean in H; destruct (definition_of ds) as [def|] eqn:E; [|discriminate]; cbn [bind] in H; injection H as <-.
  fold (masked ds def) in I; apply (drop_vars def) in I; [|exact NM]; destruct I as [I _]; apply map_mask_in in I; destruct I as [b [I ->]].
  split; [exists b; auto|split].
  - cbn [mask a_bool a_at]; intros -> i; destruct (is_nan (if any_over _ _ _ _ then _ else _)) eqn:X; [discriminate|].
    intros Y; rewrite Y in X; discriminate.
  - intros i W R; cbn [mask a_dims] in W, R; unfold mask; cbn [a_at a_bool].
    destruct (any_over ds _ def i) eqn:M; [|destruct (a_bool b); reflexivity].
    exfalso; apply R; apply mask_any in M.
    + destruct M as (j & A & L); exists j; split; [exact A|]; apply (definition_combination ds P def j E); exact L.
    + exact (definition_depends ds P C def E).
    + intros d J; apply filter_In in J; apply W, smem_in; tauto.
    + exact (pd_coords ds P).
Qed.
Print Assumptions C26_flags.
Definition flag_ds : dset :=
  {| coords := coords ex_ds;
     vars := vars ex_ds ++ [("cyclic_storage", {| a_dims := ["nodes"; "techs"]; a_bool := true; a_at := fun i => Bo (String.eqb (i "techs") "pv") |})] |}.
(** A flag given for a technology at a node without it is false, not missing. *)
Example C26_example_flags : exists ds' a, clean flag_ds = Ok ds' /\ d_get "cyclic_storage" (vars ds') = Some a /\
  a_at a (at3 "A" "pv" "") = Bo true /\ a_at a (at3 "B" "pv" "") = Bo false.
Proof. do 2 eexists; split; [reflexivity|split; [vm_compute; reflexivity|split; vm_compute; reflexivity]]. Qed.

(** * C27: types *)
(** An array put together from two datasets is one of flags iff it is in all datasets that have it. *)
Theorem C27_types new old n a : proper_dset new -> proper_dset old -> In (n, a) (vars (add_to_dataset new old)) ->
  (a_bool a = true <-> forall b, In (n, b) (vars new) \/ In (n, b) (vars old) -> a_bool b = true).
Proof.
  intros PN PO I; unfold add_to_dataset in I; cbn [vars] in I; apply in_map_iff in I; destruct I as (n' & X & _); injection X as -> <-; cbn [a_bool].
  assert (B : forall ds, proper_dset ds -> (bool_of ds n = true <-> forall b, In (n, b) (vars ds) -> a_bool b = true)).
  { intros ds P; unfold bool_of; destruct (d_get n (vars ds)) as [b|] eqn:G; split.
    - intros T c J; apply (d_in_get _ _ _ (pd_vars ds P)) in J; congruence.
    - intros F; apply F, d_get_in, G.
    - intros _ c J; apply (d_in_get _ _ _ (pd_vars ds P)) in J; congruence.
    - reflexivity. }
  rewrite andb_true_iff, (B new PN), (B old PO); firstorder.
Qed.
Print Assumptions C27_types.
Example C27_example_types :
  let flags b := {| coords := [("techs", ["pv"])]; vars := [("cap_active", {| a_dims := ["techs"]; a_bool := b; a_at := fun _ => if b : bool then Bo true else Num 1 |})] |} in
  map (fun nv => a_bool (snd nv)) (vars (add_to_dataset (flags true) (flags true))) = [true] /\
  map (fun nv => a_bool (snd nv)) (vars (add_to_dataset (flags true) (flags false))) = [false].
Proof. split; reflexivity. Qed.

(** * C85: which definitions of tables are accepted *)
(** Some dimension is left, none is in rows and columns, none that is added is already there, and names are only
    changed to dimensions of the table. *)
Theorem C85_definition t : table_valid t = true <->
  (exists d, kept_dim t d) /\
  (forall d, kept_dim t d -> ~ (In d (row_dims t) /\ In d (col_dims t))) /\
  (forall d, added_dim t d -> ~ kept_dim t d) /\
  (forall s d, In (s, d) (t_rename t) -> kept_dim t d).
Proof.
  assert (M : forall a d, In d (minus a (t_drop t)) <-> In d a /\ ~ In d (t_drop t)).
  { intros a d; unfold minus; rewrite filter_In, negb_true_iff, <- (smem_in d (t_drop t)); split; intros [A B]; (split; [exact A|]); destruct (smem d (t_drop t)); congruence. }
  assert (K : forall d, In d (minus (listed (t_rows t)) (t_drop t) ++ minus (listed (t_cols t)) (t_drop t)) <-> kept_dim t d).
  { intros d; rewrite in_app_iff, !M; unfold kept_dim, own_dims, row_dims, col_dims; rewrite in_app_iff; tauto. }
  unfold table_valid; cbv zeta; rewrite !andb_true_iff, !negb_true_iff, forallb_forall; split.
  - intros (((A & B) & C) & D); split; [|split; [|split]].
    + destruct (minus (listed (t_rows t)) (t_drop t) ++ minus (listed (t_cols t)) (t_drop t)) as [|d r]; [discriminate|]; exists d; apply K; left; reflexivity.
    + intros d (_ & ND) (R & L); enough (existsb (fun d => smem d (minus (listed (t_cols t)) (t_drop t))) (minus (listed (t_rows t)) (t_drop t)) = true) by congruence.
      apply existsb_exists; exists d; split; [apply M; auto|apply smem_in, M; auto].
    + intros d AD KD; apply in_map_iff in AD; destruct AD as (x & <- & I).
      match type of C with ?l = false => enough (l = true) by congruence end.
      apply existsb_exists; exists x; split; [exact I|apply smem_in, K, KD].
    + intros s d I; apply K, smem_in; exact (D (s, d) I).
  - intros ((d & KD) & B & C & D); split; [split; [split|]|].
    + apply K in KD; destruct (minus (listed (t_rows t)) (t_drop t) ++ minus (listed (t_cols t)) (t_drop t)); [destruct KD|reflexivity].
    + match goal with |- ?l = false => destruct l eqn:X; [|reflexivity] end; exfalso; apply existsb_exists in X; destruct X as (x & I & J).
      apply smem_in in J; apply M in I; apply M in J; apply (B x); [split; [apply in_or_app|]; tauto|tauto].
    + match goal with |- ?l = false => destruct l eqn:X; [|reflexivity] end; exfalso; apply existsb_exists in X; destruct X as (x & I & J).
      apply smem_in, K in J; exact (C (fst x) (in_map fst _ _ I) J).
    + intros [s x] I; apply smem_in, K; exact (D s x I).
Qed.
Print Assumptions C85_definition.
(** A dimension may be replaced by dropping and adding it; adding one that is there is refused. *)
Example C85_definition_example :
  let t drop := {| t_rows := Some ["techs"; "costs"]; t_cols := None; t_select := []; t_drop := drop; t_add := [("costs", ["monetary"])]; t_rename := [] |} in
  table_valid (t ["costs"]) = true /\ table_valid (t []) = false.
Proof. split; reflexivity. Qed.
