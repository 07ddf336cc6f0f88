(** Property theorems C12, C13 and C59: math definitions. *)
From Verif Require Import Base BaseProofs AttrDictModel AttrDictSpec AttrDictProofs AttrDictUnion AttrDictMore
  AttrDictLayers DefModel DefCheck MathModel MathSpec MathProofs.
Local Open Scope string_scope.
Local Open Scope list_scope.

(** * C12: layering of math files *)

(** A user's file registered under the name of a predefined one replaces it; every other
    name keeps its file. *)
Theorem C12_user_file_replaces_predefined pre extra rel read ds :
  NoDup (map fst pre) -> NoDup (map fst extra) -> initialise_math pre extra rel read = Ok ds ->
  forall n d, In (n, d) ds <->
    (exists p, In (n, p) extra /\ read (rel p) = Ok d) \/
    (~ In n (map fst extra) /\ exists p, In (n, p) pre /\ read p = Ok d).
Proof. exact (initialise_ok pre extra rel read ds). Qed.
Print Assumptions C12_user_file_replaces_predefined.

(** Base math, then the mode, then the extra math in the order given, then the additional
    dictionary: the last layer defining a setting decides.  Missing from the full
    property: layers in which a setting of one sits above, below or on an empty block of
    another (for these the order of keys matters, see C03 and C05). *)
Theorem C12_last_file_wins_partial mode extra (dataset : list (string * dict)) (base : dict)
    (mode_math : list dict) (extra_math : list dict) (overwrite : dict) :
  NoDup (map fst dataset) ->
  In ("base", base) dataset ->
  (mode = "base" /\ mode_math = [] \/ mode <> "base" /\ exists d, In (mode, d) dataset /\ mode_math = [d]) ->
  Forall2 (fun n d => In (n, d) dataset) extra extra_math ->
  (forall d, In d (base :: mode_math ++ extra_math ++ [overwrite]) -> wf (VDict d)) ->
  compatible (base :: mode_math ++ extra_math ++ [overwrite]) ->
  exists r, build_math (get_math_priority mode extra) dataset overwrite = Ok r /\ wf (VDict r) /\
    forall q v, leaf v -> (at_path (VDict r) q v <->
      exists before L after, base :: mode_math ++ extra_math ++ [overwrite] = before ++ L :: after /\
        at_path (VDict L) q v /\ forall M x, In M after -> leaf x -> ~ at_path (VDict M) q x).
Proof.
  intros ND HB HM HX W C.
  pose proof (build_math_ok dataset (get_math_priority mode extra) (base :: mode_math ++ extra_math) overwrite ND) as P.
  simpl app in P; rewrite <- app_assoc in P; apply P; [|apply Forall_forall; exact W|exact C].
  unfold get_math_priority; simpl; constructor; [exact HB|].
  apply Forall2_app; [|exact HX].
  destruct HM as [[-> ->]|[NE [d [Hd ->]]]]; [constructor|].
  apply String.eqb_neq in NE; rewrite NE; repeat constructor; exact Hd.
Qed.
Print Assumptions C12_last_file_wins_partial.

(** A name without a file is reported as a model error, whatever the other files hold. *)
Theorem C12_missing_file_reported names (dataset : list (string * dict)) overwrite n :
  In n names -> ~ In n (map fst dataset) -> (forall m d, In (m, d) dataset -> wf (VDict d)) ->
  build_math names dataset overwrite = Err EModel.
Proof.
  intros I N W; unfold build_math; rewrite (layer_math_missing dataset names n I N W); reflexivity.
Qed.
Print Assumptions C12_missing_file_reported.

(** A model error need not mean a missing file: a conflict between two files that exist is
    reported in the same way. *)
Theorem C12_missing_only_refuted :
  exists names (dataset : list (string * dict)),
    (forall n, In n names -> In n (map fst dataset)) /\ build_math names dataset [] = Err EModel.
Proof.
  exists ["base"; "mine"],
    [("base", [("constraints", VInt 1)]); ("mine", [("constraints", VDict [("c", VInt 2)])])].
  split; [simpl; tauto|reflexivity].
Qed.
Print Assumptions C12_missing_only_refuted.

Definition ex_base : dict :=
  [("constraints", VDict [("cap", VDict [("active", VBool true); ("equations", VStr "a <= b")])]);
   ("checks", VDict [])].
Definition ex_operate : dict :=
  [("constraints", VDict [("cap", VDict [("active", VBool false)])]); ("objectives", VDict [])].
Definition ex_mine : dict :=
  [("constraints", VDict [("cap", VDict [("equations", VStr "a <= 2*b")])]);
   ("objectives", VDict [("o", VDict [("sense", VStr "min")])])].
Definition ex_files : list (string * dict) := [("base", ex_base); ("operate", ex_operate); ("mine", ex_mine)].
Example C12_example : build_math (get_math_priority "operate" ["mine"]) ex_files [] =
  Ok [("constraints", VDict [("cap", VDict [("active", VBool false); ("equations", VStr "a <= 2*b")])]);
      ("checks", VDict []); ("objectives", VDict [("o", VDict [("sense", VStr "min")])])].
Proof. reflexivity. Qed.
Example C12_example_hyps : compatible [ex_base; ex_operate; ex_mine; []] /\
  forall d, In d [ex_base; ex_operate; ex_mine; []] -> wf (VDict d).
Proof.
  assert (W : Forall (fun d => wf (VDict d)) [ex_base; ex_operate; ex_mine; []]) by (apply wf_all_ok; reflexivity).
  split; [apply compatibleb_ok; [exact W|reflexivity]|apply Forall_forall; exact W].
Qed.
Example C12_example_missing : build_math ["base"; "spores"] ex_files [] = Err EModel.
Proof. reflexivity. Qed.
Example C12_example_replaced :
  initialise_math [("base", "/math/base.yaml"); ("operate", "/math/operate.yaml")] [("operate", "my.yaml")]
    (fun p => "/model/" ++ p)%string (fun p => Ok [("from", VStr p)])
  = Ok [("base", [("from", VStr "/math/base.yaml")]); ("operate", [("from", VStr "/model/my.yaml")])].
Proof. reflexivity. Qed.

(** * C13: unique component names *)
Theorem C13_unique_active_names m : NoDup (map fst m) ->
  (unique_component_names m = Ok m <-> ~ shared_name m) /\
  (unique_component_names m = Err EValue <-> shared_name m).
Proof. exact (unique_names_iff m). Qed.
Print Assumptions C13_unique_active_names.

(** In an accepted definition, looking a name up (in all groups but the checks, or in a
    given selection) gives the group holding it, or reports that there is none. *)
Theorem C13_find m n : NoDup (map fst m) -> unique_component_names m = Ok m ->
  (forall f, find m n [] = Ok f <->
     In f ["dimensions"; "parameters"; "lookups"; "variables"; "global_expressions"; "constraints";
           "piecewise_constraints"; "objectives"; "postprocessed"] /\ on_in m f n) /\
  (find m n [] = Err EKey <->
     forall f, In f ["dimensions"; "parameters"; "lookups"; "variables"; "global_expressions"; "constraints";
           "piecewise_constraints"; "objectives"; "postprocessed"] -> ~ on_in m f n) /\
  find m n [] <> Err EValue.
Proof. intros ND U; exact (find_spec m n [] ND (proj1 (proj1 (unique_names_iff m ND)) U)). Qed.
Print Assumptions C13_find.
Theorem C13_find_subset m n subset : NoDup (map fst m) -> unique_component_names m = Ok m -> subset <> [] ->
  (forall f, find m n subset = Ok f <-> In f subset /\ on_in m f n) /\
  (find m n subset = Err EKey <-> forall f, In f subset -> ~ on_in m f n) /\
  find m n subset <> Err EValue.
Proof.
  intros ND U NE; pose proof (find_spec m n subset ND (proj1 (proj1 (unique_names_iff m ND)) U)) as H.
  destruct subset; [congruence|exact H].
Qed.
Print Assumptions C13_find_subset.
(** Whatever the definition, a name found in two of the searched groups is refused, never
    resolved silently to one of them. *)
Theorem C13_find_ambiguous m n subset : NoDup (map fst m) -> subset <> [] ->
  (find m n subset = Err EValue <->
   exists f f', f <> f' /\ In f subset /\ In f' subset /\ on_in m f n /\ on_in m f' n).
Proof.
  intros ND NE; unfold find; destruct subset as [|s0 sub]; [congruence|].
  set (l := nodup string_dec (filter (fun f => smem n (active (field m f))) (s0 :: sub))).
  assert (I : forall f, In f l <-> In f (s0 :: sub) /\ on_in m f n).
  { intros f; unfold l; rewrite nodup_In, filter_In, smem_in, field_on by exact ND; tauto. }
  assert (NDl : NoDup l) by apply NoDup_nodup.
  destruct l as [|f0 [|f1 r]]; split; try discriminate; try reflexivity.
  - intros [f [f' [_ [H1 [_ [H2 _]]]]]]; destruct (proj2 (I f) (conj H1 H2)).
  - intros [f [f' [D [H1 [H2 [H3 H4]]]]]].
    destruct (proj2 (I f) (conj H1 H3)) as [<-|[]]; destruct (proj2 (I f') (conj H2 H4)) as [<-|[]]; congruence.
  - intros _; exists f0, f1; destruct (proj1 (I f0)) as [? ?]; [simpl; auto|]; destruct (proj1 (I f1)) as [? ?]; [simpl; auto|].
    repeat split; auto; inversion NDl as [|? ? N]; subst; intros ->; apply N; left; reflexivity.
Qed.
Print Assumptions C13_find_ambiguous.
Example C13_find_ambiguous_example :
  find [("parameters", [("x", true)]); ("variables", [("x", true)])] "x" ["parameters"; "variables"] = Err EValue.
Proof. reflexivity. Qed.

(** Switched-off components may share a name with another component. *)
Theorem C13_all_names_refuted :
  exists m, proper m /\ unique_component_names m = Ok m /\
    exists f f' n, f <> f' /\ listed_in m f n /\ listed_in m f' n.
Proof.
  exists [("variables", [("x", true)]); ("parameters", [("x", false)])].
  split; [|split; [reflexivity|]].
  - split; [repeat constructor; simpl; intuition discriminate|].
    intros f g [E|[E|[]]]; injection E as <- <-; repeat constructor; simpl; tauto.
  - exists "variables", "parameters", "x"; split; [discriminate|split].
    + exists [("x", true)], true; simpl; auto.
    + exists [("x", false)], false; simpl; auto.
Qed.
Print Assumptions C13_all_names_refuted.

Definition ex_math : math :=
  [("dimensions", [("nodes", true); ("techs", true)]);
   ("parameters", [("flow_cap_max", true); ("flow_cap", false)]);
   ("variables", [("flow_cap", true); ("storage", false)]);
   ("constraints", [("balance", true)]);
   ("checks", [("storage", true)])].
Example C13_example : unique_component_names ex_math = Ok ex_math /\
  find ex_math "flow_cap" [] = Ok "variables" /\ find ex_math "storage" [] = Err EKey /\
  find ex_math "flow_cap" ["parameters"; "lookups"] = Err EKey.
Proof. repeat split; reflexivity. Qed.
Example C13_example_clash :
  unique_component_names [("variables", [("x", true); ("y", true)]); ("checks", [("y", true)])] = Err EValue.
Proof. reflexivity. Qed.
Example C13_example_nodup : NoDup (map fst ex_math).
Proof. repeat constructor; simpl; intuition discriminate. Qed.

(** * C59: the role of a name in math strings *)
(** In an accepted definition a name may be used in expressions in at most one role
    (dimension, input, result), the one of the group in which it is switched on. *)
Theorem C59_expression_roles m n : NoDup (map fst m) -> unique_component_names m = Ok m ->
  (In n (expression_names m "dimensions") <-> on_in m "dimensions" n) /\
  (In n (expression_names m "inputs") <-> on_in m "lookups" n \/ on_in m "parameters" n) /\
  (In n (expression_names m "results") <-> on_in m "variables" n \/ on_in m "global_expressions" n) /\
  (In n (expression_names m "dimensions") -> ~ In n (expression_names m "inputs")) /\
  (In n (expression_names m "dimensions") -> ~ In n (expression_names m "results")) /\
  (In n (expression_names m "inputs") -> ~ In n (expression_names m "results")).
Proof.
  intros ND U; pose proof (proj1 (proj1 (unique_names_iff m ND)) U) as NS.
  pose proof (roles_apart m n NS) as R; unfold expression_names; rewrite !active_names_in by exact ND.
  split; [|split; [|split; [|exact R]]]; unfold has_role; simpl; split.
  - intros [f [[<-|[]] H]]; exact H.
  - eauto.
  - intros [f [[<-|[<-|[]]] H]]; auto.
  - intros [H|H]; eauto.
  - intros [f [[<-|[<-|[]]] H]]; auto.
  - intros [H|H]; eauto.
Qed.
Print Assumptions C59_expression_roles.

(** In a where string a switched-on name keeps its single role ... *)
Theorem C59_where_roles m n : NoDup (map fst m) -> unique_component_names m = Ok m ->
  (on_in m "lookups" n \/ on_in m "parameters" n ->
     In n (where_names m "inputs") /\ ~ In n (where_names m "results")) /\
  (on_in m "variables" n \/ on_in m "global_expressions" n ->
     In n (where_names m "results") /\ ~ In n (where_names m "inputs")).
Proof.
  intros ND U; pose proof (proj1 (proj1 (unique_names_iff m ND)) U) as NS.
  destruct (roles_apart m n NS) as [_ [_ R]].
  rewrite !where_names_in by auto.
  split; intros H.
  - assert (HR : has_role m "inputs" n) by (unfold has_role; simpl; destruct H; eauto 6).
    split; [left; exact HR|]; intros [X|[_ [X _]]]; [exact (R HR X)|exact (X HR)].
  - assert (HR : has_role m "results" n) by (unfold has_role; simpl; destruct H; eauto 6).
    split; [left; exact HR|]; intros [X|[_ [_ X]]]; [exact (R X HR)|exact (X HR)].
Qed.
Print Assumptions C59_where_roles.

(** ... but a switched-off name can have two roles, and a dimension can at the same time be
    taken for an input. *)
Theorem C59_one_where_role_refuted :
  exists m, proper m /\ unique_component_names m = Ok m /\
    (exists n, In n (where_names m "inputs") /\ In n (where_names m "results")) /\
    (exists n, In n (where_names m "dimensions") /\ In n (where_names m "inputs")).
Proof.
  exists [("dimensions", [("nodes", true)]); ("variables", [("x", false)]); ("parameters", [("x", false); ("nodes", false)])].
  split; [|split; [reflexivity|split; [exists "x"|exists "nodes"]; split; apply smem_in; reflexivity]].
  split; [repeat constructor; simpl; intuition discriminate|].
  intros f g [E|[E|[E|[]]]]; injection E as <- <-; repeat constructor; simpl; intuition discriminate.
Qed.
Print Assumptions C59_one_where_role_refuted.
Example C59_example : where_names ex_math "inputs" = ["flow_cap_max"] /\
  where_names ex_math "results" = ["flow_cap"; "storage"] /\
  expression_names ex_math "results" = ["flow_cap"].
Proof. repeat split; reflexivity. Qed.
