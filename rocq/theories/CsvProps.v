(** Properties of saving a model as CSV files. *)
From Verif Require Import Base BaseProofs CliModel CliProofs CsvModel CsvSpec.
Local Open Scope string_scope.
Local Open Scope list_scope.

(** * C111: saved files hold the model *)
Lemma combination_product v l : combination v l <-> In l (product (map snd (r_dims v))).
Proof.
  rewrite product_in; unfold combination; generalize (r_dims v); intros ds; split; intros H.
  - induction H as [|x d l ds I H IH]; cbn [map]; constructor; assumption.
  - revert l H; induction ds as [|d ds IH]; intros l H; cbn [map] in H; inversion H; subst; constructor; auto.
Qed.
Theorem C111_array v dropna : proper_arr v -> holds_array v dropna (to_file dropna v).
Proof.
  intros PV; assert (ND : NoDup (map fst (to_series v))).
  { unfold to_series; rewrite map_map; cbn [fst]; rewrite map_id; apply product_nodup; unfold proper_arr in PV; induction PV; cbn [map]; constructor; assumption. }
  assert (SR : forall l x, In (l, x) (to_series v) <-> combination v l /\ x = r_at v l).
  { intros l x; rewrite combination_product; unfold to_series; rewrite in_map_iff; split; [intros (l' & E & I); injection E as <- <-; auto|intros (I & ->); exists l; auto]. }
  assert (NF : forall l : list (list string * option string), NoDup (map fst l) -> NoDup (map fst (filter is_value l))).
  { induction l as [|x l IH]; intros N; cbn [filter]; [constructor|]; cbn [map] in N; inversion_clear N as [|? ? NI NL]; destruct (is_value x); [|exact (IH NL)]; cbn [map]; constructor; [|exact (IH NL)].
    intros I; apply NI; apply in_map_iff in I; destruct I as (y & E & I); apply filter_In in I; apply in_map_iff; exists y; tauto. }
  assert (IR : forall l x, In (l, x) (if dropna then filter is_value (to_series v) else to_series v) <-> combination v l /\ x = r_at v l /\ (dropna = true -> r_at v l <> None)).
  { intros l x; destruct dropna; [rewrite filter_In, SR; unfold is_value; cbn [snd]|rewrite SR; intuition discriminate].
    split; [intros ((C & ->) & V); split; [exact C|split; [reflexivity|intros _ E; rewrite E in V; discriminate V]]|intros (C & -> & V); split; [auto|destruct (r_at v l); [reflexivity|destruct (V eq_refl eq_refl)]]]. }
  constructor.
  - eexists; reflexivity.
  - intros i rows E; injection E as <- <-; destruct dropna; [apply NF|]; exact ND.
  - intros i rows l E; injection E as <- <-; rewrite in_map_iff; split.
    + intros ((l' & x) & <- & I); cbn [fst]; apply IR in I; tauto.
    + intros (C & V); exists (l, r_at v l); split; [reflexivity|apply IR; auto].
  - intros i rows l E C; injection E as <- <-; unfold read_back; destruct (r_at v l) as [y|] eqn:R.
    + apply IR; split; [exact C|split; [exact (eq_sym R)|intros _ H; rewrite R in H; discriminate H]].
    + intros y I; apply IR in I; destruct I as (_ & E & _); rewrite R in E; discriminate E.
Qed.
Print Assumptions C111_array.

(** File names are different for different arrays, of inputs and results. *)
Lemma app_inj_r a b s : (a ++ s = b ++ s)%string -> a = b.
Proof.
  assert (L : forall x y, String.length (x ++ y)%string = String.length x + String.length y) by (induction x as [|c x IH]; intros y; cbn; [reflexivity|rewrite IH; reflexivity]).
  revert b; induction a as [|c a IH]; intros [|d b] E; [reflexivity| | |]; cbn [append] in E.
  - apply (f_equal String.length) in E; cbn [String.length] in E; rewrite L in E; lia.
  - apply (f_equal String.length) in E; cbn [String.length] in E; rewrite L in E; lia.
  - injection E as -> E; f_equal; exact (IH b E).
Qed.
Lemma name_inj g a b : file_name g a = file_name g b -> a = b.
Proof.
  unfold file_name; intros E; assert (P : forall p x y, (p ++ x = p ++ y)%string -> x = y) by (induction p as [|c p IH]; intros x y H; cbn in H; [exact H|injection H as H; exact (IH x y H)]).
  apply P, P in E; exact (app_inj_r _ _ _ E).
Qed.
Lemma written ds g dropna : NoDup (map fst ds) -> forall files f,
  d_get f (write_all ds g dropna files) = match find (fun x => String.eqb f (file_name g (fst x))) ds with Some x => Some (to_file dropna (snd x)) | None => d_get f files end.
Proof.
  unfold write_all; induction ds as [|(n & v) ds IH]; intros ND files f; [reflexivity|]; cbn [map fst] in ND; inversion_clear ND as [|? ? NI NL]; cbn [fold_left fst snd find].
  rewrite (IH NL); destruct (String.eqb_spec f (file_name g n)) as [-> |NE].
  - destruct (find _ ds) as [(n' & v')|] eqn:F; [|apply d_get_set_same].
    apply find_some in F; destruct F as (I & E); apply String.eqb_eq in E; cbn [fst] in E; apply name_inj in E; subst n'; destruct NI; apply in_map_iff; exists (n, v'); auto.
  - destruct (find _ ds); [reflexivity|apply d_get_set_other; exact NE].
Qed.
Lemma written_own ds g dropna files n v : NoDup (map fst ds) -> In (n, v) ds -> d_get (file_name g n) (write_all ds g dropna files) = Some (to_file dropna v).
Proof.
  intros ND I; rewrite (written ds g dropna ND); destruct (find _ ds) as [(n' & v')|] eqn:F.
  - apply find_some in F; destruct F as (I' & E); apply String.eqb_eq in E; cbn [fst snd] in *; apply name_inj in E; subst n'.
    pose proof (d_in_get n v ds ND I) as G1; pose proof (d_in_get n v' ds ND I') as G2; rewrite G1 in G2; injection G2 as ->; reflexivity.
  - pose proof (find_none _ _ F (n, v) I) as E; cbn [fst] in E; rewrite String.eqb_refl in E; discriminate E.
Qed.
Lemma written_other ds g dropna files f : NoDup (map fst ds) -> (forall n v, In (n, v) ds -> f <> file_name g n) -> d_get f (write_all ds g dropna files) = d_get f files.
Proof.
  intros ND NO; rewrite (written ds g dropna ND); destruct (find _ ds) as [(n & v)|] eqn:F; [|reflexivity].
  apply find_some in F; destruct F as (I & E); apply String.eqb_eq in E; destruct (NO n v I E).
Qed.
Lemma groups_apart a b : file_name "inputs" a <> file_name "results" b.
Proof. intros E; cbn in E; discriminate E. Qed.
Lemma yaml_apart g a : g = "inputs" \/ g = "results" -> "attrs.yaml" <> file_name g a.
Proof. intros [-> | ->] E; cbn in E; discriminate E. Qed.

(** The files of a saved model: where there was a directory before, its files that are not replaced stay. *)
Record saved_to (m : solved) (dropna : bool) (old : list (string * file)) (k : disk) (path : string) : Prop := {
  sa_folder : folder_at k path;
  sa_inputs : forall n v, In (n, v) (s_inputs m) -> exists f, file_at k path (input_file n) = Some f /\ holds_array v dropna f;
  sa_results : forall n v, In (n, v) (s_results m) -> exists f, file_at k path (result_file n) = Some f /\ holds_array v dropna f;
  sa_attrs : file_at k path "attrs.yaml" = Some Yaml;
  sa_rest : forall f, f <> "attrs.yaml" -> (forall n v, In (n, v) (s_inputs m) -> f <> input_file n) -> (forall n v, In (n, v) (s_results m) -> f <> result_file n) -> file_at k path f = d_get f old }.
Definition proper_model (m : solved) : Prop :=
  NoDup (map fst (s_inputs m)) /\ NoDup (map fst (s_results m)) /\ forall n v, In (n, v) (s_inputs m) \/ In (n, v) (s_results m) -> proper_arr v.
(** The directory that is there before, if files may be written to it. *)
Definition before (k : disk) (path : string) (allow : bool) (old : list (string * file)) : Prop :=
  (d_get path k = None /\ old = []) \/ (d_get path k = Some (Folder old) /\ allow = true).
Theorem C111_saved m path dropna allow k old : proper_model m -> before k path allow old ->
  snd (to_csv m path dropna allow k) = true /\ saved_to m dropna old (fst (to_csv m path dropna allow k)) path /\
  forall p, p <> path -> d_get p (fst (to_csv m path dropna allow k)) = d_get p k.
Proof.
  intros (NI & NR & PA) BE; unfold to_csv.
  assert (S1 : save_csv (s_inputs m) "inputs" path dropna allow k = (d_set path (Folder (write_all (s_inputs m) "inputs" dropna old)) k, true)).
  { unfold save_csv, mkdir; destruct BE as [(E & ->)|(E & ->)]; rewrite E; reflexivity. }
  rewrite S1; clear S1; set (k1 := (d_set path (Folder (write_all (s_inputs m) "inputs" dropna old)) k) : disk); cbv beta iota.
  assert (S2 : (match s_results m with [] => (k1, true) | _ => save_csv (s_results m) "results" path dropna true k1 end) =
    (match s_results m with [] => k1 | _ => d_set path (Folder (write_all (s_results m) "results" dropna (write_all (s_inputs m) "inputs" dropna old))) k1 end, true)).
  { destruct (s_results m); [reflexivity|]; unfold save_csv, mkdir, k1; rewrite d_get_set_same; reflexivity. }
  rewrite S2; clear S2; cbv beta iota; set (files := write_all (s_results m) "results" dropna (write_all (s_inputs m) "inputs" dropna old)); set (k2 := (match s_results m with [] => k1 | _ => d_set path (Folder files) k1 end) : disk).
  assert (G2 : d_get path k2 = Some (Folder files)) by (unfold k2, files; destruct (s_results m); [unfold k1|]; apply d_get_set_same).
  assert (O2 : forall p, p <> path -> d_get p k2 = d_get p k) by (intros p N; unfold k2, k1; destruct (s_results m); rewrite ?d_get_set_other by exact N; reflexivity).
  cbn [fst snd]; split; [reflexivity|]; unfold write_yaml; rewrite G2; split; [|intros p N; rewrite d_get_set_other by exact N; exact (O2 p N)].
  assert (FA : forall f, file_at (d_set path (Folder (d_set "attrs.yaml" Yaml files)) k2) path f = d_get f (d_set "attrs.yaml" Yaml files)) by (intros f; unfold file_at; rewrite d_get_set_same; reflexivity).
  constructor.
  - eexists; apply d_get_set_same.
  - intros n v I; exists (to_file dropna v); split; [|apply C111_array, (PA n); auto]; rewrite FA, d_get_set_other by (intros E; exact (yaml_apart "inputs" n (or_introl eq_refl) (eq_sym E))).
    unfold files; rewrite (written_other (s_results m)) by (exact NR || (intros; apply groups_apart)); exact (written_own _ "inputs" dropna old n v NI I).
  - intros n v I; exists (to_file dropna v); split; [|apply C111_array, (PA n); auto]; rewrite FA, d_get_set_other by (intros E; exact (yaml_apart "results" n (or_intror eq_refl) (eq_sym E))).
    unfold files; exact (written_own _ "results" dropna _ n v NR I).
  - rewrite FA; apply d_get_set_same.
  - intros f NA F1 F2; rewrite FA, d_get_set_other by exact NA; unfold files; rewrite (written_other (s_results m)), (written_other (s_inputs m)) by assumption; reflexivity.
Qed.
Print Assumptions C111_saved.
(** Without permission to overwrite, an existing path is refused and nothing is changed. *)
Theorem C111_refused m path dropna k : d_get path k <> None -> to_csv m path dropna false k = (k, false).
Proof. intros N; unfold to_csv, save_csv, mkdir; destruct (d_get path k) as [[files|f]|]; [reflexivity|reflexivity|congruence]. Qed.
Print Assumptions C111_refused.
(** With paths that are not in use, the run command saves to every target given. *)
Theorem C111_run m csv netcdf k : proper_model m -> (forall p, csv = Some p \/ netcdf = Some p -> d_get p k = None) -> (forall p, csv = Some p -> netcdf <> Some p) ->
  snd (run_saves m csv netcdf k) = true /\
  (forall p, csv = Some p -> saved_to m true [] (fst (run_saves m csv netcdf k)) p) /\
  (forall p, netcdf = Some p -> d_get p (fst (run_saves m csv netcdf k)) = Some (Plain (Net (s_inputs m) (s_results m)))).
Proof.
  intros PM FR AP; unfold run_saves; destruct csv as [pc|].
  - destruct (C111_saved m pc true false k [] PM (or_introl (conj (FR pc (or_introl eq_refl)) eq_refl))) as (OK & SA & OT).
    destruct (to_csv m pc true false k) as (k1 & ok); cbn [fst snd] in *; subst ok; destruct netcdf as [pn|].
    + assert (NE : pn <> pc) by (intros ->; exact (AP pc eq_refl eq_refl)); unfold to_netcdf; rewrite (OT pn NE), (FR pn (or_intror eq_refl)); cbn [fst snd]; split; [reflexivity|split].
      * intros p E; injection E as <-; assert (SM : forall f, file_at (d_set pn (Plain (Net (s_inputs m) (s_results m))) k1) pc f = file_at k1 pc f) by (intros f; unfold file_at; rewrite d_get_set_other by congruence; reflexivity).
        destruct SA as [(fs & EF) A1 A2 A3 A4]; constructor; [exists fs; rewrite d_get_set_other by congruence; exact EF|intros n v I; rewrite SM; exact (A1 n v I)|intros n v I; rewrite SM; exact (A2 n v I)|rewrite SM; exact A3|intros f N1 N2 N3; rewrite SM; exact (A4 f N1 N2 N3)].
      * intros p E; injection E as <-; apply d_get_set_same.
    + split; [reflexivity|split; [intros p E; injection E as <-; exact SA|intros p E; discriminate E]].
  - destruct netcdf as [pn|]; [|split; [reflexivity|split; intros p E; discriminate E]].
    unfold to_netcdf; rewrite (FR pn (or_intror eq_refl)); cbn [fst snd]; split; [reflexivity|split; [intros p E; discriminate E|intros p E; injection E as <-; apply d_get_set_same]].
Qed.
Print Assumptions C111_run.

(** ** Examples *)
Definition demand : arr := {| r_dims := [("nodes", ["a"; "b"]); ("timesteps", ["1"; "2"])]; r_at := fun l => match l with ["a"; "1"] => Some "5" | ["b"; "2"] => Some "7" | _ => None end |}.
Definition rate : arr := {| r_dims := []; r_at := fun _ => Some "0.1" |}.
Definition done : solved := {| s_inputs := [("demand", demand); ("rate", rate)]; s_results := [("demand", demand)] |}.
Lemma done_proper : proper_model done.
Proof.
  split; [|split]; [repeat constructor; cbn; intuition discriminate|repeat constructor; cbn; intuition|].
  intros n v H; assert (E : v = demand \/ v = rate) by (cbn in H; intuition congruence); destruct E as [-> | ->]; repeat constructor; cbn; intuition discriminate.
Qed.
Example C111_array_ex : to_file true demand = Csv ["nodes"; "timesteps"] [(["a"; "1"], Some "5"); (["b"; "2"], Some "7")] /\ to_file true rate = Csv [] [([], Some "0.1")] /\ holds_array demand true (to_file true demand).
Proof. split; [reflexivity|split; [reflexivity|]]; apply C111_array; repeat constructor; cbn; intuition discriminate. Qed.
Example C111_saved_ex : let k := fst (to_csv done "out" true true [("out", Folder [("inputs_old.csv", Yaml); ("inputs_rate.csv", Yaml)])]) in
  saved_to done true [("inputs_old.csv", Yaml); ("inputs_rate.csv", Yaml)] k "out" /\ file_at k "out" "inputs_old.csv" = Some Yaml /\ file_at k "out" "inputs_rate.csv" = Some (to_file true rate).
Proof. split; [|split; reflexivity]; apply (C111_saved done "out" true true _ _ done_proper); right; split; reflexivity. Qed.
Example C111_refused_ex : to_csv done "out" true false [("out", Folder [])] = ([("out", Folder [])], false).
Proof. apply C111_refused; cbn; discriminate. Qed.
Example C111_run_ex : saved_to done true [] (fst (run_saves done (Some "out") (Some "out.nc") [])) "out".
Proof. apply (C111_run done (Some "out") (Some "out.nc") [] done_proper); [intros; reflexivity|intros p E; injection E as <-; discriminate|reflexivity]. Qed.

(** ** What does not hold *)
(** The run command solves first and then refuses to save to an existing directory; then nothing is saved to the netCDF target either, and the results are lost. *)
Theorem C111_lost_refuted : exists m csv netcdf k, proper_model m /\ s_results m <> [] /\ d_get netcdf k = None /\
  run_saves m (Some csv) (Some netcdf) k = (k, false).
Proof. exists done, "out", "out.nc", [("out", Folder [])]; split; [exact done_proper|split; [discriminate|split; reflexivity]]. Qed.
Print Assumptions C111_lost_refuted.
(** With permission to overwrite, the directory of a model without results can still hold results: those of an earlier model (model.py:436 says that old and new files can be mixed). *)
Theorem C111_stale_refuted : exists m m' path k n v, proper_model m /\ proper_model m' /\ s_results m' = [] /\ In (n, v) (s_results m) /\
  file_at (fst (to_csv m' path true true (fst (to_csv m path true false k)))) path (result_file n) = Some (to_file true v).
Proof.
  exists done, {| s_inputs := s_inputs done; s_results := [] |}, "out", [], "demand", demand.
  split; [exact done_proper|split; [|split; [reflexivity|split; [left; reflexivity|reflexivity]]]].
  destruct done_proper as (N1 & _ & P); split; [exact N1|split; [constructor|]]; intros n v [I|[]]; exact (P n v (or_introl I)).
Qed.
Print Assumptions C111_stale_refuted.
