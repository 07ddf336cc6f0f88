(** Property theorems C15 and C16: attributes and netCDF files. *)
From Verif Require Import Base BaseProofs AttrDictModel AttrDictSpec AttrDictProofs DefCheck SerialModel SerialSpec SerialProofs SerialBack SerialMore.
Local Open Scope string_scope.
Local Open Scope list_scope.

(** * C15 *)
(** An attribute dictionary of supported values without empty lists comes back from the
    file as it was (sets as sets, one-element lists as lists, None as None, ...). *)
Theorem C15_attributes_round_trip_partial dump parse path_text a :
  savable a -> yaml_ok dump parse path_text a -> (forall k, ~ In (k, AList []) a) ->
  exists p s b, serialise dump a = (p, None) /\ store p = Ok s /\
    deserialise parse path_text s = (b, None) /\ same_attrs a b.
Proof. exact (file_round_trip dump parse path_text a). Qed.
Print Assumptions C15_attributes_round_trip_partial.

(** The same for a saved dataset and its data variables (no coordinate attributes). *)
Theorem C15_dataset_round_trip_partial dump parse path_text kw ds :
  savable (with_kwargs kw (top ds)) -> yaml_ok dump parse path_text (with_kwargs kw (top ds)) ->
  (forall k, ~ In (k, AList []) (with_kwargs kw (top ds))) ->
  (forall k a, In (k, a) (vars ds) ->
     savable a /\ yaml_ok dump parse path_text a /\ forall k, ~ In (k, AList []) a) ->
  coords ds = [] ->
  exists f ds', file_of dump kw ds = Ok f /\ read_netcdf parse path_text f = Ok ds' /\
    same_dataset {| top := with_kwargs kw (top ds); vars := vars ds; coords := [] |} ds'.
Proof. exact (file_dataset dump parse path_text kw ds). Qed.
Print Assumptions C15_dataset_round_trip_partial.

(** An example: one attribute of every supported type, and one-element and empty
    collections. *)
Definition ex_dict : dict := [("solver", VStr "cbc"); ("init", VDict [("name", VStr "x")]); ("import", VList [])].
Definition ex_dump (d : dict) : string := if list_eq_dec string_dec (map fst d) ["solver"; "init"; "import"] then "T" else "".
Definition ex_parse (s : string) : result dict := if string_dec s "T" then Ok ex_dict else Ok [].
Definition ex_attrs : attrs :=
  [("name", AStr "model"); ("n", AInt 3); ("flag", ABool true); ("off", ABool false); ("nothing", ANone); ("config", ADict ex_dict);
   ("one", AList [IStr "a"]); ("two", AList [IStr "a"; IStr "b"]); ("empty_set", ASet []);
   ("one_set", ASet [IStr "abc"]); ("two_set", ASet [IStr "x"; IStr "y"])].
Definition no_file (s : string) : option string := None.
Example C15_example_savable : savable ex_attrs /\ yaml_ok ex_dump ex_parse no_file ex_attrs /\ forall k, ~ In (k, AList []) ex_attrs.
Proof.
  assert (PD : plain_dict ex_dict).
  { split; [apply wfb_wf; reflexivity|split].
    - apply df_dict; repeat (apply Forall_cons; [split; [reflexivity|]|]); try apply Forall_nil; cbn [snd].
      + apply df_leaf; reflexivity.
      + apply df_dict; apply Forall_cons; [split; [reflexivity|apply df_leaf; reflexivity]|apply Forall_nil].
      + apply df_leaf; reflexivity.
    - simpl; intros v I; repeat (destruct I as [I|I]; [try discriminate I; injection I as <-; constructor|]); destruct I. }
  assert (NC : forall l : list string, forallb (fun x => Nat.eqb (count_occ string_dec l x) 1) l = true -> NoDup l).
  { intros l H; apply (NoDup_count_occ string_dec); intros x.
    destruct (in_dec string_dec x l) as [I|N]; [rewrite forallb_forall in H; specialize (H x I); apply Nat.eqb_eq in H; lia|].
    apply (count_occ_not_In string_dec) in N; lia. }
  split; [split; [apply NC; reflexivity|]|split].
  - intros k v I; simpl in I.
    repeat (destruct I as [I|I]; [injection I as <- <-; split;
      [unfold reserved; simpl; intuition discriminate
      |constructor; first [exact PD|repeat constructor; eauto; simpl; intuition discriminate]]|]); contradiction.
  - intros k d I; simpl in I; repeat (destruct I as [I|I]; [try discriminate I|]); [|contradiction].
    injection I as <- <-; split; reflexivity.
  - intros k I; simpl in I; intuition discriminate.
Qed.
Example C15_example :
  match serialise ex_dump ex_attrs with
  | (p, None) =>
      match store p with Ok s => deserialise ex_parse no_file s | Err e => ([], Some e) end
  | r => r
  end = (ex_attrs, None) /\
  (exists p, serialise ex_dump ex_attrs = (p, None) /\ d_get "serialised_single_element_list" p = Some (AList [IStr "one"; IStr "one_set"])).
Proof. split; [vm_compute; reflexivity|eexists; split; vm_compute; reflexivity]. Qed.

(** An empty list does not survive the file: it comes back as an empty array. *)
Theorem C15_empty_list_refuted :
  exists a p s b, savable a /\ serialise ex_dump a = (p, None) /\ store p = Ok s /\
    deserialise ex_parse no_file s = (b, None) /\ a = [("l", AList [])] /\ b = [("l", AEmpty)] /\ ~ same_attrs a b.
Proof.
  exists [("l", AList [])]; eexists; eexists; exists [("l", AEmpty)].
  split; [split; [repeat constructor; simpl; tauto|]|].
  { intros k v [E|[]]; injection E as <- <-; split; [unfold reserved; simpl; intuition discriminate|repeat constructor]. }
  split; [reflexivity|split; [vm_compute; reflexivity|split; [vm_compute; reflexivity|split; [reflexivity|split; [reflexivity|]]]]].
  intros [_ [H _]]; destruct (H "l" (AList []) (or_introl eq_refl)) as [w [[E|[]] S]]; injection E as <-; inversion S.
Qed.
Print Assumptions C15_empty_list_refuted.

(** The attributes of a coordinate are prepared for the file when saving but not restored
    when reading: they come back changed. *)
Theorem C15_coordinates_refuted :
  exists ds f ds', savable (top ds) /\ (forall k a, In (k, a) (coords ds) -> savable a) /\
    file_of ex_dump [] ds = Ok f /\ read_netcdf ex_parse no_file f = Ok ds' /\
    coords ds = [("nodes", [("is_iter", ABool true)])] /\
    (exists a, coords ds' = [("nodes", a)] /\ In ("is_iter", AInt 1) a /\ In ("serialised_bools", AStr "is_iter") a) /\
    ~ same_dataset ds ds'.
Proof.
  exists {| top := []; vars := []; coords := [("nodes", [("is_iter", ABool true)])] |}; eexists; eexists.
  split; [split; [constructor|intros k v []]|].
  split; [intros k a [E|[]]; injection E as <- <-; split; [repeat constructor; simpl; tauto|]|].
  { intros k' v [E|[]]; injection E as <- <-; split; [unfold reserved; simpl; intuition discriminate|constructor]. }
  split; [vm_compute; reflexivity|split; [vm_compute; reflexivity|split; [reflexivity|split]]].
  - eexists; split; [reflexivity|split; simpl; tauto].
  - intros [_ [_ F]]; simpl in F; inversion F as [|? ? ? ? [_ [_ [H _]]]]; subst.
    destruct (H "is_iter" (ABool true) (or_introl eq_refl)) as [w [I S]]; simpl in I; inversion S; subst; intuition discriminate.
Qed.
Print Assumptions C15_coordinates_refuted.

(** A dictionary attribute with a top-level [import] cannot be read back, and dots in its
    keys are turned into nesting. *)
Theorem C15_dictionary_keys_refuted :
  (forall dump parse path_text d v, wf (VDict d) -> dotfree (VDict d) ->
     parse (dump d) = Ok d -> path_text (dump d) = None -> In ("import", v) d -> ~ nothing v ->
     exists p s b, serialise dump [("config", ADict d)] = (p, None) /\ store p = Ok s /\
       deserialise parse path_text s = (b, Some EValue)) /\
  (exists d p s b, serialise (fun _ => "T") [("config", ADict d)] = (p, None) /\ store p = Ok s /\
     deserialise (fun _ => Ok [("a", VDict [("b", VInt 1)])]) no_file s = (b, None) /\
     d = [("a.b", VInt 1)] /\ b = [("config", ADict [("a", VDict [("b", VInt 1)])])]).
Proof.
  split.
  - intros dump parse path_text d v W D P N I TV.
    assert (E : init_from_dict d = Ok d) by (apply DefImports.init_from_dict_id; assumption).
    unfold serialise; cbn -[init_from_dict]; unfold to_yaml; rewrite E; cbn.
    eexists; eexists; eexists; split; [reflexivity|split; [reflexivity|]].
    unfold deserialise, undo, pop_list; cbn -[read_rich_yaml]; unfold read_rich_yaml; rewrite N, P; cbn [bind]; rewrite E; cbn [bind].
    assert (ND : NoDup (d_keys d)) by apply (wf_inv d W).
    rewrite (d_in_get _ _ _ ND I), (proj2 (proj2 (truthy_nothing v)) TV); reflexivity.
  - exists [("a.b", VInt 1)]; eexists; eexists; eexists; split; [reflexivity|split; [vm_compute; reflexivity|]].
    split; [vm_compute; reflexivity|split; reflexivity].
Qed.
Print Assumptions C15_dictionary_keys_refuted.

(** Reading any file: the bookkeeping is gone, every name listed must be there, what is listed
    once is restored as its list says, everything else is as it was. *)
Theorem C15_reading parse path_text a b listed :
  NoDup (map fst a) ->
  (forall key, reserved key -> book a key (listed key) /\ NoDup (listed key) /\ forall k, In k (listed key) -> ~ reserved k) ->
  deserialise parse path_text a = (b, None) ->
  (forall k, In k (map fst b) <-> In k (map fst a) /\ ~ reserved k) /\
  (forall key k, reserved key -> In k (listed key) -> In k (map fst a)) /\
  (forall k v, In (k, v) a -> ~ reserved k -> (forall key, reserved key -> ~ In k (listed key)) -> In (k, v) b) /\
  (forall key k v, reserved key -> In k (listed key) -> (forall key', reserved key' -> In k (listed key') -> key' = key) -> In (k, v) a ->
     exists w, In (k, w) b /\ restored parse path_text key v w).
Proof. exact (reading parse path_text a b listed). Qed.
Print Assumptions C15_reading.
Definition ex_file : attrs :=
  [("flag", AInt 2); ("off", AStr ""); ("title", AStr "x"); ("config", AStr "T"); ("kinds", AList [IStr "a"; IStr "b"; IStr "a"]);
   ("serialised_bools", AList [IStr "flag"; IStr "off"]); ("serialised_dicts", AStr "config"); ("serialised_sets", AStr "kinds"); ("serialised_nones", AEmpty)].
Definition ex_listed (key : string) : list string :=
  if String.eqb key "serialised_bools" then ["flag"; "off"] else if String.eqb key "serialised_dicts" then ["config"] else if String.eqb key "serialised_sets" then ["kinds"] else [].
Example C15_reading_example : exists b, deserialise ex_parse no_file ex_file = (b, None) /\
  (forall key, reserved key -> book ex_file key (ex_listed key) /\ NoDup (ex_listed key) /\ forall k, In k (ex_listed key) -> ~ reserved k) /\
  b = [("flag", ABool true); ("off", ABool false); ("title", AStr "x"); ("config", ADict ex_dict); ("kinds", ASet [IStr "b"; IStr "a"])].
Proof.
  eexists; split; [vm_compute; reflexivity|split; [|reflexivity]].
  intros key R; unfold reserved in R; simpl in R; destruct R as [<-|[<-|[<-|[<-|[<-|[]]]]]]; (split; [|split; [vm_compute; repeat (apply NoDup_cons; [simpl; intuition discriminate|]); apply NoDup_nil|intros k I; vm_compute in I; unfold reserved; simpl; intuition congruence]]).
  - right; exists (AStr "config"); split; [simpl; tauto|constructor].
  - right; exists (AList [IStr "flag"; IStr "off"]); split; [simpl; tauto|exact (ln_many ["flag"; "off"])].
  - right; exists AEmpty; split; [simpl; tauto|constructor].
  - left; split; [simpl; intuition discriminate|reflexivity].
  - right; exists (AStr "kinds"); split; [simpl; tauto|constructor].
Qed.
(** A listed name that is missing is refused. *)
Example C15_reading_missing : exists b, deserialise ex_parse no_file [("serialised_nones", AStr "gone")] = (b, Some EKey).
Proof. eexists; vm_compute; reflexivity. Qed.

(** * C16 *)
(** Once all attributes could be prepared, the dataset in memory is the same after saving,
    whether or not writing the file succeeds, and the failure to write is reported. *)
Theorem C16_memory_unchanged_partial dump parse path_text kw written ds :
  savable (with_kwargs kw (top ds)) -> NoDup (map fst (top ds)) ->
  (forall k a, In (k, a) (vars ds) -> savable a /\ yaml_ok dump parse path_text a) ->
  (forall k a, In (k, a) (coords ds) -> savable a /\ yaml_ok dump parse path_text a) ->
  exists ds', save_netcdf dump parse path_text kw written ds = (ds', written) /\ same_dataset ds ds'.
Proof. exact (save_unchanged dump parse path_text kw written ds). Qed.
Print Assumptions C16_memory_unchanged_partial.
(** If saving reports no failure, the file was written and holds no list or set with members other than
    strings; such a list in an attribute of the dataset, a variable or a coordinate is always reported. *)
Theorem C16_reported dump parse path_text kw written ds ds' :
  NoDup (map fst (top ds)) -> (forall k v, In (k, v) (with_kwargs kw (top ds)) -> ~ reserved k) ->
  (forall x a, In (x, a) (vars ds ++ coords ds) -> NoDup (map fst a) /\ forall k v, In (k, v) a -> ~ reserved k) ->
  save_netcdf dump parse path_text kw written ds = (ds', None) ->
  written = None /\ (forall k v, In (k, v) (with_kwargs kw (top ds)) -> ~ mixed v) /\
  forall x a k v, In (x, a) (vars ds ++ coords ds) -> In (k, v) a -> ~ mixed v.
Proof. exact (save_reported dump parse path_text kw written ds ds'). Qed.
Print Assumptions C16_reported.
Example C16_reported_example : exists d1 d2 d3,
  save_netcdf ex_dump ex_parse no_file [] None {| top := []; vars := [("flow", [("years", ASet [IStr "a"; IOther 2005])])]; coords := [] |} = (d1, Some EType) /\
  save_netcdf ex_dump ex_parse no_file [] None {| top := []; vars := []; coords := [("nodes", [("years", AList [IOther 2005])])] |} = (d2, Some EType) /\
  save_netcdf ex_dump ex_parse no_file [("timestamp", AStr "now")] None {| top := ex_attrs; vars := [("flow", ex_attrs)]; coords := [] |} = (d3, None).
Proof. do 3 eexists; split; [|split]; vm_compute; reflexivity. Qed.
Example C16_example : exists ds',
  save_netcdf ex_dump ex_parse no_file [("timestamp", AStr "now")] (Some EKey)
    {| top := ex_attrs; vars := [("flow", ex_attrs); ("cost", [])]; coords := [("nodes", [("l", AList [])])] |} = (ds', Some EKey) /\
  ds' = {| top := ex_attrs; vars := [("flow", ex_attrs); ("cost", [])]; coords := [("nodes", [("l", AList [])])] |}.
Proof. eexists; split; vm_compute; reflexivity. Qed.

(** A list of numbers makes the preparation fail half way, outside the [try]: the model in
    memory keeps the half-prepared attributes and the extra ones. *)
Theorem C16_failed_preparation_refuted :
  exists ds ds', save_netcdf ex_dump ex_parse no_file [("timestamp", AStr "now")] None ds = (ds', Some EType) /\
    top ds = [("flag", ABool true); ("years", AList [IOther 2005])] /\
    In ("flag", AInt 1) (top ds') /\ In ("timestamp", AStr "now") (top ds') /\ ~ same_dataset ds ds'.
Proof.
  exists {| top := [("flag", ABool true); ("years", AList [IOther 2005])]; vars := []; coords := [] |}; eexists.
  split; [vm_compute; reflexivity|split; [reflexivity|split; [simpl; tauto|split; [simpl; tauto|]]]].
  intros [[_ [H _]] _]; destruct (H "flag" (ABool true) (or_introl eq_refl)) as [w [I S]]; simpl in I; inversion S; subst; intuition discriminate.
Qed.
Print Assumptions C16_failed_preparation_refuted.
