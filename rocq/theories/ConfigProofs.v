(** Proofs about configuration updates. *)
From Verif Require Import Base BaseProofs AttrDictModel AttrDictSpec AttrDictProofs ConfigModel ConfigSpec.
Local Open Scope string_scope.
Local Open Scope list_scope.
Local Arguments String.eqb : simpl never.

(** ** Unfolding *)
Definition dump_fields (fs : list (string * obj)) : dict := map (fun f => (fst f, dump (snd f))) fs.
Lemma dump_model fs : dump (OModel fs) = VDict (dump_fields fs).
Proof. simpl; f_equal; induction fs as [|[k x] t IH]; [reflexivity|]; simpl; rewrite IH; reflexivity. Qed.
Lemma dump_dict fs : dump (ODict fs) = VDict (dump_fields fs).
Proof. simpl; f_equal; induction fs as [|[k x] t IH]; [reflexivity|]; simpl; rewrite IH; reflexivity. Qed.
Lemma dump_fields_keys fs : map fst (dump_fields fs) = map fst fs.
Proof. unfold dump_fields; rewrite map_map; reflexivity. Qed.
Lemma dump_fields_get k fs : d_get k (dump_fields fs) = option_map dump (d_get k fs).
Proof.
  induction fs as [|[k' x] t IH]; [reflexivity|]; simpl; destruct (String.eqb k k'); [reflexivity|exact IH].
Qed.

Fixpoint valid_fields (d : dict) (fs : list (string * (val * schema))) : result (list (string * obj)) :=
  match fs with
  | [] => Ok []
  | (k, (dflt, S')) :: t =>
      bind (validate S' (match d_get k d with Some w => w | None => dflt end))
        (fun x => bind (valid_fields d t) (fun r => Ok ((k, x) :: r)))
  end.
Fixpoint valid_entries (e : schema) (d : dict) : result (list (string * obj)) :=
  match d with
  | [] => Ok []
  | (k, w) :: t => bind (validate e w) (fun x => bind (valid_entries e t) (fun r => Ok ((k, x) :: r)))
  end.
Lemma validate_model fs g d : validate (SModel fs g) (VDict d) =
  if negb (forallb (fun kv => smem (fst kv) (map fst fs)) d) then Err EValue else
  bind (valid_fields d fs) (fun r => if g (dump_fields r) then Ok (OModel r) else Err EValue).
Proof.
  cbn [validate]; destruct (negb _); [reflexivity|].
  set (G := fix go (fs : list (string * (val * schema))) := _).
  assert (E : G fs = valid_fields d fs).
  { generalize fs; intros l; induction l as [|[k [dflt S']] t IH]; [reflexivity|]; simpl; rewrite IH; reflexivity. }
  rewrite E; destruct (valid_fields d fs) as [r|e]; [|reflexivity]; unfold bind; rewrite dump_model; reflexivity.
Qed.
Lemma validate_dict e d : validate (SDict e) (VDict d) = bind (valid_entries e d) (fun r => Ok (ODict r)).
Proof.
  cbn [validate]; set (G := fix go (d : dict) := _).
  assert (E : G d = valid_entries e d).
  { induction d as [|[k w] t IH]; [reflexivity|]; simpl; rewrite IH; reflexivity. }
  rewrite E; reflexivity.
Qed.

Fixpoint loop_model (fs : list (string * (val * schema))) (d : dict) (os : list (string * obj)) : result (list (string * obj)) :=
  match d with
  | [] => Ok os
  | (k, v) :: t =>
      match d_get k os with
      | Some (OModel _ as o') | Some (ODict _ as o') =>
          bind (update (field_schema fs k) o' v) (fun x => loop_model fs t (d_set k x os))
      | Some (OList _) =>
          bind (validate (field_schema fs k) v) (fun x => loop_model fs t (d_set k x os))
      | Some (OLeaf x) =>
          if val_eqb x v then loop_model fs t os else loop_model fs t (d_set k (OLeaf v) os)
      | None => if val_eqb VNone v then loop_model fs t os else Err EValue
      end
  end.
Fixpoint loop_dict (e : schema) (d : dict) (os : list (string * obj)) : result (list (string * obj)) :=
  match d with
  | [] => Ok os
  | (k, v) :: t =>
      match d_get k os with
      | Some (OModel _ as o') => bind (update e o' v) (fun x => loop_dict e t (d_set k x os))
      | Some (OList _) | Some (ODict _) =>
          bind (validate e v) (fun x => loop_dict e t (d_set k x os))
      | Some (OLeaf x) =>
          if val_eqb x v then loop_dict e t os
          else bind (validate e v) (fun x => loop_dict e t (d_set k x os))
      | None =>
          if val_eqb VNone v then loop_dict e t os
          else bind (validate e v) (fun x => loop_dict e t (d_set k x os))
      end
  end.
Lemma update_model fs g os d : update (SModel fs g) (OModel os) (VDict d) =
  bind (loop_model fs d os) (fun os' => validate (SModel fs g) (dump (OModel os'))).
Proof.
  cbn [update]; set (G := fix go (d : dict) (os : list (string * obj)) := _).
  assert (E : G d os = loop_model fs d os).
  { revert os; induction d as [|[k v] t IH]; intros os; [reflexivity|]; cbn [loop_model].
    change (G ((k, v) :: t) os) with
      (match d_get k os with
      | Some (OModel _ as o') | Some (ODict _ as o') =>
          bind (update (field_schema fs k) o' v) (fun x => G t (d_set k x os))
      | Some (OList _) =>
          bind (validate (field_schema fs k) v) (fun x => G t (d_set k x os))
      | Some (OLeaf x) =>
          if val_eqb x v then G t os else G t (d_set k (OLeaf v) os)
      | None => if val_eqb VNone v then G t os else Err EValue
      end).
    destruct (d_get k os) as [[x|l|l|l]|].
    - rewrite !IH; reflexivity.
    - destruct (update _ _ v); simpl; [apply IH|reflexivity].
    - destruct (update _ _ v); simpl; [apply IH|reflexivity].
    - destruct (validate _ v); simpl; [apply IH|reflexivity].
    - rewrite IH; reflexivity. }
  rewrite E; reflexivity.
Qed.
Lemma update_dict e os d : update (SDict e) (ODict os) (VDict d) =
  bind (loop_dict e d os) (fun os' => validate (SDict e) (dump (ODict os'))).
Proof.
  cbn [update]; set (G := fix go (d : dict) (os : list (string * obj)) := _).
  assert (E : G d os = loop_dict e d os).
  { revert os; induction d as [|[k v] t IH]; intros os; [reflexivity|]; cbn [loop_dict].
    change (G ((k, v) :: t) os) with
      (match d_get k os with
      | Some (OModel _ as o') => bind (update e o' v) (fun x => G t (d_set k x os))
      | Some (OList _) | Some (ODict _) =>
          bind (validate e v) (fun x => G t (d_set k x os))
      | Some (OLeaf x) =>
          if val_eqb x v then G t os
          else bind (validate e v) (fun x => G t (d_set k x os))
      | None =>
          if val_eqb VNone v then G t os
          else bind (validate e v) (fun x => G t (d_set k x os))
      end).
    destruct (d_get k os) as [[x|l|l|l]|].
    - rewrite IH; destruct (validate _ v); simpl; [rewrite IH|]; reflexivity.
    - destruct (update _ _ v); simpl; [apply IH|reflexivity].
    - destruct (validate _ v); simpl; [apply IH|reflexivity].
    - destruct (validate _ v); simpl; [apply IH|reflexivity].
    - rewrite IH; destruct (validate _ v); simpl; [rewrite IH|]; reflexivity. }
  rewrite E; reflexivity.
Qed.

Lemma val_eqb_eq a : forall b, val_eqb a b = true -> a = b.
Proof.
  induction a as [| | | |l IHl|d IH] using val_ind'; intros b' H; destruct b'; try discriminate H; simpl in H.
  - reflexivity.
  - apply eqb_prop in H; congruence.
  - apply Z.eqb_eq in H; congruence.
  - apply String.eqb_eq in H; congruence.
  - f_equal; revert l0 H; induction IHl as [|x l Hx Hl IH]; intros [|y m] H; try discriminate H; [reflexivity|].
    apply andb_prop in H; destruct H as [H1 H2]; rewrite (Hx _ H1), (IH _ H2); reflexivity.
  - f_equal; revert d0 H; induction IH as [|[k x] t Hx Ht IHt]; intros [|[k' y] e] H; try discriminate H; [reflexivity|].
    apply andb_prop in H; destruct H as [H H2]; apply andb_prop in H; destruct H as [H0 H1].
    apply String.eqb_eq in H0; subst; simpl in Hx; rewrite (Hx _ H1), (IHt _ H2); reflexivity.
Qed.

(** ** Validation *)
Lemma valid_fields_keys d fs r : valid_fields d fs = Ok r -> map fst r = map fst fs.
Proof.
  revert r; induction fs as [|[k [dflt S']] t IH]; intros r H; simpl in H; [injection H as <-; reflexivity|].
  destruct (validate S' _) as [x|]; [|discriminate]; simpl in H.
  destruct (valid_fields d t) as [r'|]; [|discriminate]; simpl in H; injection H as <-; simpl; rewrite (IH _ eq_refl); reflexivity.
Qed.
Lemma valid_fields_get d fs r k dflt S' : NoDup (map fst fs) -> valid_fields d fs = Ok r -> d_get k fs = Some (dflt, S') ->
  exists x, d_get k r = Some x /\ validate S' (match d_get k d with Some w => w | None => dflt end) = Ok x.
Proof.
  revert r; induction fs as [|[k' [dflt' S'']] t IH]; intros r ND H G; simpl in *; [discriminate|].
  destruct (validate S'' _) as [x|] eqn:V; [|discriminate]; simpl in H.
  destruct (valid_fields d t) as [r'|]; [|discriminate]; simpl in H; injection H as <-; simpl.
  inversion ND; subst.
  destruct (String.eqb k k') eqn:E.
  - apply String.eqb_eq in E; subst; injection G as -> ->; exists x; auto.
  - apply IH; auto.
Qed.
(** Only the fields matter. *)
Lemma valid_fields_ok d fs r : map fst r = map fst fs -> NoDup (map fst fs) ->
  (forall k dflt S', d_get k fs = Some (dflt, S') ->
     exists x, d_get k r = Some x /\ validate S' (match d_get k d with Some w => w | None => dflt end) = Ok x) ->
  valid_fields d fs = Ok r.
Proof.
  revert r; induction fs as [|[k [dflt S']] t IH]; intros r E ND H; simpl in *.
  - destruct r; [reflexivity|discriminate].
  - destruct r as [|[k0 x0] r]; [discriminate|]; simpl in E; injection E as -> E.
    destruct (H k dflt S') as [x [G V]]; [rewrite String.eqb_refl; reflexivity|].
    simpl in G; rewrite String.eqb_refl in G; injection G as ->.
    rewrite V; simpl; rewrite (IH r); [reflexivity|exact E|inversion ND; assumption|].
    intros k' dflt' S'' G'; destruct (H k' dflt' S'') as [y [G2 V2]].
    + destruct (String.eqb k' k) eqn:Ek; [|exact G'].
      apply String.eqb_eq in Ek; subst; exfalso; inversion ND as [|? ? N _]; subst; apply N.
      exact (d_get_some_key _ _ _ G').
    + exists y; split; [|exact V2]; simpl in G2; destruct (String.eqb k' k) eqn:Ek; [|exact G2].
      apply String.eqb_eq in Ek; subst; exfalso; inversion ND as [|? ? N _]; subst; apply N.
      exact (d_get_some_key _ _ _ G').
Qed.

Lemma instance_model fs g os : NoDup (map fst fs) ->
  (instance (SModel fs g) (OModel os) <->
   map fst os = map fst fs /\ g (dump_fields os) = true /\
   forall k dflt S', d_get k fs = Some (dflt, S') -> exists o, d_get k os = Some o /\ instance S' o).
Proof.
  intros ND; unfold instance; rewrite dump_model, validate_model; split.
  - destruct (negb _); [discriminate|]; destruct (valid_fields _ fs) as [r|] eqn:V; [|discriminate]; simpl.
    destruct (g _) eqn:G; [|discriminate]; intros H; injection H as ->.
    split; [exact (valid_fields_keys _ _ _ V)|split; [exact G|]].
    intros k dflt S' Gk; destruct (valid_fields_get _ _ _ k dflt S' ND V Gk) as [x [G1 V1]].
    rewrite dump_fields_get, G1 in V1; simpl in V1; exists x; auto.
  - intros [E [G H]].
    replace (forallb _ _) with true.
    + simpl; rewrite (valid_fields_ok _ _ os E ND); [simpl; rewrite G; reflexivity|].
      intros k dflt S' Gk; destruct (H k dflt S' Gk) as [o [Go Io]]; exists o; split; [exact Go|].
      rewrite dump_fields_get, Go; exact Io.
    + symmetry; apply forallb_forall; intros kv Hkv; apply smem_in; rewrite <- E, <- (dump_fields_keys os).
      apply in_map; exact Hkv.
Qed.

Lemma valid_entries_forall2 e d r : valid_entries e d = Ok r <->
  Forall2 (fun a b => fst b = fst a /\ validate e (snd a) = Ok (snd b)) d r.
Proof.
  revert r; induction d as [|[k w] t IH]; intros r; simpl.
  - split; [intros H; injection H as <-; constructor|intros H; inversion H; reflexivity].
  - split.
    + destruct (validate e w) as [x|] eqn:V; [|discriminate]; simpl.
      destruct (valid_entries e t) as [r'|]; [|discriminate]; simpl; intros H; injection H as <-.
      constructor; [auto|apply IH; reflexivity].
    + intros H; inversion H as [|? [k' x] ? r' [E V] F]; subst; simpl in *; subst.
      rewrite V; simpl; rewrite (proj2 (IH r') F); reflexivity.
Qed.
Lemma instance_dict e os : instance (SDict e) (ODict os) <-> Forall (fun f => instance e (snd f)) os.
Proof.
  unfold instance; rewrite dump_dict, validate_dict; split.
  - destruct (valid_entries e (dump_fields os)) as [r|] eqn:V; [|discriminate]; simpl; intros H; injection H as ->.
    apply valid_entries_forall2 in V; unfold dump_fields in V.
    induction os as [|[k x] t IH]; [constructor|]; inversion V; subst; constructor; [tauto|apply IH; assumption].
  - intros F; assert (V : valid_entries e (dump_fields os) = Ok os).
    { apply valid_entries_forall2; induction F as [|[k x] t Hx Ht IH]; [constructor|]; constructor; [auto|exact IH]. }
    rewrite V; reflexivity.
Qed.

(** Induction on schemas. *)
Fixpoint schema_ind' (P : schema -> Prop)
  (Hl : forall c, P (SLeaf c)) (Hm : forall fs g, Forall (fun f => P (snd (snd f))) fs -> P (SModel fs g))
  (Hd : forall e, P e -> P (SDict e)) (Hs : forall c, P (SList c)) (S : schema) : P S :=
  match S with
  | SLeaf c => Hl c
  | SModel fs g => Hm fs g ((fix go (fs : list (string * (val * schema))) : Forall (fun f => P (snd (snd f))) fs :=
       match fs with [] => Forall_nil _ | f :: t => Forall_cons f (schema_ind' P Hl Hm Hd Hs (snd (snd f))) (go t) end) fs)
  | SDict e => Hd e (schema_ind' P Hl Hm Hd Hs e)
  | SList c => Hs c
  end.

(** What validation accepts is an instance. *)
Lemma validate_instance S : steady S -> forall v o, validate S v = Ok o -> instance S o.
Proof.
  induction S as [c|fs g IH|e IH|c] using schema_ind'; intros St v o H; inversion St as [? Hc|? Hc|? ? ND Fs|? Se]; subst.
  - simpl in H; destruct (c v) as [x|] eqn:E; [|discriminate]; simpl in H; injection H as <-.
    unfold instance; simpl; rewrite (Hc _ _ E); reflexivity.
  - destruct v as [| | | | |d]; try discriminate H; rewrite validate_model in H.
    destruct (negb _); [discriminate|]; destruct (valid_fields d fs) as [r|] eqn:V; [|discriminate]; simpl in H.
    destruct (g _) eqn:G; [|discriminate]; injection H as <-.
    apply instance_model; [exact ND|]; split; [exact (valid_fields_keys _ _ _ V)|split; [exact G|]].
    intros k dflt S' Gk; destruct (valid_fields_get _ _ _ k dflt S' ND V Gk) as [x [G1 V1]]; exists x; split; [exact G1|].
    apply d_get_in in Gk; rewrite Forall_forall in IH, Fs.
    exact (IH _ Gk (Fs _ Gk) _ _ V1).
  - destruct v as [| | | | |d]; try discriminate H; rewrite validate_dict in H.
    destruct (valid_entries e d) as [r|] eqn:V; [|discriminate]; simpl in H; injection H as <-.
    apply instance_dict; apply valid_entries_forall2 in V.
    induction V as [|a b d r [_ Hab] F IHF]; constructor; [exact (IH Se _ _ Hab)|exact IHF].
  - simpl in H; destruct (c v) as [x|] eqn:E; [|discriminate]; simpl in H; injection H as <-.
    unfold instance; simpl; rewrite (Hc _ _ E); reflexivity.
Qed.
