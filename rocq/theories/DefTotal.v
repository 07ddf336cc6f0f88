(** Template resolution always ends: the fuel of the model is never exhausted. *)
From Verif Require Import Base BaseProofs AttrDictModel AttrDictSpec AttrDictProofs DefModel.
Local Open Scope string_scope.
Local Open Scope list_scope.

Lemma set_into_err v : forall old x e, set_into v old = (x, Some e) -> e = EAttr.
Proof.
  induction v as [| | | |l IHl|d IH] using val_ind'; intros old x e H; try discriminate H.
  revert old x e H; induction d as [|[k w] t IHt]; intros old x e H; [discriminate H|].
  simpl in H; destruct old as [| | | | |o]; try (injection H as _ <-; reflexivity).
  inversion IH as [|? ? Hw Ht]; subst.
  destruct (match w with
            | VDict _ => match d_get k o with
                         | Some x => let '(x', e) := set_into w x in (d_set k x' o, e)
                         | None => (d_set k w o, None) end
            | _ => (d_set k w o, None) end) as [o' e'] eqn:E.
  destruct e' as [e'|].
  - injection H as _ <-.
    destruct w; try discriminate E; destruct (d_get k o) as [y|]; try discriminate E.
    destruct (set_into _ y) as [x' e''] eqn:Ey; injection E as _ ->; exact (Hw y x' e' Ey).
  - exact (IHt Ht _ _ _ H).
Qed.

Lemma set_key_not_diverge p v : forall d x, set_key p v d <> (x, Some EDiverge).
Proof.
  induction p as [|k rest IH]; intros d x H; [discriminate H|].
  destruct rest as [|k2 rest].
  - simpl in H; unfold set_leaf in H.
    destruct v; try discriminate H; destruct (d_get k d) as [y|]; try discriminate H.
    destruct (set_into _ y) as [x' e] eqn:E; injection H as _ ->; apply set_into_err in E; discriminate E.
  - assert (F : forall d0 x0, (let '(o, e) := set_key (k2 :: rest) v [] in (d_set k (VDict o) d0, e)) <> (x0, Some EDiverge)).
    { intros d0 x0 F; destruct (set_key (k2 :: rest) v []) as [o e] eqn:E; injection F as _ ->.
      exact (IH [] o E). }
    change (set_key (k :: k2 :: rest) v d) with
      (match d_get k d with
       | None => let '(o, e) := set_key (k2 :: rest) v [] in (d_set k (VDict o) d, e)
       | Some VNone => let '(o, e) := set_key (k2 :: rest) v [] in (d_set k (VDict o) d, e)
       | Some (VDict o) =>
           let '(o', e) := set_key (k2 :: rest) v o in
           let d' := d_set k (VDict o') d in
           match e with
           | None => (d', None)
           | Some EKey => let '(o, e) := set_key (k2 :: rest) v [] in (d_set k (VDict o) d', e)
           | Some EAttr => (d', Some EKey)
           | Some e' => (d', Some e')
           end
       | Some _ => (d, Some EKey)
       end) in H.
    destruct (d_get k d) as [y|]; [|exact (F _ _ H)].
    destruct y as [| | | | |o]; try discriminate H; [exact (F _ _ H)|].
    destruct (set_key (k2 :: rest) v o) as [o' e] eqn:E; cbv zeta in H.
    destruct e as [e|]; [|discriminate H].
    destruct e; try discriminate H; [exact (F _ _ H)|exact (IH o o' E)].
Qed.

Lemma get_key_not_diverge p : forall d, get_key p d <> Err EDiverge.
Proof.
  induction p as [|k rest IH]; intros d H; [discriminate H|].
  destruct rest as [|k2 rest].
  - simpl in H; destruct (d_get k d); discriminate H.
  - change (match d_get k d with
            | None => Err EKey
            | Some (VDict o) => get_key (k2 :: rest) o
            | Some _ => Err EAttr end = Err EDiverge) in H.
    destruct (d_get k d) as [[| | | | |o]|]; try discriminate H; exact (IH o H).
Qed.

Lemma union_loop_not_diverge ao sk other ks : forall self x, union_loop ao sk other ks self <> (x, Some EDiverge).
Proof.
  induction ks as [|k t IH]; intros self x H; [discriminate H|]; simpl in H.
  destruct (union_one ao sk other k self) as [self' [e|]] eqn:E; [|exact (IH _ _ H)].
  injection H as _ ->; unfold union_one in E.
  destruct (negb ao && path_mem k sk); [discriminate E|].
  destruct (get_key k other) as [v|e] eqn:G.
  - destruct v; try (exact (set_key_not_diverge _ _ _ _ E)).
    destruct (is_dict (get_key_default k VNone self)); [discriminate E|exact (set_key_not_diverge _ _ _ _ E)].
  - injection E as _ ->; exact (get_key_not_diverge _ _ G).
Qed.
Lemma union_not_diverge ao a b : to_result (union ao a b) <> Err EDiverge.
Proof.
  unfold to_result; destruct (union ao a b) as [x [e|]] eqn:E; [|discriminate].
  intros H; injection H as ->; exact (union_loop_not_diverge _ _ _ _ _ _ E).
Qed.

Lemma resolve_template_ends raw order fuel : forall resolved stack name,
  NoDup stack -> incl stack (d_keys raw) -> (List.length raw < fuel + List.length stack)%nat ->
  resolve_template raw order fuel resolved stack name <> Err EDiverge.
Proof.
  induction fuel as [|f IH]; intros resolved stack name ND I L H.
  - pose proof (NoDup_incl_length ND I) as K; unfold d_keys in K; rewrite map_length in K; lia.
  - simpl in H; destruct (smem name stack) eqn:S; [discriminate H|].
    destruct (d_get name raw) as [v|] eqn:G; [|discriminate H].
    destruct v as [| | | | |d]; try discriminate H.
    assert (N : ~ In name stack).
    { intros N; apply Bool.not_true_iff_false in S; apply S; unfold smem.
      apply existsb_exists; exists name; split; [exact N|apply String.eqb_refl]. }
    assert (P : forall x, bind x (fun r => to_result (union true r (order (d_del TEMPLATE d)))) = Err EDiverge -> x = Err EDiverge).
    { intros [r|e] Hx; simpl in Hx; [exfalso; exact (union_not_diverge _ _ _ Hx)|injection Hx as ->; reflexivity]. }
    apply P in H; clear P.
    destruct (d_get TEMPLATE d) as [t|]; [|discriminate H].
    destruct t as [| | |parent| |]; try discriminate H.
    assert (Q : resolve_template raw order f resolved (name :: stack) parent <> Err EDiverge).
    { apply IH; [constructor; assumption| |simpl; lia].
      intros y [<-|Hy]; [|exact (I y Hy)].
      apply d_get_in in G; apply in_map_iff; exists (name, VDict d); split; [reflexivity|exact G]. }
    destruct (match d_get parent resolved with Some (VDict r) => Ok r
              | _ => resolve_template raw order f resolved (name :: stack) parent end) as [inh|e] eqn:E.
    + simpl in H; exact (union_not_diverge _ _ _ H).
    + simpl in H; injection H as ->.
      destruct (d_get parent resolved) as [[| | | | |r]|]; try exact (Q E); discriminate E.
Qed.

Lemma resolve_templates_end raw order todo : forall resolved,
  resolve_templates raw order (S (List.length raw)) todo resolved <> Err EDiverge.
Proof.
  induction todo as [|[k v] t IH]; intros resolved H; [discriminate H|].
  unfold resolve_templates in H; fold resolve_templates in H.
  destruct v as [| | | | |d]; try discriminate H.
  destruct (resolve_template raw order (S (List.length raw)) resolved [] k) as [r|e] eqn:E;
    unfold bind in H; [exact (IH _ H)|].
  injection H as ->; revert E; apply resolve_template_ends; [constructor|intros y []|simpl; lia].
Qed.

Lemma resolve_data_ends resolved v : forall top, resolve_data resolved top v <> Err EDiverge.
Proof.
  induction v as [| | | |l IHl|d IH] using val_ind'; intros top H; try discriminate H.
  simpl in H; destruct (d_mem TEMPLATES d && negb top); [discriminate H|].
  destruct (match d_get TEMPLATE d with
            | None => Ok []
            | Some (VStr t) => match d_get t resolved with Some (VDict r) => Ok r | _ => Err EKey end
            | Some (VList _) | Some (VDict _) => Err EType
            | Some _ => Err EKey end) as [tmpl|e] eqn:E.
  - set (go := fix go (d : list (string * val)) : result dict :=
                 match d with
                 | [] => Ok []
                 | (k, w) :: t =>
                     if String.eqb k TEMPLATE || String.eqb k TEMPLATES then go t
                     else bind (resolve_data resolved false w) (fun w' =>
                            bind (go t) (fun r => Ok ((k, w') :: r)))
                 end) in H.
    assert (G : go d <> Err EDiverge).
    { clear -IH; induction IH as [|[k w] t Hw Ht IHt]; [discriminate|].
      simpl; destruct (String.eqb k TEMPLATE || String.eqb k TEMPLATES); [exact IHt|].
      destruct (resolve_data resolved false w) as [w'|e] eqn:E; simpl.
      - destruct (go t) as [r|e] eqn:G; simpl; [discriminate|]; intros H; injection H as ->; exact (IHt eq_refl).
      - intros H; injection H as ->; exact (Hw false E). }
    simpl in H; destruct (go d) as [local|e]; simpl in H; [|injection H as ->; exact (G eq_refl)].
    destruct (to_result (union true tmpl local)) as [r|e] eqn:U; simpl in H; [discriminate H|].
    injection H as ->; exact (union_not_diverge _ _ _ U).
  - simpl in H; injection H as ->.
    destruct (d_get TEMPLATE d) as [[| | |t| |]|]; try discriminate E.
    destruct (d_get t resolved) as [[| | | | |]|]; discriminate E.
Qed.

Lemma solve_templates_ends order data : solve_templates order data <> Err EDiverge.
Proof.
  unfold solve_templates, as_block.
  destruct (d_get TEMPLATES data) as [[| | | | |raw]|]; try discriminate.
  - unfold bind at 1; destruct (resolve_templates raw order (S (List.length raw)) raw []) as [r|e] eqn:E.
    + unfold bind at 1; destruct (resolve_data r true (VDict data)) as [x|e] eqn:D; simpl.
      * destruct x; discriminate.
      * intros H; injection H as ->; exact (resolve_data_ends _ _ _ D).
    + simpl; intros H; injection H as ->; exact (resolve_templates_end _ _ _ _ E).
  - unfold bind at 1; simpl resolve_templates; unfold bind at 1.
    destruct (resolve_data [] true (VDict data)) as [x|e] eqn:D; simpl.
    * destruct x; discriminate.
    * intros H; injection H as ->; exact (resolve_data_ends _ _ _ D).
Qed.
