(** Executable checks of the hypotheses used in the property theorems, for the
    concrete examples. *)
From Verif Require Import Base BaseProofs AttrDictModel AttrDictSpec AttrDictProofs AttrDictUnion
  AttrDictMore DefModel DefSpec DefCombine DefPriority DefTemplate.
Local Open Scope string_scope.
Local Open Scope list_scope.

Fixpoint prefixb (p q : list string) : bool :=
  match p, q with
  | [], _ => true
  | a :: p', b :: q' => String.eqb a b && prefixb p' q'
  | _ :: _, [] => false
  end.
Lemma prefixb_true p q : prefix p q -> prefixb p q = true.
Proof.
  intros [r ->]; induction p as [|a p IH]; [reflexivity|]; simpl; rewrite String.eqb_refl; exact IH.
Qed.

Definition shape_ok (p q : list string) : bool :=
  path_eqb p q || negb (prefixb p q || prefixb q p).
Definition same_shapeb (ds : list dict) : bool :=
  let ks := flat_map keys_nested ds in forallb (fun p => forallb (shape_ok p) ks) ks.

Lemma same_shapeb_ok ds : Forall (fun d => wf (VDict d)) ds -> same_shapeb ds = true -> same_shape ds.
Proof.
  intros F H X Y HX HY k w k' w' Hk Lw Hk' Lw' C.
  assert (K : forall X k w, In X ds -> at_path (VDict X) k w -> leaf w -> In k (flat_map keys_nested ds)).
  { clear -F; intros X k w HX Hk Lw; apply in_flat_map; exists X; split; [exact HX|].
    rewrite Forall_forall in F; apply (def_key_iff X k w (F X HX)).
    apply leaf_def_key; [|exact Lw|exact Hk]; intros ->; inversion Hk; subst; discriminate Lw. }
  unfold same_shapeb in H; cbv zeta in H; rewrite forallb_forall in H.
  specialize (H k (K X k w HX Hk Lw)); rewrite forallb_forall in H.
  specialize (H k' (K Y k' w' HY Hk' Lw')); unfold shape_ok in H.
  apply orb_prop in H; destruct H as [H|H].
  - unfold path_eqb in H; destruct (list_eq_dec string_dec k k'); [assumption|discriminate].
  - destruct C as [C|C]; apply prefixb_true in C; rewrite C in H; [|rewrite orb_true_r in H]; discriminate.
Qed.

(** Keys with their values. *)
Definition entries (d : dict) : list (list string * val) :=
  map (fun k => (k, match lk k (VDict d) with Some w => w | None => VNone end)) (keys_nested d).
Definition compat_pair (a b : list string * val) : bool :=
  let '(k, w) := a in let '(k', w') := b in
  is_dict w' || negb (prefixb k k' || prefixb k' k) ||
  (if is_dict w then prefixb k k' && negb (path_eqb k k') else path_eqb k k').
Definition compatibleb (ds : list dict) : bool :=
  let ks := flat_map entries ds in forallb (fun p => forallb (compat_pair p) ks) ks.
Lemma prefixb_prefix p q : prefixb p q = true -> prefix p q.
Proof.
  revert q; induction p as [|a p IH]; intros q H; [exists q; reflexivity|].
  destruct q as [|b q]; [discriminate|]; simpl in H; apply andb_prop in H; destruct H as [H1 H2].
  apply String.eqb_eq in H1; subst; destruct (IH q H2) as [r ->]; exists r; reflexivity.
Qed.
Lemma compatibleb_ok ds : Forall (fun d => wf (VDict d)) ds -> compatibleb ds = true -> compatible ds.
Proof.
  intros F H X Y k w k' w' HX HY Hk Lw' Hk' C.
  assert (K : forall X k w, In X ds -> def_key (VDict X) k w -> In (k, w) (flat_map entries ds)).
  { clear -F; intros X k w HX Hk; apply in_flat_map; exists X; split; [exact HX|].
    rewrite Forall_forall in F; apply (def_key_iff X k w (F X HX)) in Hk; destruct Hk as [Hk [Hw _]].
    unfold entries; apply in_map_iff; exists k; rewrite Hw; auto. }
  unfold compatibleb in H; cbv zeta in H; rewrite forallb_forall in H.
  specialize (H _ (K X k w HX Hk)); rewrite forallb_forall in H.
  assert (Nk' : k' <> []) by (intros ->; inversion Hk'; subst; discriminate Lw').
  specialize (H _ (K Y k' w' HY (leaf_def_key _ _ _ Nk' Lw' Hk'))).
  unfold compat_pair in H; rewrite Lw' in H; simpl in H.
  assert (CC : prefixb k k' || prefixb k' k = true).
  { destruct C as [C|C]; apply prefixb_true in C; rewrite C; auto using orb_true_r. }
  rewrite CC in H; simpl in H; split.
  - intros L; rewrite L in H; unfold path_eqb in H; destruct (list_eq_dec string_dec k k'); [assumption|discriminate].
  - intros ->; simpl in H; apply andb_prop in H; destruct H as [H1 H2].
    apply prefixb_prefix in H1; apply prefix_cases in H1; destruct H1 as [->|H1]; [exfalso|exact H1].
    unfold path_eqb in H2; destruct (list_eq_dec string_dec k' k'); [discriminate H2|congruence].
Qed.

Fixpoint noemptyb (v : val) : bool :=
  match v with
  | VDict d => negb (match d with [] => true | _ => false end) &&
      (fix go (d : list (string * val)) : bool :=
         match d with [] => true | (_, w) :: t => noemptyb w && go t end) d
  | _ => true
  end.
Definition tidyb (d : dict) : bool := forallb (fun kv => noemptyb (snd kv)) d.
Lemma noemptyb_ok v : noemptyb v = true -> noempty v.
Proof.
  induction v as [| | | |l IHl|d IH] using val_ind'; intros H; try (apply ne_leaf; reflexivity).
  cbn [noemptyb] in H; apply andb_prop in H; destruct H as [H1 H2].
  apply ne_dict; [intros ->; discriminate H1|].
  clear H1; induction IH as [|[k w] t Hw Ht IHt]; [constructor|].
  apply andb_prop in H2; destruct H2 as [H2 H3]; constructor; [apply Hw; exact H2|apply IHt; exact H3].
Qed.
Lemma tidyb_ok d : tidyb d = true -> tidy d.
Proof.
  unfold tidyb, tidy; rewrite forallb_forall, Forall_forall; intros H x Hx; apply noemptyb_ok; apply (H x Hx).
Qed.

(** A key never used at any level. *)
Fixpoint key_free (k : string) (v : val) : bool :=
  match v with
  | VDict d => (fix go (d : list (string * val)) : bool :=
         match d with [] => true | (a, w) :: t => negb (String.eqb k a) && key_free k w && go t end) d
  | _ => true
  end.
Lemma key_free_ok k v : key_free k v = true -> forall p w, at_path v p w -> ~ In k p.
Proof.
  induction v as [| | | |l IHl|d IH] using val_ind'; intros H p w Hp;
    try (inversion Hp; subst; intros []; fail).
  assert (G : forall t, (fix go (d : list (string * val)) : bool :=
         match d with [] => true | (a, w) :: t => negb (String.eqb k a) && key_free k w && go t end) t = true ->
       forall a x, In (a, x) t -> a <> k /\ key_free k x = true).
  { induction t as [|[a x] t IHt]; intros G b y Hy; [destruct Hy|destruct Hy as [E|Hy]].
    - injection E as <- <-; apply andb_prop in G; destruct G as [G _]; apply andb_prop in G; destruct G as [G1 G2].
      split; [|exact G2]; intros ->; rewrite String.eqb_refl in G1; discriminate.
    - apply andb_prop in G; destruct G as [_ G]; apply (IHt G b y Hy). }
  inversion Hp as [|a x items q y Hin Hat]; subst; [intros []|].
  destruct (G d H a x Hin) as [N KF]; intros [E|HK]; [congruence|].
  rewrite Forall_forall in IH; exact (IH (a, x) Hin KF q w Hat HK).
Qed.

Lemma no_wipe_ok d : key_free WIPE (VDict d) = true -> no_wipe d.
Proof. intros H p w Hp; exact (key_free_ok WIPE (VDict d) H p w Hp). Qed.
Lemma no_templates_ok d : key_free "template" (VDict d) && key_free "templates" (VDict d) = true -> no_templates d.
Proof.
  intros H p w Hp k Hk; apply andb_prop in H; destruct H as [H1 H2]; intros [->| ->].
  - exact (key_free_ok _ _ H1 p w Hp Hk).
  - exact (key_free_ok _ _ H2 p w Hp Hk).
Qed.

Fixpoint dotfreeb (v : val) : bool :=
  match v with
  | VDict d => (fix go (d : list (string * val)) : bool :=
         match d with [] => true | (a, w) :: t => negb (has_char dot a) && dotfreeb w && go t end) d
  | _ => true
  end.
Lemma dotfreeb_ok v : dotfreeb v = true -> dotfree v.
Proof.
  induction v as [| | | |l IHl|d IH] using val_ind'; intros H; try (apply df_leaf; reflexivity).
  apply df_dict; cbn [dotfreeb] in H.
  induction IH as [|[k w] t Hw Ht IHt]; [constructor|].
  apply andb_prop in H; destruct H as [H H2]; apply andb_prop in H; destruct H as [H0 H1].
  constructor; [split; [cbn; destruct (has_char dot k); [discriminate|reflexivity]|apply Hw; exact H1]|apply IHt; exact H2].
Qed.

Lemma wf_all_ok (ds : list dict) : forallb (fun d => wfb (VDict d)) ds = true -> Forall (fun d => wf (VDict d)) ds.
Proof.
  intros H; apply Forall_forall; intros d Hd; rewrite forallb_forall in H; exact (wfb_wf _ (H d Hd)).
Qed.
Lemma neat_all_ok (ds : list dict) : forallb (fun d => wfb (VDict d) && tidyb d) ds = true ->
  Forall (fun d => wf (VDict d) /\ tidy d) ds.
Proof.
  intros H; apply Forall_forall; intros d Hd; rewrite forallb_forall in H; apply H in Hd.
  apply andb_true_iff in Hd; destruct Hd as [W T]; split; [exact (wfb_wf _ W)|exact (tidyb_ok _ T)].
Qed.
