(** Lists of names, programs, and the state after a fresh build. *)
From Coq Require Import QArith Qcanon Lia.
From Verif Require Import Base BaseProofs EvalModel HelperModel HelperSpec HelperProofs UpdateModel UpdateSpec.
Local Open Scope nat_scope.
Local Open Scope string_scope.
Local Open Scope list_scope.

(** * Orders on names *)
Definition before {A} (l : list A) (r c : A) : Prop := exists a b, l = a ++ b /\ In r a /\ In c b.

Lemma before_in {A} (l : list A) r c : before l r c -> In r l /\ In c l.
Proof. intros (a & b & -> & H1 & H2). rewrite !in_app_iff. auto. Qed.
Lemma nodup_app {A} (a b : list A) : NoDup (a ++ b) <-> NoDup a /\ NoDup b /\ forall x, In x a -> ~ In x b.
Proof.
  induction a as [|x a IH]; cbn.
  - split; [intros H; repeat split; auto; constructor|tauto].
  - rewrite !NoDup_cons_iff, IH, in_app_iff. split.
    + intros (N & Na & Nb & D). repeat split; auto. intros y [<-|Hy]; [tauto|auto].
    + intros ((N & Na) & Nb & D). repeat split; auto. intros [H|H]; [tauto|]. apply (D x); auto.
Qed.
Lemma before_split {A} (l : list A) a b r c : NoDup l -> before l r c -> l = a ++ b -> In c a -> In r b -> False.
Proof.
  intros ND (a' & b' & E1 & Hr & Hc) E2 Ca Rb. rewrite E1 in E2. rewrite E1 in ND.
  apply app_eq_app in E2 as (l2 & [[E3 E4]|[E3 E4]]); subst.
  - rewrite <- app_assoc in ND. apply nodup_app in ND as (N1 & N2 & D).
    apply in_app_iff in Hr as [Hr|Hr].
    + apply (D r Hr). rewrite in_app_iff in Rb. rewrite in_app_iff. tauto.
    + apply (D c Ca). rewrite in_app_iff. tauto.
  - apply nodup_app in ND as (N1 & N2 & D). apply (D r Hr). rewrite in_app_iff. tauto.
Qed.
Lemma before_irrefl {A} (l : list A) r : NoDup l -> ~ before l r r.
Proof. intros ND (a & b & -> & H1 & H2). apply nodup_app in ND as (_ & _ & D). apply (D r H1 H2). Qed.
Lemma before_filter {A} f (l : list A) r c : before l r c -> f r = true -> f c = true -> before (filter f l) r c.
Proof.
  intros (a & b & -> & H1 & H2) Fr Fc. exists (filter f a), (filter f b).
  rewrite filter_app, !filter_In. auto.
Qed.
Lemma before_app_l {A} (l : list A) l' r c : before l r c -> before (l ++ l') r c.
Proof. intros (a & b & -> & H1 & H2). exists a, (b ++ l'). rewrite app_assoc, in_app_iff. auto. Qed.
Lemma before_app_r {A} (l : list A) l' r c : before l' r c -> before (l ++ l') r c.
Proof. intros (a & b & -> & H1 & H2). exists (l ++ a), b. rewrite <- app_assoc, in_app_iff. auto. Qed.
Lemma before_across {A} (l : list A) l' r c : In r l -> In c l' -> before (l ++ l') r c.
Proof. intros H1 H2. exists l, l'. auto. Qed.

Lemma before_total {A} (l : list A) x y : In x l -> In y l -> x <> y -> before l x y \/ before l y x.
Proof.
  induction l as [|z l IH]; cbn; [intros []|]. intros Hx Hy N.
  destruct Hx as [->|Hx], Hy as [->|Hy].
  - congruence.
  - left. exists [x], l. cbn. auto.
  - right. exists [y], l. cbn. auto.
  - destruct (IH Hx Hy N) as [B|B]; [left|right]; now apply (before_app_r [z] l).
Qed.
Lemma before_flat {A B} (f : A -> list B) ks k1 k2 x y : before ks k1 k2 -> In x (f k1) -> In y (f k2) ->
  before (flat_map f ks) x y.
Proof.
  intros (a & b & -> & H1 & H2) Hx Hy. rewrite flat_map_app. apply before_across; apply in_flat_map; eauto.
Qed.
Lemma before_flat_in {A B} (f : A -> list B) ks k x y : In k ks -> before (f k) x y -> before (flat_map f ks) x y.
Proof.
  intros H B1. apply in_split in H as (a & b & ->). rewrite flat_map_app. cbn.
  apply before_app_r, before_app_l. exact B1.
Qed.
Lemma flat_before {A B} (f : A -> list B) ks k1 k2 x y : NoDup (flat_map f ks) -> before (flat_map f ks) x y ->
  In k1 ks -> In k2 ks -> k1 <> k2 -> In x (f k1) -> In y (f k2) -> before ks k1 k2.
Proof.
  intros ND B1 H1 H2 N Hx Hy. destruct (before_total ks k1 k2 H1 H2 N) as [H|H]; [exact H|].
  exfalso. pose proof (before_flat f ks k2 k1 y x H Hy Hx) as (a & b & E & Ha & Hb).
  eapply before_split; eauto.
Qed.

(** Number of names before the first occurrence. *)
Fixpoint idx (l : list string) (x : string) : nat :=
  match l with [] => 0 | y :: t => if String.eqb x y then 0 else S (idx t x) end.
Lemma idx_lt l x : In x l -> idx l x < List.length l.
Proof.
  induction l as [|y l IH]; cbn; [intros []|]. destruct (String.eqb_spec x y) as [->|N]; [lia|].
  intros [H|H]; [congruence|]. apply IH in H. lia.
Qed.
Lemma idx_app_in a b x : In x a -> idx (a ++ b) x = idx a x.
Proof.
  induction a as [|y a IH]; cbn; [intros []|]. destruct (String.eqb_spec x y) as [->|N]; [reflexivity|].
  intros [H|H]; [congruence|]. now rewrite IH.
Qed.
Lemma idx_app_out a b x : ~ In x a -> idx (a ++ b) x = List.length a + idx b x.
Proof.
  induction a as [|y a IH]; cbn; [reflexivity|]. intros N. destruct (String.eqb_spec x y) as [->|N1]; [tauto|].
  rewrite IH; tauto.
Qed.
Lemma before_idx l r c : NoDup l -> before l r c -> idx l r < idx l c.
Proof.
  intros ND (a & b & -> & H1 & H2). pose proof ND as ND'. apply nodup_app in ND as (_ & _ & D).
  rewrite (idx_app_in a b r H1), idx_app_out; [|intros H; apply (D c H H2)].
  pose proof (idx_lt a r H1). lia.
Qed.

(** * Datasets *)
Lemma keys_app {V} (a b : list (string * V)) : d_keys (a ++ b) = d_keys a ++ d_keys b.
Proof. apply map_app. Qed.
Lemma get_app {V} k (a b : list (string * V)) :
  d_get k (a ++ b) = match d_get k a with Some v => Some v | None => d_get k b end.
Proof. induction a as [|[x v] a IH]; cbn; [reflexivity|]. destruct (String.eqb k x); auto. Qed.
Lemma keys_update n refs D : d_keys (update_references n refs D) = d_keys D.
Proof.
  unfold d_keys, update_references. rewrite map_map. apply map_ext. intros [s e]. cbn. now destruct (smem s refs).
Qed.
Lemma get_update n refs D k : d_get k (update_references n refs D) =
  match d_get k D with Some e => Some (if smem k refs then note n e else e) | None => None end.
Proof.
  induction D as [|[s e] D IH]; cbn; [reflexivity|].
  destruct (smem s refs) eqn:Es; cbn; destruct (String.eqb_spec k s) as [->|N]; auto; now rewrite Es.
Qed.
Lemma filter_id {A} (f : A -> bool) l : (forall x, In x l -> f x = true) -> filter f l = l.
Proof. induction l as [|x l IH]; cbn; [reflexivity|]. intros H. rewrite (H x); auto. rewrite IH; auto. Qed.
Lemma keys_del {V} k (D : list (string * V)) : NoDup (d_keys D) ->
  d_keys (d_del k D) = filter (fun n => negb (String.eqb n k)) (d_keys D).
Proof.
  induction D as [|[s e] D IH]; cbn; [reflexivity|]. rewrite NoDup_cons_iff. intros [N ND].
  rewrite (String.eqb_sym s k). destruct (String.eqb_spec k s) as [->|Ns]; cbn.
  - symmetry. apply filter_id. intros x Hx. apply Bool.negb_true_iff, String.eqb_neq. intros ->. auto.
  - f_equal. auto.
Qed.

Lemma note_in n e x : In x (t_refs (note n e)) <-> x = n \/ In x (t_refs e).
Proof.
  cbn. destruct (smem n (t_refs e)) eqn:E.
  - apply smem_in in E. split; [auto|]. intros [->|H]; auto.
  - rewrite in_app_iff. cbn. firstorder.
Qed.

(** * Programs *)
Definition like (a b : option entry) : Prop :=
  match a, b with
  | Some a, Some b => t_dims a = t_dims b /\ forall p, t_at a p = t_at b p
  | None, _ => True
  | _, _ => False
  end.
Definition agree (I J : inputs) (n : string) : Prop := a_dims (I n) = a_dims (J n) /\ forall p, a_at (I n) p = a_at (J n) p.

Lemma run_agree s I J D E : (forall n, n <> s -> agree I J n) -> forall x refs res,
  run I D x = Some (refs, res) -> never_peeks s x -> ~ In s refs ->
  (forall n, In n refs -> like (d_get n D) (d_get n E)) -> run J E x = Some (refs, res).
Proof.
  intros A. induction x as [ds at_| |n p k IH|n p k IH|n p k IH]; cbn; intros refs res H NP NI LK; auto.
  - destruct (run I D _) as [[r b]|] eqn:R in H; [|discriminate]. injection H as <- <-. cbn in NI.
    destruct (A n) as [A1 A2]; [intros ->; tauto|]. rewrite <- A1, <- A2.
    erewrite IH; [reflexivity|exact R|auto|tauto|]. intros m Hm. apply LK. now right.
  - destruct NP as [NP1 NP2]. destruct (A n NP1) as [A1 A2]. rewrite <- A1, <- A2. eapply IH; eauto.
  - destruct (d_get n D) as [e|] eqn:G; [|discriminate].
    destruct (run I D _) as [[r b]|] eqn:R in H; [|discriminate]. injection H as <- <-.
    specialize (LK n) as LK1. rewrite G in LK1. cbn in LK1. destruct (d_get n E) as [e'|]; [|destruct LK1; now left].
    destruct LK1 as [K1 K2]; [now left|]. rewrite <- K1, <- K2.
    erewrite IH; [reflexivity|exact R|auto|cbn in NI; tauto|]. intros m Hm. apply LK. now right.
Qed.
Lemma run_same I J D E : (forall n, agree I J n) -> forall x refs res,
  run I D x = Some (refs, res) -> (forall n, In n refs -> like (d_get n D) (d_get n E)) -> run J E x = Some (refs, res).
Proof.
  intros A. induction x as [ds at_| |n p k IH|n p k IH|n p k IH]; cbn; intros refs res H LK; auto.
  - destruct (run I D _) as [[r b]|] eqn:R in H; [|discriminate]. injection H as <- <-.
    destruct (A n) as [A1 A2]. rewrite <- A1, <- A2.
    erewrite IH; [reflexivity|exact R|]. intros m Hm. apply LK. now right.
  - destruct (A n) as [A1 A2]. rewrite <- A1, <- A2. eapply IH; eauto.
  - destruct (d_get n D) as [e|] eqn:G; [|discriminate].
    destruct (run I D _) as [[r b]|] eqn:R in H; [|discriminate]. injection H as <- <-.
    specialize (LK n) as LK1. rewrite G in LK1. cbn in LK1. destruct (d_get n E) as [e'|]; [|destruct LK1; now left].
    destruct LK1 as [K1 K2]; [now left|]. rewrite <- K1, <- K2.
    erewrite IH; [reflexivity|exact R|]. intros m Hm. apply LK. now right.
Qed.
(** What is noted is an input or was there. *)
Lemma run_reads P I D : forall x refs res, run I D x = Some (refs, res) -> asks P x ->
  forall n, In n refs -> P n \/ In n (d_keys D).
Proof.
  induction x as [ds at_| |n p k IH|n p k IH|n p k IH]; cbn; intros refs res H A m Hm.
  - injection H as <- <-. destruct Hm.
  - discriminate.
  - destruct (run I D _) as [[r b]|] eqn:R in H; [|discriminate]. injection H as <- <-. destruct A as [A1 A2].
    destruct Hm as [<-|Hm]; [auto|]. eapply IH; eauto.
  - eapply IH; eauto.
  - destruct (d_get n D) as [e|] eqn:G; [|discriminate].
    destruct (run I D _) as [[r b]|] eqn:R in H; [|discriminate]. injection H as <- <-.
    destruct Hm as [<-|Hm]; [right; now apply d_get_some_key in G|]. eapply IH; eauto.
Qed.
