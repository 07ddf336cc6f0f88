(** Proofs about the entries that are changed in arrays of variables. *)
From Coq Require Import QArith Qcanon Sorted Lia.
From Verif Require Import Base BaseProofs CliProofs EvalModel HelperModel HelperProofs UpdateModel UpdateProofs SolverModel SolverSpec.
Local Open Scope nat_scope.
Local Open Scope string_scope.
Local Open Scope list_scope.

Lemma same_at_spec dims p q : same_at dims p q = true <-> agree_on dims p q.
Proof.
  unfold same_at, agree_on. rewrite forallb_forall. split; intros H d Hd; [apply String.eqb_eq|apply String.eqb_eq]; auto.
Qed.
Lemma agree_refl dims p : agree_on dims p p.
Proof. intros d _. reflexivity. Qed.
Lemma agree_sym dims p q : agree_on dims p q -> agree_on dims q p.
Proof. intros H d Hd. symmetry. auto. Qed.
Lemma agree_trans dims p q r : agree_on dims p q -> agree_on dims q r -> agree_on dims p r.
Proof. intros H1 H2 d Hd. rewrite H1; auto. Qed.

Definition respects {A} (dims : list string) (x : pos -> A) : Prop := forall p q, agree_on dims p q -> x p = x q.
Lemma change_respects dims p x v : respects dims v -> respects dims (change dims p x v).
Proof.
  intros R q r A. unfold change. destruct (same_at dims p q) eqn:E1, (same_at dims p r) eqn:E2; auto.
  - apply same_at_spec in E1. assert (H : same_at dims p r = true) by (apply same_at_spec; eapply agree_trans; eauto). congruence.
  - apply same_at_spec in E2. assert (H : same_at dims p q = true) by (apply same_at_spec; eapply agree_trans; eauto using agree_sym). congruence.
Qed.

(** Entries visited once each. *)
Fixpoint distinct (dims : list string) (l : list (pos * pos)) : Prop :=
  match l with [] => True | (p, _) :: l => (forall q m, In (q, m) l -> ~ agree_on dims p q) /\ distinct dims l end.

Lemma sweep_ok dims f on l : forall x, respects dims x -> distinct dims l ->
  (forall p m, In (p, m) l -> on m = true -> f p (x p) <> None) ->
  exists y, sweep dims f on l x = (y, true) /\ respects dims y /\
    (forall p m q, In (p, m) l -> agree_on dims p q -> if on m then f p (x p) = Some (y q) else y q = x q) /\
    (forall q, (forall p m, In (p, m) l -> ~ agree_on dims p q) -> y q = x q).
Proof.
  induction l as [|[p m] l IH]; intros x R D OK; [exists x; cbn; repeat split; auto; intros; tauto|].
  destruct D as [D1 D2]. cbn [sweep]. destruct (on m) eqn:Em.
  - destruct (f p (x p)) as [v|] eqn:Ef; [|exfalso; apply (OK p m); cbn; auto].
    assert (CH : forall q mq, In (q, mq) l -> change dims p v x q = x q).
    { intros q mq H. unfold change. destruct (same_at dims p q) eqn:E; [|reflexivity]. apply same_at_spec in E. exfalso. eapply D1; eauto. }
    destruct (IH (change dims p v x)) as (y & Hy & Ry & Y1 & Y2); auto.
    + now apply change_respects.
    + intros q mq H O1. rewrite (CH q mq H). apply (OK q mq); cbn; auto.
    + exists y. split; [exact Hy|]. split; [exact Ry|]. split.
      * intros q mq r [H|H] A.
        -- injection H as -> ->. rewrite Em, Ef. rewrite Y2.
           ++ unfold change. apply same_at_spec in A as ->. reflexivity.
           ++ intros q' m' H' A'. apply (D1 q' m' H'). eapply agree_trans; eauto using agree_sym.
        -- specialize (Y1 q mq r H A). rewrite (CH q mq H) in Y1. destruct (on mq); [exact Y1|]. rewrite Y1.
           unfold change. destruct (same_at dims p r) eqn:E; [|reflexivity]. apply same_at_spec in E. exfalso.
           apply (D1 q mq H). eapply agree_trans; eauto using agree_sym.
      * intros q N. rewrite Y2; [|intros p' m' H; apply (N p' m'); cbn; auto].
        unfold change. destruct (same_at dims p q) eqn:E; [|reflexivity]. apply same_at_spec in E. exfalso. apply (N p m); cbn; auto.
  - destruct (IH x R D2) as (y & Hy & Ry & Y1 & Y2).
    + intros q mq H. apply OK. cbn; auto.
    + exists y. split; [exact Hy|]. split; [exact Ry|]. split.
      * intros q mq r [H|H] A; [|now apply (Y1 q mq r)]. injection H as -> ->. rewrite Em. rewrite Y2; [reflexivity|].
        intros q' m' H' A'. apply (D1 q' m' H'). eapply agree_trans; eauto using agree_sym.
      * intros q N. apply Y2. intros p' m' H. apply (N p' m'). cbn; auto.
Qed.
(** Whether or not there is an exception, entries off the mask are left. *)
Lemma sweep_only dims f on l : forall x, respects dims x -> distinct dims l -> forall q,
  (forall p m, In (p, m) l -> agree_on dims p q -> on m = true -> f p (x p) = Some (fst (sweep dims f on l x) q) \/ fst (sweep dims f on l x) q = x q) /\
  ((forall p m, In (p, m) l -> agree_on dims p q -> on m = false) -> fst (sweep dims f on l x) q = x q).
Proof.
  induction l as [|[p m] l IH]; intros x R D q; [cbn; auto|]. destruct D as [D1 D2]. cbn [sweep]. destruct (on m) eqn:Em.
  - destruct (f p (x p)) as [v|] eqn:Ef; [|cbn; auto].
    assert (CH : forall q mq, In (q, mq) l -> change dims p v x q = x q).
    { intros r mq H. unfold change. destruct (same_at dims p r) eqn:E; [|reflexivity]. apply same_at_spec in E. exfalso. eapply D1; eauto. }
    destruct (IH (change dims p v x) (change_respects _ _ _ _ R) D2 q) as [I1 I2].
    split.
    + intros r mr [H|H] A Or.
      * injection H as <- <-. left. rewrite I2.
        -- unfold change. apply same_at_spec in A as ->. exact Ef.
        -- intros p' m' H' A'. exfalso. apply (D1 p' m' H'). eapply agree_trans; eauto using agree_sym.
      * destruct (I1 r mr H A Or) as [J|J]; [left; now rewrite (CH r mr H) in J|right]. rewrite J.
        unfold change. destruct (same_at dims p q) eqn:E; [|reflexivity]. apply same_at_spec in E. exfalso.
        apply (D1 r mr H). eapply agree_trans; eauto using agree_sym.
    + intros N. rewrite I2; [|intros p' m' H; apply (N p' m'); cbn; auto].
      unfold change. destruct (same_at dims p q) eqn:E; [|reflexivity]. apply same_at_spec in E.
      rewrite (N p m) in Em by (cbn; auto). discriminate.
  - destruct (IH x R D2 q) as [I1 I2]. split.
    + intros r mr [H|H] A Or; [injection H as <- <-; congruence|eauto].
    + intros N. apply I2. intros p' m' H. apply (N p' m'). cbn; auto.
Qed.
Lemma sweep_fails dims f on l : forall x, respects dims x -> distinct dims l ->
  (exists p m, In (p, m) l /\ on m = true /\ f p (x p) = None) -> snd (sweep dims f on l x) = false.
Proof.
  induction l as [|[p m] l IH]; intros x R D (q & mq & H & O1 & N1); [destruct H|]. destruct D as [D1 D2]. cbn [sweep].
  destruct (on m) eqn:Em.
  - destruct (f p (x p)) as [v|] eqn:Ef; [|reflexivity]. apply IH; auto using change_respects.
    destruct H as [H|H]; [injection H as -> ->; congruence|]. exists q, mq. repeat split; auto.
    unfold change. destruct (same_at dims p q) eqn:E; [|exact N1]. apply same_at_spec in E. exfalso. eapply D1; eauto.
  - apply IH; auto. destruct H as [H|H]; [injection H as -> ->; congruence|]. exists q, mq. auto.
Qed.

(** * The entries visited if arguments and mask have the same labels *)
Definition cell_at (dims row : list string) : pos := puts (fun _ => "") dims row.
Lemma combine_diag (l : list string) : List.combine l l = map (fun a => (a, a)) l.
Proof. induction l as [|a l IH]; cbn; [reflexivity|]. now rewrite IH. Qed.
Lemma axis_diag l : axis l l = Some (map (fun a => (a, a)) l).
Proof. unfold axis. now rewrite Nat.eqb_refl, combine_diag. Qed.
Lemma axes_diag dims (m : string -> list string) :
  axes (map (fun d => (m d, m d)) dims) = Some (map (fun d => map (fun a => (a, a)) (m d)) dims).
Proof. induction dims as [|d dims IH]; cbn; [reflexivity|]. now rewrite axis_diag, IH. Qed.
Lemma product_map {A B} (f : A -> B) ls : CliModel.product (map (map f) ls) = map (map f) (CliModel.product ls).
Proof.
  induction ls as [|l ls IH]; cbn; [reflexivity|]. rewrite IH. induction l as [|a l IHl]; cbn; [reflexivity|].
  rewrite map_app, IHl. f_equal. rewrite !map_map. reflexivity.
Qed.
Lemma visits_diag dims a m : (forall d, In d dims -> a d = m d) ->
  visits dims a m = Some (map (fun row => (cell_at dims row, cell_at dims row)) (CliModel.product (map m dims))).
Proof.
  intros E. unfold visits.
  replace (map (fun d => (a d, m d)) dims) with (map (fun d => (m d, m d)) dims) by (apply map_ext_in; intros d Hd; now rewrite E).
  rewrite axes_diag. f_equal.
  replace (map (fun d => map (fun a => (a, a)) (m d)) dims) with (map (map (fun a : string => (a, a))) (map m dims)) by (rewrite map_map; reflexivity).
  rewrite product_map, map_map. apply map_ext. intros row. rewrite !map_map. cbn. rewrite map_id. reflexivity.
Qed.
Lemma cell_at_in dims : forall row d l, NoDup dims -> List.length row = List.length dims -> In (d, l) (List.combine dims row) ->
  forall p, puts p dims row d = l.
Proof.
  induction dims as [|e dims IH]; intros row d l ND LN H p; [destruct H|]. destruct row as [|r row]; [discriminate|].
  rewrite NoDup_cons_iff in ND. destruct ND as [N ND]. cbn in *. destruct H as [H|H].
  - injection H as -> ->. rewrite puts_other, put_same by exact N. reflexivity.
  - apply IH; auto.
Qed.
Lemma cell_at_map dims row : NoDup dims -> List.length row = List.length dims -> map (cell_at dims row) dims = row.
Proof.
  intros ND LN. unfold cell_at. generalize (fun _ : string => ""). revert row ND LN.
  induction dims as [|e dims IH]; intros row ND LN p; destruct row as [|r row]; try discriminate; [reflexivity|].
  rewrite NoDup_cons_iff in ND. destruct ND as [N ND]. cbn. rewrite puts_other, put_same by exact N. f_equal. apply IH; auto.
Qed.
Lemma cell_at_self dims p : NoDup dims -> agree_on dims (cell_at dims (map p dims)) p.
Proof.
  intros ND. assert (E : map (cell_at dims (map p dims)) dims = map p dims) by (apply cell_at_map; [exact ND|now rewrite map_length]).
  intros d Hd. clear ND. revert E. generalize (cell_at dims (map p dims)). intros q E.
  induction dims as [|e dims IH]; [destruct Hd|]. cbn in E. injection E as E1 E2. destruct Hd as [->|Hd]; auto.
Qed.
Lemma rows_spec dims (m : string -> list string) row : In row (CliModel.product (map m dims)) <->
  Forall2 (fun l d => In l (m d)) row dims.
Proof.
  rewrite product_in. split; intros H.
  - remember (map m dims) as ls eqn:E. revert dims E. induction H as [|x l row ls H1 H2 IH]; intros dims E.
    + destruct dims; [constructor|discriminate].
    + destruct dims as [|d dims]; [discriminate|]. injection E as -> ->. constructor; auto.
  - induction H; cbn; constructor; auto.
Qed.
Lemma row_of p dims (m : string -> list string) : (forall d, In d dims -> In (p d) (m d)) -> In (map p dims) (CliModel.product (map m dims)).
Proof. intros H. apply rows_spec. induction dims as [|d dims IH]; cbn; constructor; [apply H|apply IH; intros; apply H]; cbn; auto. Qed.
Lemma row_in dims m row d : NoDup dims -> In row (CliModel.product (map m dims)) -> In d dims -> In (cell_at dims row d) (m d).
Proof.
  intros ND H Hd. apply rows_spec in H. unfold cell_at. generalize (fun _ : string => ""). revert ND Hd.
  induction H as [|l e row dims H1 H2 IH]; intros ND Hd p; [destruct Hd|]. rewrite NoDup_cons_iff in ND. destruct ND as [N ND]. cbn.
  destruct (in_dec string_dec d dims) as [I1|N1]; [now apply IH|]. destruct Hd as [->|Hd]; [|contradiction].
  rewrite puts_other, put_same by exact N. exact H1.
Qed.
Lemma rows_distinct dims rows : NoDup dims -> NoDup rows -> Forall (fun row => List.length row = List.length dims) rows ->
  distinct dims (map (fun row => (cell_at dims row, cell_at dims row)) rows).
Proof.
  intros ND NR F. induction rows as [|row rows IH]; cbn; [exact I|]. inversion NR; subst. inversion F; subst. split; [|auto].
  intros q m Hq A. apply in_map_iff in Hq as (row' & E & Hr). injection E as <- <-.
  assert (L1 : List.length row' = List.length dims) by (now apply (proj1 (Forall_forall _ _) H4)).
  assert (E : row = row').
  { rewrite <- (cell_at_map dims row ND H3), <- (cell_at_map dims row' ND L1). now apply map_ext_in. }
  subst. contradiction.
Qed.
Lemma rows_length dims (m : string -> list string) : Forall (fun row => List.length row = List.length dims) (CliModel.product (map m dims)).
Proof.
  apply Forall_forall. intros row H. apply rows_spec in H. induction H; cbn; auto.
Qed.
Lemma rows_nodup dims (m : string -> list string) : (forall d, NoDup (m d)) -> NoDup (CliModel.product (map m dims)).
Proof. intros H. apply product_nodup. apply Forall_forall. intros l Hl. apply in_map_iff in Hl as (d & <- & _). apply H. Qed.

Section Diag.
Variable v : vdef.
Variable x : pos -> vstate.
Hypothesis V : variables v x.
Variables (a m : string -> list string).
Hypothesis E : forall d, In d (f_dims v) -> a d = m d.
Hypothesis ND : forall d, NoDup (m d).
Variable f : pos -> vstate -> option vstate.
Hypothesis RF : forall p q s, agree_on (f_dims v) p q -> f p s = f q s.
Variable on : pos -> bool.
Hypothesis RO : forall p q, agree_on (f_dims v) p q -> on p = on q.
Hypothesis RX : forall p, on p = true -> f_exists v p = true.
Definition inside (p : pos) : Prop := forall d, In d (f_dims v) -> In (p d) (m d).
Let dims := f_dims v.
Let g (p : pos) (s : vstate) := if f_exists v p then f p s else None.
Let l := map (fun row => (cell_at dims row, cell_at dims row)) (CliModel.product (map m dims)).

Local Lemma unf : apply_func v f on a m x = sweep dims g on l x.
Proof. unfold apply_func. rewrite (visits_diag _ _ _ E). reflexivity. Qed.
Local Lemma l_distinct : distinct dims l.
Proof. apply rows_distinct; [apply (proj1 V)|apply rows_nodup; exact ND|apply rows_length]. Qed.
Local Lemma x_respects : respects dims x.
Proof. intros p q A. apply (proj1 (proj2 (proj2 V) p q A)). Qed.
Local Lemma l_in p q : In (p, q) l -> q = p /\ inside p.
Proof.
  intros H. apply in_map_iff in H as (row & E1 & H). injection E1 as <- <-. split; [reflexivity|].
  intros d Hd. apply row_in; auto. apply (proj1 V).
Qed.
Local Lemma l_has p : inside p -> exists q, In (q, q) l /\ agree_on dims q p.
Proof.
  intros H. exists (cell_at dims (map p dims)). split; [|apply cell_at_self; apply (proj1 V)].
  apply in_map_iff. exists (map p dims). split; [reflexivity|]. now apply row_of.
Qed.
Local Lemma inside_agree p q : agree_on dims q p -> inside p -> inside q.
Proof. intros A H d Hd. rewrite (A d Hd). auto. Qed.

Lemma apply_ok : (forall p, inside p -> on p = true -> f p (x p) <> None) ->
  exists y, apply_func v f on a m x = (y, true) /\ respects dims y /\
    forall q, (inside q -> on q = true -> f q (x q) = Some (y q)) /\ (~ inside q \/ on q = false -> y q = x q).
Proof.
  intros OK. rewrite unf. destruct (sweep_ok dims g on l x x_respects l_distinct) as (y & H1 & H2 & H3 & H4).
  - intros p q H O1. apply l_in in H as [-> H]. unfold g. rewrite (RX p O1). auto.
  - exists y. split; [exact H1|]. split; [exact H2|]. intros q. split.
    + intros Hq O1. destruct (l_has q Hq) as (r & Hr & A). specialize (H3 r r q Hr A).
      rewrite (RO r q A), O1 in H3. unfold g in H3.
      rewrite (RX r) in H3 by (rewrite (RO r q A); exact O1). rewrite <- H3.
      rewrite (x_respects r q A). symmetry. apply RF. exact A.
    + intros [N|O1].
      * apply H4. intros r mr Hr A. apply l_in in Hr as [_ Hr]. apply N. apply (inside_agree r q); auto. now apply agree_sym.
      * destruct (forallb (fun d => smem (q d) (m d)) dims) eqn:F.
        -- assert (Hq : inside q) by (intros d Hd; apply smem_in; apply (proj1 (forallb_forall _ _) F d Hd)).
           destruct (l_has q Hq) as (r & Hr & A). specialize (H3 r r q Hr A). now rewrite (RO r q A), O1 in H3.
        -- apply H4. intros r mr Hr A. apply l_in in Hr as [_ Hr]. assert (Hq : inside q) by (apply (inside_agree r q); auto using agree_sym).
           rewrite (proj2 (forallb_forall _ _)) in F; [discriminate|]. intros d Hd. apply smem_in. auto.
Qed.
Lemma apply_fails : (exists p, inside p /\ on p = true /\ f p (x p) = None) -> snd (apply_func v f on a m x) = false.
Proof.
  intros (p & Hp & O1 & N). rewrite unf. apply sweep_fails; [exact x_respects|exact l_distinct|].
  destruct (l_has p Hp) as (r & Hr & A). exists r, r. split; [exact Hr|]. split; [now rewrite (RO r p A)|].
  unfold g. destruct (f_exists v r); [|reflexivity]. rewrite (x_respects r p A), (RF r p _ A). exact N.
Qed.
Lemma apply_only q : (inside q -> on q = true -> f q (x q) = Some (fst (apply_func v f on a m x) q) \/ fst (apply_func v f on a m x) q = x q) /\
  (~ inside q \/ on q = false -> fst (apply_func v f on a m x) q = x q).
Proof.
  rewrite unf. destruct (sweep_only dims g on l x x_respects l_distinct q) as [H1 H2]. split.
  - intros Hq O1. destruct (l_has q Hq) as (r & Hr & A). destruct (H1 r r Hr A) as [J|J]; [now rewrite (RO r q A)| |now right].
    left. assert (G : g r (x r) = f q (x q)).
    { unfold g. rewrite (RX r) by (rewrite (RO r q A); exact O1). rewrite (x_respects r q A). now apply RF. }
    now rewrite <- G.
  - intros N. apply H2. intros r mr Hr A. apply l_in in Hr as [-> Hr]. destruct N as [N|O1].
    + exfalso. apply N. apply (inside_agree r q); auto using agree_sym.
    + now rewrite (RO r q A).
Qed.
End Diag.

(** * Labels *)
Lemma insert_sorted x l : StronglySorted (fun a b => String.leb a b = true) (x :: l) -> insert x l = x :: l.
Proof.
  intros H. inversion H as [|? ? _ F]; subst. destruct l as [|y l]; [reflexivity|]. cbn. inversion F as [|? ? G]; subst. now rewrite G.
Qed.
Lemma sort_sorted l : StronglySorted (fun a b => String.leb a b = true) l -> sort l = l.
Proof. induction 1 as [|x l H1 IH H2]; [reflexivity|]. cbn. rewrite IH. apply insert_sorted. now constructor. Qed.
Lemma mask_full v y d : for_variable v y -> full v y -> mask_labels v y d = f_labels v d.
Proof.
  intros _ F. unfold mask_labels. destruct (smem d (r_dims y)) eqn:Ed; [|reflexivity]. apply smem_in in Ed.
  apply filter_id. intros l Hl. apply smem_in. eauto.
Qed.
Lemma labels_eqb_refl l : labels_eqb l l = true.
Proof. unfold labels_eqb. destruct (list_eq_dec string_dec l l); congruence. Qed.
Lemma wide_full v y d : for_variable v y -> full v y -> wide_labels v y d = f_labels v d.
Proof. intros H1 H2. unfold wide_labels. now rewrite (mask_full v y d H1 H2), labels_eqb_refl. Qed.
Lemma wide_ascending v y d : ascending v -> wide_labels v y d = f_labels v d.
Proof.
  intros H. unfold wide_labels. destruct (labels_eqb _ _); [reflexivity|]. destruct (mask_labels v y d); [reflexivity|].
  apply sort_sorted. apply H.
Qed.
Lemma both_mask v y d : usable v (Some y) -> both_labels v y d = mask_labels v y d.
Proof.
  intros [H1 [H2|H2]]; unfold both_labels, mask_labels; [rewrite wide_full by auto|rewrite wide_ascending by auto]; reflexivity.
Qed.
Lemma mask_nodup v x y d : variables v x -> NoDup (mask_labels v y d).
Proof. intros (_ & H & _). unfold mask_labels. destruct (smem d (r_dims y)); [apply NoDup_filter|]; apply H. Qed.
Lemma mask_in v y p : for_variable v y -> (forall d, In d (f_dims v) -> In (p d) (mask_labels v y d)) <->
  (forall d, In d (f_dims v) -> In (p d) (f_labels v d)) /\ forallb (fun d => smem (p d) (r_labels y d)) (r_dims y) = true.
Proof.
  intros [H1 _]. rewrite forallb_forall. unfold mask_labels. split.
  - intros H. split.
    + intros d Hd. specialize (H d Hd). destruct (smem d (r_dims y)); [apply filter_In in H as [H _]|]; exact H.
    + intros d Hd. specialize (H d (H1 d Hd)). apply smem_in in Hd. rewrite Hd in H. apply filter_In in H as [_ H]. exact H.
  - intros [H2 H3] d Hd. destruct (smem d (r_dims y)) eqn:E; [|auto]. apply smem_in in E. apply filter_In. auto.
Qed.

(** * Bounds *)
Lemma set_bound_lb s c x : v_lb (set_bound s c x) = match s with Lower => BNum c | Upper => v_lb x end.
Proof. now destruct s. Qed.
Lemma entry_missing y p : entry_at y p = Miss <-> forallb (fun d => smem (p d) (r_labels y d)) (r_dims y) = false \/ missing (r_at y p) = true.
Proof.
  unfold entry_at. destruct (forallb _ _).
  - destruct (r_at y p); cbn; intuition discriminate.
  - intuition.
Qed.
Lemma agree_incl a b p q : (forall d, In d a -> In d b) -> agree_on b p q -> agree_on a p q.
Proof. intros H A d Hd. auto. Qed.
Lemma changed_bound params v s y x : variables v x -> usable v y -> changeable params (bound_of s v) ->
  exists z, update_bound params v s y x = (z, true) /\ variables v z /\
    forall p, one_of v p -> z p = match given_at y p with Miss => x p | c => set_bound s c (x p) end.
Proof.
  intros V U C. destruct y as [y|]; [|exists x; cbn; auto]. cbn [update_bound].
  replace (match bound_of s v with ByName n => smem n params | ByNumber _ => false end) with false.
  2:{ destruct (bound_of s v) as [n|]; [|reflexivity]. destruct (smem n params) eqn:E; [|reflexivity].
      apply smem_in in E. exfalso. apply (C n eq_refl E). }
  destruct U as [F U]. pose proof F as [F1 F2].
  destruct (apply_ok v x V (both_labels v y) (mask_labels v y)
    (fun d _ => both_mask v y d (conj F U)) (fun d => mask_nodup v x y d V)
    (fun p x => Some (set_bound s (r_at y p) x))) with (on := fun p => f_exists v p && negb (missing (r_at y p)))
    as (z & Hz & Rz & Z).
  - intros p q s' A. now rewrite (F2 p q (agree_incl _ _ p q F1 A)).
  - intros p q A. rewrite (F2 p q (agree_incl _ _ p q F1 A)). now rewrite (proj2 (proj2 (proj2 V) p q A)).
  - intros p H. now apply andb_prop in H as [H _].
  - intros p _ _. discriminate.
  - exists z. split; [exact Hz|]. split.
    + destruct V as (V1 & V2 & V3). split; [exact V1|]. split; [exact V2|]. intros p q A. split; [now apply Rz|apply (V3 p q A)].
    + intros p [P1 P2]. destruct (Z p) as [Z1 Z2]. cbn [given_at]. destruct (entry_at y p) eqn:E.
      { apply Z2. apply entry_missing in E as [E|E].
        - left. intros H. apply (mask_in v y p F) in H as [_ H]. congruence.
        - right. now rewrite E, andb_false_r. }
      all: assert (N : entry_at y p <> Miss) by congruence; unfold entry_at in E;
        destruct (forallb (fun d => smem (p d) (r_labels y d)) (r_dims y)) eqn:Fa; [|discriminate];
        assert (Q : Some (set_bound s (r_at y p) (x p)) = Some (z p))
          by (apply Z1; [exact (proj2 (mask_in v y p F) (conj P1 Fa))|rewrite P2, E; reflexivity]);
        rewrite E in Q; injection Q as <-; reflexivity.
Qed.

(** * Fixing *)
Definition where_of (y : option larr) : larr := match y with Some y => y | None => everywhere end.
Lemma where_for v y : full_where v y -> for_variable v (where_of y) /\ full v (where_of y).
Proof. destruct y as [y|]; [auto|]. intros _. split; [split; cbn; tauto|]. intros d []. Qed.
Lemma chosen_where y p : chosen y p <-> entry_at (where_of y) p = Boo true.
Proof. destruct y as [y|]; cbn; [tauto|]. unfold entry_at. cbn. tauto. Qed.
Lemma holds_chosen v y p : full_where v y -> one_of v p ->
  (chosen y p <-> holds (r_at (where_of y) p) = true).
Proof.
  intros F [P _]. rewrite chosen_where. destruct (where_for v y F) as [F1 F2]. unfold entry_at.
  replace (forallb _ _) with true.
  - unfold holds. destruct (r_at (where_of y) p) as [| | |[]|]; split; congruence.
  - symmetry. apply forallb_forall. intros d Hd. apply smem_in. apply F2; [exact Hd|]. apply P. now apply F1.
Qed.
Section Fix.
Variables (v : vdef) (x : pos -> vstate) (y : option larr).
Hypothesis V : variables v x.
Hypothesis F : full_where v y.
Variable f : vstate -> option vstate.
Let on (p : pos) := f_exists v p && holds (r_at (where_of y) p).
Local Lemma labels d : wide_labels v (where_of y) d = mask_labels v (where_of y) d.
Proof. destruct (where_for v y F). now rewrite wide_full, mask_full. Qed.
Local Lemma on_agree p q : agree_on (f_dims v) p q -> on p = on q.
Proof.
  intros A. unfold on. destruct (where_for v y F) as [[F1 F2] _]. rewrite (F2 p q (agree_incl _ _ p q F1 A)).
  now rewrite (proj2 (proj2 (proj2 V) p q A)).
Qed.
Local Lemma on_exists p : on p = true -> f_exists v p = true.
Proof. intros H. now apply andb_prop in H as [H _]. Qed.
Local Lemma on_one p : inside v (mask_labels v (where_of y)) p /\ on p = true <-> one_of v p /\ chosen y p.
Proof.
  destruct (where_for v y F) as [F1 F2]. unfold inside.
  assert (M : forall d, mask_labels v (where_of y) d = f_labels v d) by (intros; now apply mask_full).
  split.
  - intros [H1 H2]. assert (O1 : one_of v p).
    { split; [|now apply on_exists]. intros d Hd. rewrite <- M. auto. }
    split; [exact O1|]. apply (holds_chosen v y p F O1). unfold on in H2. now apply andb_prop in H2 as [_ H2].
  - intros [O1 C]. split; [intros d Hd; rewrite M; apply O1; exact Hd|]. unfold on.
    rewrite (proj2 O1), (proj1 (holds_chosen v y p F O1) C). reflexivity.
Qed.
Local Lemma out_one p : ~ (one_of v p /\ chosen y p) -> ~ inside v (mask_labels v (where_of y)) p \/ on p = false.
Proof.
  intros N. destruct (on p) eqn:E; [|auto]. left. intros H. apply N. apply on_one. auto.
Qed.
Lemma fix_ok : (forall p, one_of v p -> chosen y p -> f (x p) <> None) ->
  exists z, fix_with f v y x = (z, true) /\ variables v z /\
    forall p, (one_of v p -> chosen y p -> f (x p) = Some (z p)) /\ (~ (one_of v p /\ chosen y p) -> z p = x p).
Proof.
  intros OK. destruct (apply_ok v x V (wide_labels v (where_of y)) (mask_labels v (where_of y)) (fun d _ => labels d)
    (fun d => mask_nodup v x _ d V) (fun _ => f) (fun p q s A => eq_refl) on on_agree on_exists) as (z & Hz & Rz & Z).
  - intros p H1 H2. assert (C : one_of v p /\ chosen y p) by (apply on_one; auto). destruct C. auto.
  - exists z. split; [exact Hz|]. split.
    + destruct V as (V1 & V2 & V3). split; [exact V1|]. split; [exact V2|]. intros p q A. split; [now apply Rz|apply (V3 p q A)].
    + intros p. destruct (Z p) as [Z1 Z2]. split.
      * intros O1 C. destruct (proj2 (on_one p) (conj O1 C)). auto.
      * intros N. apply Z2. now apply out_one.
Qed.
Lemma fix_fails : (exists p, one_of v p /\ chosen y p /\ f (x p) = None) -> snd (fix_with f v y x) = false.
Proof.
  intros (p & O1 & C & N). refine (apply_fails v x V (wide_labels v (where_of y)) (mask_labels v (where_of y)) (fun d _ => labels d)
    (fun d => mask_nodup v x _ d V) (fun _ => f) (fun p q s A => eq_refl) on on_agree _).
  exists p. destruct (proj2 (on_one p) (conj O1 C)). auto.
Qed.
Lemma fix_only p : (one_of v p -> chosen y p -> f (x p) = Some (fst (fix_with f v y x) p) \/ fst (fix_with f v y x) p = x p) /\
  (~ (one_of v p /\ chosen y p) -> fst (fix_with f v y x) p = x p).
Proof.
  destruct (apply_only v x V (wide_labels v (where_of y)) (mask_labels v (where_of y)) (fun d _ => labels d)
    (fun d => mask_nodup v x _ d V) (fun _ => f) (fun p q s A => eq_refl) on on_agree on_exists p) as [H1 H2].
  split.
  - intros O1 C. destruct (proj2 (on_one p) (conj O1 C)). apply H1; auto.
  - intros N. apply H2. now apply out_one.
Qed.
End Fix.

(** Gurobi: any labels. *)
Section GFix.
Variables (v : vdef) (x : pos -> vstate) (y : option larr).
Hypothesis V : variables v x.
Hypothesis F : for_variable v (where_of y).
Let on (p : pos) := f_exists v p && holds (r_at (where_of y) p).
Local Lemma g_on_agree p q : agree_on (f_dims v) p q -> on p = on q.
Proof.
  intros A. unfold on. destruct F as [F1 F2]. rewrite (F2 p q (agree_incl _ _ p q F1 A)).
  now rewrite (proj2 (proj2 (proj2 V) p q A)).
Qed.
Local Lemma g_on_exists p : on p = true -> f_exists v p = true.
Proof. intros H. now apply andb_prop in H as [H _]. Qed.
Local Lemma g_on_one p : inside v (mask_labels v (where_of y)) p /\ on p = true <-> one_of v p /\ chosen y p.
Proof.
  unfold inside. rewrite (mask_in v (where_of y) p F), chosen_where. unfold on, one_of, entry_at.
  rewrite andb_true_iff. destruct (forallb _ _); [|split; [intros [[_ H] _]; discriminate|intros [_ H]; discriminate]].
  unfold holds. destruct (r_at (where_of y) p) as [| | |[]|]; intuition congruence.
Qed.
Lemma g_fix_ok : (forall p, one_of v p -> chosen y p -> v_value (x p) <> None) ->
  exists z, g_fix_variable true v y x = (z, true) /\
    forall p, (one_of v p -> chosen y p -> g_fix_one (x p) = Some (z p)) /\ (~ (one_of v p /\ chosen y p) -> z p = x p).
Proof.
  intros OK. destruct (apply_ok v x V (mask_labels v (where_of y)) (mask_labels v (where_of y)) (fun d _ => eq_refl)
    (fun d => mask_nodup v x _ d V) (fun _ => g_fix_one) (fun p q s A => eq_refl) on g_on_agree g_on_exists) as (z & Hz & Rz & Z).
  - intros p H1 H2. assert (C : one_of v p /\ chosen y p) by (apply g_on_one; auto). destruct C as [C1 C2].
    specialize (OK p C1 C2). unfold g_fix_one. destruct (v_value (x p)); [discriminate|tauto].
  - exists z. split; [exact Hz|]. intros p. destruct (Z p) as [Z1 Z2]. split.
    + intros O1 C. destruct (proj2 (g_on_one p) (conj O1 C)). auto.
    + intros N. apply Z2. destruct (on p) eqn:E; [|auto]. left. intros H. apply N. apply g_on_one. auto.
Qed.
End GFix.

(** * Variables that are not built again *)
Lemma uses_moved D s D' n : (forall m, m <> s -> d_get m D' = d_get m D) -> (forall e, d_get s D' = Some e -> t_refs e = []) ->
  forall m e, d_get m D' = Some e -> In n (t_refs e) -> d_get m D = Some e.
Proof.
  intros H1 H2 m e G Hn. destruct (string_dec m s) as [->|N]; [rewrite (H2 e G) in Hn; destruct Hn|]. now rewrite <- H1.
Qed.
Lemma find_uses D D' s e n l : d_get s D = Some e -> (forall m, m <> s -> d_get m D' = d_get m D) ->
  (forall e, d_get s D' = Some e -> t_refs e = []) -> find_all n D' (t_refs e) = Some l -> forall r, In r l -> uses D s r.
Proof.
  intros G H1 H2 H. 
  assert (K : forall n refs l, find_all n D' refs = Some l -> (forall r, In r refs -> uses D s r) -> forall r, In r l -> uses D s r).
  { clear n l H. induction n as [|n IH]; intros refs l H U r Hr; [discriminate|]. cbn [find_all] in H.
    assert (GG : forall todo acc l, (forall r, In r todo -> uses D s r) -> (forall r, In r acc -> uses D s r) ->
      fold_left (fun acc r =>
          match acc, d_get r D' with
          | Some acc, Some e => match find_all n D' (t_refs e) with Some l => Some (acc ++ l) | None => None end
          | _, _ => None
          end) todo (Some acc) = Some l -> forall r, In r l -> uses D s r).
    { clear H Hr. induction todo as [|t todo IHt]; cbn [fold_left]; intros acc l' U1 U2 H r' Hr'.
      - injection H as <-. auto.
      - destruct (d_get t D') as [e1|] eqn:Et.
        + destruct (find_all n D' (t_refs e1)) as [l1|] eqn:Ef.
          * refine (IHt (acc ++ l1) l' _ _ H r' Hr').
            -- intros q Hq. apply U1. cbn; auto.
            -- intros q Hq. apply in_app_iff in Hq as [Hq|Hq]; [auto|]. refine (IH _ _ Ef _ q Hq).
               intros q' Hq'. apply (uses_more D s t e1 q'); [apply U1; cbn; auto| |exact Hq'].
               apply (uses_moved D s D' q' H1 H2 t e1 Et Hq').
          * exfalso. clear -H. induction todo as [|t' todo IHt]; cbn in H; [discriminate|auto].
        + exfalso. clear -H. induction todo as [|t' todo IHt]; cbn in H; [discriminate|auto]. }
    exact (GG refs refs l U U H r Hr). }
  apply (K n (t_refs e) l H). intros r Hr. apply (uses_one D s e r G Hr).
Qed.
