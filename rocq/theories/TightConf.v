(** Further theorems on C14, C85 and C88, found missing by changing the model. *)
From Verif Require Import Base BaseProofs AttrDictModel AttrDictSpec AttrDictProofs AttrDictUnion AttrDictMore NodeLinks ConfigModel ConfigSpec.
From Verif Require DataModel TableModel.
Local Open Scope string_scope.
Local Open Scope list_scope.

(** * C14: updating with nothing leaves an object as it is *)
Theorem C14_update_none sc o : instance sc o -> update sc o VNone = Ok o.
Proof. intros I; exact I. Qed.
Print Assumptions C14_update_none.
Example C14_update_none_example :
  let sc := SModel [("mode", (VInt 0, SLeaf (fun v => Ok v)))] (fun _ => true) in
  instance sc (OModel [("mode", OLeaf (VInt 3))]) /\ update sc (OModel [("mode", OLeaf (VInt 3))]) VNone = Ok (OModel [("mode", OLeaf (VInt 3))]).
Proof. split; reflexivity. Qed.

Section Tables.
Import DataModel TableModel.

(** * C85: the arrays *)
(** A table with one level besides the inputs, without a name, gives arrays over "index". *)
Theorem C85_index s i a : s_names s = [Some "inputs"; None] \/ s_names s = [None; Some "inputs"] ->
  In (i, a) (vars (to_dataset s)) -> a_dims a = ["index"].
Proof.
  intros N I; unfold to_dataset in I; cbn [vars] in I; apply in_map_iff in I; destruct I as (j & E & _); injection E as _ <-; cbn [a_dims].
  unfold dims_left; destruct N as [N|N]; rewrite N; reflexivity.
Qed.
Print Assumptions C85_index.

(** An array of flags comes from entries that are all flags, and only from them. *)
Theorem C85_flags s i a : In (i, a) (vars (to_dataset s)) ->
  (a_bool a = true <-> forall ls c, In (ls, c) (s_entries s) -> nth (level_of "inputs" (s_names s)) ls "" = i -> exists b, c = Bo b).
Proof.
  intros I; unfold to_dataset in I; cbn [vars] in I; apply in_map_iff in I; destruct I as (j & E & _); injection E as -> <-; cbn [a_bool].
  rewrite forallb_forall; split.
  - intros H ls c I Ni; specialize (H (ls, c)); cbn [snd] in H; destruct c as [|b|z|t]; try (eexists; reflexivity);
      exfalso; enough (X : false = true) by discriminate; apply H; apply filter_In; (split; [exact I|]); cbn [fst]; apply String.eqb_eq; exact Ni.
  - intros H [ls c] I; apply filter_In in I; destruct I as [I Ni]; cbn [fst] in Ni; apply String.eqb_eq in Ni.
    destruct (H ls c I Ni) as [b ->]; reflexivity.
Qed.
Print Assumptions C85_flags.
Example C85_flags_example :
  let s := {| s_names := [Some "inputs"; None]; s_entries := [(["a"; "x"], Bo true); (["b"; "x"], Num 1)] |} in
  map (fun v => (fst v, a_dims (snd v), a_bool (snd v))) (vars (to_dataset s)) = [("a", ["index"], true); ("b", ["index"], false)].
Proof. reflexivity. Qed.

(** * C88: base technologies and ends of links *)
(** What a cell holds. *)
Inductive holds : cell -> val -> Prop :=
| h_bool b : holds (Bo b) (VBool b)
| h_num z : holds (Num z) (VInt z)
| h_str s : holds (Str s) (VStr s).
Definition entry_for (ds : dset) (p : string) (t : string) (v : val) : Prop :=
  exists a, d_get p (vars ds) = Some a /\ In t (members ds "techs") /\ holds (a_at a (fun d => if String.eqb d "techs" then t else "")) v.

Lemma holds_val c v : holds c v <-> is_nan c = false /\ v = val_of c.
Proof. split; [intros []; auto|]; destruct c; cbn; intros [N ->]; try discriminate N; constructor. Qed.

Lemma not_leaf d : ~ leaf (VDict d).
Proof. unfold leaf; discriminate. Qed.

Lemma layer_path (f : string -> val) p ts q v : (forall t, leaf (f t)) -> q <> [] ->
  (at_path (VDict (map (fun t => (t, VDict [(p, f t)])) ts)) q v <->
   exists t, In t ts /\ ((q = [t] /\ v = VDict [(p, f t)]) \/ (q = [t; p] /\ v = f t))).
Proof.
  intros LF NN; split.
  - intros H; inversion H as [|k w items r x I A]; subst; [congruence|].
    apply in_map_iff in I; destruct I as (t & E & I); injection E as <- <-; exists t; split; [exact I|].
    inversion A as [|k' w' items' r' x' I' A']; subst; [left; auto|].
    destruct I' as [E|[]]; injection E as <- <-; right.
    inversion A' as [|k2 w2 it2 r2 x2 I2 A2 E2]; subst; [auto|].
    specialize (LF t); rewrite <- E2 in LF; discriminate LF.
  - intros (t & I & [[-> ->]|[-> ->]]); (eapply at_below; [apply in_map_iff; exists t; split; [reflexivity|exact I]|]).
    + apply at_here.
    + eapply at_below; [left; reflexivity|apply at_here].
Qed.

Lemma base_ok ds ps : NoDup (members ds "techs") -> NoDup ps ->
  (forall p a, In p ps -> d_get p (vars ds) = Some a -> a_dims a = ["techs"]) ->
  forall acc, wf (VDict acc) -> (forall k w, def_key (VDict acc) k w -> exists t p, k = [t; p] /\ ~ In p ps) ->
  exists b, base_data ps ds acc = Ok b /\
    forall q v, leaf v -> (at_path (VDict b) q v <-> at_path (VDict acc) q v \/ exists t p, In p ps /\ q = [t; p] /\ entry_for ds p t v).
Proof.
  intros NT; induction ps as [|p ps IH]; intros NP DM acc WA FA; cbn [base_data].
  - exists acc; split; [reflexivity|]; intros q v _; split; [auto|]; intros [H|(t & p & [] & _)]; exact H.
  - inversion NP as [|? ? NI NP']; subst.
    assert (DM' : forall p0 a, In p0 ps -> d_get p0 (vars ds) = Some a -> a_dims a = ["techs"]) by (intros; eapply DM; [right|]; eassumption).
    destruct (d_get p (vars ds)) as [a|] eqn:G.
    + rewrite (DM p a (or_introl eq_refl) G); destruct (list_eq_dec string_dec ["techs"] ["techs"]) as [_|X]; [|congruence].
      set (f := fun t => val_of (a_at a (at_tech t))); set (ts := filter (fun t => negb (is_nan (a_at a (at_tech t)))) (members ds "techs")).
      assert (LF : forall t, leaf (f t)) by (intros t; unfold f, leaf; destruct (a_at a (at_tech t)); reflexivity).
      set (B := map (fun t => (t, VDict [(p, f t)])) ts).
      change (map (fun t => (t, VDict [(p, val_of (a_at a (at_tech t)))])) ts) with B.
      assert (WB : wf (VDict B)).
      { apply wf_dict.
        - unfold B; rewrite map_map; cbn [fst]; rewrite map_id; apply NoDup_filter, NT.
        - apply Forall_forall; intros x I; apply in_map_iff in I; destruct I as (t & <- & _); cbn [snd].
          apply wf_dict; [repeat constructor; intros []|]; constructor; [apply wf_leaf, LF|constructor]. }
      assert (FB : forall k w, def_key (VDict B) k w -> exists t, k = [t; p]).
      { intros k w (NN & A & D); apply (layer_path f p ts k w LF NN) in A; destruct A as (t & _ & [[-> ->]|[-> ->]]); [|eauto].
        destruct D as [D|D]; [destruct (not_leaf _ D)|discriminate D]. }
      assert (DJ : disjoint_keys (VDict acc) (VDict B)).
      { intros k w k' w' H H'; destruct (FA _ _ H) as (t & p' & -> & N'), (FB _ _ H') as (t' & ->).
        intros [[r E]|[r E]]; cbn in E; injection E as _ E _; apply N'; left; congruence. }
      destruct (union_strict_ok acc B WA WB DJ) as (acc' & E & W' & L); rewrite E; cbn [to_result bind].
      destruct (IH NP' DM' acc' W') as (b & Eb & Lb).
      { intros k w H; destruct (union_disjoint_keys acc B acc' WA WB W' DJ E L k w H) as [X|X].
        - destruct (FA _ _ X) as (t & p' & -> & N'); exists t, p'; split; [reflexivity|]; intros I; apply N'; right; exact I.
        - destruct (FB _ _ X) as (t & ->); exists t, p; auto. }
      exists b; split; [exact Eb|]; intros q v Lv; rewrite (Lb q v Lv), (L q v Lv).
      assert (LB : at_path (VDict B) q v <-> exists t, q = [t; p] /\ entry_for ds p t v).
      { destruct q as [|q0 q1].
        - split; [intros A; inversion A; subst; exfalso; exact (not_leaf _ Lv)|intros (t & X & _); discriminate X].
        - unfold B; rewrite (layer_path f p ts (q0 :: q1) v LF (@not_eq_sym _ _ _ (@nil_cons _ q0 q1))); split.
          + intros (t & I & [[_ ->]|[Q ->]]); [exfalso; exact (not_leaf _ Lv)|]; exists t; split; [exact Q|].
            apply filter_In in I; destruct I as [I N]; apply negb_true_iff in N.
            exists a; split; [exact G|split; [exact I|]]; apply holds_val; split; [exact N|reflexivity].
          + intros (t & Q & a' & G' & I & H); rewrite G in G'; injection G' as <-; apply holds_val in H; destruct H as [N ->].
            exists t; split; [apply filter_In; split; [exact I|]; apply negb_true_iff; exact N|]; right; split; [exact Q|reflexivity]. }
      rewrite LB; split.
      * intros [[H|(t & Q & H)]|(t & p' & I & Q & H)]; [auto| |]; right; [exists t, p|exists t, p']; cbn; auto.
      * intros [H|(t & p' & [<-|I] & Q & H)]; [auto| |]; [left; right; eauto|right; exists t, p'; auto].
    + destruct (IH NP' DM' acc WA) as (b & Eb & Lb).
      { intros k w H; destruct (FA k w H) as (t & p' & -> & N'); exists t, p'; split; [reflexivity|]; intros I; apply N'; right; exact I. }
      exists b; split; [exact Eb|]; intros q v Lv; rewrite (Lb q v Lv); split.
      * intros [H|(t & p' & I & Q & H)]; [auto|]; right; exists t, p'; cbn; auto.
      * intros [H|(t & p' & [<-|I] & Q & H)]; [auto| |right; exists t, p'; auto]; destruct H as (a & G' & _); congruence.
Qed.

(** A table gives an empty definition for every technology it names, and the base technology and the ends of links that
    it has entries for; nothing else. *)
Theorem C88_technologies ds : NoDup (members ds "techs") ->
  (forall p a, In p ["base_tech"; "link_to"; "link_from"] -> d_get p (vars ds) = Some a -> a_dims a = ["techs"]) ->
  exists ts b, tech_dict ds = Ok (ts, b) /\
    (forall t v, In (t, v) ts <-> In t (members ds "techs") /\ v = VDict []) /\
    forall q v, leaf v -> (at_path (VDict b) q v <-> exists t p, In p ["base_tech"; "link_to"; "link_from"] /\ q = [t; p] /\ entry_for ds p t v).
Proof.
  intros NT DM; destruct (base_ok ds yaml_params NT) with (acc := @nil (string * val)) as (b & E & L).
  - unfold yaml_params; repeat (constructor; [cbn; intuition discriminate|]); constructor.
  - exact DM.
  - apply wf_dict; constructor.
  - intros k w (NN & A & _); inversion A as [|? ? ? ? ? I]; subst; [congruence|destruct I].
  - eexists _, b; unfold tech_dict; rewrite E; cbn [bind]; split; [reflexivity|split].
    + intros t v; rewrite in_map_iff; split; [intros (x & X & I); injection X as <- <-; auto|intros [I ->]; exists t; auto].
    + intros q v Lv; rewrite (L q v Lv); split; [|auto]; intros [A|H]; [|exact H].
      inversion A as [|? ? ? ? ? I]; subst; [exfalso; exact (not_leaf _ Lv)|destruct I].
Qed.
Print Assumptions C88_technologies.

(** One of them over other dimensions is refused, as the first such. *)
Theorem C88_other_dimensions ds a : d_get "base_tech" (vars ds) = Some a -> a_dims a <> ["techs"] -> tech_dict ds = Err EType.
Proof.
  intros G N; unfold tech_dict, yaml_params; cbn [base_data]; rewrite G; destruct (list_eq_dec string_dec (a_dims a) ["techs"]); [congruence|reflexivity].
Qed.
Print Assumptions C88_other_dimensions.

Definition ex_links : dset :=
  {| coords := [("techs", ["pv"; "line"])];
     vars := [("base_tech", {| a_dims := ["techs"]; a_bool := false; a_at := fun p => if String.eqb (p "techs") "pv" then Str "supply" else Str "transmission" |});
              ("link_from", {| a_dims := ["techs"]; a_bool := false; a_at := fun p => if String.eqb (p "techs") "pv" then NaN else Str "r1" |})] |}.
Example C88_technologies_example :
  tech_dict ex_links = Ok ([("pv", VDict []); ("line", VDict [])],
    [("pv", VDict [("base_tech", VStr "supply")]); ("line", VDict [("base_tech", VStr "transmission"); ("link_from", VStr "r1")])]).
Proof. reflexivity. Qed.
End Tables.
