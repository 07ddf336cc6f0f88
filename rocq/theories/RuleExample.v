(** Small systems for the examples on single rules.  They are not code of the package; they only provide data. *)
From Coq Require Import QArith Qcanon.
From Verif Require Import Base BaseProofs LangModel MathText EvalModel EvalSpec BuildModel BuildSpec HelperModel HelperSpec ShipModel ShipSpec ShipExample NetSpec NetExample NetProofs PlaceSpec ShipPlace RuleText RuleProofs MilpProofs ShipFast.
Local Open Scope nat_scope.
Local Open Scope string_scope.
Local Open Scope list_scope.

Ltac proper_system :=
  split; [|vm_compute; repeat constructor; cbn; intuition discriminate]; apply system_sound;
  [intros d l H; repeat (destruct H as [E|H]; [injection E as <- <-; repeat constructor; cbn; intuition discriminate|]); destruct H
  |intros s a H; repeat (destruct H as [E|H]; [injection E as <- <-; apply table_local|]); destruct H
  |apply table_local].
Ltac sited_by P := split; [exact P|split; [intros d H E; vm_compute in H; repeat (destruct H as [<- |H]; [vm_compute in E; discriminate|]); destruct H|split;
  [split; [cbn; repeat constructor; cbn; intuition discriminate|intros d v H; repeat (destruct H as [E|H]; [injection E as <- <-; vm_compute; intuition|]); destruct H]
  |split; [intros d H; vm_compute in H |- *; intuition|reflexivity]]]].
Ltac dims_in := intros d ID; vm_compute in ID |- *; intuition.
Ltac is_given := split; [dims_in|split; [reflexivity|eexists; vm_compute; reflexivity]].
Ltac is_as := split; [dims_in|vm_compute; reflexivity].
Ltac is_num := split; [dims_in|eexists; vm_compute; reflexivity].
Ltac is_over := split; [vm_compute; intuition|intros v IV; vm_compute in IV; repeat (destruct IV as [<- |IV]; [is_num|]); destruct IV].
Ltac is_equal := apply Qc_is_canon; vm_compute; reflexivity.

(** ** One place with loads, a plant, a wind park, a boiler and a battery. *)
Definition third_quarter : Qc := Q2Qc (3 # 4).
Definition town_labels : list (string * list string) :=
  [("nodes", ["here"]); ("techs", ["load"; "flex"; "shop"; "plant"; "wind"; "boiler"; "battery"]); ("carriers", ["power"; "heat"]); ("timesteps", ["t0"])].
Definition town_placed : list (list string * cell) :=
  map (fun k => (k, Boo true)) [["here"; "load"; "power"]; ["here"; "flex"; "power"]; ["here"; "shop"; "heat"]; ["here"; "plant"; "power"]; ["here"; "wind"; "power"]; ["here"; "boiler"; "power"]; ["here"; "boiler"; "heat"]; ["here"; "battery"; "power"]].
Definition flow_rows (rows : list (string * string * cell)) : list (list string * cell) := map (fun r => (["here"; fst (fst r); snd (fst r); "t0"], snd r)) rows.
Definition three : list string := ["nodes"; "techs"; "carriers"].
Definition use_dims : list string := ["nodes"; "techs"; "timesteps"].
Definition site_dims : list string := ["nodes"; "techs"].
Definition town_arrays : list (string * darr) :=
  [("base_tech", rows_of ["techs"] [(["load"], Txt "demand"); (["flex"], Txt "demand"); (["shop"], Txt "demand"); (["plant"], Txt "supply"); (["wind"], Txt "supply"); (["boiler"], Txt "conversion"); (["battery"], Txt "storage")]);
   ("carrier_in", rows_of three (map (fun k => (k, Boo true)) [["here"; "load"; "power"]; ["here"; "flex"; "power"]; ["here"; "shop"; "heat"]; ["here"; "boiler"; "power"]; ["here"; "battery"; "power"]]));
   ("carrier_out", rows_of three (map (fun k => (k, Boo true)) [["here"; "plant"; "power"]; ["here"; "wind"; "power"]; ["here"; "boiler"; "heat"]; ["here"; "battery"; "power"]]));
   ("timestep_resolution", rows_of ["timesteps"] [(["t0"], num 2)]);
   ("flow_in", rows_of four (flow_rows [("load", "power", num 8); ("shop", "heat", num 2); ("flex", "power", num 6); ("boiler", "power", num 4); ("battery", "power", num 3)]));
   ("flow_out", rows_of four (flow_rows [("plant", "power", num 15); ("wind", "power", num 7); ("boiler", "heat", num 2); ("battery", "power", num 2)]));
   ("flow_in_inc_eff", rows_of four (flow_rows [("load", "power", num 6); ("shop", "heat", num 2); ("flex", "power", num 6); ("boiler", "power", num 4); ("battery", "power", num 3)]));
   ("flow_out_inc_eff", rows_of four (flow_rows [("plant", "power", num 20); ("wind", "power", num 7); ("boiler", "heat", num 4); ("battery", "power", num 2)]));
   ("flow_in_eff", rows_of ["techs"] [(["load"], Val third_quarter)]);
   ("flow_out_eff", rows_of ["techs"] [(["plant"], Val third_quarter); (["boiler"], Val half)]);
   ("flow_export", rows_of four (flow_rows [("plant", "power", num 3)]));
   ("sink_use_equals", rows_of use_dims [(["here"; "load"; "t0"], num 6); (["here"; "shop"; "t0"], Val half)]);
   ("sink_use_max", rows_of use_dims [(["here"; "flex"; "t0"], num 4)]);
   ("sink_use_min", rows_of use_dims [(["here"; "flex"; "t0"], num 1)]);
   ("sink_unit", rows_of ["techs"] [(["flex"], Txt "per_area"); (["shop"], Txt "per_cap")]);
   ("source_unit", rows_of ["techs"] [(["plant"], Txt "per_area"); (["wind"], Txt "per_cap")]);
   ("area_use", rows_of site_dims [(["here"; "plant"], num 4); (["here"; "flex"], num 2)]);
   ("area_use_per_flow_cap", rows_of ["techs"] [(["plant"], Val quarter)]);
   ("available_area", rows_of ["nodes"] [(["here"], num 7)]);
   ("source_use", rows_of use_dims [(["here"; "plant"; "t0"], num 20); (["here"; "wind"; "t0"], num 7)]);
   ("source_use_equals", rows_of use_dims [(["here"; "plant"; "t0"], num 5)]);
   ("source_use_max", rows_of use_dims [(["here"; "wind"; "t0"], num 2)]);
   ("source_use_min", rows_of use_dims [(["here"; "wind"; "t0"], num 1)]);
   ("source_cap", rows_of site_dims [(["here"; "plant"], num 16)]);
   ("source_cap_equals_flow_cap", rows_of ["techs"] [(["plant"], Boo true)]);
   ("flow_cap", rows_of three [(["here"; "load"; "power"], num 4); (["here"; "flex"; "power"], num 5); (["here"; "shop"; "heat"], num 4); (["here"; "plant"; "power"], num 16); (["here"; "wind"; "power"], num 4);
     (["here"; "boiler"; "power"], num 2); (["here"; "boiler"; "heat"], num 1); (["here"; "battery"; "power"], num 4)]);
   ("flow_cap_max_systemwide", rows_of ["techs"; "carriers"] [(["plant"; "power"], num 20)]);
   ("flow_cap_min_systemwide", rows_of ["techs"; "carriers"] [(["plant"; "power"], num 10)]);
   ("flow_out_min_relative", rows_of ["techs"] [(["plant"], Val quarter)]);
   ("storage", rows_of use_dims [(["here"; "battery"; "t0"], num 5)]);
   ("storage_cap", rows_of site_dims [(["here"; "battery"], num 8)]);
   ("storage_discharge_depth", rows_of ["techs"] [(["battery"], Val half)]);
   ("flow_cap_per_storage_cap_min", rows_of ["techs"] [(["battery"], Val quarter)]);
   ("flow_cap_per_storage_cap_max", rows_of ["techs"] [(["battery"], Val half)])].
Definition town_defaults : list (string * cell) :=
  map (fun s => (s, num 0)) (flows ++ slacks ++ ["flow_out_inc_eff"; "flow_in_inc_eff"; "flow_cap"; "area_use"; "source_use"; "storage"; "storage_cap"]) ++
  map (fun s => (s, num 1)) ["flow_out_eff"; "flow_out_parasitic_eff"; "flow_out_eff_per_distance"; "distance"; "flow_in_eff"; "flow_in_eff_per_distance"; "source_eff"] ++
  [("sink_unit", Txt "absolute"); ("source_unit", Txt "absolute"); ("include_storage", Boo false); ("source_cap_equals_flow_cap", Boo false)].
Definition town : world := system town_labels town_arrays town_defaults (rows_of three town_placed).
Lemma town_proper : proper town.
Proof. proper_system. Qed.
Lemma town_flow t c : In (t, c) [("load", "power"); ("flex", "power"); ("shop", "heat"); ("plant", "power"); ("wind", "power"); ("boiler", "power"); ("boiler", "heat"); ("battery", "power")] -> sited town (flow_at "here" t c "t0").
Proof. intros H; repeat (destruct H as [E|H]; [injection E as <- <-; sited_by town_proper|]); destruct H. Qed.
Lemma town_cap t c : In (t, c) [("plant", "power"); ("battery", "power")] -> sited town (cap_at "here" t c).
Proof. intros H; repeat (destruct H as [E|H]; [injection E as <- <-; sited_by town_proper|]); destruct H. Qed.
Definition base_names : names := math_names (layered base_math).
Lemma base_shared : In base_math shipped.
Proof. vm_compute; intuition. Qed.
Lemma base_plain : In base_math plain_lists.
Proof. left; reflexivity. Qed.
(** The constraints of base.yaml that hold in a system, by their texts. *)
Definition shared_ok (U : world) : bool := forallb (holds_text base_names U) shared_texts.
Definition plain_ok (U : world) : bool := forallb (holds_text base_names U) plain_texts.
Lemma listed_ok U names texts s : List.length texts = List.length names -> forallb (holds_text base_names U) texts = true ->
  (forall i c, nth_error names i = Some s -> find_in (h_constraints (layered base_math)) s = Some c ->
    told as_listed (layered base_math) "constraints" c (fe_of (nth i texts no_text)) (where_of (nth i texts no_text)) (eqs_of (nth i texts no_text))) ->
  In s names -> find_in (h_constraints (layered base_math)) s <> None -> constraint_holds as_listed (layered base_math) U s.
Proof.
  intros LE OK TO IS FN; apply In_nth_error in IS as (i & EN); destruct (find_in _ s) as [c|] eqn:FC; [|destruct (FN eq_refl)]; exists c; split; [exact FC|].
  apply (holds_text_sound _ _ _ _ _ (TO i c EN eq_refl)); rewrite forallb_forall in OK; apply OK, nth_In; rewrite LE; apply nth_error_Some; rewrite EN; discriminate.
Qed.
Lemma shared_holds U s : shared_ok U = true -> In s shared_names -> constraint_holds as_listed (layered base_math) U s.
Proof.
  intros OK IS; apply (listed_ok U shared_names shared_texts s eq_refl OK).
  - intros i c EN FC; exact (shared_told as_listed as_listed_set base_math base_shared i s c EN FC).
  - exact IS.
  - repeat (destruct IS as [<- |IS]; [vm_compute; discriminate|]); destruct IS.
Qed.
Lemma plain_holds U s : plain_ok U = true -> In s plain_names -> constraint_holds as_listed (layered base_math) U s.
Proof.
  intros OK IS; apply (listed_ok U plain_names plain_texts s eq_refl OK).
  - intros i c EN FC; exact (plain_told as_listed as_listed_set base_math i s c base_plain EN FC).
  - exact IS.
  - repeat (destruct IS as [<- |IS]; [vm_compute; discriminate|]); destruct IS.
Qed.
Lemma town_checked : shared_ok town && plain_ok town && check_expression as_listed (layered base_math) town "flow_in_inc_eff" && check_expression as_listed (layered base_math) town "flow_out_inc_eff" = true.
Proof. vm_compute; reflexivity. Qed.
Lemma town_shared s : In s shared_names -> constraint_holds as_listed (layered base_math) town s.
Proof. pose proof town_checked as C; apply andb_prop in C as (C & _); apply andb_prop in C as (C & _); apply andb_prop in C as (C & _); apply shared_holds, C. Qed.
Lemma town_plain s : In s plain_names -> constraint_holds as_listed (layered base_math) town s.
Proof. pose proof town_checked as C; apply andb_prop in C as (C & _); apply andb_prop in C as (C & _); apply andb_prop in C as (_ & C); apply plain_holds, C. Qed.
Lemma town_in : expression_is as_listed (layered base_math) town "flow_in_inc_eff".
Proof. pose proof town_checked as C; apply andb_prop in C as (C & _); apply andb_prop in C as (_ & C); apply check_expression_sound, C. Qed.
Lemma town_out : expression_is as_listed (layered base_math) town "flow_out_inc_eff".
Proof. pose proof town_checked as C; apply andb_prop in C as (_ & C); apply check_expression_sound, C. Qed.

(** ** A line between two places. *)
Definition cable_labels : list (string * list string) := [("nodes", ["north"; "south"]); ("techs", ["line"]); ("carriers", ["power"])].
Definition cable_arrays : list (string * darr) :=
  [("base_tech", rows_of ["techs"] [(["line"], Txt "transmission")]); ("flow_cap", rows_of three [(["north"; "line"; "power"], num 3); (["south"; "line"; "power"], num 3)]);
   ("link_flow_cap", rows_of ["techs"] [(["line"], num 3)])].
Definition cable : world := system cable_labels cable_arrays [] (rows_of three [(["north"; "line"; "power"], Boo true); (["south"; "line"; "power"], Boo true)]).
Lemma cable_proper : proper cable.
Proof. proper_system. Qed.
Lemma cable_ends n : In n ["north"; "south"] -> sited cable (cap_at n "line" "power").
Proof. intros H; destruct H as [<- |[<- |[]]]; sited_by cable_proper. Qed.
Lemma cable_holds : constraint_holds as_listed (layered base_math) cable "symmetric_transmission".
Proof. apply check_constraint_sound; vm_compute; reflexivity. Qed.
