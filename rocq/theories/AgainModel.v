(** Model of the time settings of a model that is opened, saved and opened again:
    src/calliope/preprocess/model_data.py:668-680, 782-810, 866-924, preprocess/time.py:201-237 and
    src/calliope/model.py:160-223. *)
From Verif Require Export TimeModel.
From Verif Require Import Base.
Local Open Scope string_scope.
Local Open Scope list_scope.
Local Open Scope Z_scope.

(** Inputs over time: the time stamps, and per array its resampling method in the math, if there is
    one, and its values.  Simplification: one time dimension, the others are left out (C22). *)
Record tdata := { t_times : list Z; t_series : list (string * (option method * series)) }.

(** What an ISO date string names: its first and last minute; "2005-01" is a month. *)
Definition period := (Z * Z)%type.

(** schemas/config_schema.py:76-94: the settings [subset.timesteps], [resample.timesteps] and
    [time_cluster]; schemas/runtime_attrs_schema.py:33-42: those applied so far. *)
Record settings := { s_subset : option (list period); s_resample : option Z; s_cluster : option string }.
Record runtime := { r_applied : settings; r_instantiated : bool }.
Record opened := { o_data : tdata; o_runtime : runtime }.

Definition period_eqb (a b : period) : bool := (fst a =? fst b) && (snd a =? snd b).
Fixpoint list_eqb (a b : list period) : bool :=
  match a, b with
  | [], [] => true
  | x :: a, y :: b => period_eqb x y && list_eqb a b
  | _, _ => false
  end.
Definition opt_eqb {A} (e : A -> A -> bool) (a b : option A) : bool :=
  match a, b with None, None => true | Some x, Some y => e x y | _, _ => false end.

(** model_data.py:836-843, the end of [_drop_undefined]: arrays without any value go. *)
Definition gaps (s : series) : bool := forallb (fun tv => match snd tv with None => true | Some _ => false end) s.
Definition drop (d : tdata) : tdata := {| t_times := t_times d; t_series := filter (fun x => negb (gaps (snd (snd x)))) (t_series d) |}.

(** time.py:201-237 [check_time_subset]: the dates of the first minutes are compared with the
    first and last date of the data. *)
Definition check_subset (ts : list Z) (l : list period) : result (period * period) :=
  match l with
  | [a; b] =>
      if (date (fst b) <? date (hd 0 ts)) || (date (last ts 0) <? date (fst a)) then Err EModel else Ok (a, b)
  | _ => Err EModel
  end.
(** model_data.py:866-909: [.sel(timesteps=slice(start, end))] goes up to the last minute that the end names. *)
Definition keep (p : Z -> bool) (d : tdata) : tdata :=
  {| t_times := filter p (t_times d);
     t_series := map (fun x => (fst x, (fst (snd x), filter (fun tv => p (fst tv)) (snd (snd x))))) (t_series d) |}.
Definition subset (o : option (list period)) (d : tdata) : result tdata :=
  match o with
  | None => Ok (drop d)
  | Some l => bind (check_subset (t_times d) l) (fun ab =>
      Ok (drop (keep (fun t => (fst (fst ab) <=? t) && (t <=? snd (snd ab))) d)))
  end.

(** model_data.py:911-924 and time.py:70-128: an array without a method cannot be resampled. *)
Fixpoint resample_all (step : Z) (l : list (string * (option method * series))) : result (list (string * (option method * series))) :=
  match l with
  | [] => Ok []
  | (n, (None, _)) :: _ => Err EModel
  | (n, (Some m, s)) :: r => bind (resample_all step r) (fun r' => Ok ((n, (Some m, resample m step s)) :: r'))
  end.
Definition resample_data (o : option Z) (d : tdata) : result tdata :=
  match o with
  | None => Ok d
  | Some step => bind (resample_all step (t_series d)) (fun l => Ok {| t_times := labels (t_times d) step; t_series := l |})
  end.

(** time.py:18-45 [add_inferred_time_params], in minutes; methods of math/base.yaml:437-447. *)
Definition infer (d : tdata) : tdata :=
  {| t_times := t_times d;
     t_series := d_set "timestep_weights" (Some MMean, map (fun t => (t, Some 1%Q)) (t_times d))
       (d_set "timestep_resolution" (Some MSum, combine (t_times d) (map (fun z => Some (inject_Z z)) (resolutions (t_times d)))) (t_series d)) |}.

Section Open.
(** The representative days that a clustering array gives ([time_cluster] names the array). *)
Variable days : string -> option (list (Z * Z)).

(** time.py:131-173: steps of other days are dropped, the weights replaced.  Simplification: the
    look-up arrays are left out (C23). *)
Definition cluster_data (n : string) (d : tdata) : result tdata :=
  match days n with
  | None => Err EKey
  | Some a =>
      let k := keep (fun t => memZ (date t) (map snd a)) d in
      Ok {| t_times := t_times k;
            t_series := d_set "timestep_weights" (Some MMean, map (fun tw => (fst tw, Some (inject_Z (Z.of_nat (snd tw))))) (c_weight (cluster a (t_times d)))) (t_series k) |}
  end.

(** model_data.py:686-697 [clean], with 782-810 [update_and_resample_dimensions].  [c] is the configuration
    with the keywords of this opening merged in (model.py:188-190): a setting stays unless another one, or [None],
    is given; the record (810) then has the same settings.  Simplifications: there is a time dimension (784-789);
    other dimensions, colours, distances and types are left out. *)
Definition open (c : settings) (o : opened) : result opened :=
  let r := r_applied (o_runtime o) in
  let d := drop (o_data o) in
  bind (if opt_eqb list_eqb (s_subset c) (s_subset r) then Ok d else subset (s_subset c) d) (fun d1 =>
  bind (if opt_eqb Z.eqb (s_resample c) (s_resample r) then Ok d1 else resample_data (s_resample c) d1) (fun d2 =>
  let d3 := if r_instantiated (o_runtime o) then d2 else infer d2 in
  bind (match s_cluster r, s_cluster c with
        | None, Some n => cluster_data n d3
        | a, b => if opt_eqb String.eqb b a then Ok d3 else Err EModel
        end) (fun d4 =>
  Ok {| o_data := d4; o_runtime := {| r_applied := c; r_instantiated := true |} |}))).

(** model.py:160-223: a model saved and opened again, once per entry. *)
Fixpoint opens (cs : list settings) (o : opened) : result opened :=
  match cs with
  | [] => Ok o
  | c :: r => bind (open c o) (opens r)
  end.
End Open.
Definition no_settings : settings := {| s_subset := None; s_resample := None; s_cluster := None |}.
(** A model made from its definition. *)
Definition defined (d : tdata) : opened := {| o_data := d; o_runtime := {| r_applied := no_settings; r_instantiated := false |} |}.
