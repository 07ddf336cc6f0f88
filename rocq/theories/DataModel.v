(** Model of the assembly and cleaning of the input arrays:
    src/calliope/preprocess/model_data.py:560-576, 699-718, 812-845, 866-909. *)
From Verif Require Import Base.
Local Open Scope string_scope.
Local Open Scope list_scope.

(** An array entry. *)
Inductive cell := NaN | Bo (b : bool) | Num (z : Z) | Str (s : string).

(** A position: the member chosen on each dimension. *)
Definition pos := string -> string.
Definition upd (i : pos) (d m : string) : pos := fun x => if String.eqb x d then m else i x.

(** A labelled array; [a_at] is consulted only at members of the dataset's coordinates and
    looks only at the dimensions of the array.  [a_bool]: the array is of Boolean type. *)
Record array := { a_dims : list string; a_bool : bool; a_at : pos -> cell }.
Record dset := { coords : list (string * list string); vars : list (string * array) }.

Definition members (ds : dset) (d : string) : list string :=
  match d_get d (coords ds) with Some l => l | None => [] end.

Definition is_nan (c : cell) : bool := match c with NaN => true | _ => false end.
Definition is_true (c : cell) : bool := match c with Bo b => b | _ => false end.

(** [.any(dims)] and [.all(dims)] *)
Fixpoint any_over (ds : dset) (dims : list string) (f : pos -> bool) (i : pos) : bool :=
  match dims with
  | [] => f i
  | d :: r => existsb (fun m => any_over ds r f (upd i d m)) (members ds d)
  end.
Definition all_over (ds : dset) (dims : list string) (f : pos -> bool) (i : pos) : bool :=
  negb (any_over ds dims (fun j => negb (f j)) i).

Definition def_dims : list string := ["nodes"; "techs"; "carriers"].
Definition origin : pos := fun _ => "".

(** model_data.py:707-716: entries that are irrelevant are made missing, or False in Boolean
    arrays. *)
Definition mask (ds : dset) (def : pos -> bool) (a : array) : array :=
  let non_dims := filter (fun d => negb (smem d (a_dims a))) def_dims in
  {| a_dims := a_dims a; a_bool := a_bool a;
     a_at := fun i =>
       let c := if any_over ds non_dims def i then a_at a i else NaN in
       if a_bool a then (if is_nan c then Bo false else c) else c |}.

(** model_data.py:827-834, one dimension: [dropna(dim, how="all", subset=["definition_matrix"])]. *)
Definition drop_dim (def : pos -> bool) (d : string) (ds : dset) : dset :=
  let others := filter (fun x => negb (String.eqb x d)) def_dims in
  {| coords := map (fun c => if String.eqb (fst c) d
                             then (fst c, filter (fun m => any_over ds others def (upd origin d m)) (snd c)) else c) (coords ds);
     vars := vars ds |}.

(** model_data.py:812-845 [_drop_undefined]. *)
Definition drop_undefined (def : pos -> bool) (ds : dset) : dset :=
  let ds := fold_left (fun ds d => drop_dim def d ds) def_dims ds in
  let vs := d_set "definition_matrix" {| a_dims := def_dims; a_bool := true; a_at := fun i => Bo (def i) |} (vars ds) in
  {| coords := coords ds;
     vars := filter (fun nv => negb (all_over ds (a_dims (snd nv)) (fun i => is_nan (a_at (snd nv) i)) origin)) vs |}.

(** model_data.py:699-718 [clean_data_from_undefined_members].  Simplification: [_update_dtypes] has been
    applied and the two carrier arrays are over the dimensions [def_dims]. *)
Definition definition_of (ds : dset) : result (pos -> bool) :=
  match d_get "carrier_in" (vars ds), d_get "carrier_out" (vars ds) with
  | Some ci, Some co => Ok (fun i => is_true (a_at ci i) || is_true (a_at co i))
  | _, _ => Err EAttr
  end.
Definition clean (ds : dset) : result dset :=
  bind (definition_of ds) (fun def =>
  Ok (drop_undefined def {| coords := coords ds; vars := map (fun nv => (fst nv, mask ds def (snd nv))) (vars ds) |})).

(** model_data.py:560-576 [_add_to_dataset]: [xr.merge] with [compat="override"] takes the array of the first
    dataset, coordinates are joined, and [fillna] broadcasts the old array where the new one
    is missing.  [here] is whether a position is among the coordinates of a dataset. *)
Definition here (ds : dset) (dims : list string) (i : pos) : bool :=
  forallb (fun d => smem (i d) (members ds d)) dims.
Definition join (a b : list string) : list string := a ++ filter (fun x => negb (smem x a)) b.
Definition read (ds : dset) (n : string) (i : pos) : cell :=
  match d_get n (vars ds) with
  | Some a => if here ds (a_dims a) i then a_at a i else NaN
  | None => NaN
  end.
Definition var_names (new old : dset) : list string := join (map fst (vars new)) (map fst (vars old)).
Definition dims_of (ds : dset) (n : string) : list string :=
  match d_get n (vars ds) with Some a => a_dims a | None => [] end.
Definition bool_of (ds : dset) (n : string) : bool :=
  match d_get n (vars ds) with Some a => a_bool a | None => true end.
Definition add_to_dataset (new old : dset) : dset :=
  {| coords := map (fun d => (d, join (members new d) (members old d))) (join (map fst (coords new)) (map fst (coords old)));
     vars := map (fun n => (n,
        {| a_dims := join (dims_of new n) (dims_of old n);
           a_bool := bool_of new n && bool_of old n;
           a_at := fun i => let c := read new n i in if is_nan c then read old n i else c |})) (var_names new old) |}.

(** model_data.py:866-909 [_subset_dims].  [sel] lists the members wanted per dimension ([None] in the code and
    dimensions without coordinates are left out).  Simplification: a slice along an
    ordered dimension is given by its members. *)
Definition select (sel : list (string * list string)) (ds : dset) : result dset :=
  if forallb (fun c => forallb (fun m => smem m (members ds (fst c))) (snd c)) sel then
    Ok {| coords := map (fun c => match d_get (fst c) sel with Some l => (fst c, l) | None => c end) (coords ds);
          vars := vars ds |}
  else Err EKey.

Definition count_nodes (ds : dset) (def : pos -> bool) (t c : string) : nat :=
  List.length (filter (fun n => def (upd (upd (upd origin "nodes" n) "techs" t) "carriers" c)) (members ds "nodes")).
Definition hanging (ds : dset) (def : pos -> bool) (base_tech : pos -> cell) (t : string) : bool :=
  match base_tech (upd origin "techs" t) with
  | Str s => String.eqb s "transmission" && existsb (fun c => Nat.eqb (count_nodes ds def t c) 1) (members ds "carriers")
  | _ => false
  end.
Definition subset_dims (sel : list (string * list string)) (ds : dset) : result dset :=
  bind (select sel ds) (fun ds =>
  match d_get "definition_matrix" (vars ds), d_get "base_tech" (vars ds) with
  | Some dm, Some bt =>
      let def := fun i => is_true (a_at dm i) in
      let ds' := {| coords := map (fun c => if String.eqb (fst c) "techs"
                       then (fst c, filter (fun t => negb (hanging ds def (a_at bt) t)) (snd c)) else c) (coords ds);
                    vars := vars ds |} in
      Ok (drop_undefined def ds')
  | _, _ => Err EAttr
  end).
