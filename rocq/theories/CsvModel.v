(** Saving a model as CSV files: src/calliope/io.py:183-221 [save_csv], src/calliope/model.py:425-449 [to_csv],
    src/calliope/cli.py:302-311 (the end of [run]).  Simplifications: values are given by their text, a file by its
    header and rows (how pandas writes them as text is not modelled); the parents of a path are directories or can be
    created; [attrs.yaml] is only known to be there. *)
From Verif Require Import Base CliModel.
Local Open Scope string_scope.
Local Open Scope list_scope.

(** An array: dimensions with their labels, and its values; [None] is NaN. *)
Record arr := { r_dims : list (string * list string); r_at : list string -> option string }.
Definition dataset := list (string * arr).
(** A file: CSV with the names of the index columns and rows of labels and value, YAML, or netCDF with inputs and results. *)
Inductive file := Csv (index : list string) (rows : list (list string * option string)) | Yaml | Net (inputs results : dataset).
(** What is at a path: a directory with files, or a file. *)
Inductive node := Folder (files : list (string * file)) | Plain (f : file).
Definition disk := list (string * node).

(** [to_series], or a series of one value; [dropna] *)
Definition to_series (v : arr) : list (list string * option string) := map (fun l => (l, r_at v l)) (product (map snd (r_dims v))).
Definition is_value (x : list string * option string) : bool := match snd x with Some _ => true | None => false end.
Definition to_file (dropna : bool) (v : arr) : file :=
  Csv (map fst (r_dims v)) (if dropna then filter is_value (to_series v) else to_series v).
Definition file_name (group name : string) : string := group ++ "_" ++ name ++ ".csv".
Definition write_all (ds : dataset) (group : string) (dropna : bool) (files : list (string * file)) : list (string * file) :=
  fold_left (fun fs x => d_set (file_name group (fst x)) (to_file dropna (snd x)) fs) ds files.
(** io.py:209: [path.mkdir(parents=True, exist_ok=allow_overwrite)]; [None]: FileExistsError. *)
Definition mkdir (path : string) (allow : bool) (k : disk) : option (list (string * file)) :=
  match d_get path k with
  | None => Some []
  | Some (Folder files) => if allow then Some files else None
  | Some (Plain _) => None
  end.
(** The disk afterwards, and whether it went well. *)
Definition save_csv (ds : dataset) (group path : string) (dropna allow : bool) (k : disk) : disk * bool :=
  match mkdir path allow k with
  | Some files => (d_set path (Folder (write_all ds group dropna files)) k, true)
  | None => (k, false)
  end.

Record solved := { s_inputs : dataset; s_results : dataset }.
Definition write_yaml (path : string) (k : disk) : disk :=
  match d_get path k with Some (Folder files) => d_set path (Folder (d_set "attrs.yaml" Yaml files)) k | _ => k end.
Definition to_csv (m : solved) (path : string) (dropna allow : bool) (k : disk) : disk * bool :=
  let (k1, ok) := save_csv (s_inputs m) "inputs" path dropna allow k in
  if ok then
    let (k2, ok2) := match s_results m with [] => (k1, true) | _ => save_csv (s_results m) "results" path dropna true k1 end in
    if ok2 then (write_yaml path k2, true) else (k2, false)
  else (k1, false).
(** model.py:419-423; a netCDF file replaces a file at its path, and cannot replace a directory. *)
Definition to_netcdf (m : solved) (path : string) (k : disk) : disk * bool :=
  match d_get path k with Some (Folder _) => (k, false) | _ => (d_set path (Plain (Net (s_inputs m) (s_results m))) k, true) end.
(** cli.py:306-311: after solving. *)
Definition run_saves (m : solved) (csv netcdf : option string) (k : disk) : disk * bool :=
  let (k1, ok) := match csv with Some path => to_csv m path true false k | None => (k, true) end in
  if ok then match netcdf with Some path => to_netcdf m path k1 | None => (k1, true) end else (k1, false).
