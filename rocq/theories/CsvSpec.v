(** What saved files should hold. *)
From Verif Require Import Base CsvModel.
Local Open Scope string_scope.
Local Open Scope list_scope.

(** A combination of labels, one of each dimension. *)
Definition combination (v : arr) (l : list string) : Prop := Forall2 (fun x d => In x (snd d)) l (r_dims v).
Definition proper_arr (v : arr) : Prop := Forall (fun d => NoDup (snd d)) (r_dims v).
Definition file_at (k : disk) (path name : string) : option file := match d_get path k with Some (Folder files) => d_get name files | _ => None end.
Definition folder_at (k : disk) (path : string) : Prop := exists files, d_get path k = Some (Folder files).
(** The value that a reader of the file finds for some labels. *)
Definition read_back (rows : list (list string * option string)) (l : list string) (x : option string) : Prop :=
  match x with Some y => In (l, Some y) rows | None => forall y, ~ In (l, Some y) rows end.
(** The file holds the array: its dimensions, one row for each combination, values in the rows of their labels. *)
Record holds_array (v : arr) (dropna : bool) (f : file) : Prop := {
  ho_form : exists rows, f = Csv (map fst (r_dims v)) rows;
  ho_once : forall i rows, f = Csv i rows -> NoDup (map fst rows);
  ho_rows : forall i rows l, f = Csv i rows -> (In l (map fst rows) <-> combination v l /\ (dropna = true -> r_at v l <> None));
  ho_value : forall i rows l, f = Csv i rows -> combination v l -> read_back rows l (r_at v l) }.
(** The names of the files of an input and of a result. *)
Definition input_file (n : string) : string := String.append "inputs_" (String.append n ".csv").
Definition result_file (n : string) : string := String.append "results_" (String.append n ".csv").
