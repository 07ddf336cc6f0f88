(** Model of the data types of inputs and of their defaults:
    src/calliope/preprocess/model_data.py:62-117, 686-720, 813-844 ([ModelDTypeUpdater], [ModelDataCleaner]),
    schemas/math_schema.py:60-130, 475-488, backend/backend_model.py:573-595,
    backend/where_parser.py:183-193, backend/expression_parser.py:795-818. *)
From Verif Require Import Base.
From Coq Require Import QArith.
Local Open Scope string_scope.
Local Open Scope list_scope.

(** An entry of an array of Python objects: missing (None or NaN), text, float, int, infinity (negative or not),
    boolean, time stamp (counted in some unit). *)
Inductive cell := Gap | Text (s : string) | Num (q : Q) | Int (z : Z) | Inf (negative : bool) | Flag (b : bool) | Stamp (t : Z).
(** util/__init__.py:5-12 [DTYPE_OPTIONS]; "datetime" and "date" differ in the format they are read with. *)
Inductive kind := KText | KNumber | KFlag | KWhole | KTime | KDate.
Definition is_gap (c : cell) : bool := match c with Gap => true | _ => false end.

(** What Python and pandas make of values, given from outside: texts of values that are not text ([str(x)]), numbers
    of texts ([float(s)], which may be NaN or infinite, and [int(s)]), and time stamps of values that are none in a
    format ([pandas.to_datetime]). *)
Record py := {
  to_text : cell -> string;
  to_float : string -> option cell;
  to_int : string -> option Z;
  to_time : string -> cell -> option Z }.
(** config.init.datetime_format and config.init.date_format. *)
Record formats := { f_time : string; f_date : string }.

(** model_data.py:96-114, one entry.  Arrays are taken as arrays of objects (numpy converts each entry as Python
    does), also where numpy would have a more special type. *)
Definition convert (P : py) (F : formats) (k : kind) (c : cell) : result cell :=
  match k with
  | KText => Ok (match c with Gap => Gap | Text s => Text s | Flag b => Text (if b then "True" else "False") | _ => Text (to_text P c) end)
  | KNumber => match c with
               | Text s => match to_float P s with Some n => Ok n | None => Err EValue end
               | Int z | Stamp z => Ok (Num (inject_Z z))
               | Flag b => Ok (Num (if b then 1 else 0))
               | _ => Ok c
               end
  | KFlag => Ok (Flag (match c with
                       | Gap => false
                       | Text s => negb (String.eqb s "")
                       | Num q => negb (Qeq_bool q 0)
                       | Int z | Stamp z => negb (Z.eqb z 0)
                       | Inf _ => true
                       | Flag b => b
                       end))
  | KWhole => match c with
              | Text s => match to_int P s with Some z => Ok (Int z) | None => Err EValue end
              | Num q => Ok (Int (Z.quot (Qnum q) (Zpos (Qden q))))
              | Int z | Stamp z => Ok (Int z)
              | Flag b => Ok (Int (if b then 1 else 0))
              | Gap | Inf _ => Err EValue
              end
  | KTime | KDate =>
      match c with
      | Gap => Ok Gap
      | Stamp t => Ok (Stamp t)
      | _ => match to_time P (match k with KTime => f_time F | _ => f_date F end) c with Some t => Ok (Stamp t) | None => Err EModel end
      end
  end.

(** An array: its entries by their labels (one per dimension). *)
Definition place := list string.
Definition arr := list (place * cell).
Definition data := list (string * arr).
Fixpoint convert_all (P : py) (F : formats) (k : kind) (a : arr) : result arr :=
  match a with
  | [] => Ok []
  | (p, c) :: r => bind (convert P F k c) (fun c' => bind (convert_all P F k r) (fun r' => Ok ((p, c') :: r')))
  end.

(** The declared inputs (math_schema.py:60-130): for each name whether it is switched on, its type, its default.
    Parameters are numbers and dimensions have no default. *)
Record decl := { d_active : bool; d_kind : kind; d_default : cell }.
Record math := { m_parameters : list (string * decl); m_lookups : list (string * decl); m_dimensions : list (string * decl) }.
(** math_schema.py:475-488 [find] with the groups lookups, parameters, dimensions: only components switched on. *)
Definition active_in (n : string) (l : list (string * decl)) : list decl :=
  match d_get n l with Some d => if d_active d then [d] else [] | None => [] end.
Definition find (m : math) (n : string) : result (option decl) :=
  match active_in n (m_lookups m) ++ active_in n (m_parameters m) ++ active_in n (m_dimensions m) with
  | [] => Ok None
  | [d] => Ok (Some d)
  | _ => Err EValue
  end.

(** model_data.py:62-117 [_update_dtypes].  A name that is not found is left as it is. *)
Fixpoint update_types (P : py) (F : formats) (m : math) (ds : data) : result data :=
  match ds with
  | [] => Ok []
  | (n, a) :: r =>
      bind (find m n) (fun o =>
      bind (match o with Some d => convert_all P F (d_kind d) a | None => Ok a end) (fun a' =>
      bind (update_types P F m r) (fun r' => Ok ((n, a') :: r'))))
  end.

(** model_data.py:706-718: entries where no technology, node or carrier is defined are emptied ([defined] gives the
    places that stay); those of boolean arrays become False. *)
Definition bool_array (a : arr) : bool := forallb (fun x => match snd x with Flag _ => true | _ => false end) a.
Definition empty_out (defined : place -> bool) (a : arr) : arr :=
  map (fun x => (fst x, if defined (fst x) then snd x else if bool_array a then Flag false else Gap)) a.
(** model_data.py:838-844: arrays without any value are dropped. *)
Definition no_value (a : arr) : bool := forallb (fun x => is_gap (snd x)) a.
Definition drop_empty (ds : data) : data := filter (fun x => negb (no_value (snd x))) ds.
(** model_data.py:686-697 [clean], without colours, distances and time settings (modelled elsewhere). *)
Definition clean (P : py) (F : formats) (m : math) (defined : place -> bool) (ds : data) : result data :=
  bind (update_types P F m ds) (fun ds1 =>
  update_types P F m (drop_empty (map (fun x => (fst x, empty_out defined (snd x))) ds1))).

(** Value of an array at a place; arrays without dimensions have one entry, at the place []. *)
Fixpoint at_place (p : place) (a : arr) : option cell :=
  match a with [] => None | (q, c) :: r => if list_eq_dec string_dec p q then Some c else at_place p r end.
Definition value_at (p : place) (a : arr) : cell := match at_place p a with Some c => c | None => Gap end.

(** backend_model.py:573-595 [_add_inputs]: lookups that are not in the data are their default, parameters a gap. *)
Definition input (m : math) (ds : data) (n : string) (p : place) : cell :=
  match d_get n ds with
  | Some a => value_at p a
  | None => match d_get n (m_parameters m), d_get n (m_lookups m) with
            | None, Some d => d_default d
            | _, _ => Gap
            end
  end.
Definition default_of (m : math) (n : string) : cell :=
  match d_get n (m_parameters m), d_get n (m_lookups m) with Some d, _ => d_default d | None, Some d => d_default d | _, _ => Gap end.
(** The value in comparisons and expressions (where_parser.py:189-192, expression_parser.py:811-814). *)
Definition used (m : math) (ds : data) (n : string) (p : place) : cell :=
  match input m ds n p with Gap => default_of m n | c => c end.
(** The name of an input alone as a condition (where_parser.py:185-188): booleans are themselves, other inputs hold
    where there is a value that is not infinite. *)
Definition holds (m : math) (ds : data) (n : string) (p : place) : bool :=
  match input m ds n p with Gap | Inf _ => false | Flag b => b | _ => true end.
