(** Model of checks on data given in YAML: src/calliope/schemas/dimension_data_schema.py:25-64, 93-117 and
    schemas/general.py:22-45. *)
From Verif Require Import Base.
From Coq Require Import QArith.
Local Open Scope string_scope.
Local Open Scope list_scope.

(** A coordinate as pydantic keeps it: [int | float | None] keeps whole numbers written without a point as int. *)
Inductive coord := CNone | CInt (z : Z) | CFloat (q : Q) | CNan | CInf (negative : bool).
(** [Field(ge=-lim, le=lim)], checked for numbers only; comparisons with NaN do not hold. *)
Definition in_range (lim : Z) (c : coord) : bool :=
  match c with
  | CNone => true
  | CInt z => (- lim <=? z)%Z && (z <=? lim)%Z
  | CFloat q => Qle_bool (inject_Z (- lim)) q && Qle_bool q (inject_Z lim)
  | CNan | CInf _ => false
  end.
(** dimension_data_schema.py:110-117: [type(self.latitude) is not type(self.longitude)]. *)
Definition type_of (c : coord) : nat := match c with CNone => 0 | CInt _ => 1 | _ => 2 end.
Definition check_node (latitude longitude : coord) : result unit :=
  if in_range 90 latitude && in_range 180 longitude then
    if Nat.eqb (type_of latitude) (type_of longitude) then Ok tt else Err EValue
  else Err EValue.

(** Entries of the setting [index]: a label, or a list of labels (one per dimension). Labels that are numbers are
    given by their value. *)
Inductive ilabel := LStr (s : string) | LNum (z : Z).
Inductive entry := One (l : ilabel) | Many (l : list ilabel).
Definition ilabel_eq_dec (a b : ilabel) : {a = b} + {a <> b}.
Proof. decide equality; [apply string_dec|apply Z.eq_dec]. Defined.
Definition entry_eq_dec (a b : entry) : {a = b} + {a <> b}.
Proof. decide equality; [apply ilabel_eq_dec|apply list_eq_dec, ilabel_eq_dec]. Defined.
(** Python's [tuple(i)]: the characters of a text; not possible for a number. *)
Fixpoint chars (s : string) : list ilabel := match s with EmptyString => [] | String c r => LStr (String c "") :: chars r end.
Definition tuple (e : entry) : option (list ilabel) :=
  match e with Many l => Some l | One (LStr s) => Some (chars s) | One (LNum _) => None end.
Fixpoint tuples (l : list entry) : option (list (list ilabel)) :=
  match l with [] => Some [] | e :: r => match tuple e, tuples r with Some t, Some ts => Some (t :: ts) | _, _ => None end end.
Definition same_size {A} (dec : forall a b : A, {a = b} + {a <> b}) (l : list A) : bool := Nat.eqb (List.length (nodup dec l)) (List.length l).
(** general.py:22-31 [_validate_unique_list] for lists of entries: sets of entries if all can be hashed, else sets of tuples. *)
Definition check_unique (l : list entry) : result unit :=
  if forallb (fun e => match e with One _ => true | Many _ => false end) l then
    if same_size entry_eq_dec l then Ok tt else Err EValue
  else match tuples l with
       | None => Err EType
       | Some ts => if same_size (list_eq_dec ilabel_eq_dec) ts then Ok tt else Err EValue
       end.
(** dimension_data_schema.py:46-50: a list with at least one entry; so is every list in it, and each is without
    repetitions. *)
Definition check_inner (e : entry) : bool :=
  match e with One _ => true | Many [] => false | Many l => same_size ilabel_eq_dec l end.
Definition check_index (l : list entry) : result unit :=
  match l with
  | [] => Err EValue
  | _ => if forallb check_inner l then check_unique l else Err EValue
  end.
