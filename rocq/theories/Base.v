(** Common vocabulary of the model: values, exceptions, ordered dictionaries,
    dotted keys.  Standard library only. *)
From Coq Require Export List String Ascii Bool Arith ZArith Lia Permutation.
Export ListNotations.
Local Open Scope string_scope.
Local Open Scope list_scope.

(** Python exceptions raised by the modelled code, as values.  [EDiverge] is not
    a Python exception: it marks exhaustion of the fuel of a model function that
    follows an unbounded Python recursion. *)
Inductive exn :=
| EKey | EAttr | EValue | EType | EName | EModel | EBackend | EDiverge.

Definition exn_eqb (a b : exn) : bool :=
  match a, b with
  | EKey, EKey | EAttr, EAttr | EValue, EValue | EType, EType
  | EName, EName | EModel, EModel | EBackend, EBackend | EDiverge, EDiverge => true
  | _, _ => false
  end.

(** Result of a computation that may raise. *)
Inductive result (A : Type) :=
| Ok (a : A)
| Err (e : exn).
Arguments Ok {A} a.
Arguments Err {A} e.

Definition bind {A B} (x : result A) (f : A -> result B) : result B :=
  match x with Ok a => f a | Err e => Err e end.

Definition is_ok {A} (x : result A) : bool :=
  match x with Ok _ => true | Err _ => false end.

(** Values as they come out of the YAML loader: None, booleans, numbers, strings,
    lists, dictionaries.  Simplification: numbers are integers (no float
    arithmetic is done on configuration values by the modelled code). *)
Inductive val :=
| VNone
| VBool (b : bool)
| VInt (z : Z)
| VStr (s : string)
| VList (l : list val)
| VDict (d : list (string * val)).

Definition dict := list (string * val).

Definition is_dict (v : val) : bool :=
  match v with VDict _ => true | _ => false end.

(** Ordered dictionaries: Python [dict] keeps insertion order; assignment to an
    existing key keeps its position. *)
Fixpoint d_get {V} (k : string) (d : list (string * V)) : option V :=
  match d with
  | [] => None
  | (k', v) :: t => if String.eqb k k' then Some v else d_get k t
  end.

Fixpoint d_set {V} (k : string) (v : V) (d : list (string * V)) : list (string * V) :=
  match d with
  | [] => [(k, v)]
  | (k', v') :: t => if String.eqb k k' then (k', v) :: t else (k', v') :: d_set k v t
  end.

Fixpoint d_del {V} (k : string) (d : list (string * V)) : list (string * V) :=
  match d with
  | [] => []
  | (k', v') :: t => if String.eqb k k' then t else (k', v') :: d_del k t
  end.

Definition d_keys {V} (d : list (string * V)) : list string := map fst d.
Definition d_mem {V} (k : string) (d : list (string * V)) : bool :=
  match d_get k d with Some _ => true | None => false end.

(** Splitting a dotted key at every dot, Python [key.split(".")]. *)
Definition dot : ascii := "."%char.

Fixpoint split_on (c : ascii) (s : string) : list string :=
  match s with
  | EmptyString => [EmptyString]
  | String a t =>
      if Ascii.eqb a c then EmptyString :: split_on c t
      else match split_on c t with
           | [] => [String a EmptyString]  (* unreachable: split_on is never [] *)
           | h :: r => String a h :: r
           end
  end.

Definition split_dot (s : string) : list string := split_on dot s.

(** [".".join(segments)] *)
Fixpoint join_on (c : ascii) (l : list string) : string :=
  match l with
  | [] => EmptyString
  | [s] => s
  | s :: t => String.append s (String c (join_on c t))
  end.

Definition join_dot (l : list string) : string := join_on dot l.

Fixpoint has_char (c : ascii) (s : string) : bool :=
  match s with
  | EmptyString => false
  | String a t => Ascii.eqb a c || has_char c t
  end.

(** Membership of a string in a list. *)
Definition smem (s : string) (l : list string) : bool := existsb (String.eqb s) l.
