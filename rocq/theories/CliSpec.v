(** Specification vocabulary for the command line. *)
From Verif Require Import Base ConfigModel ConfigSpec.
Local Open Scope string_scope.
Local Open Scope list_scope.

(** ** Numbers and text order *)
Definition is_digit (c : ascii) : Prop := 48 <= nat_of_ascii c <= 57.
Fixpoint all_digits (s : string) : Prop :=
  match s with EmptyString => True | String c t => is_digit c /\ all_digits t end.
(** The number that a row of digits stands for. *)
Fixpoint value_from (acc : nat) (s : string) : nat :=
  match s with EmptyString => acc | String c t => value_from (10 * acc + (nat_of_ascii c - 48)) t end.
Definition value (s : string) : nat := value_from 0 s.
Definition number (s : string) (n : nat) : Prop := s <> "" /\ all_digits s /\ value s = n.
(** The usual way to write a number: no leading zeros. *)
Definition decimal (s : string) (n : nat) : Prop :=
  number s n /\ (n <> 0 -> forall t, s <> String "0"%char t) /\ (n = 0 -> s = "0").

(** Text order by character code. *)
Inductive text_lt : string -> string -> Prop :=
| tl_nil c s : text_lt "" (String c s)
| tl_head c d s t : nat_of_ascii c < nat_of_ascii d -> text_lt (String c s) (String d t)
| tl_tail c s t : text_lt s t -> text_lt (String c s) (String c t).

(** [pieces sep s l]: [s] is the text of the items [l], separated by [sep]. *)
Definition pieces (sep : ascii) (s : string) (l : list string) : Prop :=
  l <> [] /\ join_on sep l = s /\ Forall (fun x => has_char sep x = false) l.

Fixpoint times (l : list nat) : nat := match l with [] => 1 | x :: t => x * times t end.

(** ** What a shell does with the generated script *)
(** The text up to the first [c], and the rest. *)
Fixpoint cut (c : ascii) (s : string) : option (string * string) :=
  match s with
  | EmptyString => None
  | String a t => if Ascii.eqb a c then Some ("", t)
                  else match cut c t with Some (x, y) => Some (String a x, y) | None => None end
  end.
Fixpoint strip_prefix (p s : string) : option string :=
  match p, s with
  | EmptyString, _ => Some s
  | String a p', String b s' => if Ascii.eqb a b then strip_prefix p' s' else None
  | _, _ => None
  end.
(** The text up to the first [;;]. *)
Fixpoint until_end (s : string) : option string :=
  match s with
  | EmptyString => None
  | String a t => if prefix ";;" s then Some ""
                  else match until_end t with Some r => Some (String a r) | None => None end
  end.
Fixpoint trim_last (s : string) : string :=
  match s with
  | EmptyString => ""
  | String a EmptyString => if Ascii.eqb a " "%char then "" else s
  | String a t => String a (trim_last t)
  end.
(** A line [    pattern) command ;;] of a [case] block. *)
Definition case_arm (line : string) : option (string * string) :=
  match strip_prefix "    " line with
  | None => None
  | Some s =>
      match cut ")"%char s with
      | None => None
      | Some (pat, s) =>
          match strip_prefix " " s with
          | None => None
          | Some s => match until_end s with Some cmd => Some (pat, trim_last cmd) | None => None end
          end
      end
  end.
(** The arms of the [case] block. *)
Fixpoint arms (inside : bool) (lines : list string) : list (string * string) :=
  match lines with
  | [] => []
  | l :: r =>
      if inside then
        if String.eqb l "    esac" then []
        else match case_arm l with Some a => a :: arms true r | None => arms true r end
      else arms (String.eqb l "    case ""$1"" in") r
  end.
(** [case "$1"]: the command of the first arm with this pattern. *)
Fixpoint process_case (a : list (string * string)) (arg : string) : list string :=
  match a with
  | [] => []
  | (p, c) :: r => if String.eqb p arg then [c] else process_case r arg
  end.
(** The upper end of the loop. *)
Fixpoint loop_end (lines : list string) : option string :=
  match lines with
  | [] => None
  | l :: r => match strip_prefix "    for i in $(seq 1 " l with
              | Some s => match cut ")"%char s with Some (n, _) => Some n | None => None end
              | None => loop_end r
              end
  end.
(** The commands executed when called with or without an argument.  [print] is how [seq] writes numbers. *)
Definition execute (print : nat -> string) (script : string) (arg : option string) : list string :=
  let lines := split_on (ascii_of_nat 10) script in
  match arg with
  | Some a => process_case (arms false lines) a
  | None => match loop_end lines with
            | Some n => flat_map (fun i => process_case (arms false lines) (print i)) (seq 1 (value n))
            | None => []
            end
  end.

Definition one_line (s : string) : Prop := has_char (ascii_of_nat 10) s = false.
(** A command that fits into an arm: one line without [;;]. *)
Definition armable (s : string) : Prop := one_line s /\ forall a b, s <> (a ++ ";;" ++ b)%string.

(** ** Times *)
Definition read_clock (s : string) : option nat :=
  match split_on ":"%char s with
  | [h; m; x] => Some (3600 * value h + 60 * value m + value x)
  | _ => None
  end.

(** ** Messages *)
(** A message of one line that does not itself look like an item of a list. *)
Definition simple_message (bullet s : string) : Prop :=
  s <> "" /\ one_line s /\ (forall t, s <> (bullet ++ t)%string) /\
  exists k c t, k < String.length bullet /\ s = ((fix sp n := match n with O => "" | S m => String " "%char (sp m) end) k ++ String c t)%string /\ c <> " "%char.
Inductive increasing : list string -> Prop :=
| inc_nil : increasing []
| inc_one x : increasing [x]
| inc_cons x y l : text_lt x y -> increasing (y :: l) -> increasing (x :: y :: l).
Definition same_set (a b : list string) : Prop := forall x, In x a <-> In x b.
