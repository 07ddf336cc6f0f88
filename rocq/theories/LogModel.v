(** Model of the setting of the verbosity: src/calliope/util/logging.py:15-93, and of the parts of Python's module
    logging that it uses (Logger.setLevel, getEffectiveLevel, hasHandlers, callHandlers, captureWarnings).
    Simplifications: loggers are neither disabled nor taken out of the hierarchy ("propagate"); the
    handler of last resort, which writes where no handler is found, is left out; nobody changes the list of the
    handlers that "py.warnings" had at import (line 12) in place. *)
From Verif Require Import Base.
Local Open Scope string_scope.
Local Open Scope list_scope.
Local Open Scope Z_scope.

(** A logger by its name, last part first: that of Python is [], its parent is the rest of the list. *)
Notation logger := (list string).
Definition calliope : logger := ["calliope"].
Definition solve : logger := ["<solve>"; "backend_model"; "backend"; "calliope"].
Definition py_warnings : logger := ["warnings"; "py"].

(** A handler: the [k]-th console made by [setup_root_logger], which takes all levels, or another one, which takes messages
    from level [least] on. *)
Inductive handler := Console (k : nat) | Other (name : string) (least : Z).
Definition takes (L : Z) (h : handler) : bool := match h with Console _ => true | Other _ least => least <=? L end.

(** [captured]: whether Python warnings go to the logger "py.warnings"; [original]: logging.py:12; [made]: number of
    consoles made so far.  Level 0 is "not set". *)
Record state := { level : logger -> Z; handlers : logger -> list handler; captured : bool; original : list handler; made : nat }.
Definition at_logger {A} (p : logger) (x : A) (f : logger -> A) : logger -> A := fun q => if list_eq_dec string_dec p q then x else f q.
Definition set_level (p : logger) (l : Z) (st : state) : state :=
  {| level := at_logger p l (level st); handlers := handlers st; captured := captured st; original := original st; made := made st |}.
Definition set_handlers (p : logger) (hs : list handler) (st : state) : state :=
  {| level := level st; handlers := at_logger p hs (handlers st); captured := captured st; original := original st; made := made st |}.
Definition set_captured (b : bool) (st : state) : state :=
  {| level := level st; handlers := handlers st; captured := b; original := original st; made := made st |}.
Definition count_console (st : state) : state :=
  {| level := level st; handlers := handlers st; captured := captured st; original := original st; made := S (made st) |}.

(** Logger.getEffectiveLevel, and the handlers that Logger.callHandlers goes through. *)
Fixpoint effective (st : state) (p : logger) : Z :=
  if level st p =? 0 then match p with [] => 0 | _ :: r => effective st r end else level st p.
Fixpoint reached (st : state) (p : logger) : list handler :=
  handlers st p ++ match p with [] => [] | _ :: r => reached st r end.
(** The handlers that write a message of level [L]. *)
Definition shown (st : state) (p : logger) (L : Z) : list handler :=
  if L <? effective st p then [] else filter (takes L) (reached st p).

(** Verbosity: a text or a number.  [str.upper] for ASCII, and the names known to logging._checkLevel. *)
Inductive verbosity := Text (s : string) | Number (z : Z).
Definition upper_char (c : ascii) : ascii :=
  let n := nat_of_ascii c in if Nat.leb 97 n && Nat.leb n 122 then ascii_of_nat (n - 32) else c.
Fixpoint upper (s : string) : string := match s with EmptyString => EmptyString | String c r => String (upper_char c) (upper r) end.
Definition level_names : list (string * Z) :=
  [("CRITICAL", 50); ("FATAL", 50); ("ERROR", 40); ("WARN", 30); ("WARNING", 30); ("INFO", 20); ("DEBUG", 10); ("NOTSET", 0)].
Definition check_level (v : verbosity) : result Z :=
  match v with
  | Number z => Ok z
  | Text s => match d_get s level_names with Some z => Ok z | None => Err EValue end
  end.

(** logging.py:15-61.  The state is returned also if an error is raised. *)
Definition setup_root_logger (v : verbosity) (capture : bool) (st : state) : state * result unit :=
  let st := match reached st calliope with [] => st | _ => set_handlers calliope [] st end in
  let console := Console (made st) in
  let st := count_console (set_handlers calliope (handlers st calliope ++ [console]) st) in
  match check_level v with
  | Err e => (st, Err e)
  | Ok l =>
      let st := set_level calliope l st in
      (if capture then set_level py_warnings l (set_handlers py_warnings (original st ++ [console]) (set_captured true st))
       else set_handlers py_warnings (original st) (set_level py_warnings 30 (set_captured false st)), Ok tt)
  end.

(** logging.py:64-93. *)
Definition set_log_verbosity (v : verbosity) (solver_output capture : bool) (st : state) : state * result unit :=
  let v := match v with Text s => Text (upper s) | Number z => Number z end in
  if solver_output then setup_root_logger v capture (set_level solve 10 st)
  else match check_level v with
       | Err e => (st, Err e)
       | Ok l => setup_root_logger v capture (set_level solve l st)
       end.
