(** Model of the command line: src/calliope/cli.py:178-212, 219-315, 380-402,
    src/calliope/util/generate_runs.py and the message assembly of src/calliope/exceptions.py:42-108. *)
From Verif Require Import Base AttrDictModel ConfigModel.
Local Open Scope string_scope.
Local Open Scope list_scope.

(** ** Numbers as text *)
(** Python [str] of a natural number, least significant digit first, then turned round. *)
Definition digit (n : nat) : ascii := ascii_of_nat (48 + n).
Fixpoint digits (fuel n : nat) : list nat :=
  match fuel with
  | O => []
  | S f => if Nat.ltb n 10 then [n] else (n mod 10 :: digits f (n / 10))%nat
  end.
Fixpoint text_of (l : list nat) : string :=
  match l with [] => "" | n :: t => String (digit n) (text_of t) end.
Definition str (n : nat) : string := text_of (rev (digits (S n) n)).

(** The format [{:0>wd}]: filled with zeros from the left to width [w]. *)
Fixpoint zeros (n : nat) : string := match n with O => "" | S k => String "0"%char (zeros k) end.
Definition pad (w : nat) (s : string) : string := zeros (w - String.length s) ++ s.

(** cli.py:387-391, generate_runs.py:46-47: as many digits as the number of items has. *)
Definition numbered (total i : nat) : string := pad (String.length (str total)) (str i).

(** ** Scenarios *)
(** [itertools.product] *)
Fixpoint product {A} (ls : list (list A)) : list (list A) :=
  match ls with
  | [] => [[]]
  | l :: r => flat_map (fun x => map (cons x) (product r)) l
  end.

(** cli.py:380-402 [generate_scenarios]; the result is a dictionary.  Simplification: tuples are lists,
    writing the file is left out. *)
Fixpoint enumerate {A} (i : nat) (l : list A) : list (nat * A) :=
  match l with [] => [] | x :: t => (i, x) :: enumerate (S i) t end.
Definition generate_scenarios (overrides : list string) (prefix : option string) : list (string * list string) :=
  let combinations := product (map (split_on ";"%char) overrides) in
  let p := match prefix with Some s => if String.eqb s "" then "scenario_" else s | None => "scenario_" end in
  fold_left (fun d ic => d_set (p ++ numbered (List.length combinations) (fst ic + 1))%string (snd ic) d)
            (enumerate 0 combinations) [].

(** ** Run scripts *)
(** generate_runs.py:31-42: the runs to generate.  [config] is the model file after the union with the
    overrides (see AttrDictModel). *)
Definition runs_of (config : dict) (scenarios : option string) : result (list string) :=
  match scenarios with
  | Some s => Ok (split_on ";"%char s)
  | None =>
      match d_get "scenarios" config with
      | Some (VDict d) => Ok (d_keys d)
      | Some _ => Err EAttr
      | None =>
          match d_get "overrides" config with
          | Some (VDict d) => Ok (d_keys d)
          | Some _ => Err EAttr
          | None => Err EKey
          end
      end
  end.

(** generate_runs.py:49-61.  An option that is None or empty is not passed on. *)
Definition given (o : option string) : option string :=
  match o with Some s => if String.eqb s "" then None else Some s | None => None end.
Definition out_name (total i : nat) (run : string) : string :=
  ("out_" ++ numbered total (i + 1) ++ "_" ++ run ++ ".nc")%string.
Definition command (model_file : string) (args overrides : option string) (total i : nat) (run : string) : string :=
  (("calliope run " ++ model_file ++ " --scenario " ++ run ++ " --save_netcdf " ++ out_name total i run)
   ++ match given overrides with Some s => " --override_dict=" ++ String """"%char s ++ String """"%char "" | None => "" end
   ++ match given args with Some s => " " ++ s | None => "" end)%string.
Definition commands (model_file : string) (args overrides : option string) (runs : list string) : list string :=
  map (fun ir => command model_file args overrides (List.length runs) (fst ir) (snd ir)) (enumerate 0 runs).

(** generate_runs.py:66-105 [generate_bash_script]: the text written. *)
Definition newline : ascii := ascii_of_nat 10.
Definition arm (i : nat) (cmd : string) : string :=
  ("    " ++ str i ++ ") " ++ cmd ++ " ;;" ++ String newline "")%string.
Definition bash_script (cmds : list string) : string :=
  join_on newline
    (["#!/bin/sh"; ""; "function process_case () {"; "    case ""$1"" in"; ""]
     ++ map (fun ic => arm (fst ic + 1) (snd ic)) (enumerate 0 cmds)
     ++ ["    esac"; "}"; ""; "if [[ $# -eq 0 ]] ; then";
         "    echo No parameter given, running all runs sequentially...";
         ("    for i in $(seq 1 " ++ str (List.length cmds) ++ "); do process_case $i; done")%string;
         "else"; "    echo Running run $1"; "    process_case $1"; "fi"; ""]).

(** generate_runs.py:126-137, 177-193: the lines that say which array jobs there are. *)
Definition sbatch_array (cmds : list string) : string := ("#SBATCH --array=1-" ++ str (List.length cmds))%string.
Definition bsub_array (cmds : list string) : string := ("#BSUB -J calliope[1-" ++ str (List.length cmds) ++ "]")%string.

(** generate_runs.py:171-175: minutes become [%H:%M:%S] of a date.  Simplification: the number of minutes,
    a float in the code, is a whole number of seconds here. *)
Definition cluster_time (seconds : nat) : string :=
  (pad 2 (str (seconds / 3600 mod 24)) ++ ":" ++ pad 2 (str (seconds / 60 mod 60)) ++ ":" ++ pad 2 (str (seconds mod 60)))%string.

(** ** The run command *)
(** cli.py:185-195: last part of the file name. *)
Inductive format := Yaml | Netcdf.
Definition model_format (file : string) (fmt : option string) : result format :=
  match fmt with
  | None =>
      let ext := last (split_on "."%char file) "" in
      if smem ext ["yaml"; "yml"] then Ok Yaml
      else if smem ext ["nc"; "nc4"; "netcdf"] then Ok Netcdf else Err EValue
  | Some f => if String.eqb f "yaml" then Ok Yaml else if String.eqb f "netcdf" then Ok Netcdf else Err EValue
  end.

(** What the command does, in order. *)
Inductive effect :=
| LoadYaml (file : string) (scenario overrides : option string)
| LoadNetcdf (file : string)
| Build
| ToLp (file : string)
| Solve (options : dict)
| ToCsv (dir : string)
| ToNetcdf (file : string).

Record options := { model_file : string; scenario : option string; fmt : option string; override_dict : option string;
                    save_netcdf : option string; save_csv : option string; save_logs : option string; save_lp : option string;
                    fail_when_infeasible : bool }.

(** cli.py:178-212 [_run_setup_model]. *)
Definition setup (o : options) : list effect * result unit :=
  match model_format (model_file o) (fmt o) with
  | Err e => ([], Err e)
  | Ok Yaml => ([LoadYaml (model_file o) (scenario o) (override_dict o)], Ok tt)
  | Ok Netcdf =>
      match scenario o, override_dict o with
      | None, None => ([LoadNetcdf (model_file o)], Ok tt)
      | _, _ => ([], Err EValue)
      end
  end.

(** cli.py:283-300: what is passed on to [Model.solve]; [parent] is [Path.parent]. *)
Definition solve_options (o : options) (parent : string -> string) (spore_path : bool) : dict :=
  (match given (save_logs o) with Some s => [("solve.save_logs", VStr s)] | None => [] end)
  ++ (match given (save_netcdf o) with
      | Some s => if spore_path then [("solve.spores.save_per_spore_path", VList [VStr (parent s)])] else []
      | None => []
      end).

(** cli.py:265-315 [run].  [termination] is the termination condition that the solver reports.
    Simplification: messages are left out; errors inside the model's own methods are not shown here. *)
Definition run (o : options) (parent : string -> string) (spore_path : bool) (termination : string) : list effect * result unit :=
  match setup o with
  | (es, Err e) => (es, Err e)
  | (es, Ok _) =>
      match given (save_lp o) with
      | Some f => (es ++ [Build; ToLp f], Ok tt)
      | None =>
          (es ++ [Build; Solve (solve_options o parent spore_path)]
              ++ match given (save_csv o) with Some d => [ToCsv d] | None => [] end
              ++ match given (save_netcdf o) with Some f => [ToNetcdf f] | None => [] end,
           if fail_when_infeasible o && negb (String.eqb termination "optimal") then Err EBackend else Ok tt)
      end
  end.

(** model.py:350: [self.config.update({"solve": kwargs})].  [ignore]: whether pydantic silently drops a name
    that is not a field (general.py:173-174) rather than refusing it; the claims hold for either. *)
Definition known_only (fields : list string) (d : dict) : dict := filter (fun kv => smem (fst kv) fields) d.
Definition solve_update (ignore : bool) (fields : list string) (sc : schema) (config : obj) (kwargs : dict) : result obj :=
  bind (init_from_dict kwargs) (fun kw =>
  update sc config (VDict [("solve", VDict (if ignore then known_only fields kw else kw))])).

(** ** Collected messages *)
(** exceptions.py:83-108.  Strings are ordered by code point. *)
Fixpoint sleb (a b : string) : bool :=
  match a, b with
  | EmptyString, _ => true
  | _, EmptyString => false
  | String x s, String y t =>
      if Nat.ltb (nat_of_ascii x) (nat_of_ascii y) then true
      else if Ascii.eqb x y then sleb s t else false
  end.
Fixpoint insert (x : string) (l : list string) : list string :=
  match l with
  | [] => [x]
  | y :: t => if String.eqb x y then l else if sleb x y then x :: l else y :: insert x t
  end.
(** [sorted(list(set(l)))] *)
Fixpoint sort_strings (l : list string) : list string :=
  match l with [] => [] | x :: t => insert x (sort_strings t) end.

Fixpoint spaces (n : nat) : string := match n with O => "" | S k => String " "%char (spaces k) end.

(** [textwrap.indent]: every line for which the predicate holds gets the bullet; nothing after the last newline
    is not a line.  Simplification: lines end at newlines only. *)
Fixpoint indent_lines (bullet : string) (lines : list string) : list string :=
  match lines with
  | [] => []
  | line :: rest =>
      match line, rest with
      | "", [] => [""]
      | _, _ => (if prefix bullet line || prefix (spaces (String.length bullet)) line then line else (bullet ++ line)%string)
                :: indent_lines bullet rest
      end
  end.
Definition indent (bullet text : string) : string := join_on newline (indent_lines bullet (split_on newline text)).

Inductive messages := Plain (l : list string) | Grouped (d : list (string * list string)).
Definition indenter (bullet : string) (m : messages) : string :=
  let spacer := spaces (String.length bullet) in
  indent bullet (join_on newline
    match m with
    | Plain l => sort_strings l
    | Grouped d => flat_map (fun kv => (fst kv ++ ":")%string :: sort_strings (map (fun i => (spacer ++ bullet ++ i)%string) (snd kv))) d
    end).
Definition nonempty (m : option messages) : option messages :=
  match m with Some (Plain []) | Some (Grouped []) | None => None | Some m => Some m end.

(** exceptions.py:42-108 [print_warnings_and_raise_errors]: the warning given and the error raised. *)
Definition report (warnings errors : option messages) (during bullet : string) : option string * option string :=
  (match nonempty warnings with
   | Some w => Some ("Possible issues found during " ++ during ++ ":" ++ String newline (indenter bullet w))%string
   | None => None end,
   match nonempty errors with
   | Some e => Some ("Errors during " ++ during ++ ":" ++ String newline (indenter bullet e))%string
   | None => None end).
