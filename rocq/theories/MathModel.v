(** Model of the assembly of math definitions:
    src/calliope/preprocess/model_math.py and the class CalliopeBuildMath of
    src/calliope/schemas/math_schema.py. *)
From Verif Require Import Base AttrDictModel DefModel.
Local Open Scope string_scope.
Local Open Scope list_scope.

(** preprocess/model_math.py:41-50 [math_paths].  Predefined files by stem, then one
    assignment per extra math entry.  [rel] stands for [relative_path(model_def_path, .)].
    Simplification: paths are strings. *)
Definition math_paths (predefined extra : list (string * string)) (rel : string -> string)
  : list (string * string) :=
  fold_left (fun acc np => d_set (fst np) (rel (snd np)) acc) extra predefined.

(** preprocess/model_math.py:53-54: every file is read, in order; the first failure
    propagates.  [read] stands for [read_rich_yaml] (modelled in DefModel). *)
Fixpoint read_all (read : string -> result dict) (paths : list (string * string))
  : result (list (string * dict)) :=
  match paths with
  | [] => Ok []
  | (n, p) :: t => bind (read p) (fun d => bind (read_all read t) (fun r => Ok ((n, d) :: r)))
  end.

(** preprocess/model_math.py:29-54 [initialise_math]; [extra = None] and an empty
    dictionary behave alike. *)
Definition initialise_math predefined extra rel read : result (list (string * dict)) :=
  read_all read (math_paths predefined extra rel).

(** preprocess/model_math.py:57-63 [get_math_priority]. *)
Definition get_math_priority (mode : string) (extra_math : list string) : list string :=
  ["base"] ++ (if String.eqb mode "base" then [] else [mode]) ++ extra_math.

(** preprocess/model_math.py:86-92, the loop.  The [try] block encloses the look-up and
    the union, so a [KeyError] from either becomes a ModelError. *)
Fixpoint layer_math (dataset : list (string * dict)) (names : list string) (math : dict) : result dict :=
  match names with
  | [] => Ok math
  | n :: t =>
      match d_get n dataset with
      | None => Err EModel
      | Some d =>
          match union true math d with
          | (math', None) => layer_math dataset t math'
          | (_, Some EKey) => Err EModel
          | (_, Some e) => Err e
          end
      end
  end.

(** preprocess/model_math.py:66-95 [build_math] up to the schema: an empty [overwrite] is
    falsy.  Schema validation is [unique_component_names] below; the string validation
    of lines 97-98 is not part of this function's model. *)
Definition build_math (names : list string) (dataset : list (string * dict)) (overwrite : dict)
  : result dict :=
  bind (layer_math dataset names []) (fun math =>
    match overwrite with
    | [] => Ok math
    | _ => to_result (union true math overwrite)
    end).

(** schemas/math_schema.py:391-420 [CalliopeBuildMath]: for every field, the component
    names with their [active] flag (47-57).  Only names and flags are kept. *)
Definition group := list (string * bool).
Definition math := list (string * group).

(** schemas/math_schema.py:322-328 [MathDictModel._active]. *)
Definition active (g : group) : list string := map fst (filter snd g).

(** [sorted(..., key=len)] of schemas/math_schema.py:425-431: stable insertion sort. *)
Fixpoint insert_len (g : list string) (l : list (list string)) : list (list string) :=
  match l with
  | [] => [g]
  | h :: t => if (List.length g <? List.length h)%nat then g :: l else h :: insert_len g t
  end.
Definition sort_len (l : list (list string)) : list (list string) := fold_left (fun acc g => insert_len g acc) l [].

(** schemas/math_schema.py:432-436: the loop over the groups. *)
Fixpoint collect_dups (groups : list (list string)) (seen dups : list string) : list string :=
  match groups with
  | [] => dups
  | g :: t => collect_dups t (seen ++ g) (dups ++ filter (fun n => smem n seen) g)
  end.

(** schemas/math_schema.py:422-442 [unique_component_names]; returns the reported names
    through the error case only in Python, here the decision is modelled. *)
Definition unique_component_names (m : math) : result math :=
  match collect_dups (sort_len (map (fun fg => active (snd fg)) m)) [] [] with
  | [] => Ok m
  | _ => Err EValue
  end.

(** [getattr(self, field)]: every field of the schema exists (default empty). *)
Definition field (m : math) (f : string) : group :=
  match d_get f m with Some g => g | None => [] end.

(** schemas/math_schema.py:391-420: the declared fields. *)
Definition all_fields : list string :=
  ["dimensions"; "parameters"; "lookups"; "variables"; "global_expressions"; "constraints";
   "piecewise_constraints"; "objectives"; "postprocessed"; "checks"].

(** schemas/math_schema.py:475-489 [find]: the field in which the component is found.
    [subset = []] stands for [None] or empty (both falsy); [found] is a set. *)
Definition find (m : math) (component : string) (subset : list string) : result string :=
  let fields := match subset with
                | [] => filter (fun f => negb (String.eqb f "checks")) all_fields
                | _ => subset
                end in
  match nodup string_dec (filter (fun f => smem component (active (field m f))) fields) with
  | [] => Err EKey
  | [f] => Ok f
  | _ => Err EValue
  end.

(** schemas/math_schema.py:444-473 [parsing_components]: the names by role. *)
Definition role_fields (role : string) : list string :=
  if String.eqb role "dimensions" then ["dimensions"]
  else if String.eqb role "inputs" then ["lookups"; "parameters"]
  else ["variables"; "global_expressions"].
Definition active_names (m : math) (role : string) : list string :=
  flat_map (fun f => active (field m f)) (role_fields role).
Definition expression_names (m : math) (role : string) : list string := active_names m role.
Definition where_names (m : math) (role : string) : list string :=
  if String.eqb role "dimensions" then active_names m role
  else
    let all_active := active_names m "results" ++ active_names m "inputs" in
    let all_names := flat_map (fun f => map fst (field m f)) (role_fields role) in
    active_names m role ++ filter (fun n => negb (smem n all_active)) all_names.
