(** Model of the helper functions of math texts (src/calliope/backend/helper_functions.py) and
    of the evaluation of expressions that call them (expression_parser.py:205-460), with the
    dimensions of every array. *)
From Coq Require Import QArith Qcanon.
From Verif Require Import Base LangModel EvalModel.
From Verif Require CliModel.
Local Open Scope nat_scope.
Local Open Scope string_scope.
Local Open Scope list_scope.

(** An array with its dimensions ([xr.DataArray]); the entries are meant to depend on the labels
    of these dimensions only. *)
Record darr := { a_dims : list string; a_at : arr }.
(** [where_array] of [EvalAttrs]. *)
Record dmask := { m_dims : list string; m_at : pos -> bool }.
(** [xr.DataArray(True)], expression_parser.py:446. *)
Definition no_mask : dmask := {| m_dims := []; m_at := everywhere |}.

(** Place of a label along its dimension. *)
Fixpoint place (l : string) (ls : list string) : option nat :=
  match ls with
  | [] => None
  | x :: r => if String.eqb l x then Some 0 else option_map S (place l r)
  end.
Fixpoint puts (p : pos) (ds ls : list string) : pos :=
  match ds, ls with d :: ds, l :: ls => puts (put p d l) ds ls | _, _ => p end.

(** Dimensions after broadcasting, after dropping, and shared ones. *)
Definition merge (a b : list string) : list string := a ++ filter (fun d => negb (smem d a)) b.
Definition without (ds a : list string) : list string := filter (fun d => negb (smem d ds)) a.
Definition shared (a b : list string) : list string := filter (fun d => smem d b) (nodup string_dec a).
Definition all_in (a b : list string) : bool := forallb (fun d => smem d b) a.

(** [n_labels]: the labels of each dimension, in order; [n_calendar group label]: the date part
    ([.dt.month], [.dt.date], ... ) of a time step, as text; the other fields as in [env] of
    EvalModel.v. *)
Record denv := {
  n_labels : string -> list string;
  n_array : string -> darr;
  n_default : string -> cell;
  n_config : string -> cell;
  n_ref : string -> dmask -> option darr;
  n_slice : string -> option darr;
  n_odd : op -> cell -> cell -> cell;
  n_calendar : string -> string -> cell;
  n_carrier : string -> darr;
  n_matrix : darr }.

(** * The functions on arrays *)
Section Helpers.
Variable D : denv.
Let L := n_labels D.

(** [DataArray.sum(..., min_count=1, skipna=True)]: missing entries are left out; nothing left
    gives a missing entry; truth values count as 0 and 1. *)
Definition numeral (c : cell) : cell :=
  match c with Boo b => Val (if b then 1 else 0)%Qc | _ => c end.
Definition plus (a b : cell) : cell :=
  match a, b with Val x, Val y => Val (x + y)%Qc | _, _ => n_odd D OAdd a b end.
Definition total (l : list cell) : cell :=
  match filter (fun c => negb (missing c)) l with
  | [] => Miss
  | x :: r => fold_left (fun a b => plus a (numeral b)) r (numeral x)
  end.
(** The positions that agree with [p] outside the dimensions [ds]. *)
Definition spread (ds : list string) (p : pos) : list pos :=
  map (puts p ds) (CliModel.product (map L ds)).

(** [Sum.as_array] 380-398: dimensions that the array does not have are passed over. *)
Definition h_sum (over : list string) (a : darr) : darr :=
  let ds := shared over (a_dims a) in
  {| a_dims := without ds (a_dims a);
     a_at := fun p => total (map (a_at a) (spread ds p)) |}.

(** [Where.as_array] 652-692: conditions that are missing or zero count as false. *)
Definition truth (c : cell) : bool :=
  match c with
  | Miss => false
  | Boo b => b
  | Val q => if Qc_eq_dec q 0%Qc then false else true
  | Inf _ => true
  | Txt s => negb (String.eqb s "")
  end.
Definition h_where (a c : darr) : darr :=
  {| a_dims := merge (a_dims a) (a_dims c);
     a_at := fun p => if truth (a_at c p) then a_at a p else Miss |}.

(** [ReduceCarrierDim.as_array] 412-429; [n_carrier]: [carrier_in], [carrier_out]. *)
Definition h_reduce (a : darr) (direction : string) : darr :=
  h_sum ["carriers"] (h_where a (n_carrier D direction)).

(** [Roll.as_array] 613-638, [DataArray.roll]: the entry at place i is taken from place i - k,
    cyclically; dimensions that the array does not have are an error. *)
Definition rolled (d : string) (k : Z) (a : arr) : arr :=
  fun p => match place (p d) (L d) with
           | None => Miss
           | Some i =>
               a (put p d (nth (Z.to_nat ((Z.of_nat i - k) mod Z.of_nat (List.length (L d)))%Z) (L d) ""))
           end.
Definition h_roll (a : darr) (ks : list (string * Z)) : option darr :=
  if all_in (map fst ks) (a_dims a)
  then Some {| a_dims := a_dims a;
               a_at := fold_right (fun dk v => rolled (fst dk) (snd dk) v) (a_at a) ks |}
  else None.

(** [SumNextN.as_array] 893-944: the slice stops at the end of the dimension.  Simplification:
    [N] is a natural number. *)
Definition window {A} (i n : nat) (l : list A) : list A := firstn n (skipn i l).
Definition h_next (a : darr) (d : string) (n : nat) : option darr :=
  if smem d (a_dims a)
  then Some {| a_dims := a_dims a;
               a_at := fun p =>
                 match place (p d) (L d) with
                 | None => Miss
                 | Some i => total (map (fun l => a_at a (put p d l)) (window i n (L d)))
                 end |}
  else None.
(** [SumNextN.as_math_string] 884-891: the limits of the sum it writes, both included, counted
    from the current place. *)
Definition next_limits (n : nat) : nat * nat := (0, n).

(** [GroupSum.as_array] 713-780: the entries of each group are added; positions without a group
    belong to none; groups that do not occur have no entry; it is an error if there are none
    at all or if the array lacks a dimension of the grouping.  Group names are text. *)
Definition in_group (g : string) (c : cell) : bool :=
  match c with Txt s => String.eqb s g | _ => false end.
Definition h_group (a by_ : darr) (gd : string) : option darr :=
  let ds := a_dims by_ in
  if all_in ds (a_dims a) && existsb (fun q => negb (missing (a_at by_ q))) (spread ds (fun _ => ""))
  then Some {| a_dims := merge (without ds (a_dims a)) [gd];
               a_at := fun p => total (map (a_at a) (filter (fun q => in_group (p gd) (a_at by_ q)) (spread ds p))) |}
  else None.

(** [GroupDatetime.as_array] 799-870. *)
Definition h_datetime (a : darr) (over group : string) : option darr :=
  if smem over (a_dims a)
  then h_group a {| a_dims := [over]; a_at := fun p => n_calendar D group (p over) |} group
  else None.

(** [SelectFromLookupArrays.as_array] 448-530: the lookup arrays are taken from the inputs by
    name (508).  Errors: dimensions missing in the array or a lookup array (492-499), no label
    found at all (510-516).  A lookup array with further dimensions cannot be indexed with
    ([get_indexer] wants one dimension) and is an error, too. *)
Definition found (d : string) (c : cell) : bool :=
  match c with Txt s => smem s (L d) | _ => false end.
Definition h_select (a : darr) (ks : list (string * darr)) : option darr :=
  let ds := map fst ks in
  if all_in ds (a_dims a)
     && forallb (fun k => all_in ds (a_dims (snd k)) && all_in (a_dims (snd k)) ds) ks
     && forallb (fun k => existsb (fun q => found (fst k) (a_at (snd k) q)) (spread ds (fun _ => ""))) ks
  then Some {| a_dims := merge (without ds (a_dims a)) ds;
               a_at := fun p =>
                 if forallb (fun k => found (fst k) (a_at (snd k) p)) ks
                 then a_at a (puts p ds (map (fun k => label (a_at (snd k) p)) ks))
                 else Miss |}
  else None.

(** [GetValAtIndex.as_array] 545-574: negative numbers count from the end. *)
Definition h_val (d : string) (k : Z) : option darr :=
  let n := Z.of_nat (List.length (L d)) in
  let i := if Z.ltb k 0 then (n + k)%Z else k in
  if Z.leb 0 i && Z.ltb i n
  then Some {| a_dims := []; a_at := const (Txt (nth (Z.to_nat i) (L d) "")) |}
  else None.

(** [WhereAny.as_array] 213-236.  Simplification: entries that are not Boolean are false rather
    than an error (229-233). *)
Definition h_any (over : list string) (a : darr) : darr :=
  let ds := shared over (a_dims a) in
  {| a_dims := without ds (a_dims a);
     a_at := fun p => Boo (existsb (fun q => is_true (a_at a q)) (spread ds p)) |}.

(** [Defined.as_array] 258-321, [_dims_to_remove] 323-346. *)
Definition chosen (ms : list (string * list string)) (p : pos) : list pos :=
  map (puts p (map fst ms)) (CliModel.product (map snd ms)).
Definition h_defined (within : string) (all : bool) (ms : list (string * list string)) : option darr :=
  let M := n_matrix D in
  let rest := without (map fst ms ++ [within]) (a_dims M) in
  if all_in (map fst ms ++ [within]) (a_dims M) && forallb (fun m => all_in (snd m) (L (fst m))) ms
  then
    let known q := existsb (fun r => is_true (a_at M r)) (spread rest q) in
    Some {| a_dims := without (map fst ms) [within];
            a_at := fun p => Boo (if all then forallb known (chosen ms p) else existsb known (chosen ms p)) |}
  else None.

(** * Arguments *)

(** An argument as written and evaluated. *)
Definition arg := (expr * option darr)%type.

(** Binding of positional and keyword arguments to the parameters of a python function: [ps]
    may be given by position or name, [ks] by name only; with [more], further keywords are
    collected. *)
Fixpoint bind_pos (ps : list string) (args : list arg) : option (list (string * arg)) :=
  match args, ps with
  | [], _ => Some []
  | a :: args, q :: ps => option_map (cons (q, a)) (bind_pos ps args)
  | _ :: _, [] => None
  end.
Definition bind (ps ks : list string) (more : bool) (args : list arg) (kws : list (string * arg))
  : option (list (string * arg) * list (string * arg)) :=
  match bind_pos ps args with
  | None => None
  | Some given =>
      let named := filter (fun k => smem (fst k) (ps ++ ks)) kws in
      let others := filter (fun k => negb (smem (fst k) (ps ++ ks))) kws in
      let all := given ++ named in
      if all_in (ps ++ ks) (map fst all)
         && forallb (fun k => negb (smem (fst k) (map fst given))) named
         && (more || match others with [] => true | _ => false end)
      then Some (all, others)
      else None
  end.
Definition get_arr (s : string) (l : list (string * arg)) : option darr :=
  match d_get s l with Some (_, a) => a | None => None end.

(** [_to_str_list] 176-189 and [.name] of an argument: names of components or dimensions, and
    strings.  Simplification: anything else is an error. *)
Definition name_of (e : expr) : option string :=
  match e with EName s | EStr s => Some s | _ => None end.
Fixpoint all_some {A} (l : list (option A)) : option (list A) :=
  match l with
  | [] => Some []
  | None :: _ => None
  | Some x :: r => option_map (cons x) (all_some r)
  end.
Definition names_of (e : expr) : option (list string) :=
  match e with
  | EList l => all_some (map name_of l)
  | _ => option_map (fun s => [s]) (name_of e)
  end.
Definition get_names (s : string) (l : list (string * arg)) : option (list string) :=
  match d_get s l with Some (e, _) => names_of e | None => None end.
Definition get_name (s : string) (l : list (string * arg)) : option string :=
  match d_get s l with Some (e, _) => name_of e | None => None end.
(** [int(...)] of an argument without dimensions: cut off towards zero. *)
Definition int_of (a : option darr) : option Z :=
  match a with
  | Some a => match a_dims a, a_at a (fun _ => "") with
              | [], Val q => Some (Z.quot (Qnum q) (Zpos (Qden q)))
              | _, _ => None
              end
  | None => None
  end.
Definition get_int (s : string) (l : list (string * arg)) : option Z :=
  match d_get s l with Some (_, a) => int_of a | None => None end.

(** [ignore_where] 601-604, 703, 790. *)
Definition ignores (f : string) : bool := smem f ["roll"; "group_sum"; "group_datetime"].

(** [__call__] 70-81 of the function called [f] (the [_registry]); [None]: an error.  Functions
    that do not exist or are not allowed in the text at hand are refused earlier, while the
    text is parsed. *)
Definition opt2 {A B C} (f : A -> B -> option C) (a : option A) (b : option B) : option C :=
  match a, b with Some a, Some b => f a b | _, _ => None end.
Definition call (f : string) (args : list arg) (kws : list (string * arg)) : option darr :=
  if String.eqb f "sum" then
    match bind ["array"] ["over"] false args kws with
    | Some (l, _) => opt2 (fun a o => Some (h_sum o a)) (get_arr "array" l) (get_names "over" l)
    | None => None
    end
  else if String.eqb f "any" then
    match bind ["input_component"] ["over"] false args kws with
    | Some (l, _) => opt2 (fun a o => Some (h_any o a)) (get_arr "input_component" l) (get_names "over" l)
    | None => None
    end
  else if String.eqb f "where" then
    match bind ["array"; "condition"] [] false args kws with
    | Some (l, _) => opt2 (fun a c => Some (h_where a c)) (get_arr "array" l) (get_arr "condition" l)
    | None => None
    end
  else if String.eqb f "reduce_carrier_dim" then
    match bind ["array"; "flow_direction"] [] false args kws with
    | Some (l, _) => opt2 (fun a s => Some (h_reduce a s)) (get_arr "array" l) (get_name "flow_direction" l)
    | None => None
    end
  else if String.eqb f "roll" then
    match bind ["array"] [] true args kws with
    | Some (l, more) =>
        opt2 h_roll (get_arr "array" l)
          (all_some (map (fun k => option_map (fun z => (fst k, z)) (int_of (snd (snd k)))) more))
    | None => None
    end
  else if String.eqb f "sum_next_n" then
    match bind ["array"; "over"; "N"] [] false args kws with
    | Some (l, _) =>
        match get_arr "array" l, get_name "over" l, get_int "N" l with
        | Some a, Some d, Some n => if Z.leb 0 n then h_next a d (Z.to_nat n) else None
        | _, _, _ => None
        end
    | None => None
    end
  else if String.eqb f "group_sum" then
    match bind ["array"; "groupby"; "group_dim"] [] false args kws with
    | Some (l, _) =>
        match get_arr "array" l, get_arr "groupby" l, get_name "group_dim" l with
        | Some a, Some b, Some d => h_group a b d
        | _, _, _ => None
        end
    | None => None
    end
  else if String.eqb f "group_datetime" then
    match bind ["array"; "over"; "group"] [] false args kws with
    | Some (l, _) =>
        match get_arr "array" l, get_name "over" l, get_name "group" l with
        | Some a, Some o, Some g => h_datetime a o g
        | _, _, _ => None
        end
    | None => None
    end
  else if String.eqb f "select_from_lookup_arrays" then
    match bind ["array"] [] true args kws with
    | Some (l, more) =>
        opt2 h_select (get_arr "array" l)
          (all_some (map (fun k => option_map (fun s => (fst k, n_array D s)) (name_of (fst (snd k)))) more))
    | None => None
    end
  else if String.eqb f "get_val_at_index" then
    match bind [] [] true args kws with
    | Some (_, [k]) => match int_of (snd (snd k)) with Some z => h_val (fst k) z | None => None end
    | _ => None
    end
  else if String.eqb f "defined" then
    match bind [] ["within"; "how"] true args kws with
    | Some (l, more) =>
        match get_name "within" l, get_name "how" l,
              all_some (map (fun k => option_map (fun s => (fst k, s)) (names_of (fst (snd k)))) more) with
        | Some w, Some h, Some ms =>
            if String.eqb h "all" then h_defined w true ms
            else if String.eqb h "any" then h_defined w false ms
            else None
        | _, _, _ => None
        end
    | None => None
    end
  else None.

(** * Expressions *)

(** [evaluated.where(where_array)], expression_parser.py:205-213: the result has the dimensions
    of both. *)
Definition under (w : dmask) (a : darr) : darr :=
  {| a_dims := merge (a_dims a) (m_dims w); a_at := mask (m_at w) (a_at a) |}.
(** [_operate] 224-240 as in EvalModel.v. *)
Definition plain_env : env :=
  {| e_array := fun s => a_at (n_array D s); e_default := n_default D; e_config := n_config D;
     e_ref := fun s w => const Miss; e_slice := fun s => match n_slice D s with Some a => a_at a | None => const Miss end;
     e_helper := fun _ _ _ => const Miss; e_ignore := fun _ => false; e_odd := n_odd D |}.
Definition combine (o : op) (a b : darr) : darr :=
  {| a_dims := merge (a_dims a) (a_dims b);
     a_at := fun p => operate plain_env o (a_at a p) (a_at b p) |}.

(** [EvalSlicedComponent.as_array] 594-596: one dimension, which the component must have.  A
    list keeps the dimension; entries outside it are missing.  Simplification: labels that do
    not exist are no error; slice references stand for arrays of labels, not for lists. *)
Definition slice_dim (d : string) (sl : expr) (a : darr) : option darr :=
  if negb (smem d (a_dims a)) then None else
  match sl with
  | EList _ => Some {| a_dims := a_dims a; a_at := slice_at plain_env d sl (a_at a) |}
  | ESlice s =>
      match n_slice D s with
      | Some b => Some {| a_dims := merge (without [d] (a_dims a)) (a_dims b); a_at := slice_at plain_env d sl (a_at a) |}
      | None => None
      end
  | EStr _ | ENum _ _ => Some {| a_dims := without [d] (a_dims a); a_at := slice_at plain_env d sl (a_at a) |}
  | _ => None
  end.

Definition named (s : string) : darr :=
  {| a_dims := a_dims (n_array D s); a_at := fun p => fill (n_default D s) (a_at (n_array D s) p) |}.
Definition scalar (c : cell) : darr := {| a_dims := []; a_at := const c |}.

(** [as_array] of the parsed expressions as [aeval] of EvalModel.v, with the helper functions. *)
Fixpoint deval (w : dmask) (e : expr) {struct e} : option darr :=
  match e with
  | ENum neg s => Some (scalar (number_cell neg s))
  | EName s => Some (named s)
  | EConf s => Some (scalar (n_config D s))
  | EStr s => Some (scalar (Txt s))
  | EBool b => Some (scalar (Boo b))
  | ERef s => n_ref D s w
  | ESlice s => n_slice D s
  | EList _ => None
  | EIndex s sl =>
      fold_right (fun x a => match a with Some a => slice_dim (fst x) (snd x) a | None => None end)
        (Some (named s)) sl
  | EFun f args kws =>
      let w' := if ignores f then no_mask else w in
      call f (map (fun a => (a, deval w' a)) args) (map (fun k => (fst k, (snd k, deval w' (snd k)))) kws)
  | ESign neg e =>
      match deval w e with
      | Some a => Some (if neg then combine OMul (scalar (Val (- (1))%Qc)) a else a)
      | None => None
      end
  | EChain e ops =>
      fold_left (fun v x => match v, deval w (snd x) with
                            | Some v, Some b => Some (combine (fst x) v (under w b))
                            | _, _ => None
                            end)
        ops (option_map (under w) (deval w e))
  end.
End Helpers.

(** The references of an equation, from its chosen sub-expressions and slices
    ([EvalSubExpressions] 675-684, [EvalIndexSlice] 633-640). *)
Definition slices_in (D : denv) (sl : list (string * expr)) : denv :=
  {| n_labels := n_labels D; n_array := n_array D; n_default := n_default D; n_config := n_config D;
     n_ref := n_ref D;
     n_slice := fun s => match d_get s sl with Some e => deval D no_mask e | None => None end;
     n_odd := n_odd D; n_calendar := n_calendar D; n_carrier := n_carrier D; n_matrix := n_matrix D |}.
Definition subs_in (D : denv) (sb : list (string * expr)) : denv :=
  {| n_labels := n_labels D; n_array := n_array D; n_default := n_default D; n_config := n_config D;
     n_ref := fun s w => match d_get s sb with Some e => deval D w e | None => None end;
     n_slice := n_slice D;
     n_odd := n_odd D; n_calendar := n_calendar D; n_carrier := n_carrier D; n_matrix := n_matrix D |}.

(** Names in conditions, where_parser.py:144-149, 184-193: whether there is an entry, for Boolean
    inputs ([bools]) the entry; cf. [top_env] of EvalModel.v. *)
Definition present (D : denv) (bools : string -> bool) : denv :=
  {| n_labels := n_labels D;
     n_array := fun s =>
       {| a_dims := a_dims (n_array D s);
          a_at := fun p => let c := a_at (n_array D s) p in
                           Boo (if bools s then is_true c else negb (missing c) && negb (is_inf c)) |};
     n_default := fun _ => Miss; n_config := n_config D; n_ref := n_ref D; n_slice := n_slice D;
     n_odd := n_odd D; n_calendar := n_calendar D; n_carrier := n_carrier D; n_matrix := n_matrix D |}.

(** Helper functions in conditions ([ALLOWED_IN] "where"): nothing is masked there.  [D] is
    [present] of the data if the call is the condition, the data if it is compared
    (where_parser.py:244-253). *)
Definition where_call (D : denv) (f : string) (args : list (expr * arr)) (kws : list (string * (expr * arr))) : arr :=
  match call D f (map (fun a => (fst a, deval D no_mask (fst a))) args)
               (map (fun k => (fst k, (fst (snd k), deval D no_mask (fst (snd k))))) kws) with
  | Some a => a_at a
  | None => const Miss
  end.
