(** Model of the two little languages of the math files: the arithmetic expressions of
    src/calliope/backend/expression_parser.py and the conditions of
    src/calliope/backend/where_parser.py, from text to syntax tree.

    Both are scannerless pyparsing grammars.  The model cuts the text into tokens first and
    then follows the ordered choices of the grammar on the tokens.  Simplifications: white
    space that pyparsing forbids is tolerated after "$" in slices and between a sign and its
    number in lists; white space that it demands around "in" is not demanded. *)
From Verif Require Import Base.
Local Open Scope string_scope.
Local Open Scope list_scope.

(** * Tokens *)
Inductive sym :=
| LPar | RPar | LBr | RBr | Comma | Eq
| EqEq | Le | Ge | Lt | Gt
| Plus | Minus | Times | Div | Pow.

(** [TId s g]: an identifier; [g] tells whether a bracket follows without a space
    ([pp.Combine], expression_parser.py:911, 975).  [TRef s]: "$s" (1000-1003).  [TConf s]:
    "config.s" (where_parser.py:399).  [TNum s]: a number as written, "inf" for any spelling
    of infinity (expression_parser.py:1073-1074). *)
Inductive tok :=
| TId (s : string) (g : bool)
| TRef (s : string)
| TConf (s : string)
| TNum (s : string)
| TSym (y : sym).

Definition between (a b c : ascii) : bool :=
  Nat.leb (nat_of_ascii a) (nat_of_ascii c) && Nat.leb (nat_of_ascii c) (nat_of_ascii b).
Definition is_digit (c : ascii) : bool := between "0" "9" c.
Definition is_upper (c : ascii) : bool := between "A" "Z" c.
Definition is_lower (c : ascii) : bool := between "a" "z" c.
Definition is_alpha (c : ascii) : bool := is_upper c || is_lower c.
(** [pp.alphanums + "_"], expression_parser.py:1075. *)
Definition is_idc (c : ascii) : bool := is_alpha c || is_digit c || Ascii.eqb c "_".
(** pyparsing's default white space. *)
Definition is_space (c : ascii) : bool :=
  Ascii.eqb c " " || Ascii.eqb c "010" || Ascii.eqb c "009" || Ascii.eqb c "013".

(** The longest prefix of characters satisfying [p]. *)
Fixpoint span (p : ascii -> bool) (s : string) : string * string :=
  match s with
  | EmptyString => (EmptyString, EmptyString)
  | String c t => if p c then let '(a, b) := span p t in (String c a, b) else (EmptyString, s)
  end.

Definition lower_char (c : ascii) : ascii :=
  if is_upper c then ascii_of_nat (nat_of_ascii c + 32) else c.
Fixpoint lower (s : string) : string :=
  match s with EmptyString => EmptyString | String c t => String (lower_char c) (lower t) end.

(** A keyword in any case, e.g. [pp.Keyword("not", caseless=True)], where_parser.py:488. *)
Definition is_kw (w s : string) : bool := String.eqb (lower s) w.

(** Optional exponent of a number. *)
Definition exponent (s : string) : string * string :=
  match s with
  | String c t =>
      if Ascii.eqb c "e" || Ascii.eqb c "E" then
        let '(sg, r) := match t with
                        | String d r => if Ascii.eqb d "+" || Ascii.eqb d "-"
                                        then (String d EmptyString, r) else (EmptyString, t)
                        | EmptyString => (EmptyString, t)
                        end in
        let '(ds, r') := span is_digit r in
        match ds with
        | EmptyString => (EmptyString, s)
        | _ => (String c (String.append sg ds), r')
        end
      else (EmptyString, s)
  | EmptyString => (EmptyString, s)
  end.

(** [pyparsing_common.number] without its sign. *)
Definition number (s : string) : option (string * string) :=
  let '(d, r) := span is_digit s in
  match r with
  | String "." r' =>
      let '(f, r'') := span is_digit r' in
      match d, f with
      | EmptyString, EmptyString => None
      | _, _ => let '(x, q) := exponent r'' in
                Some (String.append d (String "." (String.append f x)), q)
      end
  | _ => match d with
         | EmptyString => None
         | _ => let '(x, q) := exponent r in Some (String.append d x, q)
         end
  end.

Definition opens (s : string) : bool :=
  match s with String "(" _ => true | String "[" _ => true | _ => false end.

(** An identifier: a letter, then letters, digits and underscores
    (expression_parser.py:1075); any spelling of "inf" is a number. *)
Definition word (s : string) : option (tok * string) :=
  match s with
  | String c _ =>
      if is_alpha c then
        let '(w, r) := span is_idc s in
        if is_kw "inf" w then Some (TNum "inf", r)
        else if String.eqb w "config" then
          match r with
          | String "." (String a t) =>
              if is_alpha a then
                let '(x, r') := span is_idc (String a t) in
                if is_kw "inf" x then Some (TId w (opens r), r) else Some (TConf x, r')
              else Some (TId w (opens r), r)
          | _ => Some (TId w (opens r), r)
          end
        else Some (TId w (opens r), r)
      else None
  | EmptyString => None
  end.

Definition symbol (s : string) : option (sym * string) :=
  match s with
  | String "*" (String "*" r) => Some (Pow, r)
  | String "=" (String "=" r) => Some (EqEq, r)
  | String "<" (String "=" r) => Some (Le, r)
  | String ">" (String "=" r) => Some (Ge, r)
  | String "(" r => Some (LPar, r)
  | String ")" r => Some (RPar, r)
  | String "[" r => Some (LBr, r)
  | String "]" r => Some (RBr, r)
  | String "," r => Some (Comma, r)
  | String "=" r => Some (Eq, r)
  | String "<" r => Some (Lt, r)
  | String ">" r => Some (Gt, r)
  | String "+" r => Some (Plus, r)
  | String "-" r => Some (Minus, r)
  | String "*" r => Some (Times, r)
  | String "/" r => Some (Div, r)
  | _ => None
  end.

(** One token at the start of the text. *)
Definition token (s : string) : option (tok * string) :=
  match word s with
  | Some x => Some x
  | None =>
      match number s with
      | Some (x, r) => Some (TNum x, r)
      | None =>
          match s with
          | String "$" t => match word t with
                            | Some (TId x _, r) => Some (TRef x, r)
                            | _ => None
                            end
          | String "." t => match word t with
                            | Some (TNum x, r) => Some (TNum x, r)
                            | _ => None
                            end
          | _ => match symbol s with Some (y, r) => Some (TSym y, r) | None => None end
          end
      end
  end.

(** The whole text.  The fuel is the length of the text, which is enough. *)
Fixpoint lex_go (n : nat) (s : string) : option (list tok) :=
  match n with
  | 0 => match s with EmptyString => Some [] | _ => None end
  | S m =>
      match s with
      | EmptyString => Some []
      | String c t =>
          if is_space c then lex_go m t
          else match token s with
               | Some (x, r) => option_map (cons x) (lex_go m r)
               | None => None
               end
      end
  end.
Definition lex (s : string) : option (list tok) := lex_go (String.length s) s.

(** * Syntax trees *)
Inductive op := OPow | OMul | ODiv | OAdd | OSub.

(** The parse actions of expression_parser.py: [EvalNumber] (687), [EvalUnslicedComponent]
    (757) and the array parsers of where_parser.py (114-224), [ConfigOptionParser]
    (where_parser.py:75), [EvalGenericString] (820), [BoolOperandParser]
    (where_parser.py:308), [EvalSubExpressions] (646), [EvalIndexSlice] (599), [ListParser]
    (723), [EvalSlicedComponent] (507), [EvalFunction] (385), [EvalSignOp] (271) and
    [EvalOperatorOperand] (154), the last holding operands of one precedence level in a
    flat list. *)
Inductive expr :=
| ENum (neg : bool) (s : string)
| EName (s : string)
| EConf (s : string)
| EStr (s : string)
| EBool (b : bool)
| ERef (s : string)
| ESlice (s : string)
| EList (l : list expr)
| EIndex (s : string) (sl : list (string * expr))
| EFun (f : string) (args : list expr) (kws : list (string * expr))
| ESign (neg : bool) (e : expr)
| EChain (e : expr) (ops : list (op * expr)).

Inductive cmp := CLt | CGt | CEq | CGe | CLe.

(** [EvalNot] (where_parser.py:23), [EvalAndOr] (35; [true] is "and"), [ComparisonParser]
    (227), [SubsetParser] (268), [BoolOperandParser] (308), a helper function, an input or
    result name. *)
Inductive wexpr :=
| WBool (b : bool)
| WCmp (l : expr) (c : cmp) (r : expr)
| WFun (e : expr)
| WSubset (items : list expr) (d : string)
| WName (s : string)
| WNot (w : wexpr)
| WChain (w : wexpr) (ops : list (bool * wexpr)).

(** * Parsers *)

(** What may be an argument of a helper function, in order (first match wins):
    [MExpr] arithmetic, list, string (expression_parser.py:1218-1223, 1258-1263);
    [MCmp] string, number, list, arithmetic (where_parser.py:539-545);
    [MTop] string, number, list, name, configuration option (where_parser.py:568-577);
    [MSlice] function, sliced name, name, number, list, string (expression_parser.py:1173-1181). *)
Inductive mode := MExpr | MCmp | MTop | MSlice.

(** [l_name]: names that stand for arrays; [l_reserved]: names that are not plain strings;
    [l_item]: names allowed as list items; [l_refs]: whether "$name" is an operand;
    [l_srefs]: whether "$name" may be a slicer. *)
Record lang := {
  l_mode : mode;
  l_name : string -> bool;
  l_reserved : string -> bool;
  l_item : string -> bool;
  l_refs : bool;
  l_srefs : bool }.

Section Parsers.
Variable L : lang.

(** [pp.one_of(["+", "-"])], expression_parser.py:1102. *)
Definition sign_of (ts : list tok) : option (bool * list tok) :=
  match ts with
  | TSym Plus :: r => Some (false, r)
  | TSym Minus :: r => Some (true, r)
  | _ => None
  end.

(** The binary operators of each level, expression_parser.py:1103-1116: 1 power, 2
    multiplication and division, 3 addition and subtraction. *)
Definition op_of (l : nat) (ts : list tok) : option (op * list tok) :=
  match l, ts with
  | 1, TSym Pow :: r => Some (OPow, r)
  | 2, TSym Times :: r => Some (OMul, r)
  | 2, TSym Div :: r => Some (ODiv, r)
  | 3, TSym Plus :: r => Some (OAdd, r)
  | 3, TSym Minus :: r => Some (OSub, r)
  | _, _ => None
  end.

(** A number outside arithmetic may carry a sign ([pyparsing_common.number]). *)
Definition p_num (ts : list tok) : option (expr * list tok) :=
  match ts with
  | TNum s :: r => Some (ENum false s, r)
  | TSym Plus :: TNum s :: r => Some (ENum false s, r)
  | TSym Minus :: TNum s :: r => Some (ENum true s, r)
  | _ => None
  end.

(** [evaluatable_identifier_parser] expression_parser.py:1023-1045 and
    [evaluatable_string_parser] where_parser.py:417-426: an identifier that is not a
    reserved name. *)
Definition p_str (ts : list tok) : option (expr * list tok) :=
  match ts with
  | TId s _ :: r => if l_reserved L s then None else Some (EStr s, r)
  | _ => None
  end.

Definition p_name (ok : string -> bool) (ts : list tok) : option (expr * list tok) :=
  match ts with
  | TId s _ :: r => if ok s then Some (EName s, r) else None
  | _ => None
  end.

(** [a | b]: [pp.MatchFirst]. *)
Definition orelse {A} (a b : option A) : option A :=
  match a with Some _ => a | None => b end.

(** [list_parser] expression_parser.py:1048-1066, after the opening bracket; [names]: the
    names allowed besides numbers and plain strings. *)
Definition p_item (names : string -> bool) (ts : list tok) : option (expr * list tok) :=
  orelse (p_num ts) (orelse (p_str ts) (p_name names ts)).

Fixpoint p_items (n : nat) (names : string -> bool) (ts : list tok)
  : option (list expr * list tok) :=
  match n with
  | 0 => None
  | S m =>
      match p_item names ts with
      | Some (x, TSym Comma :: r) =>
          match p_items m names r with
          | Some (l, r') => Some (x :: l, r')
          | None => None
          end
      | Some (x, TSym RBr :: r) => Some ([x], r)
      | _ => None
      end
  end.

Definition p_list (n : nat) (names : string -> bool) (ts : list tok) : option (expr * list tok) :=
  match ts with
  | TSym LBr :: r => match p_items n names r with
                     | Some (l, r') => Some (EList l, r')
                     | None => None
                     end
  | _ => None
  end.

(** The slices of [sliced_param_or_var_parser] expression_parser.py:957-976, after the
    opening bracket. *)
Definition p_slicer (n : nat) (ts : list tok) : option (expr * list tok) :=
  orelse (match ts with
          | TRef s :: r => if l_srefs L then Some (ESlice s, r) else None
          | _ => None
          end)
    (orelse (p_num ts) (orelse (p_str ts) (p_list n (fun _ => false) ts))).

Fixpoint p_slices (n : nat) (ts : list tok) : option (list (string * expr) * list tok) :=
  match n with
  | 0 => None
  | S m =>
      match ts with
      | TId d _ :: TSym Eq :: r =>
          match p_slicer m r with
          | Some (x, TSym Comma :: r') =>
              match p_slices m r' with
              | Some (l, r'') => Some ((d, x) :: l, r'')
              | None => None
              end
          | Some (x, TSym RBr :: r') => Some ([(d, x)], r')
          | _ => None
          end
      | _ => None
      end
  end.

Definition p_index (n : nat) (ts : list tok) : option (expr * list tok) :=
  match ts with
  | TId s true :: TSym LBr :: r =>
      if l_name L s then
        match p_slices n r with Some (sl, r') => Some (EIndex s sl, r') | None => None end
      else None
  | _ => None
  end.

Definition has_index : bool := match l_mode L with MExpr | MSlice => true | _ => false end.
Definition has_conf : bool := match l_mode L with MCmp | MTop => true | _ => false end.

Definition p_conf (ts : list tok) : option (expr * list tok) :=
  match ts with TConf s :: r => if has_conf then Some (EConf s, r) else None | _ => None end.

(** [pp.NotAny("=")], expression_parser.py:894. *)
Definition not_eq (x : option (expr * list tok)) : option (expr * list tok) :=
  match x with
  | Some (_, TSym Eq :: _) => None
  | Some (_, TSym EqEq :: _) => None
  | _ => x
  end.

(** [arithmetic_parser] expression_parser.py:1081-1119 ([p_lvl], [p_ops], [p_atom]) and
    [helper_function_parser] 850-916 ([p_call], [p_args], [p_arg], [p_kws]).  The levels of
    [p_lvl]: 0 signs, 1 power, 2 multiplication, 3 addition.  Keyword arguments may follow
    without a comma (906-908, [pp.dict_of]).  A sign directly before a number is always
    taken by level 0, so atoms have unsigned numbers. *)
Fixpoint p_lvl (n : nat) (l : nat) (ts : list tok) {struct n} : option (expr * list tok) :=
  match n with
  | 0 => None
  | S m =>
      match l with
      | 0 =>
          match sign_of ts with
          | Some (neg, r) =>
              match p_lvl m 0 r with
              | Some (e, r') => Some (ESign neg e, r')
              | None => p_atom m ts
              end
          | None => p_atom m ts
          end
      | S k =>
          match p_lvl m k ts with
          | Some (e, r) =>
              match p_ops m l r with
              | ([], _) => Some (e, r)
              | (ops, r') => Some (EChain e ops, r')
              end
          | None => None
          end
      end
  end
with p_ops (n : nat) (l : nat) (ts : list tok) {struct n} : list (op * expr) * list tok :=
  match n with
  | 0 => ([], ts)
  | S m =>
      match op_of l ts with
      | Some (o, r) =>
          match p_lvl m (pred l) r with
          | Some (e, r') => let '(os, r'') := p_ops m l r' in ((o, e) :: os, r'')
          | None => ([], ts)
          end
      | None => ([], ts)
      end
  end
with p_atom (n : nat) (ts : list tok) {struct n} : option (expr * list tok) :=
  match n with
  | 0 => None
  | S m =>
      match p_call m ts with
      | Some x => Some x
      | None =>
          match ts with
          | TRef s :: r => if l_refs L then Some (ERef s, r) else None
          | TNum s :: r => Some (ENum false s, r)
          | TId s g :: r =>
              orelse (if has_index then p_index m ts else None)
                (if l_name L s then Some (EName s, r) else None)
          | TConf s :: r => p_conf ts
          | TSym LPar :: r =>
              match p_lvl m 3 r with
              | Some (e, TSym RPar :: r') => Some (e, r')
              | _ => None
              end
          | _ => None
          end
      end
  end
with p_call (n : nat) (ts : list tok) {struct n} : option (expr * list tok) :=
  match n with
  | 0 => None
  | S m =>
      match ts with
      | TId f true :: TSym LPar :: r =>
          let '(args, r1) := p_args m r in
          let '(kws, r2) :=
            match args, r1 with
            | _ :: _, TSym Comma :: r' =>
                match p_kws m r' with ([], _) => ([], r1) | x => x end
            | _, _ => p_kws m r1
            end in
          match r2 with
          | TSym RPar :: r3 => Some (EFun f args kws, r3)
          | _ => None
          end
      | _ => None
      end
  end
with p_args (n : nat) (ts : list tok) {struct n} : list expr * list tok :=
  match n with
  | 0 => ([], ts)
  | S m =>
      match p_arg m ts with
      | Some (a, TSym Comma :: r) =>
          match p_args m r with
          | ([], _) => ([a], TSym Comma :: r)
          | (l, r') => (a :: l, r')
          end
      | Some (a, r) => ([a], r)
      | None => ([], ts)
      end
  end
with p_arg (n : nat) (ts : list tok) {struct n} : option (expr * list tok) :=
  match n with
  | 0 => None
  | S m =>
      not_eq
        match l_mode L with
        | MExpr => orelse (p_lvl m 3 ts) (orelse (p_list m (l_item L) ts) (p_str ts))
        | MCmp => orelse (p_str ts) (orelse (p_num ts) (orelse (p_list m (l_item L) ts) (p_lvl m 3 ts)))
        | MTop => orelse (p_str ts) (orelse (p_num ts) (orelse (p_list m (l_item L) ts)
                    (orelse (p_name (l_name L) ts) (p_conf ts))))
        | MSlice => orelse (p_call m ts) (orelse (p_index m ts) (orelse (p_name (l_name L) ts)
                      (orelse (p_num ts) (orelse (p_list m (l_item L) ts) (p_str ts)))))
        end
  end
with p_kws (n : nat) (ts : list tok) {struct n} : list (string * expr) * list tok :=
  match n with
  | 0 => ([], ts)
  | S m =>
      match ts with
      | TId k _ :: TSym Eq :: r =>
          match p_arg m r with
          | Some (a, TSym Comma :: r') =>
              match p_kws m r' with
              | ([], _) => ([(k, a)], TSym Comma :: r')
              | (l, r'') => ((k, a) :: l, r'')
              end
          | Some (a, r') =>
              let '(l, r'') := p_kws m r' in ((k, a) :: l, r'')
          | None => ([], ts)
          end
      | _ => ([], ts)
      end
  end.

End Parsers.

(** Names known to the parsers. *)
Record names := { n_dims : list string; n_inputs : list string;
                  n_results : list string; n_post : list string }.

(** [generate_arithmetic_parser] expression_parser.py:1231-1274 ([refs = true]) and
    [generate_sub_expression_parser] 1191-1228 ([refs = false]). *)
Definition lang_expr (valid : list string) (refs : bool) : lang :=
  {| l_mode := MExpr; l_name := fun s => smem s valid; l_reserved := fun s => smem s valid;
     l_item := fun s => smem s valid; l_refs := refs; l_srefs := true |}.

(** [generate_slice_parser] expression_parser.py:1145-1188. *)
Definition lang_slice (valid : list string) : lang :=
  {| l_mode := MSlice; l_name := fun s => smem s valid; l_reserved := fun s => smem s valid;
     l_item := fun s => smem s valid; l_refs := false; l_srefs := false |}.

(** The arithmetic of [generate_where_string_parser] where_parser.py:538-557. *)
Definition lang_cmp (N : names) : lang :=
  {| l_mode := MCmp;
     l_name := fun s => smem s (n_dims N) || smem s (n_inputs N)
                        || (match n_post N with [] => false | _ => true end
                            && (smem s (n_results N) || smem s (n_post N)));
     l_reserved := fun s => smem s (n_dims N) || smem s (n_inputs N)
                            || smem s (n_results N) || smem s (n_post N);
     l_item := fun s => smem s (n_dims N); l_refs := false; l_srefs := false |}.

(** The helper functions standing alone in a condition, where_parser.py:568-577. *)
Definition lang_top (N : names) : lang :=
  {| l_mode := MTop;
     l_name := fun s => smem s (n_dims N) || smem s (n_inputs N)
                        || smem s (n_results N) || smem s (n_post N);
     l_reserved := fun s => smem s (n_dims N) || smem s (n_inputs N)
                            || smem s (n_results N) || smem s (n_post N);
     l_item := fun s => smem s (n_dims N); l_refs := false; l_srefs := false |}.

(** Enough fuel for every text of that many tokens. *)
Definition enough (ts : list tok) : nat := 8 * List.length ts + 8.

Definition all_of {A} (x : option (A * list tok)) : option A :=
  match x with Some (a, []) => Some a | _ => None end.

(** [parse_string(..., parse_all=True)], parsing.py:560-585. *)
Definition parse_arith (L : lang) (ts : list tok) : option expr :=
  all_of (p_lvl L (enough ts) 3 ts).
Definition parse_slice (L : lang) (ts : list tok) : option expr :=
  all_of (p_arg L (enough ts) ts).

Definition cmp_of (ts : list tok) : option (cmp * list tok) :=
  match ts with
  | TSym Lt :: r => Some (CLt, r)
  | TSym Gt :: r => Some (CGt, r)
  | TSym EqEq :: r => Some (CEq, r)
  | TSym Ge :: r => Some (CGe, r)
  | TSym Le :: r => Some (CLe, r)
  | _ => None
  end.

(** [equation_comparison_parser] expression_parser.py:1122-1142: "<=", ">=" or "==". *)
Definition parse_equation (L : lang) (ts : list tok) : option (expr * cmp * expr) :=
  let n := enough ts in
  match p_lvl L n 3 ts with
  | Some (l, r) =>
      match cmp_of r with
      | Some (CLt, _) | Some (CGt, _) => None
      | Some (c, r') =>
          match p_lvl L n 3 r' with
          | Some (e, []) => Some (l, c, e)
          | _ => None
          end
      | None => None
      end
  | None => None
  end.

(** [bool_parser] where_parser.py:406-413. *)
Definition bool_of (ts : list tok) : option (bool * list tok) :=
  match ts with
  | TId s _ :: r => if is_kw "true" s then Some (true, r)
                    else if is_kw "false" s then Some (false, r) else None
  | _ => None
  end.

(** "and"/"or", where_parser.py:489. *)
Definition andor_of (ts : list tok) : option (bool * list tok) :=
  match ts with
  | TId s _ :: r => if is_kw "and" s then Some (true, r)
                    else if is_kw "or" s then Some (false, r) else None
  | _ => None
  end.

Definition not_of (ts : list tok) : option (list tok) :=
  match ts with
  | TId s _ :: r => if is_kw "not" s then Some r else None
  | _ => None
  end.

Section Conditions.
Variable N : names.

Definition p_any_str (ts : list tok) : option (expr * list tok) :=
  match ts with TId s _ :: r => Some (EStr s, r) | _ => None end.

(** Right-hand side of a comparison, where_parser.py:558-566. *)
Definition p_rhs (n : nat) (ts : list tok) : option (expr * list tok) :=
  orelse (p_call (lang_cmp N) n ts)
    (orelse (match bool_of ts with Some (b, r) => Some (EBool b, r) | None => None end)
       (orelse (p_num ts) (p_any_str ts))).

(** [comparison_parser] where_parser.py:429-450. *)
Definition p_cmp (n : nat) (ts : list tok) : option (wexpr * list tok) :=
  match p_lvl (lang_cmp N) n 3 ts with
  | Some (l, r) =>
      match cmp_of r with
      | Some (c, r') => match p_rhs n r' with
                        | Some (e, r'') => Some (WCmp l c e, r'')
                        | None => None
                        end
      | None => None
      end
  | None => None
  end.

(** [subset_parser] where_parser.py:453-475, after the opening bracket. *)
Definition p_member (ts : list tok) : option (expr * list tok) :=
  orelse (p_conf (lang_cmp N) ts) (orelse (p_num ts) (p_any_str ts)).

Fixpoint p_members (n : nat) (ts : list tok) : option (list expr * list tok) :=
  match n with
  | 0 => None
  | S m =>
      match p_member ts with
      | Some (x, TSym Comma :: r) =>
          match p_members m r with Some (l, r') => Some (x :: l, r') | None => None end
      | Some (x, TSym RBr :: r) => Some ([x], r)
      | _ => None
      end
  end.

Definition p_subset (n : nat) (ts : list tok) : option (wexpr * list tok) :=
  match ts with
  | TSym LBr :: r =>
      match p_members n r with
      | Some (l, TId i _ :: TId d _ :: r') =>
          if String.eqb i "in" && smem d (n_dims N) then Some (WSubset l d, r') else None
      | _ => None
      end
  | _ => None
  end.

(** Inputs and results as conditions of their own, where_parser.py:578-580. *)
Definition wname (s : string) : bool :=
  smem s (n_inputs N) || smem s (n_results N) || smem s (n_post N).

(** [where_parser] where_parser.py:478-499 over the elements of 578-580. *)
Fixpoint p_where (n : nat) (ts : list tok) {struct n} : option (wexpr * list tok) :=
  match n with
  | 0 => None
  | S m =>
      match p_wnot m ts with
      | Some (w, r) =>
          match p_wops m r with
          | ([], _) => Some (w, r)
          | (ops, r') => Some (WChain w ops, r')
          end
      | None => None
      end
  end
with p_wops (n : nat) (ts : list tok) {struct n} : list (bool * wexpr) * list tok :=
  match n with
  | 0 => ([], ts)
  | S m =>
      match andor_of ts with
      | Some (o, r) =>
          match p_wnot m r with
          | Some (w, r') => let '(os, r'') := p_wops m r' in ((o, w) :: os, r'')
          | None => ([], ts)
          end
      | None => ([], ts)
      end
  end
with p_wnot (n : nat) (ts : list tok) {struct n} : option (wexpr * list tok) :=
  match n with
  | 0 => None
  | S m =>
      match not_of ts with
      | Some r =>
          match p_wnot m r with
          | Some (w, r') => Some (WNot w, r')
          | None => p_watom m ts
          end
      | None => p_watom m ts
      end
  end
with p_watom (n : nat) (ts : list tok) {struct n} : option (wexpr * list tok) :=
  match n with
  | 0 => None
  | S m =>
      orelse (match bool_of ts with Some (b, r) => Some (WBool b, r) | None => None end)
        (orelse (p_cmp (8 * List.length ts + 8) ts)
           (orelse (match p_call (lang_top N) (8 * List.length ts + 8) ts with
                    | Some (e, r) => Some (WFun e, r)
                    | None => None
                    end)
              (orelse (p_subset (List.length ts) ts)
                 match ts with
                 | TId s _ :: r => if wname s then Some (WName s, r) else None
                 | TSym LPar :: r =>
                     match p_where m r with
                     | Some (w, TSym RPar :: r') => Some (w, r')
                     | _ => None
                     end
                 | _ => None
                 end)))
  end.

Definition parse_where (ts : list tok) : option wexpr := all_of (p_where (enough ts) ts).

End Conditions.

(** From text. *)
Definition parse_where_text (N : names) (s : string) : option wexpr :=
  match lex s with Some ts => parse_where N ts | None => None end.
Definition parse_arith_text (L : lang) (s : string) : option expr :=
  match lex s with Some ts => parse_arith L ts | None => None end.
Definition parse_slice_text (L : lang) (s : string) : option expr :=
  match lex s with Some ts => parse_slice L ts | None => None end.
Definition parse_equation_text (L : lang) (s : string) : option (expr * cmp * expr) :=
  match lex s with Some ts => parse_equation L ts | None => None end.
