(** The intended grammar of math strings and conditions, stated without reference to a
    parsing method, and how expressions are written out. *)
From Verif Require Import Base LangModel.
Local Open Scope string_scope.
Local Open Scope list_scope.

(** A name standing for an array is never a plain string. *)
Definition coherent (L : lang) : Prop :=
  (forall s, l_name L s = true -> l_reserved L s = true) /\
  (forall s, l_item L s = true -> l_reserved L s = true).

Inductive sign_tok : tok -> bool -> Prop :=
| sg_plus : sign_tok (TSym Plus) false
| sg_minus : sign_tok (TSym Minus) true.

(** Levels of precedence: 1 power, 2 multiplication and division, 3 addition and subtraction. *)
Inductive op_tok : nat -> tok -> op -> Prop :=
| ot_pow : op_tok 1 (TSym Pow) OPow
| ot_mul : op_tok 2 (TSym Times) OMul
| ot_div : op_tok 2 (TSym Div) ODiv
| ot_add : op_tok 3 (TSym Plus) OAdd
| ot_sub : op_tok 3 (TSym Minus) OSub.

Section Grammar.
Variable L : lang.

(** A number, possibly with a sign. *)
Inductive num : list tok -> expr -> Prop :=
| nu_plain s : num [TNum s] (ENum false s)
| nu_sign t b s : sign_tok t b -> num [t; TNum s] (ENum b s).

Inductive str : list tok -> expr -> Prop :=
| st_id s g : l_reserved L s = false -> str [TId s g] (EStr s).

Inductive item (names : string -> bool) : list tok -> expr -> Prop :=
| it_num ts e : num ts e -> item names ts e
| it_str ts e : str ts e -> item names ts e
| it_name s g : names s = true -> item names [TId s g] (EName s).

(** Items separated by commas, up to and including the closing bracket. *)
Inductive items (names : string -> bool) : list tok -> list expr -> Prop :=
| is_last ts e : item names ts e -> items names (ts ++ [TSym RBr]) [e]
| is_cons ts e us l : item names ts e -> items names us l ->
    items names (ts ++ TSym Comma :: us) (e :: l).

Inductive lst (names : string -> bool) : list tok -> expr -> Prop :=
| ls_items ts l : items names ts l -> lst names (TSym LBr :: ts) (EList l).

Inductive slicer : list tok -> expr -> Prop :=
| sl_ref s : l_srefs L = true -> slicer [TRef s] (ESlice s)
| sl_num ts e : num ts e -> slicer ts e
| sl_str ts e : str ts e -> slicer ts e
| sl_list ts e : lst (fun _ => false) ts e -> slicer ts e.

Inductive slices : list tok -> list (string * expr) -> Prop :=
| ss_last d g ts e : slicer ts e -> slices (TId d g :: TSym Eq :: ts ++ [TSym RBr]) [(d, e)]
| ss_cons d g ts e us l : slicer ts e -> slices us l ->
    slices (TId d g :: TSym Eq :: ts ++ TSym Comma :: us) ((d, e) :: l).

Inductive index : list tok -> expr -> Prop :=
| ix s ts l : l_name L s = true -> slices ts l ->
    index (TId s true :: TSym LBr :: ts) (EIndex s l).

Inductive conf : list tok -> expr -> Prop :=
| cf s : has_conf L = true -> conf [TConf s] (EConf s).

(** Whether a text starts with a number or a plain string: in the helper functions of
    conditions such a text is cut there. *)
Definition plain_start (ts : list tok) : bool :=
  match ts with
  | TNum _ :: _ | TSym Plus :: TNum _ :: _ | TSym Minus :: TNum _ :: _ => true
  | TId s _ :: _ => negb (l_reserved L s)
  | _ => false
  end.

Definition comma_or_nothing (ts : list tok) : Prop := ts = [] \/ ts = [TSym Comma].

(** [level l ts e]: the text [ts] is an expression [e] that may be an operand of an operator
    above level [l]. *)
Inductive level : nat -> list tok -> expr -> Prop :=
| lv_sign t b ts e : sign_tok t b -> level 0 ts e -> level 0 (t :: ts) (ESign b e)
| lv_atom ts e : atom ts e -> level 0 ts e
| lv_up l ts e : l < 3 -> level l ts e -> level (S l) ts e
| lv_chain l ts e us ops : l < 3 -> level l ts e -> chain (S l) us ops ->
    level (S l) (ts ++ us) (EChain e ops)
(** [chain l ts ops]: operators of level [l], each with its right operand. *)
with chain : nat -> list tok -> list (op * expr) -> Prop :=
| ch_one l t o ts e : op_tok (S l) t o -> level l ts e -> chain (S l) (t :: ts) [(o, e)]
| ch_cons l t o ts e us ops : op_tok (S l) t o -> level l ts e -> chain (S l) us ops ->
    chain (S l) (t :: ts ++ us) ((o, e) :: ops)
with atom : list tok -> expr -> Prop :=
| at_call ts e : call ts e -> atom ts e
| at_ref s : l_refs L = true -> atom [TRef s] (ERef s)
| at_num s : atom [TNum s] (ENum false s)
| at_index ts e : has_index L = true -> index ts e -> atom ts e
| at_name s g : l_name L s = true -> atom [TId s g] (EName s)
| at_conf ts e : conf ts e -> atom ts e
| at_par ts e : level 3 ts e -> atom (TSym LPar :: ts ++ [TSym RPar]) e
(** [f(a, ..., k=b, ...)] *)
with call : list tok -> expr -> Prop :=
| cl_none f : call [TId f true; TSym LPar; TSym RPar] (EFun f [] [])
| cl_args f ts l : args ts l -> call (TId f true :: TSym LPar :: ts ++ [TSym RPar]) (EFun f l [])
| cl_kws f us k : kws us k -> call (TId f true :: TSym LPar :: us ++ [TSym RPar]) (EFun f [] k)
| cl_both f ts l c us k : args ts l -> comma_or_nothing c -> kws us k ->
    call (TId f true :: TSym LPar :: ts ++ c ++ us ++ [TSym RPar]) (EFun f l k)
with args : list tok -> list expr -> Prop :=
| ar_one ts e : arg ts e -> args ts [e]
| ar_cons ts e us l : arg ts e -> args us l -> args (ts ++ TSym Comma :: us) (e :: l)
with kws : list tok -> list (string * expr) -> Prop :=
| kw_one k g ts e : arg ts e -> kws (TId k g :: TSym Eq :: ts) [(k, e)]
| kw_cons k g ts e c us l : arg ts e -> comma_or_nothing c -> kws us l ->
    kws (TId k g :: TSym Eq :: ts ++ c ++ us) ((k, e) :: l)
with arg : list tok -> expr -> Prop :=
| ag_arith ts e : l_mode L = MExpr -> level 3 ts e -> arg ts e
| ag_cmp ts e : l_mode L = MCmp -> plain_start ts = false -> level 3 ts e -> arg ts e
| ag_num ts e : l_mode L <> MExpr -> num ts e -> arg ts e
| ag_str ts e : str ts e -> arg ts e
| ag_list ts e : lst (l_item L) ts e -> arg ts e
| ag_name s g : l_mode L = MTop \/ l_mode L = MSlice -> l_name L s = true -> arg [TId s g] (EName s)
| ag_conf ts e : l_mode L = MTop -> conf ts e -> arg ts e
| ag_call ts e : l_mode L = MSlice -> call ts e -> arg ts e
| ag_index ts e : l_mode L = MSlice -> index ts e -> arg ts e.

End Grammar.

(** * Conditions *)
Inductive cmp_tok : tok -> cmp -> Prop :=
| cp_lt : cmp_tok (TSym Lt) CLt
| cp_gt : cmp_tok (TSym Gt) CGt
| cp_eq : cmp_tok (TSym EqEq) CEq
| cp_ge : cmp_tok (TSym Ge) CGe
| cp_le : cmp_tok (TSym Le) CLe.

(** Keywords in any mixture of upper and lower case. *)
Definition keyword (w : string) (t : tok) : Prop := exists s g, t = TId s g /\ lower s = w.

(** The helper function that the text of an expression may start with. *)
Fixpoint leading (e : expr) : option string :=
  match e with EFun f _ _ => Some f | EChain e _ => leading e | _ => None end.
(** It is not called "not", "true" or "false". *)
Definition proper (e : expr) : Prop :=
  forall f, leading e = Some f -> ~ In (lower f) ["not"; "true"; "false"].

Section Conditions.
Variable N : names.

Definition truth (t : tok) (b : bool) : Prop := keyword (if b then "true" else "false") t.

Inductive rhs : list tok -> expr -> Prop :=
| rh_call ts e : call (lang_cmp N) ts e -> rhs ts e
| rh_bool t b : truth t b -> rhs [t] (EBool b)
| rh_num ts e : num ts e -> rhs ts e
| rh_str s g : lower s <> "true" -> lower s <> "false" -> rhs [TId s g] (EStr s).

Inductive member : list tok -> expr -> Prop :=
| mb_conf s : member [TConf s] (EConf s)
| mb_num ts e : num ts e -> member ts e
| mb_str s g : member [TId s g] (EStr s).

Inductive members : list tok -> list expr -> Prop :=
| ms_last ts e : member ts e -> members (ts ++ [TSym RBr]) [e]
| ms_cons ts e us l : member ts e -> members us l -> members (ts ++ TSym Comma :: us) (e :: l).

(** [cond ts w]: a whole condition; [factor]: an operand of "and" and "or"; [catom]: what
    "not" applies to when it is not itself a negation. *)
Inductive cond : list tok -> wexpr -> Prop :=
| cd_factor ts w : factor ts w -> cond ts w
| cd_chain ts w us ops : factor ts w -> cchain us ops -> cond (ts ++ us) (WChain w ops)
with cchain : list tok -> list (bool * wexpr) -> Prop :=
| cc_one t (o : bool) ts w : keyword (if o then "and" else "or") t -> factor ts w ->
    cchain (t :: ts) [(o, w)]
| cc_cons t (o : bool) ts w us ops : keyword (if o then "and" else "or") t -> factor ts w ->
    cchain us ops -> cchain (t :: ts ++ us) ((o, w) :: ops)
with factor : list tok -> wexpr -> Prop :=
| fa_not t ts w : keyword "not" t -> factor ts w -> factor (t :: ts) (WNot w)
| fa_atom ts w : catom ts w -> factor ts w
with catom : list tok -> wexpr -> Prop :=
| ca_bool t b : truth t b -> catom [t] (WBool b)
| ca_cmp ls l t c rs r : proper l -> level (lang_cmp N) 3 ls l -> cmp_tok t c -> rhs rs r ->
    catom (ls ++ t :: rs) (WCmp l c r)
| ca_fun ts e : proper e -> call (lang_top N) ts e -> catom ts (WFun e)
| ca_subset ts l g d h : members ts l -> smem d (n_dims N) = true ->
    catom (TSym LBr :: ts ++ [TId "in" g; TId d h]) (WSubset l d)
| ca_name s g : smem s (n_inputs N) || smem s (n_results N) || smem s (n_post N) = true ->
    catom [TId s g] (WName s)
| ca_par ts w : cond ts w -> catom (TSym LPar :: ts ++ [TSym RPar]) w.

(** No helper function in the condition is called like a word of the language. *)
Inductive proper_cond : wexpr -> Prop :=
| pc_bool b : proper_cond (WBool b)
| pc_cmp l c r : proper l -> proper_cond (WCmp l c r)
| pc_fun e : proper e -> proper_cond (WFun e)
| pc_subset l d : proper_cond (WSubset l d)
| pc_name s : proper_cond (WName s)
| pc_not w : proper_cond w -> proper_cond (WNot w)
| pc_chain w ops : proper_cond w -> Forall (fun x => proper_cond (snd x)) ops ->
    proper_cond (WChain w ops).

(** Names that do not clash with the words of the language. *)
Definition no_keywords : Prop :=
  forall s, In (lower s) ["and"; "or"; "not"; "true"; "false"] ->
    smem s (n_dims N) || smem s (n_inputs N) || smem s (n_results N) || smem s (n_post N) = false.

End Conditions.

(** * Writing expressions out *)
Definition op_sym (o : op) : sym :=
  match o with OPow => Pow | OMul => Times | ODiv => Div | OAdd => Plus | OSub => Minus end.
Definition cmp_sym (c : cmp) : sym :=
  match c with CLt => Lt | CGt => Gt | CEq => EqEq | CGe => Ge | CLe => Le end.
Definition in_brackets (ts : list tok) : list tok := TSym LPar :: ts ++ [TSym RPar].

Fixpoint sep (l : list (list tok)) : list tok :=
  match l with
  | [] => []
  | [x] => x
  | x :: r => x ++ TSym Comma :: sep r
  end.

(** [show m a e]: tokens that denote [e], with a pair of brackets around every operator
    expression that is an operand or an argument; [a]: whether [e] itself is one.  [m]: in the
    helper functions of comparisons a function call as an argument needs brackets too. *)
Fixpoint show (m : mode) (a : bool) (e : expr) {struct e} : list tok :=
  let wrap ts := if a then in_brackets ts else ts in
  let arg e := match m, e with
               | MCmp, EFun _ _ _ => in_brackets (show m true e)
               | _, _ => show m true e
               end in
  match e with
  | ENum neg s => (if neg then [TSym Minus] else []) ++ [TNum s]
  | EName s | EStr s => [TId s false]
  | EConf s => [TConf s]
  | EBool b => [TId (if b then "true" else "false") false]
  | ERef s | ESlice s => [TRef s]
  | EList l => TSym LBr :: sep (map (show m false) l) ++ [TSym RBr]
  | EIndex s sl =>
      TId s true :: TSym LBr ::
        sep (map (fun p => TId (fst p) false :: TSym Eq :: show m false (snd p)) sl) ++ [TSym RBr]
  | EFun f args kws =>
      TId f true :: TSym LPar ::
        sep (map arg args ++ map (fun p => TId (fst p) false :: TSym Eq :: arg (snd p)) kws)
        ++ [TSym RPar]
  | ESign b e => wrap (TSym (if b then Minus else Plus) :: show m true e)
  | EChain e ops =>
      wrap (show m true e ++
            List.concat (map (fun p => TSym (op_sym (fst p)) :: show m true (snd p)) ops))
  end.

Fixpoint wshow (a : bool) (w : wexpr) {struct w} : list tok :=
  match w with
  | WBool b => [TId (if b then "true" else "false") false]
  | WCmp l c r => show MCmp false l ++ TSym (cmp_sym c) :: show MCmp true r
  | WFun e => show MTop true e
  | WSubset l d => TSym LBr :: sep (map (show MTop false) l) ++ [TSym RBr; TId "in" false; TId d false]
  | WName s => [TId s false]
  | WNot w => TId "not" false :: wshow true w
  | WChain w ops =>
      let ts := wshow true w ++
        List.concat (map (fun p => TId (if fst p : bool then "and" else "or") false :: wshow true (snd p)) ops) in
      if a then in_brackets ts else ts
  end.

(** The text of tokens: a space after each, except between a name and its bracket. *)
Definition sym_text (y : sym) : string :=
  match y with
  | LPar => "(" | RPar => ")" | LBr => "[" | RBr => "]" | Comma => "," | Eq => "="
  | EqEq => "==" | Le => "<=" | Ge => ">=" | Lt => "<" | Gt => ">"
  | Plus => "+" | Minus => "-" | Times => "*" | Div => "/" | Pow => "**"
  end.
Definition tok_text (t : tok) : string :=
  match t with
  | TId s true => s
  | TId s false => String.append s " "
  | TRef s => String.append "$" (String.append s " ")
  | TConf s => String.append "config." (String.append s " ")
  | TNum s => String.append s " "
  | TSym y => String.append (sym_text y) " "
  end.
Fixpoint text_of (ts : list tok) : string :=
  match ts with [] => EmptyString | t :: r => String.append (tok_text t) (text_of r) end.
