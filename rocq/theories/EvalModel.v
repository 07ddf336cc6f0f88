(** Model of the evaluation of math strings and conditions
    (src/calliope/backend/expression_parser.py:154-850, where_parser.py:20-340) and of their
    rendering as formulas ([as_math_string]). *)
From Coq Require Import QArith Qcanon.
From Verif Require Import Base LangModel.
Local Open Scope nat_scope.
Local Open Scope string_scope.
Local Open Scope list_scope.

(** * Values *)

(** An array entry: missing, a finite number, plus or minus infinity, a Boolean or a string
    (also used for labels of dimensions).  Entries holding decision variables or optimisation
    expressions stand for their value under some choice of the variables. *)
Inductive cell := Miss | Val (q : Qc) | Inf (neg : bool) | Boo (b : bool) | Txt (s : string).

(** A position: the label chosen on each dimension. *)
Definition pos := string -> string.
Definition put (p : pos) (d l : string) : pos := fun x => if String.eqb x d then l else p x.
Definition arr := pos -> cell.
Definition const (c : cell) : arr := fun _ => c.

Definition missing (c : cell) : bool := match c with Miss => true | _ => false end.
Definition is_inf (c : cell) : bool := match c with Inf _ => true | _ => false end.

(** [fillna] (expression_parser.py:811-814, where_parser.py:187-192): a missing default fills
    nothing. *)
Definition fill (default c : cell) : cell := if missing c then default else c.

(** [float(...)] of the digits of a number. *)
Definition digit (c : ascii) : Z := Z.of_nat (nat_of_ascii c) - 48.
Fixpoint digits (acc : Z) (s : string) : Z :=
  match s with EmptyString => acc | String c r => digits (10 * acc + digit c) r end.
Definition ten (k : Z) : Qc :=
  if Z.leb 0 k then Q2Qc (inject_Z (10 ^ k)) else Q2Qc (1 # Z.to_pos (10 ^ (- k))).
Fixpoint decimal (mant scale : Z) (dot : bool) (s : string) : Qc :=
  match s with
  | EmptyString => (Q2Qc (inject_Z mant) * ten scale)%Qc
  | String c r =>
      if Ascii.eqb c "." then decimal mant scale true r
      else if Ascii.eqb c "e" || Ascii.eqb c "E" then
        let x := match r with
                 | String "-" r' => (- digits 0 r')%Z
                 | String "+" r' => digits 0 r'
                 | _ => digits 0 r
                 end in
        (Q2Qc (inject_Z mant) * ten (scale + x))%Qc
      else decimal (10 * mant + digit c) (if dot then scale - 1 else scale)%Z dot r
  end.
(** [EvalNumber.as_array] 719-720. *)
Definition number_cell (neg : bool) (s : string) : cell :=
  if String.eqb s "inf" then Inf neg
  else Val (if neg then (- decimal 0 0 false s)%Qc else decimal 0 0 false s).

(** What evaluation looks things up in ([EvalAttrs], eval_attrs.py:20-60).
    [e_array]: entries of an unsliced component or the labels of a dimension; [e_default]: its
    default; [e_config]: build configuration; [e_ref]: the sub-expression chosen for a
    reference, evaluated under a mask; [e_slice]: the label a slice reference selects;
    [e_helper]: the helper functions, applied to the arguments (as written and evaluated);
    [e_ignore]: [ignore_where] of a helper function; [e_odd]: results of operations on
    operands that are not two finite numbers, on division by zero and on powers other than
    natural ones, left open. *)
Record env := {
  e_array : string -> arr;
  e_default : string -> cell;
  e_config : string -> cell;
  e_ref : string -> (pos -> bool) -> arr;
  e_slice : string -> arr;
  e_helper : string -> list (expr * arr) -> list (string * (expr * arr)) -> arr;
  e_ignore : string -> bool;
  e_odd : op -> cell -> cell -> cell }.

(** A natural number, if the exponent is one. *)
Definition natural (q : Qc) : option nat :=
  match Qden q with
  | 1%positive => if Z.leb 0 (Qnum q) then Some (Z.to_nat (Qnum q)) else None
  | _ => None
  end.

(** [EvalOperatorOperand._operate] 224-240 on one pair of entries. *)
Definition operate (E : env) (o : op) (a b : cell) : cell :=
  match a, b with
  | Miss, Miss => Miss
  | Val x, Val y =>
      match o with
      | OAdd => Val (x + y)%Qc
      | OSub => Val (x - y)%Qc
      | OMul => Val (x * y)%Qc
      | ODiv => if Qc_eq_dec y 0 then e_odd E o a b else Val (x / y)%Qc
      | OPow => match natural y with Some n => Val (Qcpower x n) | None => e_odd E o a b end
      end
  | _, _ => match o with
            | OPow => e_odd E o a b
            | _ => if missing a || missing b then Miss else e_odd E o a b
            end
  end.

(** [_apply_where_array] 207-215: entries outside the mask become missing. *)
Definition mask (w : pos -> bool) (a : arr) : arr := fun p => if w p then a p else Miss.
Definition everywhere : pos -> bool := fun _ => true.

Definition label (c : cell) : string := match c with Txt s => s | _ => "" end.

(** * Arithmetic: [as_array] *)
Section Eval.
Variable E : env.

(** [EvalSlicedComponent.as_array] 594-596, [.sel]: a label, also one that depends on the
    position, or a list of labels, which keeps those entries only.  Numbers as labels are
    compared as written. *)
Definition slice_at (d : string) (sl : expr) (a : arr) : arr :=
  match sl with
  | EList l =>
      fun p => if existsb (fun x => match x with
                                    | EStr s | ENum false s => String.eqb s (p d)
                                    | ENum true s => String.eqb (String "-" s) (p d)
                                    | _ => false
                                    end) l then a p else Miss
  | EStr s | ENum false s => fun p => a (put p d s)
  | ENum true s => fun p => a (put p d (String "-" s))
  | ESlice s => fun p => a (put p d (label (e_slice E s p)))
  | _ => a
  end.

(** [EvalOperatorOperand] 257-268, [EvalSignOp] 308-312, [EvalFunction] 433-460,
    [EvalSubExpressions] 675-684, [EvalUnslicedComponent] 795-817. *)
Fixpoint aeval (w : pos -> bool) (e : expr) {struct e} : arr :=
  match e with
  | ENum neg s => const (number_cell neg s)
  | EName s => fun p => fill (e_default E s) (e_array E s p)
  | EConf s => const (e_config E s)
  | EStr s => const (Txt s)
  | EBool b => const (Boo b)
  | ERef s => e_ref E s w
  | ESlice s => e_slice E s
  | EList _ => const Miss
  | EIndex s sl =>
      fold_right (fun x a => slice_at (fst x) (snd x) a)
        (fun p => fill (e_default E s) (e_array E s p)) sl
  | EFun f args kws =>
      let w' := if e_ignore E f then everywhere else w in
      e_helper E f (map (fun a => (a, aeval w' a)) args)
        (map (fun k => (fst k, (snd k, aeval w' (snd k)))) kws)
  | ESign neg e =>
      if neg then fun p => operate E OMul (Val (- (1))%Qc) (aeval w e p) else aeval w e
  | EChain e ops =>
      fold_left (fun v x => fun p => operate E (fst x) (v p) (mask w (aeval w (snd x)) p))
        ops (mask w (aeval w e))
  end.
End Eval.

(** * Conditions: [as_array] of where_parser.py *)

(** [w_input]: the input arrays present in the data; [w_bool]: arrays of Boolean type;
    [w_result]: entries of variables, global expressions and postprocessed arrays. *)
Record wenv := {
  w_dims : string -> bool;
  w_inputs : string -> bool;
  w_input : string -> option arr;
  w_bool : string -> bool;
  w_default : string -> cell;
  w_result : string -> arr;
  w_config : string -> cell;
  w_helper_top : string -> list (expr * arr) -> list (string * (expr * arr)) -> arr;
  w_helper_cmp : string -> list (expr * arr) -> list (string * (expr * arr)) -> arr;
  w_odd : op -> cell -> cell -> cell;
  w_less : cell -> cell -> bool }.

(** [operator] of [ComparisonParser] 249-265 on one pair of entries; comparisons of anything
    but two finite numbers, other than equality, are left to [w_less]. *)
Definition less (W : wenv) (a b : cell) : bool :=
  match a, b with
  | Miss, _ | _, Miss => false
  | Val x, Val y => match (x ?= y)%Qc with Datatypes.Lt => true | _ => false end
  | _, _ => w_less W a b
  end.
Definition same (a b : cell) : bool :=
  match a, b with
  | Val x, Val y => if Qc_eq_dec x y then true else false
  | Inf x, Inf y => Bool.eqb x y
  | Boo x, Boo y => Bool.eqb x y
  | Txt x, Txt y => String.eqb x y
  | Boo x, Val y | Val y, Boo x => if Qc_eq_dec y (if x then 1 else 0)%Qc then true else false
  | _, _ => false
  end.
Definition compare (W : wenv) (c : cmp) (a b : cell) : bool :=
  match c with
  | CLt => less W a b
  | CGt => less W b a
  | CEq => same a b
  | CLe => less W a b || same a b
  | CGe => less W b a || same a b
  end.

(** Names in comparisons: [DimensionArrayParser] 221-224, [InputArrayParser] 184-193 and
    [ResultArrayParser] 144-149 with [apply_where] off. *)
Definition cmp_env (W : wenv) : env :=
  {| e_array := fun s => if w_dims W s then fun p => Txt (p s)
                         else if w_inputs W s then
                           match w_input W s with Some a => a | None => const (Boo false) end
                         else w_result W s;
     e_default := fun s => if w_dims W s then Miss else if w_inputs W s then w_default W s else Miss;
     e_config := w_config W;
     e_ref := fun _ _ => const Miss;
     e_slice := fun _ => const Miss;
     e_helper := w_helper_cmp W;
     e_ignore := fun _ => false;
     e_odd := w_odd W |}.
(** Names as arguments of a helper function that is itself the condition, [apply_where] on. *)
Definition defined_at (W : wenv) (s : string) : pos -> bool :=
  if w_inputs W s then
    match w_input W s with
    | None => fun _ => false
    | Some a => fun p => if w_bool W s then match a p with Boo b => b | _ => false end
                         else negb (missing (a p)) && negb (is_inf (a p))
    end
  else fun p => negb (missing (w_result W s p)).
Definition top_env (W : wenv) : env :=
  {| e_array := fun s => if w_dims W s then fun p => Txt (p s) else fun p => Boo (defined_at W s p);
     e_default := fun _ => Miss;
     e_config := w_config W;
     e_ref := fun _ _ => const Miss;
     e_slice := fun _ => const Miss;
     e_helper := w_helper_top W;
     e_ignore := fun _ => false;
     e_odd := w_odd W |}.

Definition is_true (c : cell) : bool := match c with Boo b => b | _ => false end.

(** [EvalNot] 30-32, [EvalAndOr] 54-72, [SubsetParser] 288-305, [BoolOperandParser] 330-336. *)
Fixpoint weval (W : wenv) (w : wexpr) {struct w} : pos -> bool :=
  match w with
  | WBool b => fun _ => b
  | WCmp l c r => fun p => compare W c (aeval (cmp_env W) everywhere l p) (aeval (cmp_env W) everywhere r p)
  | WFun e => fun p => is_true (aeval (top_env W) everywhere e p)
  | WSubset items d =>
      fun p => existsb (fun x => same (Txt (p d)) (aeval (top_env W) everywhere x p)) items
  | WName s => defined_at W s
  | WNot w => fun p => negb (weval W w p)
  | WChain w ops =>
      fold_left (fun v x => fun p => if fst x : bool then v p && weval W (snd x) p else v p || weval W (snd x) p)
        ops (weval W w)
  end.

(** * Formulas: [as_math_string] *)

(** Pieces of a formula.  [XLeaf e]: the text of a number, name, slice or helper function;
    [XSup], [XSupEnd]: "^{", "}"; [XFrac], [XOver], [XFracEnd]: "\frac{", "}{", "}". *)
Inductive ltok :=
| XLeaf (e : expr) | XPlus | XMinus | XTimes | XOpen | XClose
| XSup | XSupEnd | XFrac | XOver | XFracEnd.

(** [LATEX_OPERATOR_LOOKUP] 157-163. *)
Definition render_op (o : op) (a b : list ltok) : list ltok :=
  match o with
  | OPow => a ++ XSup :: b ++ [XSupEnd]
  | OMul => a ++ XTimes :: b
  | ODiv => XFrac :: a ++ XOver :: b ++ [XFracEnd]
  | OAdd => a ++ XPlus :: b
  | OSub => a ++ XMinus :: b
  end.
Definition is_chain (e : expr) : bool := match e with EChain _ _ => true | _ => false end.
Definition in_parens (a : list ltok) : list ltok := XOpen :: a ++ [XClose].
(** The text "0" ([_skip_component_on_conditional] 217-222); [EvalNumber.as_math_string]
    712-717 renders every spelling of zero so. *)
Definition is_zero (a : list ltok) : bool :=
  match a with
  | [XLeaf (ENum false s)] =>
      negb (String.eqb s "inf") && (if Qc_eq_dec (decimal 0 0 false s) 0 then true else false)
  | _ => false
  end.
Definition skips (o : op) : bool := match o with OAdd | OSub => true | _ => false end.

(** 242-255, one operator and operand. *)
Definition render_step (first : bool) (v : list ltok) (o : op) (chain : bool) (b : list ltok) : list ltok :=
  if is_zero b && skips o then v
  else
    let v := if first then in_parens v else v in
    let b := if chain then in_parens b else b in
    if is_zero v && skips o then b else render_op o v b.

(** [rs]: the formulas of the sub-expressions (EvalSubExpressions 675-684). *)
Fixpoint render (rs : string -> list ltok) (e : expr) {struct e} : list ltok :=
  match e with
  | ERef s => rs s
  | ESign neg e => (if neg then XMinus else XPlus) :: render rs e
  | EChain e ops =>
      fold_left (fun v x => render_step (is_chain e) v (fst x) (is_chain (snd x)) (render rs (snd x)))
        ops (render rs e)
  | _ => [XLeaf e]
  end.

(** Pieces of a rendered condition; [YLeaf w]: comparison, subset, existence, helper function. *)
Inductive ytok := YLeaf (w : wexpr) | YTrue | YFalse | YAnd | YOr | YNot | YOpen | YClose.
Definition is_wchain (w : wexpr) : bool := match w with WChain _ _ => true | _ => false end.
Definition y_true (a : list ytok) : bool := match a with [YTrue] => true | _ => false end.
(** where_parser.py:23-57 over expression_parser.py:242-255. *)
Definition wrender_step (first : bool) (v : list ytok) (o : bool) (chain : bool) (b : list ytok) : list ytok :=
  if y_true b then v
  else
    let v := if first then YOpen :: v ++ [YClose] else v in
    let b := if chain then YOpen :: b ++ [YClose] else b in
    if y_true v then b else v ++ (if o then YAnd else YOr) :: b.
Fixpoint wrender (w : wexpr) {struct w} : list ytok :=
  match w with
  | WBool b => [if b then YTrue else YFalse]
  | WNot w => YNot :: YOpen :: wrender w ++ [YClose]
  | WChain w ops =>
      fold_left (fun v x => wrender_step (is_wchain w) v (fst x) (is_wchain (snd x)) (wrender (snd x)))
        ops (wrender w)
  | _ => [YLeaf w]
  end.
