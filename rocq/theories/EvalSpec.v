(** What arithmetic texts, formulas and conditions mean, stated independently of the
    evaluator. *)
From Coq Require Import QArith Qcanon.
From Verif Require Import Base LangModel LangSpec EvalModel.
Local Open Scope nat_scope.
Local Open Scope string_scope.
Local Open Scope list_scope.

(** * Trees of signs and binary operators *)
Inductive bexpr :=
| BLeaf (e : expr)
| BSign (neg : bool) (b : bexpr)
| BBin (o : op) (a b : bexpr)
| BPar (b : bexpr).

(** Without the record of brackets. *)
Fixpoint erase (b : bexpr) : bexpr :=
  match b with
  | BLeaf e => BLeaf e
  | BSign s b => BSign s (erase b)
  | BBin o a b => BBin o (erase a) (erase b)
  | BPar b => erase b
  end.

(** The tree of a parsed expression: operators of one level group to the left. *)
Fixpoint bin (e : expr) : bexpr :=
  match e with
  | ESign s e => BSign s (bin e)
  | EChain e ops => fold_left (fun b x => BBin (fst x) b (bin (snd x))) ops (bin e)
  | _ => BLeaf e
  end.

(** Its finite value, if it has one; [leaf]: the values of names, numbers and functions. *)
Inductive denotes (leaf : expr -> cell) : bexpr -> Qc -> Prop :=
| dn_leaf e q : leaf e = Val q -> denotes leaf (BLeaf e) q
| dn_par b q : denotes leaf b q -> denotes leaf (BPar b) q
| dn_plus b q : denotes leaf b q -> denotes leaf (BSign false b) q
| dn_minus b q : denotes leaf b q -> denotes leaf (BSign true b) (- q)%Qc
| dn_add a b x y : denotes leaf a x -> denotes leaf b y -> denotes leaf (BBin OAdd a b) (x + y)%Qc
| dn_sub a b x y : denotes leaf a x -> denotes leaf b y -> denotes leaf (BBin OSub a b) (x - y)%Qc
| dn_mul a b x y : denotes leaf a x -> denotes leaf b y -> denotes leaf (BBin OMul a b) (x * y)%Qc
| dn_div a b x y : denotes leaf a x -> denotes leaf b y -> y <> 0%Qc ->
    denotes leaf (BBin ODiv a b) (x / y)%Qc
| dn_pow a b x y n : denotes leaf a x -> denotes leaf b y -> y = Q2Qc (inject_Z (Z.of_nat n)) ->
    denotes leaf (BBin OPow a b) (Qcpower x n).

(** * Numbers *)

(** Digits as they are written, and the numbers they stand for before and after the point. *)
Definition digit_char (d : nat) : ascii := ascii_of_nat (48 + d).
Definition written (ds : list nat) : string := fold_right (fun d s => String (digit_char d) s) "" ds.
Fixpoint whole (ds : list nat) : Z :=
  match ds with [] => 0 | d :: r => Z.of_nat d * 10 ^ Z.of_nat (List.length r) + whole r end%Z.
Fixpoint fraction (ds : list nat) : Qc :=
  match ds with [] => 0 | d :: r => (Q2Qc (inject_Z (Z.of_nat d)) + fraction r) / Q2Qc 10 end%Qc.
Definition all_digits (ds : list nat) : Prop := Forall (fun d => d <= 9) ds.
(** The optional parts of a number: ".ds" and "e", a sign and digits. *)
Definition point_text (f : option (list nat)) : string :=
  match f with None => "" | Some ds => String "." (written ds) end.
Definition point_value (f : option (list nat)) : Qc := match f with None => 0%Qc | Some ds => fraction ds end.
Definition exp_text (x : option (option bool * list nat)) : string :=
  match x with
  | None => ""
  | Some (None, ds) => String "e" (written ds)
  | Some (Some true, ds) => String "e" (String "-" (written ds))
  | Some (Some false, ds) => String "e" (String "+" (written ds))
  end.
Definition exp_value (x : option (option bool * list nat)) : Qc :=
  match x with
  | None => 1
  | Some (Some true, ds) => 1 / Qcpower (Q2Qc 10) (Z.to_nat (whole ds))
  | Some (_, ds) => Qcpower (Q2Qc 10) (Z.to_nat (whole ds))
  end%Qc.
Definition number_text (ds : list nat) (f : option (list nat)) (x : option (option bool * list nat)) : string :=
  String.append (written ds) (String.append (point_text f) (exp_text x)).
Definition digits_of {A} (f : option (A * list nat)) : list nat := match f with Some (_, ds) => ds | None => [] end.

(** * The usual mathematical reading of a text *)
Section Usual.
Variable L : lang.

(** Whatever is not an operator or a bracket of the arithmetic. *)
Inductive leaf_text : list tok -> expr -> Prop :=
| lt_call ts e : call L ts e -> leaf_text ts e
| lt_ref s : l_refs L = true -> leaf_text [TRef s] (ERef s)
| lt_num s : leaf_text [TNum s] (ENum false s)
| lt_index ts e : has_index L = true -> index L ts e -> leaf_text ts e
| lt_name s g : l_name L s = true -> leaf_text [TId s g] (EName s)
| lt_conf ts e : conf L ts e -> leaf_text ts e.

(** Level 3: sums and differences, grouped to the left; 2: products and quotients, grouped to
    the left; 1: signs and powers, where a power groups to the right and a sign applies to the
    whole power; 0: operands. *)
Inductive usual : nat -> list tok -> bexpr -> Prop :=
| us_leaf ts e : leaf_text ts e -> usual 0 ts (BLeaf e)
| us_par ts b : usual 3 ts b -> usual 0 (TSym LPar :: ts ++ [TSym RPar]) (BPar b)
| us_atom ts b : usual 0 ts b -> usual 1 ts b
| us_sign t s ts b : sign_tok t s -> usual 1 ts b -> usual 1 (t :: ts) (BSign s b)
| us_pow ts a us b : usual 0 ts a -> usual 1 us b -> usual 1 (ts ++ TSym Pow :: us) (BBin OPow a b)
| us_prod ts b : usual 1 ts b -> usual 2 ts b
| us_mul ts a t o us b : usual 2 ts a -> op_tok 2 t o -> usual 1 us b ->
    usual 2 (ts ++ t :: us) (BBin o a b)
| us_sum ts b : usual 2 ts b -> usual 3 ts b
| us_add ts a t o us b : usual 3 ts a -> op_tok 3 t o -> usual 2 us b ->
    usual 3 (ts ++ t :: us) (BBin o a b).
End Usual.

(** How the grouping of signs and powers deviates: the sign goes to the base and powers group
    to the left, unless brackets are written. *)
Definition powers (s : bexpr * list bexpr) : bexpr := fold_left (BBin OPow) (snd s) (fst s).
Fixpoint spine (b : bexpr) : bexpr * list bexpr :=
  match b with
  | BLeaf e => (BLeaf e, [])
  | BPar b => (powers (spine b), [])
  | BSign s b => (BSign s (fst (spine b)), snd (spine b))
  | BBin OPow a b => (powers (spine a), fst (spine b) :: snd (spine b))
  | BBin o a b => (BBin o (powers (spine a)) (powers (spine b)), [])
  end.
Definition regroup (b : bexpr) : bexpr := powers (spine b).

(** No sign is written directly before a power and no power directly in an exponent. *)
Definition is_pow (b : bexpr) : bool := match b with BBin OPow _ _ => true | _ => false end.
Fixpoint under_signs (b : bexpr) : bexpr := match b with BSign _ b => under_signs b | _ => b end.
Fixpoint explicit (b : bexpr) : bool :=
  match b with
  | BLeaf _ => true
  | BPar b => explicit b
  | BSign _ b => negb (is_pow (under_signs b)) && explicit b
  | BBin OPow a b => negb (is_pow (under_signs b)) && explicit a && explicit b
  | BBin _ a b => explicit a && explicit b
  end.

(** * Formulas *)

(** A formula as a line of text: a fraction is a bracketed quotient of bracketed expressions,
    a superscript a power with a bracketed exponent. *)
Definition lin1 (x : ltok) : list tok :=
  match x with
  | XLeaf e => show MExpr true e
  | XPlus => [TSym Plus]
  | XMinus => [TSym Minus]
  | XTimes => [TSym Times]
  | XOpen => [TSym LPar]
  | XClose => [TSym RPar]
  | XSup => [TSym Pow; TSym LPar]
  | XSupEnd => [TSym RPar]
  | XFrac => [TSym LPar; TSym LPar]
  | XOver => [TSym RPar; TSym Div; TSym LPar]
  | XFracEnd => [TSym RPar; TSym RPar]
  end.
Definition lin (f : list ltok) : list tok := flat_map lin1 f.

(** The expression with the chosen sub-expressions in place. *)
Fixpoint expand (sub : string -> expr) (e : expr) {struct e} : bexpr :=
  match e with
  | ERef s => bin (sub s)
  | ESign s e => BSign s (expand sub e)
  | EChain e ops => fold_left (fun b x => BBin (fst x) b (expand sub (snd x))) ops (expand sub e)
  | _ => BLeaf e
  end.

(** A syntactic criterion under which the rendering of an expression says what is meant:
    [fit] gives the level (as in [usual]) of the formula if every operand has a level that its
    place admits.  [rs], [rl]: formula and level of the sub-expressions. *)
Definition fit_step (first : bool) (z : bool) (v : option nat) (o : op) (chain zb : bool) (b : option nat)
  : option nat :=
  match v, b with
  | Some v, Some b =>
      if zb && skips o then Some v
      else
        let v := if first then 0 else v in
        let b := if chain then 0 else b in
        if z && negb first && skips o then match o with OAdd => Some b | _ => None end
        else match o with
             | OPow => if Nat.eqb v 0 then Some 1 else None
             | OMul => if Nat.leb v 2 && Nat.leb b 1 then Some 2 else None
             | ODiv => Some 0
             | _ => if Nat.leb b 2 then Some 3 else None
             end
  | _, _ => None
  end.
Fixpoint fit (rs : string -> list ltok) (rl : string -> option nat) (e : expr) {struct e} : option nat :=
  match e with
  | ERef s => rl s
  | ESign _ e => match fit rs rl e with Some l => if Nat.leb l 1 then Some 1 else None | None => None end
  | EChain e ops =>
      snd (fold_left (fun v x =>
             (render_step (is_chain e) (fst v) (fst x) (is_chain (snd x)) (render rs (snd x)),
              fit_step (is_chain e) (is_zero (fst v)) (snd v) (fst x) (is_chain (snd x))
                (is_zero (render rs (snd x))) (fit rs rl (snd x))))
           ops (render rs e, fit rs rl e))
  | _ => Some 0
  end.
Definition no_refs : string -> list ltok := fun _ => [].
Definition fit_sub (sub : string -> expr) (s : string) : option nat := fit no_refs (fun _ => None) (sub s).
Definition render_sub (sub : string -> expr) (s : string) : list ltok := render no_refs (sub s).

(** * Conditions *)

(** The input [s] has a usable value there. *)
Definition given (W : wenv) (s : string) (p : pos) : Prop :=
  exists a, w_input W s = Some a /\
    (if w_bool W s then a p = Boo true else a p <> Miss /\ a p <> Inf true /\ a p <> Inf false).

(** The truth of a condition at a position; [atom]: of comparisons, subsets and functions. *)
Fixpoint holds (atom : wexpr -> Prop) (W : wenv) (p : pos) (w : wexpr) {struct w} : Prop :=
  match w with
  | WBool b => b = true
  | WName s => if w_inputs W s then given W s p else w_result W s p <> Miss
  | WNot w => ~ holds atom W p w
  | WChain w ops =>
      fold_left (fun P x => if fst x : bool then P /\ holds atom W p (snd x) else P \/ holds atom W p (snd x))
        ops (holds atom W p w)
  | _ => atom w
  end.

(** Comparisons of two numbers. *)
Definition in_order (c : cmp) (x y : Qc) : Prop :=
  match c with
  | CLt => (x < y)%Qc | CGt => (y < x)%Qc | CEq => x = y | CGe => (y <= x)%Qc | CLe => (x <= y)%Qc
  end.

(** * Rendered conditions *)

(** Trees of a rendered condition. *)
Inductive ctree := CLeaf (w : wexpr) | CBool (b : bool) | CNot (t : ctree) | CBin (both : bool) (a b : ctree).
Fixpoint cval (v : wexpr -> bool) (t : ctree) : bool :=
  match t with
  | CLeaf w => v w
  | CBool b => b
  | CNot t => negb (cval v t)
  | CBin both a b => if both then cval v a && cval v b else cval v a || cval v b
  end.
(** The usual reading: negation applies to the next operand, "and" goes before "or". *)
Inductive usual_cond : nat -> list ytok -> ctree -> Prop :=
| uc_leaf w : usual_cond 0 [YLeaf w] (CLeaf w)
| uc_true : usual_cond 0 [YTrue] (CBool true)
| uc_false : usual_cond 0 [YFalse] (CBool false)
| uc_par ys t : usual_cond 2 ys t -> usual_cond 0 (YOpen :: ys ++ [YClose]) t
| uc_not ys t : usual_cond 0 ys t -> usual_cond 0 (YNot :: ys) (CNot t)
| uc_one ys t : usual_cond 0 ys t -> usual_cond 1 ys t
| uc_and ys t zs u : usual_cond 1 ys t -> usual_cond 0 zs u -> usual_cond 1 (ys ++ YAnd :: zs) (CBin true t u)
| uc_conj ys t : usual_cond 1 ys t -> usual_cond 2 ys t
| uc_or ys t zs u : usual_cond 2 ys t -> usual_cond 1 zs u -> usual_cond 2 (ys ++ YOr :: zs) (CBin false t u).

(** Conditions whose formula says what they mean: "and" never follows an "or" without
    brackets, and the word "true" is not an operand of "or". *)
Definition wfit_step (first tv : bool) (v : option nat) (o tb : bool) (b : option nat) : option nat :=
  match v, b with
  | Some v, Some b =>
      if tb then if o then Some v else None
      else if tv && negb first then if o then Some b else None
      else let v := if first then 0 else v in
           if o then if Nat.leb v 1 then Some 1 else None else Some 2
  | _, _ => None
  end.
Fixpoint wfit (w : wexpr) {struct w} : option nat :=
  match w with
  | WNot w => match wfit w with Some _ => Some 0 | None => None end
  | WChain w ops =>
      snd (fold_left (fun v x =>
             (wrender_step (is_wchain w) (fst v) (fst x) (is_wchain (snd x)) (wrender (snd x)),
              wfit_step (is_wchain w) (y_true (fst v)) (snd v) (fst x) (y_true (wrender (snd x)))
                (match wfit (snd x) with Some l => Some (if is_wchain (snd x) then 0 else l) | None => None end)))
           ops (wrender w, wfit w))
  | _ => Some 0
  end.
