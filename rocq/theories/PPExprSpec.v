(** C11 6.10.1 controlling expressions: concrete syntax trees, the grammar of
    C11 6.5, and their value in intmax_t / uintmax_t arithmetic. *)
From Verif Require Import Base Tokens PPExpr.

Inductive unop := UPlus | UMinus | UNot | UCompl.
Inductive binop := BMul | BDiv | BMod | BAdd | BSub | BShl | BShr | BLt | BGt | BLe | BGe | BEq | BNe
  | BAnd | BXor | BOr | BLand | BLor.
Inductive pexp :=
| PNum (is_signed : bool) (v : Z)
| PChar (v : Z)
| PIdent
| PParen (e : pexp)
| PUn (op : unop) (e : pexp)
| PBin (op : binop) (a b : pexp)
| PCond (c a b : pexp).

Definition untok (op : unop) : Z :=
  match op with UPlus => T_ADD | UMinus => T_SUB | UNot => T_NOT | UCompl => T_BNOT end.
Definition bintok (op : binop) : Z :=
  match op with
  | BMul => T_STAR | BDiv => T_DIV | BMod => T_MOD | BAdd => T_ADD | BSub => T_SUB | BShl => T_LSHIFT | BShr => T_RSHIFT
  | BLt => T_L | BGt => T_G | BLe => T_LEQ | BGe => T_GEQ | BEq => T_EQ | BNe => T_NEQ
  | BAnd => T_AMP | BXor => T_XOR | BOr => T_BOR | BLand => T_AND | BLor => T_OR
  end.
(** The tokens of an expression. *)
Fixpoint spell (e : pexp) : list pptok :=
  match e with
  | PNum s v => [KNum s v]
  | PChar v => [KChar v]
  | PIdent => [KIdent]
  | PParen e => KOp T_LPAR :: spell e ++ [KOp T_RPAR]
  | PUn op e => KOp (untok op) :: spell e
  | PBin op a b => spell a ++ KOp (bintok op) :: spell b
  | PCond c a b => spell c ++ KOp T_QUEST :: spell a ++ KOp T_COLON :: spell b
  end.

(** Grammar levels: conditional 3, logical or 4, ..., multiplicative 13, unary 14,
    primary 15. *)
Definition binlevel (op : binop) : Z :=
  match op with
  | BLor => 4 | BLand => 5 | BOr => 6 | BXor => 7 | BAnd => 8 | BEq | BNe => 9 | BLt | BGt | BLe | BGe => 10
  | BShl | BShr => 11 | BAdd | BSub => 12 | BMul | BDiv | BMod => 13
  end.
Definition level (e : pexp) : Z :=
  match e with
  | PNum _ _ | PChar _ | PIdent | PParen _ => 15
  | PUn _ _ => 14
  | PBin op _ _ => binlevel op
  | PCond _ _ _ => 3
  end.
(** Derivable in the grammar: binary operators associate to the left, the
    conditional operator to the right. Literals are representable in intmax_t or
    uintmax_t. *)
Fixpoint derivable (e : pexp) : Prop :=
  match e with
  | PNum s v => if s then 0 <= v < 2 ^ 63 else 0 <= v < 2 ^ 64
  | PChar v => - 2 ^ 31 <= v < 2 ^ 31
  | PIdent => True
  | PParen e => derivable e
  | PUn _ e => derivable e /\ 14 <= level e
  | PBin op a b => derivable a /\ derivable b /\ binlevel op <= level a /\ binlevel op < level b
  | PCond c a b => derivable c /\ derivable a /\ derivable b /\ 4 <= level c /\ 3 <= level b
  end.

(** Types: true is intmax_t, false uintmax_t. *)
Fixpoint stype (e : pexp) : bool :=
  match e with
  | PNum s _ => s
  | PChar _ | PIdent => true
  | PParen e => stype e
  | PUn UNot _ => true
  | PUn _ e => stype e
  | PBin (BLt | BGt | BLe | BGe | BEq | BNe | BLand | BLor) _ _ => true
  | PBin (BShl | BShr) a _ => stype a
  | PBin _ a b => stype a && stype b
  | PCond _ a b => stype a && stype b
  end.

(** Outcomes: a value; a constraint violation (division by zero, or the one
    quotient that is not representable); undefined. *)
Inductive outcome := Value (v : Z) | Violation | Undefined.
Definition obind (o : outcome) (f : Z -> outcome) : outcome :=
  match o with Value v => f v | Violation => Violation | Undefined => Undefined end.

Definition in_type (t : bool) (v : Z) : outcome :=
  if t then if (- 2 ^ 63 <=? v) && (v <? 2 ^ 63) then Value v else Undefined
  else Value (v mod 2 ^ 64).
Definition convert (t : bool) (v : Z) : Z := if t then v else v mod 2 ^ 64.
Definition truth (b : bool) : Z := if b then 1 else 0.

Definition apply (op : binop) (t tl : bool) (x y : Z) : outcome :=
  let a := convert t x in
  let b := convert t y in
  match op with
  | BMul => in_type t (a * b)
  | BAdd => in_type t (a + b)
  | BSub => in_type t (a - b)
  | BDiv => if b =? 0 then Violation else if t && (a =? - 2 ^ 63) && (b =? -1) then Violation else Value (Z.quot a b)
  | BMod => if b =? 0 then Violation else if t && (a =? - 2 ^ 63) && (b =? -1) then Violation else Value (Z.rem a b)
  | BAnd => Value (Z.land a b)
  | BXor => Value (Z.lxor a b)
  | BOr => Value (Z.lor a b)
  | BLt => Value (truth (a <? b))
  | BGt => Value (truth (b <? a))
  | BLe => Value (truth (a <=? b))
  | BGe => Value (truth (b <=? a))
  | BEq => Value (truth (a =? b))
  | BNe => Value (truth (negb (a =? b)))
  | BShl => if (0 <=? y) && (y <? 64) then if tl then if 0 <=? x then in_type true (x * 2 ^ y) else Undefined
                                           else Value (x * 2 ^ y mod 2 ^ 64) else Undefined
  | BShr => if (0 <=? y) && (y <? 64) then Value (x / 2 ^ y) else Undefined
  | BLand | BLor => Undefined (* not strict: see [value] *)
  end.

(** The value of an expression. *)
Fixpoint value (e : pexp) : outcome :=
  match e with
  | PNum _ v => Value v
  | PChar v => Value v
  | PIdent => Value 0
  | PParen e => value e
  | PUn UPlus e => value e
  | PUn UMinus e => obind (value e) (fun v => in_type (stype e) (- v))
  | PUn UNot e => obind (value e) (fun v => Value (truth (v =? 0)))
  | PUn UCompl e => obind (value e) (fun v => Value (convert (stype e) (-1 - v)))
  | PBin BLand a b =>
      obind (value a) (fun x => if x =? 0 then Value 0 else obind (value b) (fun y => Value (truth (negb (y =? 0)))))
  | PBin BLor a b =>
      obind (value a) (fun x => if x =? 0 then obind (value b) (fun y => Value (truth (negb (y =? 0)))) else Value 1)
  | PBin op a b =>
      obind (value a) (fun x => obind (value b) (fun y => apply op (stype a && stype b) (stype a) x y))
  | PCond c a b =>
      obind (value c) (fun x => obind (value (if x =? 0 then b else a)) (fun v => Value (convert (stype a && stype b) v)))
  end.

(** Where the evaluator departs from C11: ~ is not known, the operator ! keeps an
    unsigned type, shifts convert the left operand to unsigned when the right one
    is, and the conditional operator does not convert its operands. *)
Fixpoint within (e : pexp) : Prop :=
  match e with
  | PNum _ _ | PChar _ | PIdent => True
  | PParen e => within e
  | PUn op e => within e /\ op <> UCompl /\ (op = UNot -> stype e = true)
  | PBin op a b => within a /\ within b /\ (op = BShl \/ op = BShr -> stype a = true -> stype b = true)
  | PCond c a b => within c /\ within a /\ within b /\ stype a = stype b
  end.

(** Expressions without the operator ~. *)
Fixpoint no_compl (e : pexp) : Prop :=
  match e with
  | PNum _ _ | PChar _ | PIdent => True
  | PParen e => no_compl e
  | PUn op e => no_compl e /\ op <> UCompl
  | PBin _ a b => no_compl a /\ no_compl b
  | PCond c a b => no_compl c /\ no_compl a /\ no_compl b
  end.

(** Token sequences of a controlling expression that contain only operators a
    controlling expression may contain (no assignment, comma, ++, --, [, . and ->)
    and in which no ( directly follows an operand. T_EOI is the end of the line. *)
Definition operator (ty : Z) : Prop := ty = T_QUEST \/ ty = T_COLON \/ ty = T_RPAR \/ ty = T_EOI \/ (exists op, ty = untok op) \/ exists op, ty = bintok op.
Fixpoint plain_tokens (after_operand : bool) (l : list pptok) : Prop :=
  match l with
  | [] => True
  | KNum s v :: r => (if s then 0 <= v < 2 ^ 63 else 0 <= v < 2 ^ 64) /\ plain_tokens true r
  | KIdent :: r => plain_tokens true r
  | KChar v :: r => - 2 ^ 31 <= v < 2 ^ 31 /\ plain_tokens true r
  | KWrong _ _ :: r => False
  | KOp ty :: r => (operator ty \/ ty = T_LPAR /\ after_operand = false) /\ plain_tokens (ty =? T_RPAR) r
  end.
(** Remaining identifiers are replaced by 0 (C11 6.10.1p4). *)
Definition zero_ident (t : pptok) : pptok := match t with KIdent => KNum true 0 | _ => t end.
