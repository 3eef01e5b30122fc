(** The grammar of C expressions (C11 6.5.1 - 6.5.17), and what the parser builds for each
    production. *)
From Verif Require Import Base Tokens ConstFold Pratt.

Inductive nonterminal :=
| Expression | AssignmentExpr | ConditionalExpr | LogicalOr | LogicalAnd | InclusiveOr | ExclusiveOr | AndExpr
| Equality | Relational | Shift | Additive | Multiplicative | CastExpr | Unary | Postfix | Primary.
(** a: b *)
Definition units : list (nonterminal * nonterminal) := [
  (Expression, AssignmentExpr); (AssignmentExpr, ConditionalExpr); (ConditionalExpr, LogicalOr); (LogicalOr, LogicalAnd);
  (LogicalAnd, InclusiveOr); (InclusiveOr, ExclusiveOr); (ExclusiveOr, AndExpr); (AndExpr, Equality); (Equality, Relational);
  (Relational, Shift); (Shift, Additive); (Additive, Multiplicative); (Multiplicative, CastExpr); (CastExpr, Unary);
  (Unary, Postfix); (Postfix, Primary)].
(** a: a op b *)
Definition binaries : list (nonterminal * nonterminal * list (Z * (expr -> expr -> expr))) := [
  (Expression, AssignmentExpr, [(T_COMMA, Comma)]);
  (LogicalOr, LogicalAnd, [(T_OR, fun a b => Conditional a (Int 1) (Conditional b (Int 1) (Int 0)))]);
  (LogicalAnd, InclusiveOr, [(T_AND, fun a b => Conditional a (Conditional b (Int 1) (Int 0)) (Int 0))]);
  (InclusiveOr, ExclusiveOr, [(T_BOR, BinaryOp OP_BOR)]);
  (ExclusiveOr, AndExpr, [(T_XOR, BinaryOp OP_BXOR)]);
  (AndExpr, Equality, [(T_AMP, BinaryOp OP_BAND)]);
  (Equality, Relational, [(T_EQ, BinaryOp OP_EQUAL); (T_NEQ, BinaryOp OP_NOT_EQUAL)]);
  (Relational, Shift, [(T_L, BinaryOp OP_LESS); (T_G, BinaryOp OP_GREATER); (T_LEQ, BinaryOp OP_LESS_EQ); (T_GEQ, BinaryOp OP_GREATER_EQ)]);
  (Shift, Additive, [(T_LSHIFT, BinaryOp OP_LSHIFT); (T_RSHIFT, BinaryOp OP_RSHIFT)]);
  (Additive, Multiplicative, [(T_ADD, BinaryOp OP_ADD); (T_SUB, BinaryOp OP_SUB)]);
  (Multiplicative, CastExpr, [(T_STAR, BinaryOp OP_MUL); (T_DIV, BinaryOp OP_DIV); (T_MOD, BinaryOp OP_MOD)])].
Definition assignments : list (Z * (expr -> expr -> expr)) :=
  let compound op a b := AssignmentOp op a b false in
  [(T_A, Assignment); (T_MULA, compound OP_MUL); (T_DIVA, compound OP_DIV); (T_MODA, compound OP_MOD); (T_ADDA, compound OP_ADD);
   (T_SUBA, compound OP_SUB); (T_LSHIFTA, compound OP_LSHIFT); (T_RSHIFTA, compound OP_RSHIFT); (T_BANDA, compound OP_BAND);
   (T_XORA, compound OP_BXOR); (T_BORA, compound OP_BOR)].
(** Prefix operators on cast expressions; ++ and -- on unary ones. *)
Definition prefixes : list (Z * (expr -> expr)) := [
  (T_AMP, AddressOf); (T_STAR, Indirection); (T_ADD, UnaryOp UOP_PLUS); (T_SUB, UnaryOp UOP_NEG); (T_BNOT, UnaryOp UOP_BNOT);
  (T_NOT, fun a => Conditional a (Int 0) (Int 1))].
Definition increments (postfix : bool) : list (Z * (expr -> expr)) :=
  [(T_INC, fun a => AssignmentOp OP_ADD a (Int 1) postfix); (T_DEC, fun a => AssignmentOp OP_SUB a (Int 1) postfix)].
Definition members : list (Z * (expr -> list Z -> expr)) := [(T_DOT, Dot); (T_ARROW, fun a n => Dot (Indirection a) n)].
Definition primaries : list Z := [
  T_IDENT; T_NUM; T_STRING; T_STRING_CHAR16; T_STRING_CHAR32; T_STRING_WCHAR; T_CHARACTER_CONSTANT;
  T_CHARACTER_CONSTANT_WCHAR; T_CHARACTER_CONSTANT_CHAR16; T_CHARACTER_CONSTANT_CHAR32; T_KFUNC].

(** The tokens do not start with a parenthesized type name. *)
Definition not_cast (l : list tok) : Prop := forall s ty r, l <> (T_LPAR, s) :: (TYPE_NAME, ty) :: r.

(** [derives c a l e]: the nonterminal [a] derives the tokens [l], read as [e]. With [c]
    this is the grammar of C. Without it, some operands may be of a wider class: those that
    a parser may take and leave to later checks. *)
Inductive derives (c : bool) : nonterminal -> list tok -> expr -> Prop :=
| d_primary t : In (fst t) primaries -> derives c Primary [t] (Leaf t)
| d_paren s s' l e : derives c Expression l e -> derives c Primary ((T_LPAR, s) :: l ++ [(T_RPAR, s')]) e
| d_unit a b l e : In (a, b) units -> derives c b l e -> derives c a l e
| d_binary a b ops op f s l r e e' : In (a, b, ops) binaries -> In (op, f) ops ->
    derives c a l e -> derives c b r e' -> derives c a (l ++ (op, s) :: r) (f e e')
| d_assignment op f s l r e e' : In (op, f) assignments ->
    derives c (if c then Unary else LogicalOr) l e -> derives c AssignmentExpr r e' -> derives c AssignmentExpr (l ++ (op, s) :: r) (f e e')
| d_conditional s s' l m r e e' e'' : derives c LogicalOr l e -> derives c Expression m e' ->
    derives c (if c then ConditionalExpr else AssignmentExpr) r e'' ->
    derives c ConditionalExpr (l ++ (T_QUEST, s) :: m ++ (T_COLON, s') :: r) (Conditional e e' e'')
| d_cast s ty s' l e : derives c CastExpr l e -> derives c CastExpr ((T_LPAR, s) :: (TYPE_NAME, ty) :: (T_RPAR, s') :: l) (Cast ty e)
| d_prefix op f s l e : In (op, f) prefixes -> derives c CastExpr l e -> derives c Unary ((op, s) :: l) (f e)
| d_increment op f s l e : In (op, f) (increments false) -> derives c (if c then Unary else CastExpr) l e -> derives c Unary ((op, s) :: l) (f e)
| d_sizeof s l e : derives c (if c then Unary else CastExpr) l e -> (c = false -> not_cast l) -> derives c Unary ((T_KSIZEOF, s) :: l) (SizeofExpr e)
| d_alignof s l e : c = false -> derives c CastExpr l e -> not_cast l -> derives c Unary ((T_KALIGNOF, s) :: l) (AlignofExpr e)
| d_sizeof_type s s1 ty s2 : derives c (if c then Unary else Primary) [(T_KSIZEOF, s); (T_LPAR, s1); (TYPE_NAME, ty); (T_RPAR, s2)] (SizeofType ty)
| d_alignof_type s s1 ty s2 : derives c (if c then Unary else Primary) [(T_KALIGNOF, s); (T_LPAR, s1); (TYPE_NAME, ty); (T_RPAR, s2)] (AlignofType ty)
| d_subscript s s' l i e e' : derives c Postfix l e -> derives c Expression i e' ->
    derives c Postfix (l ++ (T_LBRACK, s) :: i ++ [(T_RBRACK, s')]) (Indirection (BinaryOp OP_ADD e e'))
| d_call s s' l al e es : derives c Postfix l e -> arguments c al es -> (length es <= 127)%nat ->
    derives c Postfix (l ++ (T_LPAR, s) :: al ++ [(T_RPAR, s')]) (Call e es)
| d_member op f s ty nm l e : In (op, f) members -> (c = true -> ty = T_IDENT) -> derives c Postfix l e ->
    derives c Postfix (l ++ [(op, s); (ty, nm)]) (f e nm)
| d_postfix op f s l e : In (op, f) (increments true) -> derives c Postfix l e -> derives c Postfix (l ++ [(op, s)]) (f e)
with arguments (c : bool) : list tok -> list expr -> Prop :=
| a_none : arguments c [] []
| a_one l e : derives c AssignmentExpr l e -> arguments c l [e]
| a_more s l r e e' es : derives c AssignmentExpr l e -> arguments c r (e' :: es) -> arguments c (l ++ (T_COMMA, s) :: r) (e :: e' :: es).
