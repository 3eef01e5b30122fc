(** The expression parser (src/parser/expression.c:474-897). The model is about syntax:
    type checks, implicit conversions, constant folding and name lookups of expr_new,
    expr_dot_operator and symbols_get_identifier are not part of it. The type name that
    parse_type_name reads after an opening parenthesis is one token [TYPE_NAME]; a token is
    its type and its text, and the end of the list is T_EOI. *)
From Verif Require Import Base Tokens Fuel Precedence ConstFold.

Definition tok := (Z * list Z)%type.
Definition TYPE_NAME : Z := -1.
Definition head_type (l : list tok) : Z := match l with [] => T_EOI | t :: _ => fst t end.

(** src/parser/expression.h:61-150 (struct expr). *)
Inductive expr :=
| Leaf (t : tok)
| Int (i : Z)
| Comma (a b : expr)
| Assignment (a b : expr)
| AssignmentOp (op : operator_type) (a b : expr) (postfix : bool)
| BinaryOp (op : operator_type) (a b : expr)
| Conditional (a b c : expr)
| UnaryOp (op : unary_operator_type) (a : expr)
| Indirection (a : expr)
| AddressOf (a : expr)
| Call (f : expr) (args : list expr)
| Dot (a : expr) (name : list Z)
| Cast (ty : list Z) (a : expr)
| SizeofType (ty : list Z)
| SizeofExpr (a : expr)
| AlignofType (ty : list Z)
| AlignofExpr (a : expr).

(** src/parser/expression.c:779-809 (ops). *)
Inductive operation := OComma | OAssign | OAssignOp (op : operator_type) | OBinary (op : operator_type).
Definition ops : list (Z * operation) := [
  (T_COMMA, OComma); (T_A, OAssign);
  (T_MULA, OAssignOp OP_MUL); (T_DIVA, OAssignOp OP_DIV); (T_MODA, OAssignOp OP_MOD); (T_ADDA, OAssignOp OP_ADD);
  (T_SUBA, OAssignOp OP_SUB); (T_LSHIFTA, OAssignOp OP_LSHIFT); (T_RSHIFTA, OAssignOp OP_RSHIFT);
  (T_BANDA, OAssignOp OP_BAND); (T_XORA, OAssignOp OP_BXOR); (T_BORA, OAssignOp OP_BOR);
  (T_BOR, OBinary OP_BOR); (T_XOR, OBinary OP_BXOR); (T_AMP, OBinary OP_BAND); (T_EQ, OBinary OP_EQUAL);
  (T_NEQ, OBinary OP_NOT_EQUAL); (T_LEQ, OBinary OP_LESS_EQ); (T_GEQ, OBinary OP_GREATER_EQ); (T_L, OBinary OP_LESS);
  (T_G, OBinary OP_GREATER); (T_LSHIFT, OBinary OP_LSHIFT); (T_RSHIFT, OBinary OP_RSHIFT); (T_ADD, OBinary OP_ADD);
  (T_SUB, OBinary OP_SUB); (T_STAR, OBinary OP_MUL); (T_DIV, OBinary OP_DIV); (T_MOD, OBinary OP_MOD)].
Definition op_of (ty : Z) : option operation := match find (fun p => fst p =? ty) ops with Some (_, o) => Some o | None => None end.
Definition build (o : operation) (a b : expr) : expr :=
  match o with
  | OComma => Comma a b
  | OAssign => Assignment a b
  | OAssignOp op => AssignmentOp op a b false
  | OBinary op => BinaryOp op a b
  end.
(** src/parser/expression.c:829-842: || and &&. *)
Definition build_or (a b : expr) : expr := Conditional a (Int 1) (Conditional b (Int 1) (Int 0)).
Definition build_and (a b : expr) : expr := Conditional a (Conditional b (Int 1) (Int 0)) (Int 0).

(** TEXPECT of src/preprocessor/preprocessor.h. *)
Definition expect (ty : Z) (l : list tok) : ex (list tok) := if head_type l =? ty then ok (tl l) else Some Fail.
(** src/parser/expression.c:402-405: expr_new refuses a missing operand. *)
Definition operand (r : option expr * list tok) : ex (expr * list tok) := match r with (Some e, l) => ok (e, l) | (None, _) => Some Fail end.
(** A missing operand that is dereferenced (src/parser/expression.c:552, 566, 570). *)
Definition deref (r : option expr * list tok) : ex (expr * list tok) := match r with (Some e, l) => ok (e, l) | (None, _) => Some Undef end.

(** src/parser/expression.c:588-659, 766-768: tokens that are an expression by themselves. *)
Definition leaf_types : list Z := [
  T_IDENT; T_STRING; T_STRING_CHAR16; T_STRING_CHAR32; T_STRING_WCHAR; T_NUM; T_CHARACTER_CONSTANT;
  T_CHARACTER_CONSTANT_WCHAR; T_CHARACTER_CONSTANT_CHAR16; T_CHARACTER_CONSTANT_CHAR32; T_KFUNC].
(** src/parser/expression.c:661-765: _Generic, the va_ builtins and offsetof are outside of
    the model. *)
Definition unmodelled : list Z := [T_KGENERIC; T_KVA_START; T_KVA_COPY; T_KVA_END; T_KVA_ARG; T_KOFFSETOF].
Definition is_one_of (ty : Z) (l : list Z) : bool := existsb (Z.eqb ty) l.
Definition MAX_ARGUMENTS : nat := 128.

(** src/parser/expression.c:880-887 (parse_pratt). *)
Fixpoint parse_pratt (n : nat) (precedence : Z) (l : list tok) {struct n} : ex (option expr * list tok) :=
  match n with
  | O => None
  | S n' =>
      let! (e, l1) := parse_prefix n' l in
      match e with
      | None => ok (None, l1)
      | Some lhs => parse_pratt_with_lhs n' precedence lhs l1
      end
  end
(** src/parser/expression.c:509-773 (parse_prefix). A compound literal (520-525) is outside
    of the model. *)
with parse_prefix (n : nat) (l : list tok) {struct n} : ex (option expr * list tok) :=
  match n with
  | O => None
  | S n' =>
      let ty := head_type l in
      let r := tl l in
      let operand_of (r : list tok) := let! x := parse_pratt n' PREFIX_PREC r in operand x in
      let sizeof_like (of_type : list Z -> expr) (of_expr : expr -> expr) :=
        if (head_type r =? T_LPAR) && (head_type (tl r) =? TYPE_NAME) then
          let! r2 := expect T_RPAR (tl (tl r)) in ok (Some (of_type (snd (hd (0, []) (tl r)))), r2)
        else
          let! x := parse_pratt n' PREFIX_PREC r in
          let! (e, r2) := deref x in ok (Some (of_expr e), r2) in
      if ty =? T_LPAR then
        if head_type r =? TYPE_NAME then
          let! r2 := expect T_RPAR (tl r) in
          if head_type r2 =? T_LBRACE then Some Undef
          else let! (e, r3) := operand_of r2 in ok (Some (Cast (snd (hd (0, []) r)) e), r3)
        else
          let! (e, r2) := parse_pratt n' 0 r in
          let! r3 := expect T_RPAR r2 in ok (e, r3)
      else if ty =? T_INC then let! (e, r2) := operand_of r in ok (Some (AssignmentOp OP_ADD e (Int 1) false), r2)
      else if ty =? T_DEC then let! (e, r2) := operand_of r in ok (Some (AssignmentOp OP_SUB e (Int 1) false), r2)
      else if ty =? T_STAR then let! (e, r2) := operand_of r in ok (Some (Indirection e), r2)
      else if ty =? T_ADD then let! (e, r2) := operand_of r in ok (Some (UnaryOp UOP_PLUS e), r2)
      else if ty =? T_SUB then let! (e, r2) := operand_of r in ok (Some (UnaryOp UOP_NEG e), r2)
      else if ty =? T_NOT then let! (e, r2) := operand_of r in ok (Some (Conditional e (Int 0) (Int 1)), r2)
      else if ty =? T_BNOT then let! (e, r2) := operand_of r in ok (Some (UnaryOp UOP_BNOT e), r2)
      else if ty =? T_AMP then
        let! x := parse_pratt n' PREFIX_PREC r in
        let! (e, r2) := deref x in ok (Some (AddressOf e), r2)
      else if ty =? T_KSIZEOF then sizeof_like SizeofType SizeofExpr
      else if ty =? T_KALIGNOF then sizeof_like AlignofType AlignofExpr
      else if is_one_of ty unmodelled then Some Undef
      else match l with
           | t :: _ => if is_one_of ty leaf_types then ok (Some (Leaf t), r) else ok (None, l)
           | [] => ok (None, l)
           end
  end
(** src/parser/expression.c:775-878 (parse_pratt_with_lhs). *)
with parse_pratt_with_lhs (n : nat) (precedence : Z) (lhs : expr) (l : list tok) {struct n} : ex (option expr * list tok) :=
  match n with
  | O => None
  | S n' =>
      let ty := head_type l in
      let r := tl l in
      let again (e : expr) (r : list tok) := parse_pratt_with_lhs n' precedence e r in
      if precedence <? precedence_get ty true then
        let new_prec := precedence_get ty false in
        let right (r : list tok) := let! x := parse_pratt n' new_prec r in operand x in
        match op_of ty with
        | Some o => let! (e, r2) := right r in again (build o lhs e) r2
        | None =>
            if ty =? T_QUEST then
              let! (mid, r2) := parse_pratt n' 0 r in
              let! r3 := expect T_COLON r2 in
              let! x := parse_pratt n' new_prec r3 in
              let! (m, _) := operand (mid, r2) in
              let! (e, r4) := operand x in again (Conditional lhs m e) r4
            else if ty =? T_OR then let! (e, r2) := right r in again (build_or lhs e) r2
            else if ty =? T_AND then let! (e, r2) := right r in again (build_and lhs e) r2
            else if ty =? T_LBRACK then
              let! (i, r2) := parse_pratt n' 0 r in
              let! r3 := expect T_RBRACK r2 in
              let! (e, _) := operand (i, r2) in again (Indirection (BinaryOp OP_ADD lhs e)) r3
            else if ty =? T_LPAR then let! (args, r2) := parse_call_parameters n' O r in again (Call lhs args) r2
            else if ty =? T_DOT then match r with t :: r2 => again (Dot lhs (snd t)) r2 | [] => Some Fail end
            else if ty =? T_ARROW then match r with t :: r2 => again (Dot (Indirection lhs) (snd t)) r2 | [] => Some Fail end
            else if ty =? T_INC then again (AssignmentOp OP_ADD lhs (Int 1) true) r
            else if ty =? T_DEC then again (AssignmentOp OP_SUB lhs (Int 1) true) r
            else ok (Some lhs, l)
        end
      else ok (Some lhs, l)
  end
(** src/parser/expression.c:475-504 (parse_call_parameters): the loop with [pos] arguments
    in the buffer. *)
with parse_call_parameters (n : nat) (pos : nat) (l : list tok) {struct n} : ex (list expr * list tok) :=
  match n with
  | O => None
  | S n' =>
      if Nat.ltb pos MAX_ARGUMENTS then
        if head_type l =? T_RPAR then ok ([], tl l)
        else
          let! r := (if Nat.eqb pos 0 then ok l else expect T_COMMA l) in
          let! x := parse_pratt n' ASSIGNMENT_PREC r in
          let! (e, r2) := operand x in
          let! (es, r3) := parse_call_parameters n' (S pos) r2 in
          ok (e :: es, r3)
      else Some Fail
  end.
(** src/parser/expression.c:889-897 (parse_assignment_expression, parse_expression). *)
Definition parse_assignment_expression (n : nat) (l : list tok) := parse_pratt n ASSIGNMENT_PREC l.
Definition parse_expression (n : nat) (l : list tok) := parse_pratt n 0 l.
