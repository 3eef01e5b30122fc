(** Model of the path of an expression over integer variables through the
    compiler: src/parser/expression.c (conversions and folding as the tree is
    built), src/parser/expression_to_ir.c, and the code generated for the
    nodes.

    Simplifications: simple types and no bit-fields; an lvalue is a local
    variable; code is emitted in the order in which the nodes are built (the
    scheduling and memory-to-register passes are not run); each node has the
    stack location [loc n], n counting nodes. *)
From Verif Require Import Base Bytes Arch ConstConv ConstFold ArithConv X86 Codegen OpSelect CastSelect CExprSpec.

(** The tree of src/parser/expression.h:36-120 after expr_new. *)
Inductive texpr :=
| TConst (t : simple_type) (bits : Z)
| TVar (t : simple_type) (x : nat)
| TBin (op : operator_type) (a b : texpr)
| TUn (op : unary_operator_type) (a : texpr)
| TCast (t : simple_type) (a : texpr)
| TAssign (a b : texpr)
| TAssignOp (op : operator_type) (postfix : bool) (a b : texpr)
| TComma (a b : texpr).

(** src/parser/expression.c:115-189 (calculate_type). *)
Fixpoint type_of (e : texpr) : simple_type :=
  match e with
  | TConst t _ | TVar t _ | TCast t _ => t
  | TBin op a _ => operators_get_result_type op (type_of a)
  | TUn _ a | TAssign a _ | TAssignOp _ _ a _ => type_of a
  | TComma _ b => type_of b
  end.

Section Elaborate.
Variables (m : abi) (G : nat -> simple_type).

(** src/parser/expression.c:455-463 (end of expr_new) with 899-1083
    (evaluate_constant_expression): the operands have been folded before. *)
Definition fold_constant (e : texpr) : res texpr :=
  match e with
  | TCast t (TConst f bits) => let* b := simple_cast m f bits t in Ok (TConst t b)
  | TBin op (TConst ta a) (TConst tb b) =>
      let* r := operators_constant m op ta a tb b in
      Ok (match r with Some c => TConst (fst c) (snd c) | None => e end)
  | TUn op (TConst t a) =>
      let* r := operators_constant_unary m op t a in
      Ok (match r with Some c => TConst (fst c) (snd c) | None => e end)
  | TComma (TConst _ _) (TConst t b) => Ok (TConst t b)
  | _ => Ok e
  end.

(** src/parser/expression.c:1086-1094 (expression_cast). *)
Definition expression_cast (e : texpr) (t : simple_type) : res texpr :=
  if st_eqb (type_of e) t then Ok e else fold_constant (TCast t e).

(** src/parser/expression.c:97-106 (do_integer_promotion). *)
Definition promote (e : texpr) : res texpr :=
  let* t := do_integer_promotion m (type_of e) (-1) in expression_cast e t.

(** src/parser/expression.c:63-81 (convert_arithmetic). *)
Definition convert_arithmetic (a b : texpr) : res (texpr * texpr) :=
  let* t := get_arithmetic_type m (type_of a) (-1) (type_of b) (-1) in
  let* a := expression_cast a t in
  let* b := expression_cast b t in
  Ok (a, b).

(** src/parser/expression.c:274-283 (fix_binary_operator), operands promoted. *)
Definition fix_binary_operator (op : operator_type) (a b : texpr) : res (texpr * texpr) :=
  if is_shift op then let* b := expression_cast b (type_of a) in Ok (a, b)
  else convert_arithmetic a b.

(** src/parser/expression.c:347-357 (fix_assignment_operators). *)
Definition strip_casts (a : texpr) : texpr :=
  match a with
  | TCast _ (TCast _ a) => a
  | TCast _ a => a
  | _ => a
  end.
Definition fix_assignment_operators (a b : texpr) : res (texpr * texpr) :=
  let* r := convert_arithmetic a b in
  Ok (strip_casts (fst r), snd r).

(** src/parser/expression.c:404-470 (expr_new) at each node. *)
Fixpoint elaborate (e : cexpr) : res texpr :=
  match e with
  | CLit t v => Ok (TConst t (wrap 64 v))
  | CVar x => Ok (TVar (G x) x)
  | CBin op a b =>
      let* a := elaborate a in
      let* b := elaborate b in
      let* a := promote a in
      let* b := promote b in
      let* r := fix_binary_operator op a b in
      fold_constant (TBin op (fst r) (snd r))
  | CUn op a =>
      let* a := elaborate a in
      let* a := promote a in
      fold_constant (TUn op a)
  | CCast t a => let* a := elaborate a in expression_cast a t
  | CAssign x a => let* a := elaborate a in Ok (TAssign (TVar (G x) x) a)
  | CAssignOp op postfix x a =>
      let* b := elaborate a in
      let* a := promote (TVar (G x) x) in
      let* b := promote b in
      let* r := fix_assignment_operators a b in
      Ok (TAssignOp op postfix (fst r) (snd r))
  | CComma a b =>
      let* a := elaborate a in
      let* b := elaborate b in
      fold_constant (TComma a b)
  end.
End Elaborate.

(** src/codegen/codegen.c:230-233 (IR_CONSTANT) with 80-102
    (codegen_constant_to_rdi), simple types. The immediate operand is the
    constant's 64-bit pattern (constant_to_u64), here as a signed number. *)
Definition codegen_constant (bits : Z) (out : slot) : res (list instr) :=
  let imm := IMM (signed 64 bits) in
  let* body :=
    match s_size out with
    | 1 => Ok [I2 (Mov W1) imm (MEM 0 RDI)]
    | 2 => Ok [I2 (Mov W2) imm (MEM 0 RDI)]
    | 4 => Ok [I2 (Mov W4) imm (MEM 0 RDI)]
    | 8 => Ok [I2 Movabsq imm (R8 RAX); I2 (Mov W8) (R8 RAX) (MEM 0 RDI)]
    | 0 => Ok []
    | _ => Fail
    end in
  Ok (I2 (Lea W8) (MEM (- s_loc out) RBP) (R8 RDI) :: body).

(** Emission: from the number of nodes built so far, a result, the code, and
    the slots of the nodes built. *)
Definition gen (A : Type) : Type := nat -> res (A * (list instr * list slot)).
Definition ret {A} (a : A) : gen A := fun _ => Ok (a, ([], [])).
Definition gbind {A B} (x : gen A) (f : A -> gen B) : gen B := fun n =>
  let* r := x n in
  let* q := f (fst r) (n + length (snd (snd r)))%nat in
  Ok (fst q, (fst (snd r) ++ fst (snd q), snd (snd r) ++ snd (snd q))).
Notation "'do' x <- a ; b" := (gbind a (fun x => b)) (at level 200, x name, a at level 100, b at level 200).

(** src/parser/expression_to_ir.h (struct evaluated_expression), with its
    data_type; other kinds do not arise. *)
Inductive evaluated :=
| EE_POINTER (t : simple_type) (p : slot)
| EE_VARIABLE (t : simple_type) (v : slot)
| EE_CONSTANT (t : simple_type) (bits : Z).
Definition data_type (e : evaluated) : simple_type :=
  match e with EE_POINTER t _ | EE_VARIABLE t _ | EE_CONSTANT t _ => t end.
Definition with_type (t : simple_type) (e : evaluated) : evaluated :=
  match e with
  | EE_POINTER _ p => EE_POINTER t p
  | EE_VARIABLE _ v => EE_VARIABLE t v
  | EE_CONSTANT _ b => EE_CONSTANT t b
  end.

Section Evaluate.
Variables (m : abi) (ptr : nat -> slot) (loc : nat -> Z).

(** A node of [size] bytes whose code is [f]. *)
Definition node (size : Z) (f : slot -> res (list instr)) : gen slot := fun n =>
  let out := {| s_size := size; s_loc := loc n |} in
  let* code := f out in Ok (out, (code, [out])).

(** src/parser/expression_to_ir.c:103-127 (evaluated_expression_to_var);
    src/ir/ir.c: a load node is as wide as the type. *)
Definition to_var (e : evaluated) : gen slot :=
  match e with
  | EE_CONSTANT t b => node (sizeof_simple m t) (codegen_constant b)
  | EE_POINTER t p => node (sizeof_simple m t) (codegen_load p)
  | EE_VARIABLE _ v => ret v
  end.

(** src/parser/expression_to_ir.c:129-152 (variable_cast). *)
Definition variable_cast (v : slot) (from to : simple_type) : gen slot := fun n =>
  let* r := compile_cast m from to v (loc n) in
  Ok (fst r, (snd r, match snd r with [] => [] | _ => [fst r] end)).

(** src/parser/expression_to_ir.c:154-172 (evaluated_expression_cast). *)
Definition evaluated_cast (e : evaluated) (t : simple_type) : gen evaluated :=
  if st_eqb (data_type e) t then ret e
  else
    do v <- to_var e;
    do r <- variable_cast v (data_type e) t;
    ret (EE_VARIABLE t r).

(** src/parser/expression_to_ir.c:173-191 (assign_to_ee). *)
Definition assign_to (lhs : evaluated) (v : slot) : gen unit := fun _ =>
  match lhs with
  | EE_POINTER _ p => let* code := codegen_store p v in Ok (tt, (code, []))
  | _ => Fail
  end.

(** src/ir/ir.c:555-565 (ir_binary_op). *)
Definition binary_node (t : simple_type) (op : operator_type) (a b : slot) : gen slot := fun n =>
  let* code := compile_binary (KSimple t) op a b (loc n) in
  let out := {| s_size := ir_binary_op_size (s_size a); s_loc := loc n |} in
  Ok (out, (code, [out])).

(** src/parser/expression_to_ir.c:674-727 (expression_evaluate) with
    evaluate_symbol 247-254, evaluate_constant 282-306, evaluate_binary_operator
    432-445, evaluate_unary_operator 447-480 (integer types), evaluate_cast
    389-392, evaluate_assignment 482-493, evaluate_assignment_op 495-534. *)
Fixpoint evaluate (e : texpr) : gen evaluated :=
  match e with
  | TConst t b => ret (EE_CONSTANT t b)
  | TVar t x => ret (EE_POINTER t (ptr x))
  | TBin op a b =>
      do l <- evaluate a;
      do r <- evaluate b;
      do lv <- to_var l;
      do rv <- to_var r;
      do v <- binary_node (type_of a) op lv rv;
      ret (EE_VARIABLE (type_of e) v)
  | TUn op a =>
      do r <- evaluate a;
      match op with
      | UOP_PLUS => ret (with_type (type_of e) r)
      | UOP_BNOT =>
          do rv <- to_var r;
          do v <- node (s_size rv) (codegen_binary_not rv);
          ret (EE_VARIABLE (type_of e) v)
      | UOP_NEG =>
          do rv <- to_var r;
          do v <- node (s_size rv) (codegen_negate_int rv);
          ret (EE_VARIABLE (type_of e) v)
      end
  | TCast t a =>
      do r <- evaluate a;
      do c <- evaluated_cast r t;
      ret (with_type t c)
  | TAssign a b =>
      do l <- evaluate a;
      do r <- evaluate b;
      do c <- evaluated_cast r (type_of a);
      do v <- to_var c;
      do _ <- assign_to l v;
      ret (with_type (type_of e) c)
  | TAssignOp op postfix a b =>
      do l <- evaluate a;
      do r <- evaluate b;
      do old <- to_var l;
      do rv <- to_var r;
      do lv <- variable_cast old (data_type l) (type_of b);
      do v <- binary_node (type_of b) op lv rv;
      do new <- variable_cast v (type_of b) (data_type l);
      do _ <- assign_to l new;
      ret (EE_VARIABLE (type_of e) (if postfix then old else new))
  | TComma a b =>
      do _ <- evaluate a;
      do r <- evaluate b;
      ret (with_type (type_of e) r)
  end.

(** src/parser/expression_to_ir.c:729-732 (expression_to_ir). *)
Definition expression_to_ir (e : texpr) : gen slot :=
  do v <- evaluate e; to_var v.
End Evaluate.

(** The whole path: code that leaves the value of [e] in a slot. *)
Definition compile_expression (m : abi) (G : nat -> simple_type) (ptr : nat -> slot) (loc : nat -> Z) (e : cexpr)
  : res (slot * (list instr * list slot)) :=
  let* t := elaborate m G e in expression_to_ir m ptr loc t 0%nat.
