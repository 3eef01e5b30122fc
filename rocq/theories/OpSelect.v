(** Model of the choice of IR operator for a C operator and of the node that
    is built for it: src/parser/expression_to_ir.c and src/ir/ir.c. *)
From Verif Require Import Base Bytes Arch ConstFold X86 Codegen.

(** The kinds of operand type ir_from_type_and_op tells apart. *)
Inductive operand_kind := KSimple (t : simple_type) | KPointer | KOther.

(** src/parser/expression_to_ir.c:15-58 (ir_from_type_and_op). *)
Definition ir_from_type_and_op (k : operand_kind) (op : operator_type) : res ir_op :=
  match k with
  | KSimple ST_FLOAT | KSimple ST_DOUBLE | KSimple ST_LDOUBLE
  | KSimple ST_FLOAT_COMPLEX | KSimple ST_DOUBLE_COMPLEX | KSimple ST_LDOUBLE_COMPLEX =>
      match op with
      | OP_ADD => Ok IR_FLT_ADD
      | OP_SUB => Ok IR_FLT_SUB
      | OP_MUL => Ok IR_FLT_MUL
      | OP_DIV => Ok IR_FLT_DIV
      | OP_LESS => Ok IR_FLT_LESS
      | OP_GREATER => Ok IR_FLT_GREATER
      | OP_LESS_EQ => Ok IR_FLT_LESS_EQ
      | OP_GREATER_EQ => Ok IR_FLT_GREATER_EQ
      | OP_EQUAL => Ok IR_FLT_EQUAL
      | OP_NOT_EQUAL => Ok IR_FLT_NOT_EQUAL
      | _ => Fail
      end
  | _ =>
      let* sign := match k with
                   | KSimple t => is_signed t
                   | KPointer => Ok false
                   | KOther => Fail
                   end in
      Ok (match op with
          | OP_ADD => IR_ADD
          | OP_SUB => IR_SUB
          | OP_MUL => if sign : bool then IR_IMUL else IR_MUL
          | OP_DIV => if sign then IR_IDIV else IR_DIV
          | OP_MOD => if sign then IR_IMOD else IR_MOD
          | OP_BXOR => IR_BXOR
          | OP_BOR => IR_BOR
          | OP_BAND => IR_BAND
          | OP_LSHIFT => IR_LSHIFT
          | OP_RSHIFT => if sign then IR_IRSHIFT else IR_RSHIFT
          | OP_LESS => if sign then IR_ILESS else IR_LESS
          | OP_GREATER => if sign then IR_IGREATER else IR_GREATER
          | OP_LESS_EQ => if sign then IR_ILESS_EQ else IR_LESS_EQ
          | OP_GREATER_EQ => if sign then IR_IGREATER_EQ else IR_GREATER_EQ
          | OP_EQUAL => IR_EQUAL
          | OP_NOT_EQUAL => IR_NOT_EQUAL
          end)
  end.

(** src/ir/ir.c:555-565 (ir_binary_op): the operator of the node built, and
    its size, that of the left operand (ir_idiv, ir_mod, ir_imod: of the
    projection). An IR_DIV request builds an IR_IDIV node. *)
Definition ir_binary_op (type : ir_op) : ir_op :=
  match type with
  | IR_DIV => IR_IDIV
  | other => other
  end.
Definition ir_binary_op_size (lhs_size : Z) : Z := lhs_size.

(** src/parser/expression_to_ir.c:432-445 (evaluate_binary_operator) followed
    by codegen_instruction: the code for [a op b], operands in [a] and [b],
    operand type [k]; [out] is where the frame puts the result. *)
Definition compile_binary (k : operand_kind) (op : operator_type) (a b : slot) (out_loc : Z) : res (list instr) :=
  let* o := ir_from_type_and_op k op in
  codegen_binary (ir_binary_op o) a b {| s_size := ir_binary_op_size (s_size a); s_loc := out_loc |}.
