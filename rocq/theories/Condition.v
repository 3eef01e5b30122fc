(** Model of conditional branches: the value a statement tests and the code
    that tests it. *)
From Verif Require Import Base Bytes Arch X86 Codegen CastSelect.

(** src/codegen/codegen.c:566-571 (codegen_block, IR_IF): the instructions
    before the two jumps. *)
Definition codegen_test (cond : slot) : res (list instr) :=
  let* l := scalar_to_reg cond RDI in
  Ok (l ++ [I2 (Test W8) (R8 RDI) (R8 RDI)]).
(** src/codegen/codegen.c:570-571: "je" goes to the block of the false case,
    otherwise "jmp" to the other. True when the true block is entered. *)
Definition branch (s : machine) : res bool :=
  match flag s with Some f => Ok (negb (holds CE f)) | None => Undef end.

(** src/parser/function_parser.c:260-264, 304-307, 371-374 (do, while, for):
    expression_to_int (expression_to_ir.c:745-751), then ir_if_selection. The
    value of the controlling expression, of the simple type [t], is in [a];
    [loc] is the place of the converted value if a node is made for it.
    Constants, which are converted without a node, are not covered. *)
Definition loop_condition (m : abi) (t : simple_type) (a : slot) (loc : Z) : res (list instr) :=
  let* cast := compile_cast m t ST_INT a loc in
  let* test := codegen_test (fst cast) in
  Ok (snd cast ++ test).
(** src/parser/function_parser.c:198-202 (if) and
    src/parser/expression_to_ir.c:536-580 (the conditional and logical
    operators): expression_to_ir without conversion. *)
Definition if_condition (a : slot) : res (list instr) := codegen_test a.

(** Running the test from [s]: whether the true block is entered, and the
    state in which it is. *)
Definition decide (F : fpu) (code : res (list instr)) (s : machine) : res (bool * machine) :=
  let* code := code in
  let* s' := exec_all F code s in
  let* b := branch s' in
  Ok (b, s').
