(** Model of the instruction sequences of src/codegen/registers.c,
    src/codegen/binary_operators.h and src/codegen/codegen.c: each function
    returns the instructions which the C function hands to asm_ins. *)
From Verif Require Import Base Bytes X86.

(** The part of struct node the sequences use: size and
    cg_info.stack_location (src/ir/ir.h). *)
Record slot := { s_size : Z; s_loc : Z }.

(** src/codegen/registers.c:41-64 (scalar_to_reg). *)
Definition scalar_to_reg (sc : slot) (r : reg) : res (list instr) :=
  let m := MEM (- s_loc sc) RBP in
  match s_size sc with
  | 1 => Ok [I2 (Movz W1 W4) m (R4 r)]
  | 2 => Ok [I2 (Movz W2 W4) m (R4 r)]
  | 3 | 4 => Ok [I2 (Mov W4) m (R4 r)]
  | 5 | 6 | 7 | 8 => Ok [I2 (Mov W8) m (R8 r)]
  | _ => Fail
  end.

(** One round of the loops src/codegen/registers.c:69-89 and 94-114: the
    widest move that fits in the bytes left, [size - i] of them. *)
Definition chunk (left : Z) : width :=
  if 8 <=? left then W8 else if 4 <=? left then W4 else if 2 <=? left then W2 else W1.
Definition sized (w : width) (r : reg) : operand :=
  match w with W8 => R8 r | W4 => R4 r | W2 => R2 r | W1 => R1 r end.

(** [fuel] bounds the rounds; every round advances [i], so [size] rounds are
    enough. [dest i] is the memory operand of offset [i]; [msize] is the
    width stored in the previous round, 0 in the first. *)
Fixpoint store_loop (fuel : nat) (dest : Z -> operand) (r : reg) (size i msize : Z) : list instr :=
  match fuel with
  | O => []
  | S fuel =>
      if i <? size then
        let w := chunk (size - i) in
        let n := Z.of_nat (wbytes w) in
        (if msize =? 0 then [] else [I2 (Shr W8) (IMM (msize * 8)) (R8 r)])
        ++ I2 (Mov w) (sized w r) (dest i) :: store_loop fuel dest r size (i + n) n
      else []
  end.

(** src/codegen/registers.c:66-90 (reg_to_scalar). *)
Definition reg_to_scalar (r : reg) (sc : slot) : list instr :=
  store_loop (Z.to_nat (s_size sc)) (fun i => MEM (- s_loc sc + i) RBP) r (s_size sc) 0 0.

(** src/codegen/registers.c:92-115 (reg_to_memory). *)
Definition reg_to_memory (r : reg) (size : Z) : list instr :=
  store_loop (Z.to_nat size) (fun i => MEM i RSI) r size 0 0.

(** src/codegen/codegen.c:38-55 (codegen_memzero). *)
Fixpoint memzero_loop (fuel : nat) (len i : Z) : list instr :=
  match fuel with
  | O => []
  | S fuel =>
      if i <? len then
        let w := chunk (len - i) in
        I2 (Mov w) (IMM 0) (MEM i RDI) :: memzero_loop fuel len (i + Z.of_nat (wbytes w))
      else []
  end.
Definition codegen_memzero (len : Z) : list instr := memzero_loop (Z.to_nat len) len 0.

(** src/codegen/codegen.c:57-78 (codegen_memcpy): source in rdi, destination
    in rsi. *)
Fixpoint memcpy_loop (fuel : nat) (len i : Z) : list instr :=
  match fuel with
  | O => []
  | S fuel =>
      if i <? len then
        let w := chunk (len - i) in
        I2 (Mov w) (MEM i RDI) (sized w RAX) :: I2 (Mov w) (sized w RAX) (MEM i RSI)
        :: memcpy_loop fuel len (i + Z.of_nat (wbytes w))
      else []
  end.
Definition codegen_memcpy (len : Z) : list instr := memcpy_loop (Z.to_nat len) len 0.

(** src/ir/ir.h:14-47: the operators that have an entry in
    codegen_asm_table. *)
Inductive ir_op :=
| IR_ADD | IR_SUB | IR_MUL | IR_IMUL | IR_DIV | IR_IDIV | IR_MOD | IR_IMOD
| IR_LSHIFT | IR_RSHIFT | IR_IRSHIFT | IR_BXOR | IR_BOR | IR_BAND
| IR_LESS | IR_ILESS | IR_GREATER | IR_IGREATER | IR_LESS_EQ | IR_ILESS_EQ
| IR_GREATER_EQ | IR_IGREATER_EQ | IR_EQUAL | IR_NOT_EQUAL
| IR_FLT_ADD | IR_FLT_SUB | IR_FLT_MUL | IR_FLT_DIV
| IR_FLT_LESS | IR_FLT_GREATER | IR_FLT_LESS_EQ | IR_FLT_GREATER_EQ | IR_FLT_EQUAL | IR_FLT_NOT_EQUAL.

(** src/codegen/binary_operators.h:7-9, 31-33 (BINARY_INS_32, BINARY_INS_64). *)
Definition binary_ins (m : width -> mnemonic) (w : width) : list instr :=
  [I2 (m w) (sized w RCX) (sized w RAX)].
(** src/codegen/binary_operators.h:11-15, 35-39 (BINARY_COMP_32, BINARY_COMP_64). *)
Definition binary_comp (c : cond) (w : width) : list instr :=
  [I2 (Cmp w) (sized w RCX) (sized w RAX);
   I1 (Set_ c) (R1 RAX);
   I2 (Movz W1 W4) (R1 RAX) (R4 RAX)].
(** src/codegen/binary_operators.h:17-22, 41-46 (BINARY_INS_FLT_32, BINARY_INS_FLT_64). *)
Definition binary_ins_flt (o : fop) (w : width) : list instr :=
  match w with
  | W8 => [I2 (Mov W8) (R8 RAX) (XMM 0); I2 (Mov W8) (R8 RCX) (XMM 1);
           I2 (Farith W8 o) (XMM 1) (XMM 0); I2 (Mov W8) (XMM 0) (R8 RAX)]
  | _ => [I2 Movd (R4 RAX) (XMM 0); I2 Movd (R4 RCX) (XMM 1);
          I2 (Farith W4 o) (XMM 1) (XMM 0); I2 Movd (XMM 0) (R4 RAX)]
  end.
(** src/codegen/binary_operators.h:24-30, 48-54 (BINARY_COMP_FLT_32, BINARY_COMP_FLT_64). *)
Definition binary_comp_flt (c : cond) (w : width) : list instr :=
  match w with
  | W8 => [I2 (Mov W8) (R8 RAX) (XMM 0); I2 (Mov W8) (R8 RCX) (XMM 1);
           I2 (Ucomis W8) (XMM 1) (XMM 0); I1 (Set_ c) (R1 RAX);
           I2 (Movz W1 W4) (R1 RAX) (R4 RAX)]
  | _ => [I2 Movd (R4 RAX) (XMM 0); I2 Movd (R4 RCX) (XMM 1);
          I2 (Xor W8) (R8 RAX) (R8 RAX);
          I2 (Ucomis W4) (XMM 1) (XMM 0); I1 (Set_ c) (R1 RAX)]
  end.

(** src/codegen/binary_operators.h:61-121 (codegen_asm_table), the entry for
    32-bit ([W4]) and 64-bit ([W8]) operands. *)
Definition codegen_asm_table (o : ir_op) (w : width) : list instr :=
  match o with
  | IR_ADD => binary_ins Add w
  | IR_SUB => binary_ins Sub w
  | IR_IMUL => binary_ins Imul w
  | IR_MUL => binary_ins Imul w
  | IR_BXOR => binary_ins Xor w
  | IR_BOR => binary_ins Or w
  | IR_BAND => binary_ins And w
  | IR_IDIV => [I0 (match w with W8 => Cqto | _ => Cltd end); I1 (Idiv w) (sized w RCX)]
  | IR_IMOD => [I0 (match w with W8 => Cqto | _ => Cltd end); I1 (Idiv w) (sized w RCX);
                I2 (Mov w) (sized w RDX) (sized w RAX)]
  | IR_LSHIFT => [I2 (Sal w) (R1 RCX) (sized w RAX)]
  | IR_IRSHIFT => [I2 (Sar w) (R1 RCX) (sized w RAX)]
  | IR_RSHIFT => [I2 (Shr w) (R1 RCX) (sized w RAX)]
  | IR_IGREATER => binary_comp CG w
  | IR_ILESS_EQ => binary_comp CLE w
  | IR_ILESS => binary_comp CL w
  | IR_IGREATER_EQ => binary_comp CGE w
  | IR_EQUAL => binary_comp CE w
  | IR_NOT_EQUAL => binary_comp CNE w
  | IR_LESS => binary_comp CB w
  | IR_GREATER => binary_comp CA w
  | IR_LESS_EQ => binary_comp CBE w
  | IR_GREATER_EQ => binary_comp CNB w
  | IR_DIV => [I2 (Xor W8) (R8 RDX) (R8 RDX); I1 (Div w) (sized w RCX)]
  | IR_MOD => [I2 (Xor W8) (R8 RDX) (R8 RDX); I1 (Div w) (sized w RCX);
               I2 (Mov w) (sized w RDX) (sized w RAX)]
  | IR_FLT_ADD => binary_ins_flt FADD w
  | IR_FLT_SUB => binary_ins_flt FSUB w
  | IR_FLT_MUL => binary_ins_flt FMUL w
  | IR_FLT_DIV => binary_ins_flt FDIV w
  | IR_FLT_LESS => binary_comp_flt CB w
  | IR_FLT_GREATER => binary_comp_flt CA w
  | IR_FLT_LESS_EQ => binary_comp_flt CBE w
  | IR_FLT_GREATER_EQ => binary_comp_flt CNB w
  | IR_FLT_EQUAL => binary_comp_flt CE w
  | IR_FLT_NOT_EQUAL => binary_comp_flt CNE w
  end.

(** src/codegen/codegen.c:201-227 (codegen_instruction, operators of the
    table). [out] is the node itself, or for a division its projection 0. *)
Definition codegen_binary (o : ir_op) (a b out : slot) : res (list instr) :=
  let* la := scalar_to_reg a RAX in
  let* lb := scalar_to_reg b RCX in
  if (s_size a =? 4) || (s_size a =? 8) then
    let w := if s_size a =? 8 then W8 else W4 in
    Ok (la ++ lb ++ codegen_asm_table o w ++ reg_to_scalar RAX out)
  else Fail.

(** src/codegen/codegen.c:235-245 (IR_BINARY_NOT, IR_NEGATE_INT). *)
Definition codegen_binary_not (a out : slot) : res (list instr) :=
  let* la := scalar_to_reg a RAX in
  Ok (la ++ [I1 (Not W8) (R8 RAX)] ++ reg_to_scalar RAX out).
Definition codegen_negate_int (a out : slot) : res (list instr) :=
  let* la := scalar_to_reg a RAX in
  Ok (la ++ [I1 (Neg W8) (R8 RAX)] ++ reg_to_scalar RAX out).

(** src/codegen/codegen.c:247-257 (IR_NEGATE_FLOAT). *)
Definition codegen_negate_float (a out : slot) : res (list instr) :=
  let* la := scalar_to_reg a RAX in
  let* neg := match s_size out with
              | 4 => Ok [I2 (Lea W4) (MEM (-2147483648) RAX) (R4 RAX)]
              | 8 => Ok [I2 (Btc W8) (IMM 63) (R8 RAX)]
              | _ => Fail
              end in
  Ok (la ++ neg ++ reg_to_scalar RAX out).

(** src/codegen/codegen.c:309-312 (IR_INT_CAST_ZERO). *)
Definition codegen_int_cast_zero (a out : slot) : res (list instr) :=
  let* la := scalar_to_reg a RAX in Ok (la ++ reg_to_scalar RAX out).

(** src/codegen/codegen.c:314-328 (IR_INT_CAST_SIGN). *)
Definition codegen_int_cast_sign (a out : slot) : res (list instr) :=
  let* la := scalar_to_reg a RAX in
  let ext :=
    if s_size a <? s_size out then
      match s_size a with
      | 1 => [I2 (Movs W1 W8) (R1 RAX) (R8 RAX)]
      | 2 => [I2 (Movs W2 W8) (R2 RAX) (R8 RAX)]
      | 4 => [I2 (Movs W4 W8) (R4 RAX) (R8 RAX)]
      | _ => []
      end
    else [] in
  Ok (la ++ ext ++ reg_to_scalar RAX out).

(** src/codegen/codegen.c:330-337 (IR_BOOL_CAST). *)
Definition codegen_bool_cast (a out : slot) : res (list instr) :=
  let* la := scalar_to_reg a RAX in
  Ok (la ++ [I2 (Test W8) (R8 RAX) (R8 RAX); I1 (Set_ CNE) (R1 RAX)] ++ reg_to_scalar RAX out).

(** src/codegen/codegen.c:339-357 (IR_FLOAT_CAST). *)
Definition codegen_float_cast (a out : slot) : res (list instr) :=
  let* la := scalar_to_reg a RAX in
  let* conv :=
    match s_size a, s_size out with
    | 4, 8 => Ok [I2 Movd (R4 RAX) (XMM 0); I2 Cvtss2sd (XMM 0) (XMM 0); I2 (Mov W8) (XMM 0) (R8 RAX)]
    | 8, 4 => Ok [I2 (Mov W8) (R8 RAX) (XMM 0); I2 Cvtsd2ss (XMM 0) (XMM 0); I2 Movd (XMM 0) (R4 RAX)]
    | x, y => if x =? y then Ok [] else Fail
    end in
  Ok (la ++ conv ++ reg_to_scalar RAX out).

(** src/codegen/codegen.c:371-379, 393-401: the common tail of the two
    integer to floating conversions. *)
Definition to_float (size : Z) : res (list instr) :=
  match size with
  | 4 => Ok [I2 (Cvtsi2 W4) (R8 RAX) (XMM 0); I2 Movd (XMM 0) (R4 RAX)]
  | 8 => Ok [I2 (Cvtsi2 W8) (R8 RAX) (XMM 0); I2 (Mov W8) (XMM 0) (R8 RAX)]
  | _ => Fail
  end.

(** src/codegen/codegen.c:359-381 (IR_INT_FLOAT_CAST). *)
Definition codegen_int_float_cast (a out : slot) : res (list instr) :=
  let* la := scalar_to_reg a RAX in
  let ext := match s_size a with
             | 1 => [I2 (Movs W1 W4) (R1 RAX) (R4 RAX)]
             | 2 => [I2 (Movs W2 W4) (R2 RAX) (R4 RAX)]
             | 4 => [I2 (Movs W4 W8) (R4 RAX) (R8 RAX)]
             | _ => []
             end in
  let* conv := to_float (s_size out) in
  Ok (la ++ ext ++ conv ++ reg_to_scalar RAX out).

(** src/codegen/codegen.c:383-403 (IR_UINT_FLOAT_CAST). *)
Definition codegen_uint_float_cast (a out : slot) : res (list instr) :=
  let* la := scalar_to_reg a RAX in
  let ext := match s_size a with
             | 1 => [I2 (Movz W1 W4) (R1 RAX) (R4 RAX)]
             | 2 => [I2 (Movz W2 W4) (R2 RAX) (R4 RAX)]
             | _ => []
             end in
  let* conv := to_float (s_size out) in
  Ok (la ++ ext ++ conv ++ reg_to_scalar RAX out).

(** src/codegen/codegen.c:405-418 (IR_FLOAT_INT_CAST). *)
Definition codegen_float_int_cast (a out : slot) : res (list instr) :=
  let* la := scalar_to_reg a RAX in
  let conv := match s_size a with
              | 4 => [I2 Movd (R4 RAX) (XMM 0); I2 (Cvtt2si W4) (XMM 0) (R8 RAX)]
              | 8 => [I2 Movd (R8 RAX) (XMM 0); I2 (Cvtt2si W8) (XMM 0) (R8 RAX)]
              | _ => []
              end in
  Ok (la ++ conv ++ reg_to_scalar RAX out).

(** src/codegen/codegen.c:269-275 (IR_LOAD): [p] holds the address. *)
Definition codegen_load (p out : slot) : res (list instr) :=
  let* lp := scalar_to_reg p RDI in
  Ok (lp ++ [I2 (Lea W8) (MEM (- s_loc out) RBP) (R8 RSI)] ++ codegen_memcpy (s_size out)).

(** src/codegen/codegen.c:294-299 (IR_STORE). *)
Definition codegen_store (p v : slot) : res (list instr) :=
  let* lp := scalar_to_reg p RSI in
  Ok (lp ++ [I2 (Lea W8) (MEM (- s_loc v) RBP) (R8 RDI)] ++ codegen_memcpy (s_size v)).

(** src/codegen/codegen.c:428-431 (IR_SET_ZERO_PTR). *)
Definition codegen_set_zero_ptr (p : slot) (size : Z) : res (list instr) :=
  let* lp := scalar_to_reg p RDI in Ok (lp ++ codegen_memzero size).

(** src/codegen/codegen.c:468-473 (IR_COPY_MEMORY): to, from. *)
Definition codegen_copy_memory (p q : slot) (size : Z) : res (list instr) :=
  let* lp := scalar_to_reg p RSI in
  let* lq := scalar_to_reg q RDI in
  Ok (lp ++ lq ++ codegen_memcpy size).

(** src/codegen/codegen.c:462-466 (IR_ALLOC): [loc] is
    alloc.stack_location, [out] receives the address. *)
Definition codegen_alloc (loc : Z) (out : slot) : list instr :=
  I2 (Lea W8) (MEM (- loc) RBP) (R8 RSI) :: reg_to_scalar RSI out.
