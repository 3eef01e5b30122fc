(** The instruction encoder: the table of encodings, the choice of one and
    the bytes written (src/assembler/encode.c, src/assembler/instructions.h,
    src/assembler/assembler.c). *)
From Coq Require Import String.
From Verif Require Import Base X86 Object.
Local Open Scope Z_scope.
Local Open Scope list_scope.

(** src/assembler/assembler.h:31-63 (struct operand). REG_NONE is [None]; a
    label is the text printed for it and label -1 is [None]; offsets are
    uint64_t and are read modulo 2^64. *)
Inductive aop :=
| AEmpty
| AReg (r : reg) (upper_byte : bool) (size : Z)
| ASse (x : Z)
| AStar (r : reg) (upper_byte : bool) (size : Z)
| AImm (label : option (list Z)) (offset : Z)
| AAbs (label : option (list Z)) (offset : Z)
| AMem (index base : option reg) (scale offset : Z).

(** src/assembler/instructions.h:6-23 (struct operand_encoding; OE_REL8 and
    OE_REL16 are in no row of the table). *)
Inductive oe := OE_EMPTY | OE_NONE | OE_MODRM_REG | OE_MODRM_RM | OE_IMM8 | OE_IMM16 | OE_IMM32 | OE_IMM64 | OE_REL32 | OE_OPEXT.
(** src/assembler/instructions.h:25-54 (struct operand_accepts; ACC_REL8 and
    ACC_REL16 are in no row of the table). *)
Inductive acc :=
| ACC_EMPTY | ACC_RAX (size : Z) | ACC_RCX (size : Z) | ACC_REG (size : Z) | ACC_REG_STAR (size : Z)
| ACC_IMM8_S | ACC_IMM16_S | ACC_IMM32_S | ACC_IMM8_U | ACC_IMM16_U | ACC_IMM32_U | ACC_IMM64 | ACC_REL32
| ACC_MODRM (size : Z) | ACC_XMM | ACC_XMM_M32 | ACC_XMM_M64 | ACC_XMM_M128.
(** src/assembler/instructions.h:76-86 (struct encoding). op3 is left out: no
    row sets it and no row has op2 = 0x38 or 0x3a. Both arrays hold only
    their leading entries; the others are zero, that is OE_EMPTY and ACC_EMPTY. *)
Record encoding := enc {
  e_mnemonic : string; e_opcode : Z; e_op2 : Z; e_rex : bool; e_rexw : bool; e_ext : Z; e_slash_r : bool;
  e_66 : bool; e_f2 : bool; e_f3 : bool; e_encoding : list (oe * bool); e_accepts : list acc }.

(** src/assembler/instructions.h:94-273 (encodings), row by row in order. *)
Definition encodings : list encoding :=
  [
   enc "addq" 5 0 true true 0 false false false false [(OE_NONE, false); (OE_IMM32, false)] [ACC_RAX 8; ACC_IMM32_S];
   enc "addq" 4 0 false false 0 false false false false [(OE_NONE, false); (OE_IMM8, false)] [ACC_REG 4; ACC_IMM8_S];
   enc "addq" 131 0 true true 0 false false false false [(OE_MODRM_RM, false); (OE_IMM8, false)] [ACC_REG 8; ACC_IMM8_S];
   enc "addq" 129 0 false true 0 false false false false [(OE_MODRM_RM, false); (OE_IMM32, false)] [ACC_REG 8; ACC_IMM32_S];
   enc "addl" 1 0 false false 0 true false false false [(OE_MODRM_RM, false); (OE_MODRM_REG, false)] [ACC_REG 4; ACC_REG 4];
   enc "addq" 1 0 true true 0 true false false false [(OE_MODRM_RM, false); (OE_MODRM_REG, false)] [ACC_REG 8; ACC_REG 8];
   enc "addq" 3 0 true true 0 true false false false [(OE_MODRM_REG, false); (OE_MODRM_RM, false)] [ACC_REG 8; ACC_MODRM 8];
   enc "subq" 131 0 true true 5 false false false false [(OE_MODRM_RM, false); (OE_IMM8, false)] [ACC_MODRM 8; ACC_IMM8_S];
   enc "subq" 129 0 true true 5 false false false false [(OE_MODRM_RM, false); (OE_IMM32, false)] [ACC_MODRM 8; ACC_IMM32_S];
   enc "subq" 41 0 true true 0 true false false false [(OE_MODRM_RM, false); (OE_MODRM_REG, false)] [ACC_MODRM 8; ACC_REG 8];
   enc "subl" 41 0 false false 0 true false false false [(OE_MODRM_RM, false); (OE_MODRM_REG, false)] [ACC_MODRM 4; ACC_REG 4];
   enc "andl" 33 0 false false 0 true false false false [(OE_MODRM_RM, false); (OE_MODRM_REG, false)] [ACC_REG 4; ACC_REG 4];
   enc "andq" 33 0 true true 0 true false false false [(OE_MODRM_RM, false); (OE_MODRM_REG, false)] [ACC_REG 8; ACC_REG 8];
   enc "andq" 131 0 true true 4 false false false false [(OE_MODRM_RM, false); (OE_IMM8, false)] [ACC_REG 8; ACC_IMM8_S];
   enc "andq" 129 0 true true 4 false false false false [(OE_MODRM_RM, false); (OE_IMM32, false)] [ACC_REG 8; ACC_IMM32_S];
   enc "orl" 9 0 false false 0 true false false false [(OE_MODRM_RM, false); (OE_MODRM_REG, false)] [ACC_REG 4; ACC_REG 4];
   enc "orq" 9 0 false true 0 true false false false [(OE_MODRM_RM, false); (OE_MODRM_REG, false)] [ACC_REG 8; ACC_REG 8];
   enc "xor" 49 0 true true 0 true false false false [(OE_MODRM_RM, false); (OE_MODRM_REG, false)] [ACC_REG 8; ACC_REG 8];
   enc "xorq" 49 0 true true 0 true false false false [(OE_MODRM_RM, false); (OE_MODRM_REG, false)] [ACC_REG 8; ACC_REG 8];
   enc "xorl" 49 0 false false 0 true false false false [(OE_MODRM_RM, false); (OE_MODRM_REG, false)] [ACC_REG 4; ACC_REG 4];
   enc "divl" 247 0 false false 6 false false false false [(OE_MODRM_RM, false)] [ACC_MODRM 4];
   enc "divq" 247 0 false true 6 false false false false [(OE_MODRM_RM, false)] [ACC_MODRM 8];
   enc "idivl" 247 0 false false 7 false false false false [(OE_MODRM_RM, false)] [ACC_MODRM 4];
   enc "idivq" 247 0 false true 7 false false false false [(OE_MODRM_RM, false)] [ACC_MODRM 8];
   enc "imulq" 105 0 true true 0 true false false false [(OE_MODRM_RM, true); (OE_MODRM_REG, false); (OE_IMM32, false)] [ACC_REG 8; ACC_IMM32_S];
   enc "imulq" 107 0 true true 0 true false false false [(OE_MODRM_RM, true); (OE_MODRM_REG, false); (OE_IMM8, false)] [ACC_REG 8; ACC_IMM8_S];
   enc "imulq" 15 175 true true 0 true false false false [(OE_MODRM_REG, false); (OE_MODRM_RM, false)] [ACC_REG 8; ACC_MODRM 8];
   enc "imull" 15 175 false false 0 true false false false [(OE_MODRM_REG, false); (OE_MODRM_RM, false)] [ACC_REG 4; ACC_MODRM 4];
   enc "callq" 255 0 false false 2 false false false false [(OE_MODRM_RM, false)] [ACC_REG_STAR 8];
   enc "cltd" 153 0 false false 0 false false false false [] [];
   enc "cqto" 153 0 false true 0 false false false false [] [];
   enc "leave" 201 0 false false 0 false false false false [] [];
   enc "ret" 195 0 false false 0 false false false false [] [];
   enc "ud2" 15 11 false false 0 false false false false [] [];
   enc "jmp" 233 0 false false 0 false false false false [(OE_REL32, false)] [ACC_REL32];
   enc "jnae" 15 130 false false 0 false false false false [(OE_REL32, false)] [ACC_REL32];
   enc "jnb" 15 131 false false 0 false false false false [(OE_REL32, false)] [ACC_REL32];
   enc "je" 15 132 false false 0 false false false false [(OE_REL32, false)] [ACC_REL32];
   enc "jne" 15 133 false false 0 false false false false [(OE_REL32, false)] [ACC_REL32];
   enc "jna" 15 134 false false 0 false false false false [(OE_REL32, false)] [ACC_REL32];
   enc "ja" 15 135 false false 0 false false false false [(OE_REL32, false)] [ACC_REL32];
   enc "cmpl" 57 0 false false 0 true false false false [(OE_MODRM_RM, false); (OE_MODRM_REG, false)] [ACC_REG 4; ACC_REG 4];
   enc "cmpq" 57 0 true true 0 true false false false [(OE_MODRM_RM, false); (OE_MODRM_REG, false)] [ACC_MODRM 8; ACC_REG 8];
   enc "cmpl" 131 0 false false 7 false false false false [(OE_MODRM_RM, false); (OE_IMM8, false)] [ACC_REG 4; ACC_IMM8_S];
   enc "cmpq" 131 0 true true 7 false false false false [(OE_MODRM_RM, false); (OE_IMM8, false)] [ACC_REG 8; ACC_IMM8_S];
   enc "cmpl" 129 0 false false 7 false false false false [(OE_MODRM_RM, false); (OE_IMM32, false)] [ACC_REG 4; ACC_IMM32_U];
   enc "cmpq" 129 0 true true 7 false false false false [(OE_MODRM_RM, false); (OE_IMM32, false)] [ACC_REG 8; ACC_IMM32_S];
   enc "movl" 184 0 false false 0 false false false false [(OE_OPEXT, false); (OE_IMM32, false)] [ACC_REG 4; ACC_IMM32_U];
   enc "movl" 199 0 false false 0 false false false false [(OE_MODRM_RM, false); (OE_IMM32, false)] [ACC_MODRM 4; ACC_IMM32_U];
   enc "movl" 199 0 false false 0 false false false false [(OE_MODRM_RM, false); (OE_IMM32, false)] [ACC_MODRM 4; ACC_IMM32_S];
   enc "movl" 137 0 false false 0 true false false false [(OE_MODRM_RM, false); (OE_MODRM_REG, false)] [ACC_MODRM 4; ACC_REG 4];
   enc "movl" 137 0 false false 0 true false false false [(OE_MODRM_RM, false); (OE_MODRM_REG, false)] [ACC_MODRM 4; ACC_REG 4];
   enc "movw" 199 0 false false 0 false true false false [(OE_MODRM_RM, false); (OE_IMM16, false)] [ACC_MODRM 2; ACC_IMM16_U];
   enc "movw" 199 0 false false 0 false true false false [(OE_MODRM_RM, false); (OE_IMM16, false)] [ACC_MODRM 2; ACC_IMM16_S];
   enc "movw" 137 0 false false 0 true true false false [(OE_MODRM_RM, false); (OE_MODRM_REG, false)] [ACC_MODRM 2; ACC_REG 2];
   enc "movw" 139 0 false false 0 true true false false [(OE_MODRM_REG, false); (OE_MODRM_RM, false)] [ACC_REG 2; ACC_MODRM 2];
   enc "movq" 137 0 true true 0 true false false false [(OE_MODRM_RM, false); (OE_MODRM_REG, false)] [ACC_MODRM 8; ACC_REG 8];
   enc "movq" 139 0 true true 0 true false false false [(OE_MODRM_REG, false); (OE_MODRM_RM, false)] [ACC_REG 8; ACC_MODRM 8];
   enc "movb" 138 0 false false 0 true false false false [(OE_MODRM_REG, false); (OE_MODRM_RM, false)] [ACC_REG 1; ACC_MODRM 1];
   enc "movb" 136 0 false false 0 true false false false [(OE_MODRM_RM, false); (OE_MODRM_REG, false)] [ACC_MODRM 1; ACC_REG 1];
   enc "movb" 198 0 false false 0 false false false false [(OE_MODRM_RM, false); (OE_IMM8, false)] [ACC_MODRM 1; ACC_IMM8_S];
   enc "movb" 198 0 false false 0 false false false false [(OE_MODRM_RM, false); (OE_IMM8, false)] [ACC_MODRM 1; ACC_IMM8_U];
   enc "movl" 139 0 false false 0 true false false false [(OE_MODRM_REG, false); (OE_MODRM_RM, false)] [ACC_REG 4; ACC_MODRM 4];
   enc "movq" 199 0 true true 0 true false false false [(OE_MODRM_RM, false); (OE_IMM32, false)] [ACC_MODRM 8; ACC_IMM32_S];
   enc "movabsq" 184 0 true true 0 false false false false [(OE_OPEXT, false); (OE_IMM64, false)] [ACC_REG 8; ACC_IMM64];
   enc "leaq" 141 0 true true 0 true false false false [(OE_MODRM_REG, false); (OE_MODRM_RM, false)] [ACC_REG 8; ACC_MODRM 8];
   enc "leal" 141 0 false false 0 true false false false [(OE_MODRM_REG, false); (OE_MODRM_RM, false)] [ACC_REG 4; ACC_MODRM 4];
   enc "movswl" 15 191 false false 0 true false false false [(OE_MODRM_REG, false); (OE_MODRM_RM, false)] [ACC_REG 4; ACC_MODRM 2];
   enc "movswq" 15 191 false true 0 true false false false [(OE_MODRM_REG, false); (OE_MODRM_RM, false)] [ACC_REG 8; ACC_MODRM 2];
   enc "movslq" 99 0 true true 0 true false false false [(OE_MODRM_REG, false); (OE_MODRM_RM, false)] [ACC_REG 8; ACC_MODRM 4];
   enc "movsbl" 15 190 false false 0 true false false false [(OE_MODRM_REG, false); (OE_MODRM_RM, false)] [ACC_REG 4; ACC_MODRM 1];
   enc "movsbw" 15 190 false false 0 true true false false [(OE_MODRM_REG, false); (OE_MODRM_RM, false)] [ACC_REG 2; ACC_MODRM 1];
   enc "movsbq" 15 190 false true 0 true false false false [(OE_MODRM_REG, false); (OE_MODRM_RM, false)] [ACC_REG 8; ACC_MODRM 1];
   enc "movzwl" 15 183 false false 0 true false false false [(OE_MODRM_REG, false); (OE_MODRM_RM, false)] [ACC_REG 4; ACC_MODRM 2];
   enc "movzbl" 15 182 false false 0 true false false false [(OE_MODRM_REG, false); (OE_MODRM_RM, false)] [ACC_REG 4; ACC_MODRM 1];
   enc "pushq" 80 0 false false 0 false false false false [(OE_OPEXT, false)] [ACC_REG 8];
   enc "popq" 88 0 false false 0 false false false false [(OE_OPEXT, false)] [ACC_REG 8];
   enc "notl" 247 0 false false 2 false false false false [(OE_MODRM_RM, false)] [ACC_MODRM 4];
   enc "notq" 247 0 true true 2 false false false false [(OE_MODRM_RM, false)] [ACC_MODRM 8];
   enc "negl" 247 0 false false 3 false false false false [(OE_MODRM_RM, false)] [ACC_MODRM 4];
   enc "negq" 247 0 false true 3 false false false false [(OE_MODRM_RM, false)] [ACC_MODRM 8];
   enc "seta" 15 151 false false 0 false false false false [(OE_MODRM_RM, false)] [ACC_MODRM 1];
   enc "setb" 15 146 false false 0 false false false false [(OE_MODRM_RM, false)] [ACC_MODRM 1];
   enc "setbe" 15 150 false false 0 false false false false [(OE_MODRM_RM, false)] [ACC_MODRM 1];
   enc "sete" 15 148 false false 0 false false false false [(OE_MODRM_RM, false)] [ACC_MODRM 1];
   enc "setg" 15 159 false false 0 false false false false [(OE_MODRM_RM, false)] [ACC_MODRM 1];
   enc "setge" 15 157 false false 0 false false false false [(OE_MODRM_RM, false)] [ACC_MODRM 1];
   enc "setgl" 15 156 false false 0 false false false false [(OE_MODRM_RM, false)] [ACC_MODRM 1];
   enc "setl" 15 156 false false 0 false false false false [(OE_MODRM_RM, false)] [ACC_MODRM 1];
   enc "setle" 15 158 false false 0 false false false false [(OE_MODRM_RM, false)] [ACC_MODRM 1];
   enc "setnb" 15 147 false false 0 false false false false [(OE_MODRM_RM, false)] [ACC_MODRM 1];
   enc "setne" 15 149 false false 0 false false false false [(OE_MODRM_RM, false)] [ACC_MODRM 1];
   enc "salq" 211 0 true true 4 false false false false [(OE_MODRM_RM, false); (OE_NONE, false)] [ACC_MODRM 8; ACC_RCX 1];
   enc "sall" 211 0 false false 4 false false false false [(OE_MODRM_RM, false); (OE_NONE, false)] [ACC_MODRM 4; ACC_RCX 1];
   enc "sarl" 211 0 false false 7 false false false false [(OE_MODRM_RM, false); (OE_NONE, false)] [ACC_MODRM 4; ACC_RCX 1];
   enc "sarq" 211 0 false true 7 false false false false [(OE_MODRM_RM, false); (OE_NONE, false)] [ACC_MODRM 8; ACC_RCX 1];
   enc "shrl" 211 0 false false 5 false false false false [(OE_MODRM_RM, false); (OE_NONE, false)] [ACC_MODRM 4; ACC_RCX 1];
   enc "shrq" 211 0 false true 5 false false false false [(OE_MODRM_RM, false); (OE_NONE, false)] [ACC_MODRM 8; ACC_RCX 1];
   enc "shrq" 193 0 false true 5 false false false false [(OE_MODRM_RM, false); (OE_IMM8, false)] [ACC_REG 8; ACC_IMM8_U];
   enc "testb" 132 0 false false 0 true false false false [(OE_MODRM_RM, false); (OE_MODRM_REG, false)] [ACC_MODRM 1; ACC_REG 1];
   enc "testl" 133 0 false false 0 true false false false [(OE_MODRM_RM, false); (OE_MODRM_REG, false)] [ACC_MODRM 4; ACC_REG 4];
   enc "testw" 133 0 false false 0 true true false false [(OE_MODRM_RM, false); (OE_MODRM_REG, false)] [ACC_MODRM 2; ACC_REG 2];
   enc "testq" 133 0 false true 0 true false false false [(OE_MODRM_RM, false); (OE_MODRM_REG, false)] [ACC_MODRM 8; ACC_REG 8];
   enc "movsd" 15 17 false false 0 true false true false [(OE_MODRM_RM, false); (OE_MODRM_REG, false)] [ACC_XMM_M64; ACC_XMM];
   enc "movsd" 15 16 false false 0 true false true false [(OE_MODRM_REG, false); (OE_MODRM_RM, false)] [ACC_XMM; ACC_XMM_M64];
   enc "movss" 15 17 false false 0 true false false true [(OE_MODRM_RM, false); (OE_MODRM_REG, false)] [ACC_XMM_M32; ACC_XMM];
   enc "movd" 15 126 false false 0 true true false false [(OE_MODRM_RM, false); (OE_MODRM_REG, false)] [ACC_MODRM 4; ACC_XMM];
   enc "movd" 15 110 false false 0 true true false false [(OE_MODRM_REG, false); (OE_MODRM_RM, false)] [ACC_XMM; ACC_MODRM 4];
   enc "movd" 15 126 false true 0 true true false false [(OE_MODRM_RM, false); (OE_MODRM_REG, false)] [ACC_MODRM 8; ACC_XMM];
   enc "movd" 15 110 false true 0 true true false false [(OE_MODRM_REG, false); (OE_MODRM_RM, false)] [ACC_XMM; ACC_MODRM 8];
   enc "movq" 15 126 false true 0 true true false false [(OE_MODRM_RM, false); (OE_MODRM_REG, false)] [ACC_MODRM 8; ACC_XMM];
   enc "movq" 15 110 false true 0 true true false false [(OE_MODRM_REG, false); (OE_MODRM_RM, false)] [ACC_XMM; ACC_MODRM 8];
   enc "cvtsi2ss" 15 42 false true 0 true false false true [(OE_MODRM_REG, false); (OE_MODRM_RM, false)] [ACC_XMM; ACC_MODRM 8];
   enc "cvtsi2sd" 15 42 false true 0 true false true false [(OE_MODRM_REG, false); (OE_MODRM_RM, false)] [ACC_XMM; ACC_MODRM 8];
   enc "cvtsd2ss" 15 90 false false 0 true false true false [(OE_MODRM_REG, false); (OE_MODRM_RM, false)] [ACC_XMM; ACC_XMM_M64];
   enc "cvtss2sd" 15 90 false false 0 true false false true [(OE_MODRM_REG, false); (OE_MODRM_RM, false)] [ACC_XMM; ACC_XMM_M32];
   enc "cvttss2si" 15 44 false true 0 true false false true [(OE_MODRM_REG, false); (OE_MODRM_RM, false)] [ACC_REG 8; ACC_XMM_M32];
   enc "cvttsd2si" 15 44 false true 0 true false true false [(OE_MODRM_REG, false); (OE_MODRM_RM, false)] [ACC_REG 8; ACC_XMM_M64];
   enc "xorps" 15 87 false false 0 true false false false [(OE_MODRM_REG, false); (OE_MODRM_RM, false)] [ACC_XMM; ACC_XMM_M128];
   enc "subss" 15 92 false false 0 true false false true [(OE_MODRM_REG, false); (OE_MODRM_RM, false)] [ACC_XMM; ACC_XMM_M32];
   enc "subsd" 15 92 false false 0 true false true false [(OE_MODRM_REG, false); (OE_MODRM_RM, false)] [ACC_XMM; ACC_XMM_M64];
   enc "addss" 15 88 false false 0 true false false true [(OE_MODRM_REG, false); (OE_MODRM_RM, false)] [ACC_XMM; ACC_XMM_M32];
   enc "addsd" 15 88 false false 0 true false true false [(OE_MODRM_REG, false); (OE_MODRM_RM, false)] [ACC_XMM; ACC_XMM_M64];
   enc "mulss" 15 89 false false 0 true false false true [(OE_MODRM_REG, false); (OE_MODRM_RM, false)] [ACC_XMM; ACC_XMM_M32];
   enc "mulsd" 15 89 false false 0 true false true false [(OE_MODRM_REG, false); (OE_MODRM_RM, false)] [ACC_XMM; ACC_XMM_M64];
   enc "divss" 15 94 false false 0 true false false true [(OE_MODRM_REG, false); (OE_MODRM_RM, false)] [ACC_XMM; ACC_XMM_M32];
   enc "divsd" 15 94 false false 0 true false true false [(OE_MODRM_REG, false); (OE_MODRM_RM, false)] [ACC_XMM; ACC_XMM_M64];
   enc "ucomiss" 15 46 false false 0 true false false false [(OE_MODRM_REG, false); (OE_MODRM_RM, false)] [ACC_XMM; ACC_XMM_M32];
   enc "ucomisd" 15 46 false false 0 true true false false [(OE_MODRM_REG, false); (OE_MODRM_RM, false)] [ACC_XMM; ACC_XMM_M64];
   enc "btcq" 15 186 false true 7 false false false false [(OE_MODRM_RM, false); (OE_IMM8, false)] [ACC_REG 8; ACC_IMM8_U]
  ].

(** src/assembler/encode.c:9-18 (get_disp_size). *)
Definition get_disp_size (disp_u : Z) : res Z :=
  let disp := signed 64 disp_u in
  if disp =? 0 then Ok 0
  else if (-128 <=? disp) && (disp <=? 127) then Ok 1
  else if (-2147483648 <=? disp) && (disp <=? 2147483647) then Ok 4
  else Fail.

(** src/assembler/encode.c:20-26 (needs_rex). *)
Definition needs_rex (r : reg) (upper_byte : bool) (size : Z) : bool :=
  ((size =? 1) && negb upper_byte) && (reg_eqb r RSP || reg_eqb r RDI || reg_eqb r RBP || reg_eqb r RSI).

(** src/assembler/encode.c:28-48 (register_index). *)
Definition register_index (r : reg) : Z :=
  match r with
  | RAX => 0 | RBX => 3 | RCX => 1 | RDX => 2 | RSI => 6 | RDI => 7 | RBP => 5 | RSP => 4
  | R_8 => 8 | R_9 => 9 | R_10 => 10 | R_11 => 11 | R_12 => 12 | R_13 => 13 | R_14 => 14 | R_15 => 15
  end.
Definition low3 (i : Z) : Z := Z.land i 7.
Definition bit3 (i : Z) : Z := Z.shiftr (Z.land i 8) 3.

(** The locals of assemble_encoding which an r/m operand sets
    (src/assembler/encode.c:166-182). sib_scale is never assigned. *)
Record rmf := {
  rex_b : Z; rex_x : Z; modrm_mod : Z; modrm_rm : Z; disp : Z; has_disp8 : bool; has_disp32 : bool;
  has_sib : bool; sib_index : Z; sib_base : Z }.
Definition rm0 : rmf :=
  {| rex_b := 0; rex_x := 0; modrm_mod := 0; modrm_rm := 0; disp := 0; has_disp8 := false; has_disp32 := false;
     has_sib := false; sib_index := 0; sib_base := 0 |}.

(** src/assembler/encode.c:50-157 (encode_sib). *)
Definition encode_sib (index base : option reg) (offset : Z) (m : rmf) : res rmf :=
  let* disp_size := get_disp_size offset in
  match index, base with
  | None, Some b =>
      if disp_size =? 0 then
        if reg_eqb b RSP || reg_eqb b R_12 then
          Ok {| modrm_rm := 4; modrm_mod := 0; has_sib := true; sib_index := 4; sib_base := 4;
                rex_b := if reg_eqb b R_12 then 1 else rex_b m;
                rex_x := rex_x m; disp := disp m; has_disp8 := has_disp8 m; has_disp32 := has_disp32 m |}
        else if reg_eqb b RBP || reg_eqb b R_13 then
          Ok {| sib_index := 4; modrm_mod := 1; has_disp8 := true; disp := 0; sib_base := 5;
                rex_b := if reg_eqb b R_13 then 1 else rex_b m;
                modrm_rm := modrm_rm m; rex_x := rex_x m; has_disp32 := has_disp32 m; has_sib := has_sib m |}
        else
          Ok {| modrm_mod := 0; modrm_rm := low3 (register_index b); rex_b := bit3 (register_index b);
                rex_x := rex_x m; disp := disp m; has_disp8 := has_disp8 m; has_disp32 := has_disp32 m;
                has_sib := has_sib m; sib_index := sib_index m; sib_base := sib_base m |}
      else if disp_size <=? 1 then
        if reg_eqb b RSP || reg_eqb b R_12 then
          Ok {| modrm_rm := 4; modrm_mod := 1; has_sib := true; sib_index := 4; sib_base := 4;
                rex_b := if reg_eqb b R_12 then 1 else rex_b m;
                has_disp8 := true; disp := offset; rex_x := rex_x m; has_disp32 := has_disp32 m |}
        else
          Ok {| modrm_mod := 1; modrm_rm := low3 (register_index b); rex_b := bit3 (register_index b);
                has_disp8 := true; disp := offset; rex_x := rex_x m; has_disp32 := has_disp32 m;
                has_sib := has_sib m; sib_index := sib_index m; sib_base := sib_base m |}
      else if disp_size <=? 4 then
        if reg_eqb b RSP || reg_eqb b R_12 then
          Ok {| modrm_rm := 4; modrm_mod := 2; has_sib := true; sib_index := 4; sib_base := 4;
                rex_b := if reg_eqb b R_12 then 1 else rex_b m;
                has_disp32 := true; disp := offset; rex_x := rex_x m; has_disp8 := has_disp8 m |}
        else
          Ok {| modrm_mod := 2; modrm_rm := low3 (register_index b); rex_b := bit3 (register_index b);
                has_disp32 := true; disp := offset; rex_x := rex_x m; has_disp8 := has_disp8 m;
                has_sib := has_sib m; sib_index := sib_index m; sib_base := sib_base m |}
      else Fail
  | Some i, Some b =>
      if disp_size =? 0 then
        if reg_eqb i RSP then Fail
        else if reg_eqb b RBP || reg_eqb b R_13 then Fail
        else
          Ok {| has_sib := true; modrm_rm := 4; sib_base := low3 (register_index b); rex_b := bit3 (register_index b);
                sib_index := low3 (register_index i); rex_x := bit3 (register_index i);
                modrm_mod := modrm_mod m; disp := disp m; has_disp8 := has_disp8 m; has_disp32 := has_disp32 m |}
      else Fail
  | _, _ => Fail
  end.

(** The other locals (src/assembler/encode.c:162-188). Of has_imm8, has_imm16,
    has_imm32 and has_imm64 no row sets two: [imm_size] is the size in bytes
    of the one that is set, 0 if none is. *)
Record locals := {
  has_rex : bool; rex_r : Z; has_modrm : bool; modrm_reg : Z; rm : rmf; op_ext : Z;
  imm_size : nat; imm : Z; imm_label : option (list Z); has_rel32 : bool; rel : Z; rel_label : option (list Z) }.
Definition locals0 (e : encoding) : locals :=
  {| has_rex := e_rexw e || e_rex e; rex_r := 0; has_modrm := false; modrm_reg := 0; rm := rm0; op_ext := 0;
     imm_size := 0; imm := 0; imm_label := None; has_rel32 := false; rel := 0; rel_label := None |}.
Definition set_rex (l : locals) : locals :=
  {| has_rex := true; rex_r := rex_r l; has_modrm := has_modrm l; modrm_reg := modrm_reg l; rm := rm l; op_ext := op_ext l;
     imm_size := imm_size l; imm := imm l; imm_label := imm_label l; has_rel32 := has_rel32 l; rel := rel l; rel_label := rel_label l |}.
Definition set_rm (l : locals) (m : rmf) : locals :=
  {| has_rex := has_rex l; rex_r := rex_r l; has_modrm := true; modrm_reg := modrm_reg l; rm := m; op_ext := op_ext l;
     imm_size := imm_size l; imm := imm l; imm_label := imm_label l; has_rel32 := has_rel32 l; rel := rel l; rel_label := rel_label l |}.
Definition set_reg (l : locals) (i : Z) : locals :=
  {| has_rex := has_rex l; rex_r := bit3 i; has_modrm := has_modrm l; modrm_reg := i; rm := rm l; op_ext := op_ext l;
     imm_size := imm_size l; imm := imm l; imm_label := imm_label l; has_rel32 := has_rel32 l; rel := rel l; rel_label := rel_label l |}.
Definition set_op_ext (l : locals) (i : Z) : locals :=
  {| has_rex := has_rex l; rex_r := rex_r l; has_modrm := has_modrm l; modrm_reg := modrm_reg l; rm := rm l; op_ext := i;
     imm_size := imm_size l; imm := imm l; imm_label := imm_label l; has_rel32 := has_rel32 l; rel := rel l; rel_label := rel_label l |}.
Definition set_imm (l : locals) (n : nat) (o : aop) : locals :=
  {| has_rex := has_rex l; rex_r := rex_r l; has_modrm := has_modrm l; modrm_reg := modrm_reg l; rm := rm l; op_ext := op_ext l;
     imm_size := n; imm := match o with AImm _ v => v | _ => imm l end;
     imm_label := match o with AImm lab _ => lab | _ => imm_label l end;
     has_rel32 := has_rel32 l; rel := rel l; rel_label := rel_label l |}.
Definition set_rel (l : locals) (o : aop) : locals :=
  {| has_rex := has_rex l; rex_r := rex_r l; has_modrm := has_modrm l; modrm_reg := modrm_reg l; rm := rm l; op_ext := op_ext l;
     imm_size := imm_size l; imm := imm l; imm_label := imm_label l; has_rel32 := true;
     rel := match o with AAbs _ v => wrap 32 v | _ => rel l end;
     rel_label := match o with AAbs lab _ => lab | _ => rel_label l end |}.

(** src/assembler/encode.c:239-252: a register as the r/m operand. *)
Definition rm_register (l : locals) (i : Z) : rmf :=
  let m := rm l in
  {| modrm_mod := 3; modrm_rm := i; rex_b := if has_rex l then bit3 i else rex_b m;
     rex_x := rex_x m; disp := disp m; has_disp8 := has_disp8 m; has_disp32 := has_disp32 m;
     has_sib := has_sib m; sib_index := sib_index m; sib_base := sib_base m |}.

Definition is_empty (o : aop) : bool := match o with AEmpty => true | _ => false end.
Definition oe_empty (x : oe) : bool := match x with OE_EMPTY => true | _ => false end.
(** src/assembler/encode.c:194-305: one turn of the loop over the operands. *)
Definition one_operand (e : encoding) (o : aop) (x : oe) (l : locals) : res locals :=
  if negb (Bool.eqb (is_empty o) (oe_empty x)) then Fail
  else
    let l := match o with AReg r u s => if needs_rex r u s then set_rex l else l | _ => l end in
    match x with
    | OE_IMM8 => Ok (set_imm l 1 o)
    | OE_IMM16 => Ok (set_imm l 2 o)
    | OE_IMM32 => Ok (set_imm l 4 o)
    | OE_IMM64 => Ok (set_imm l 8 o)
    | OE_MODRM_RM =>
        match o with
        | AReg r _ _ | AStar r _ _ => Ok (set_rm l (rm_register l (register_index r)))
        | ASse x => Ok (set_rm l (rm_register l x))
        | AMem index base _ offset => let* m := encode_sib index base offset (rm l) in Ok (set_rm l m)
        | _ => Fail
        end
    | OE_MODRM_REG =>
        match o with
        | AReg r _ _ => if e_slash_r e then Ok (set_reg l (register_index r)) else Fail
        | ASse x => if e_slash_r e then Ok (set_reg l x) else Fail
        | _ => Fail
        end
    | OE_OPEXT => match o with AReg r _ _ | AStar r _ _ => Ok (set_op_ext l (register_index r)) | _ => Undef end
    | OE_NONE | OE_EMPTY => Ok l
    | OE_REL32 => Ok (set_rel l o)
    end.

(** src/assembler/encode.c:190-309: the loop; [fuel] counts the remaining
    values of j. *)
Fixpoint operand_loop (fuel : nat) (e : encoding) (ops : list aop) (xs : list (oe * bool)) (l : locals) : res locals :=
  match fuel with
  | O => Ok l
  | S fuel =>
      let o := hd AEmpty ops in
      let '(x, duplicate) := hd (OE_EMPTY, false) xs in
      let* l := one_operand e o x l in
      operand_loop fuel e (if duplicate : bool then ops else tl ops) (tl xs) l
  end.

(** src/assembler/encode.h:7-20 (struct relocation). *)
Record ins_reloc := { ir_offset : Z; ir_size : Z; ir_relative : bool; ir_label : list Z; ir_imm : Z }.

(** src/assembler/encode.c:317-322 (W, WRITE_8, WRITE_16, WRITE_32, WRITE_64):
    the low [n] bytes, each stored as a uint8_t. *)
Definition write_le (n : nat) (x : Z) : list Z := map (fun k => wrap 8 (Z.shiftr x (8 * Z.of_nat k))) (seq 0 n).

(** src/assembler/encode.c:311-313. *)
Definition final_rex (l : locals) : bool := if (negb (rex_b (rm l) =? 0)) || (negb (rex_r l =? 0)) then true else has_rex l.
(** src/assembler/encode.c:324-375: the bytes before the immediate. *)
Definition emit_head (e : encoding) (l : locals) : list Z :=
  (if e_66 e then [102] else []) ++
  (if e_f2 e then [242] else []) ++
  (if e_f3 e then [243] else []) ++
  (if final_rex l
   then [wrap 8 (Z.lor (Z.lor (Z.lor 64 (if e_rexw e then 8 else 0)) (rex_b (rm l))) (Z.shiftl (rex_r l) 2))] else []) ++
  [wrap 8 (Z.lor (e_opcode e) (op_ext l))] ++
  (if e_opcode e =? 15 then [e_op2 e] else []) ++
  (if has_modrm l
   then [wrap 8 (Z.lor (Z.lor (Z.lor (Z.shiftl (Z.land (e_ext e) 7) 3) (Z.shiftl (Z.land (modrm_reg l) 7) 3))
                              (Z.shiftl (Z.land (modrm_mod (rm l)) 3) 6)) (Z.land (modrm_rm (rm l)) 7))] else []) ++
  (if has_sib (rm l)
   then [wrap 8 (Z.lor (Z.shiftl (Z.land (sib_index (rm l)) 7) 3) (Z.land (sib_base (rm l)) 7))] else []) ++
  (if has_disp8 (rm l) then write_le 1 (disp (rm l)) else if has_disp32 (rm l) then write_le 4 (disp (rm l)) else []).
(** src/assembler/encode.c:377-439: the immediate, the relative address and
    the relocations. *)
Definition emit (e : encoding) (l : locals) : list Z * list ins_reloc :=
  let head := emit_head e l in
  let '(imms, r1) :=
    match imm_size l with
    | O => ([], [])
    | n =>
        match imm_label l with
        | Some lab => (write_le n 0, [{| ir_offset := Z.of_nat (length head); ir_size := Z.of_nat n; ir_relative := false;
                                          ir_label := lab; ir_imm := imm l |}])
        | None => (write_le n (imm l), [])
        end
    end in
  let out := head ++ imms in
  if has_rel32 l
  then (out ++ write_le 4 (rel l),
        match rel_label l with
        | Some lab => r1 ++ [{| ir_offset := Z.of_nat (length out); ir_size := 4; ir_relative := true; ir_label := lab; ir_imm := rel l |}]
        | None => r1
        end)
  else (out, r1).

(** src/assembler/encode.c:159-442 (assemble_encoding). The output array has
    15 elements (line 600): writing more is undefined. *)
Definition assemble_encoding (e : encoding) (ops : list aop) : res (list Z * list ins_reloc) :=
  let* l := operand_loop 4 e ops (e_encoding e) (locals0 e) in
  let out := emit e l in
  if (length (fst out) <=? 15)%nat then Ok out else Undef.

(** src/assembler/encode.c:444-570 (does_match). *)
Definition does_match (o : aop) (a : acc) : bool :=
  match a with
  | ACC_EMPTY => true
  | ACC_RAX s => match o with AReg r _ s' => (s' =? s) && reg_eqb r RAX | _ => false end
  | ACC_RCX s => match o with AReg r _ s' => (s' =? s) && reg_eqb r RCX | _ => false end
  | ACC_REG s => match o with AReg r _ s' => s' =? s | _ => false end
  | ACC_REG_STAR s => match o with AStar r _ s' => s' =? s | _ => false end
  | ACC_XMM => match o with ASse _ => true | _ => false end
  | ACC_IMM8_S => match o with AImm _ v => (-128 <=? signed 64 v) && (signed 64 v <=? 127) | _ => false end
  | ACC_IMM8_U => match o with AImm _ v => signed 64 v <=? 255 | _ => false end
  | ACC_IMM16_S => match o with AImm _ v => (-32768 <=? signed 64 v) && (signed 64 v <=? 32767) | _ => false end
  | ACC_IMM16_U => match o with AImm _ v => signed 64 v <=? 65535 | _ => false end
  | ACC_IMM32_S => match o with AImm _ v => (-2147483648 <=? signed 64 v) && (signed 64 v <=? 2147483647) | _ => false end
  | ACC_IMM32_U => match o with AImm _ v => wrap 64 v <=? 4294967295 | _ => false end
  | ACC_MODRM s => match o with AReg _ _ s' => s' =? s | AMem _ _ _ _ => true | _ => false end
  | ACC_XMM_M32 | ACC_XMM_M64 | ACC_XMM_M128 => match o with ASse _ | AMem _ _ _ _ => true | _ => false end
  | ACC_IMM64 => match o with AImm _ _ => true | _ => false end
  | ACC_REL32 => match o with AAbs _ _ => true | _ => false end
  end.
(** src/assembler/encode.c:584-592: all four operands. *)
Fixpoint all_match (fuel : nat) (ops : list aop) (accs : list acc) : bool :=
  match fuel with
  | O => true
  | S fuel => does_match (hd AEmpty ops) (hd ACC_EMPTY accs) && all_match fuel (tl ops) (tl accs)
  end.

(** src/assembler/encode.c:578-615: the loop over the table, which keeps the
    first of the shortest encodings; [best] is None while best_len is 16. *)
Fixpoint assemble_rows (rows : list encoding) (mnemonic : string) (ops : list aop)
    (best : option (list Z * list ins_reloc)) : res (option (list Z * list ins_reloc)) :=
  match rows with
  | [] => Ok best
  | e :: rows =>
      if negb (String.eqb (e_mnemonic e) mnemonic) then assemble_rows rows mnemonic ops best
      else if negb (all_match 4 ops (e_accepts e)) then assemble_rows rows mnemonic ops best
      else
        let* cur := assemble_encoding e ops in
        let best_len := match best with Some (b, _) => length b | None => 16%nat end in
        assemble_rows rows mnemonic ops (if (length (fst cur) <? best_len)%nat then Some cur else best)
  end.
(** src/assembler/encode.c:572-624 (assemble_instruction). *)
Definition assemble_instruction (mnemonic : string) (ops : list aop) : res (option (list Z * list ins_reloc)) :=
  assemble_rows encodings mnemonic ops None.

(** src/assembler/assembler.c:204-221: the request made of the object for one
    relocation. *)
Definition relocation_request (len : Z) (r : ins_reloc) : res request :=
  if ir_size r =? 8 then if ir_relative r then Fail else Ok (Relocate (ir_label r) (ir_offset r) (ir_imm r) RELOCATE_64)
  else if ir_size r =? 4 then
    if ir_relative r then Ok (Relocate (ir_label r) (ir_offset r) (- (len - ir_offset r)) RELOCATE_32_RELATIVE)
    else Ok (Relocate (ir_label r) (ir_offset r) (ir_imm r) RELOCATE_32)
  else Fail.
Fixpoint relocation_requests (len : Z) (l : list ins_reloc) : res (list request) :=
  match l with
  | [] => Ok []
  | r :: t => let* q := relocation_request len r in let* qs := relocation_requests len t in Ok (q :: qs)
  end.
(** src/assembler/assembler.c:175-223 (asm_ins_impl, writing an object): the
    requests made of the object builder for one instruction, whose operands
    are given in AT&T order, at most four of them. *)
Definition asm_ins (mnemonic : string) (ops : list aop) : res (list request) :=
  let swapped := filter (fun o => negb (is_empty o)) (rev (firstn 4 ops)) in
  let* r := assemble_instruction mnemonic swapped in
  match r with
  | None => Fail
  | Some (out, relocs) =>
      let* qs := relocation_requests (Z.of_nat (length out)) relocs in
      Ok (qs ++ [Write out])
  end.
