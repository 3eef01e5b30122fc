(** Specification of instruction encoding: a decoder of x86-64 machine code.

    Nothing here models /repo. The decoder follows the opcode maps and the
    rules for prefixes, ModRM, SIB, displacements and immediates of the Intel
    manual (volume 2, chapter 2 and appendix A), for 64-bit mode and for the
    opcodes listed below; for any other byte sequence it gives [None], so it
    never takes an instruction for another. It is part of the trusted base.
    Operands are listed destination first; names are those of the AT&T
    assembler, with the size of the operation as suffix. *)
From Coq Require Import String.
From Verif Require Import Base X86 Encode BytesSpec.
Local Open Scope Z_scope.
Local Open Scope list_scope.

(** What a decoded operand is. [DReg s n]: the low [s] bytes of general
    register number [n]; [DHigh n]: bits 8 to 15 of register [n]; [DMem n d]:
    memory at register [n] plus [d]; [DImm s v]: the constant [v] of an
    operation on [s] bytes, as an unsigned number; [DRel d]: a jump to [d]
    bytes after the end of the instruction. *)
Inductive dop :=
| DReg (size n : Z) | DHigh (n : Z) | DXmm (n : Z) | DMem (base disp : Z) | DImm (size v : Z) | DRel (d : Z).

(** How an opcode describes an operand. [SE]/[SG]: the r/m or reg field of
    ModRM, general register of a size; [SEX]/[SGX]: the same, vector register;
    [SM]: r/m field, memory only; [SO]: the low three bits of the opcode;
    [SFix]: a fixed register; [SImm n s]: an [n]-byte constant, sign-extended
    for an operation on [s] bytes; [SRel]: a 32-bit jump distance. *)
Inductive shape :=
| SE (s : Z) | SG (s : Z) | SEX | SGX | SM | SO (s : Z) | SFix (s n : Z) | SImm (n : nat) (s : Z) | SRel.

Definition suffix (s : Z) : string :=
  if s =? 1 then "b"%string else if s =? 2 then "w"%string else if s =? 4 then "l"%string else "q"%string.
Definition alu (i : Z) : string := nth (Z.to_nat i) ["add"; "or"; "adc"; "sbb"; "and"; "sub"; "xor"; "cmp"]%string ""%string.
Definition cc (i : Z) : string :=
  nth (Z.to_nat i) ["o"; "no"; "b"; "ae"; "e"; "ne"; "be"; "a"; "s"; "ns"; "p"; "np"; "l"; "ge"; "le"; "g"]%string ""%string.
Definition shift_name (i : Z) : option string :=
  nth (Z.to_nat i) [Some "rol"; Some "ror"; Some "rcl"; Some "rcr"; Some "sal"; Some "shr"; None; Some "sar"]%string None.
Definition between (a b x : Z) : bool := (a <=? x) && (x <=? b).
Definition imm_bytes (s : Z) : nat := Z.to_nat (Z.min s 4).

(** The one-byte opcodes. [s] is the operand size selected by REX.W and the
    prefix 66, [w] is REX.W and [ext] the reg field of ModRM. *)
Definition one_byte (p66 w : bool) (op ext : Z) : option (string * list shape) :=
  let s := if w then 8 else if p66 then 2 else 4 in
  if between 0 63 op && (op mod 8 <? 6) then
    let n := alu (op / 8) in
    let k := op mod 8 in
    Some (if k =? 0 then ((n ++ "b")%string, [SE 1; SG 1])
          else if k =? 1 then ((n ++ suffix s)%string, [SE s; SG s])
          else if k =? 2 then ((n ++ "b")%string, [SG 1; SE 1])
          else if k =? 3 then ((n ++ suffix s)%string, [SG s; SE s])
          else if k =? 4 then ((n ++ "b")%string, [SFix 1 0; SImm 1 1])
          else ((n ++ suffix s)%string, [SFix s 0; SImm (imm_bytes s) s]))
  else if between 80 87 op then if p66 then None else Some ("pushq"%string, [SO 8])
  else if between 88 95 op then if p66 then None else Some ("popq"%string, [SO 8])
  else if op =? 99 then if w then Some ("movslq"%string, [SG 8; SE 4]) else None
  else if op =? 105 then Some (("imul" ++ suffix s)%string, [SG s; SE s; SImm (imm_bytes s) s])
  else if op =? 107 then Some (("imul" ++ suffix s)%string, [SG s; SE s; SImm 1 s])
  else if op =? 128 then Some ((alu ext ++ "b")%string, [SE 1; SImm 1 1])
  else if op =? 129 then Some ((alu ext ++ suffix s)%string, [SE s; SImm (imm_bytes s) s])
  else if op =? 131 then Some ((alu ext ++ suffix s)%string, [SE s; SImm 1 s])
  else if op =? 132 then Some ("testb"%string, [SE 1; SG 1])
  else if op =? 133 then Some (("test" ++ suffix s)%string, [SE s; SG s])
  else if op =? 134 then Some ("xchgb"%string, [SE 1; SG 1])
  else if op =? 135 then Some (("xchg" ++ suffix s)%string, [SE s; SG s])
  else if op =? 136 then Some ("movb"%string, [SE 1; SG 1])
  else if op =? 137 then Some (("mov" ++ suffix s)%string, [SE s; SG s])
  else if op =? 138 then Some ("movb"%string, [SG 1; SE 1])
  else if op =? 139 then Some (("mov" ++ suffix s)%string, [SG s; SE s])
  else if op =? 141 then Some (("lea" ++ suffix s)%string, [SG s; SM])
  else if op =? 153 then Some ((if w then "cqto" else if p66 then "cwtd" else "cltd")%string, [])
  else if between 176 183 op then Some ("movb"%string, [SO 1; SImm 1 1])
  else if between 184 191 op then
    Some ((if w then "movabsq" else "mov" ++ suffix s)%string, [SO s; SImm (Z.to_nat s) s])
  else if op =? 193 then match shift_name ext with Some n => Some ((n ++ suffix s)%string, [SE s; SImm 1 1]) | None => None end
  else if op =? 195 then Some ("ret"%string, [])
  else if op =? 198 then if ext =? 0 then Some ("movb"%string, [SE 1; SImm 1 1]) else None
  else if op =? 199 then if ext =? 0 then Some (("mov" ++ suffix s)%string, [SE s; SImm (imm_bytes s) s]) else None
  else if op =? 201 then Some ("leave"%string, [])
  else if op =? 211 then match shift_name ext with Some n => Some ((n ++ suffix s)%string, [SE s; SFix 1 1]) | None => None end
  else if op =? 232 then Some ("call"%string, [SRel])
  else if op =? 233 then Some ("jmp"%string, [SRel])
  else if op =? 247 then
    if ext =? 0 then Some (("test" ++ suffix s)%string, [SE s; SImm (imm_bytes s) s])
    else if ext =? 1 then None
    else Some ((nth (Z.to_nat (ext - 2)) ["not"; "neg"; "mul"; "imul"; "div"; "idiv"] "" ++ suffix s)%string, [SE s])
  else if op =? 255 then
    if ext =? 0 then Some (("inc" ++ suffix s)%string, [SE s])
    else if ext =? 1 then Some (("dec" ++ suffix s)%string, [SE s])
    else if ext =? 2 then Some ("callq"%string, [SE 8])
    else if ext =? 4 then Some ("jmpq"%string, [SE 8])
    else if ext =? 6 then Some ("pushq"%string, [SE 8])
    else None
  else None.

(** The opcodes after 0f. The prefixes f3, f2 and 66 choose between the forms
    of a vector instruction. *)
Inductive mandatory := PNone | P66 | PF2 | PF3.
Definition scalar (m : mandatory) : string := (match m with PNone => "ps" | P66 => "pd" | PF2 => "sd" | PF3 => "ss" end)%string.
Definition two_byte (m : mandatory) (w : bool) (op ext : Z) : option (string * list shape) :=
  let s := if w then 8 else match m with P66 => 2 | _ => 4 end in
  let si := if w then 8 else 4 in
  let plain := match m with PF2 | PF3 => false | _ => true end in
  let mov := (match m with PNone => "movups" | P66 => "movupd" | PF2 => "movsd" | PF3 => "movss" end)%string in
  if op =? 11 then match m with PNone => Some ("ud2"%string, []) | _ => None end
  else if op =? 16 then Some (mov, [SGX; SEX])
  else if op =? 17 then Some (mov, [SEX; SGX])
  else if op =? 42 then match m with PF2 | PF3 => Some (("cvtsi2" ++ scalar m)%string, [SGX; SE si]) | _ => None end
  else if op =? 44 then match m with PF2 | PF3 => Some (("cvtt" ++ scalar m ++ "2si")%string, [SG si; SEX]) | _ => None end
  else if op =? 46 then match m with PNone => Some ("ucomiss"%string, [SGX; SEX]) | P66 => Some ("ucomisd"%string, [SGX; SEX]) | _ => None end
  else if op =? 87 then match m with PNone | P66 => Some (("xor" ++ scalar m)%string, [SGX; SEX]) | _ => None end
  else if op =? 88 then Some (("add" ++ scalar m)%string, [SGX; SEX])
  else if op =? 89 then Some (("mul" ++ scalar m)%string, [SGX; SEX])
  else if op =? 90 then
    Some ((match m with PNone => "cvtps2pd" | P66 => "cvtpd2ps" | PF2 => "cvtsd2ss" | PF3 => "cvtss2sd" end)%string, [SGX; SEX])
  else if op =? 92 then Some (("sub" ++ scalar m)%string, [SGX; SEX])
  else if op =? 94 then Some (("div" ++ scalar m)%string, [SGX; SEX])
  else if op =? 110 then match m with P66 => Some ((if w then "movq" else "movd")%string, [SGX; SE si]) | _ => None end
  else if op =? 126 then match m with P66 => Some ((if w then "movq" else "movd")%string, [SE si; SGX]) | _ => None end
  else if negb plain then None
  else if between 128 143 op then match m with PNone => Some (("j" ++ cc (op - 128))%string, [SRel]) | _ => None end
  else if between 144 159 op then Some (("set" ++ cc (op - 144))%string, [SE 1])
  else if op =? 175 then Some (("imul" ++ suffix s)%string, [SG s; SE s])
  else if op =? 182 then Some (("movzb" ++ suffix s)%string, [SG s; SE 1])
  else if op =? 183 then Some (("movzw" ++ suffix s)%string, [SG s; SE 2])
  else if op =? 190 then Some (("movsb" ++ suffix s)%string, [SG s; SE 1])
  else if op =? 191 then Some (("movsw" ++ suffix s)%string, [SG s; SE 2])
  else if op =? 186 then
    if 4 <=? ext then Some ((nth (Z.to_nat (ext - 4)) ["bt"; "bts"; "btr"; "btc"] "" ++ suffix s)%string, [SE s; SImm 1 1]) else None
  else None.

(** Which opcodes are followed by a ModRM byte. *)
Definition has_modrm1 (op : Z) : bool :=
  (between 0 63 op && (op mod 8 <? 4)) || (op =? 99) || (op =? 105) || (op =? 107) || between 128 143 op ||
  (op =? 193) || (op =? 198) || (op =? 199) || (op =? 211) || (op =? 247) || (op =? 255).
Definition has_modrm2 (op : Z) : bool := negb ((op =? 11) || between 128 143 op).

(** Reading: [n] bytes, least significant first, and their signed value. *)
Fixpoint take (n : nat) (l : list Z) : option (list Z * list Z) :=
  match n, l with
  | O, _ => Some ([], l)
  | S _, [] => None
  | S k, b :: t => match take k t with Some (x, y) => Some (b :: x, y) | None => None end
  end.
Definition take_signed (n : nat) (l : list Z) : option (Z * list Z) :=
  match take n l with Some (b, t) => Some (signed (8 * Z.of_nat n) (le_value b), t) | None => None end.

(** The three fields of a ModRM or SIB byte. *)
Definition hi2 (b : Z) : Z := b / 64.
Definition mid3 (b : Z) : Z := (b / 8) mod 8.
Definition lo3 (b : Z) : Z := b mod 8.
Record rex_bits := { W : bool; R : bool; X : bool; B : bool }.
Definition ext4 (b : bool) (n : Z) : Z := if b then n + 8 else n.

(** The r/m operand: a register number, or base register and displacement.
    An address with an index register, without a base, or relative to the
    instruction pointer is not taken. *)
Inductive rmop := RmReg (n : Z) | RmMem (base disp : Z).
Definition take_disp (md : Z) (l : list Z) : option (Z * list Z) :=
  if md =? 0 then Some (0, l) else if md =? 1 then take_signed 1 l else take_signed 4 l.
Definition read_rm (x : rex_bits) (b : Z) (l : list Z) : option (rmop * list Z) :=
  let md := hi2 b in
  if md =? 3 then Some (RmReg (ext4 (B x) (lo3 b)), l)
  else if lo3 b =? 4 then
    match l with
    | [] => None
    | s :: l =>
        if negb (ext4 (X x) (mid3 s) =? 4) then None
        else if (md =? 0) && (lo3 s =? 5) then None
        else match take_disp md l with Some (d, l) => Some (RmMem (ext4 (B x) (lo3 s)) d, l) | None => None end
    end
  else if (md =? 0) && (lo3 b =? 5) then None
  else match take_disp md l with Some (d, l) => Some (RmMem (ext4 (B x) (lo3 b)) d, l) | None => None end.

(** A general register of [s] bytes; without REX the byte registers 4 to 7
    are the high halves of registers 0 to 3. *)
Definition gp (has_rex : bool) (s n : Z) : dop :=
  if (s =? 1) && negb has_rex && between 4 7 n then DHigh (n - 4) else DReg s n.

Definition read_operand (has_rex : bool) (x : rex_bits) (op reg : Z) (m : option rmop) (s : shape) (l : list Z) : option (dop * list Z) :=
  match s with
  | SE s => match m with Some (RmReg n) => Some (gp has_rex s n, l) | Some (RmMem b d) => Some (DMem b d, l) | None => None end
  | SEX => match m with Some (RmReg n) => Some (DXmm n, l) | Some (RmMem b d) => Some (DMem b d, l) | None => None end
  | SM => match m with Some (RmMem b d) => Some (DMem b d, l) | _ => None end
  | SG s => Some (gp has_rex s reg, l)
  | SGX => Some (DXmm reg, l)
  | SO s => Some (gp has_rex s (ext4 (B x) (lo3 op)), l)
  | SFix s n => Some (DReg s n, l)
  | SImm n s => match take_signed n l with Some (v, l) => Some (DImm s (v mod 2 ^ (8 * s)), l) | None => None end
  | SRel => match take_signed 4 l with Some (v, l) => Some (DRel v, l) | None => None end
  end.
Fixpoint read_operands (has_rex : bool) (x : rex_bits) (op reg : Z) (m : option rmop) (ss : list shape) (l : list Z) : option (list dop * list Z) :=
  match ss with
  | [] => Some ([], l)
  | s :: ss =>
      match read_operand has_rex x op reg m s l with
      | None => None
      | Some (d, l) =>
          match read_operands has_rex x op reg m ss l with Some (ds, l) => Some (d :: ds, l) | None => None end
      end
  end.

(** What follows the opcode, given what the opcode means for each reg field. *)
Definition finish (has_rex : bool) (x : rex_bits) (op : Z) (modrm : bool) (f : Z -> option (string * list shape)) (l : list Z)
    : option (string * list dop * list Z) :=
  let k := fun ext reg m l =>
    match f ext with
    | None => None
    | Some (name, ss) =>
        match read_operands has_rex x op reg m ss l with Some (ds, l) => Some (name, ds, l) | None => None end
    end in
  if modrm then
    match l with
    | [] => None
    | b :: l =>
        match read_rm x b l with
        | Some (m, l) => k (mid3 b) (ext4 (R x) (mid3 b)) (Some m) l
        | None => None
        end
    end
  else k 0 0 None l.

Definition decode_opcode (p66 pf2 pf3 has_rex : bool) (x : rex_bits) (l : list Z) : option (string * list dop * list Z) :=
  match l with
  | [] => None
  | op :: l =>
      if op =? 15 then
        match l with
        | [] => None
        | op :: l =>
            let m := if pf3 then PF3 else if pf2 then PF2 else if p66 then P66 else PNone in
            finish has_rex x op (has_modrm2 op) (two_byte m (W x) op) l
        end
      else if pf2 || pf3 then None
      else finish has_rex x op (has_modrm1 op) (one_byte p66 (W x) op) l
  end.
Definition rex0 : rex_bits := {| W := false; R := false; X := false; B := false |}.
Definition decode_rex (p66 pf2 pf3 : bool) (l : list Z) : option (string * list dop * list Z) :=
  match l with
  | [] => None
  | b :: t =>
      if between 64 79 b
      then decode_opcode p66 pf2 pf3 true {| W := Z.testbit b 3; R := Z.testbit b 2; X := Z.testbit b 1; B := Z.testbit b 0 |} t
      else decode_opcode p66 pf2 pf3 false rex0 l
  end.
Fixpoint decode_from (p66 pf2 pf3 : bool) (l : list Z) : option (string * list dop * list Z) :=
  match l with
  | [] => None
  | b :: t =>
      if b =? 102 then decode_from true pf2 pf3 t
      else if b =? 242 then decode_from p66 true pf3 t
      else if b =? 243 then decode_from p66 pf2 true t
      else decode_rex p66 pf2 pf3 l
  end.
(** The instruction at the start of [l] and the bytes after it. *)
Definition decode (l : list Z) : option (string * list dop * list Z) := decode_from false false false l.

(** The numbers of the registers (Intel manual, volume 2, table 2-2). *)
Definition number (r : reg) : Z :=
  match r with
  | RAX => 0 | RCX => 1 | RDX => 2 | RBX => 3 | RSP => 4 | RBP => 5 | RSI => 6 | RDI => 7
  | R_8 => 8 | R_9 => 9 | R_10 => 10 | R_11 => 11 | R_12 => 12 | R_13 => 13 | R_14 => 14 | R_15 => 15
  end.

(** The assembler's other names for an instruction. *)
Definition same_name (written decoded : string) : Prop :=
  written = decoded \/
  In (written, decoded)
     [("xor", "xorq"); ("setgl", "setl"); ("setnb", "setae"); ("jnae", "jb"); ("jnb", "jae"); ("jna", "jbe"); ("movd", "movq")]%string.

(** When a decoded operand is the one written. [sym] gives the addresses of
    the labels and [next] is the address of the following instruction. *)
Definition value_of (sym : list Z -> Z) (label : option (list Z)) (offset : Z) : Z :=
  match label with Some l => sym l + offset | None => offset end.
Definition denotes (sym : list Z -> Z) (next : Z) (o : aop) (d : dop) : Prop :=
  match o, d with
  | AReg r false s, DReg s' n => s' = s /\ n = number r
  | AStar r false s, DReg s' n => s' = s /\ n = number r
  | ASse x, DXmm n => n = x
  | AMem None (Some b) _ offset, DMem n v => n = number b /\ v mod 2 ^ 64 = offset mod 2 ^ 64
  | AImm label offset, DImm s v => v = (value_of sym label offset) mod 2 ^ (8 * s)
  | AAbs (Some l) _, DRel v => (next + v) mod 2 ^ 32 = sym l mod 2 ^ 32
  | AAbs None offset, DRel v => v mod 2 ^ 32 = offset mod 2 ^ 32
  | _, _ => False
  end.

(** The operands written (destination first) as the processor sees them: the
    two-operand form of a multiplication by a constant names one register twice. *)
Definition written (ops : list aop) (name : string) : list aop :=
  match ops with
  | [r; AImm l v] => if String.eqb name "imulq" then [r; r; AImm l v] else ops
  | _ => ops
  end.

(** The bytes an instruction has in the linked program: those written, with
    every relocated field replaced by the address it stands for. [at_] is the
    address of the first byte. *)
Definition patch (l : list Z) (pos n : nat) (v : Z) : list Z :=
  firstn pos l ++ map (fun k => (v / 256 ^ Z.of_nat k) mod 256) (seq 0 n) ++ skipn (pos + n) l.
Fixpoint linked (sym : list Z -> Z) (at_ : Z) (qs : list Object.request) (l : list Z) : list Z :=
  match qs with
  | Object.Relocate lab offset add Object.RELOCATE_64 :: t => linked sym at_ t (patch l (Z.to_nat offset) 8 (sym lab + add))
  | Object.Relocate lab offset add Object.RELOCATE_32 :: t => linked sym at_ t (patch l (Z.to_nat offset) 4 (sym lab + add))
  | Object.Relocate lab offset add Object.RELOCATE_32_RELATIVE :: t =>
      linked sym at_ t (patch l (Z.to_nat offset) 4 (sym lab + add - (at_ + offset)))
  | _ => l
  end.

(** The instructions for which the encoder is claimed to be right. The
    exceptions are findings, each refuted in C41Props.v or C42Props.v:
    registers r8 to r15 and xmm8 to xmm15 outside 64-bit operations and
    memory operations, the high byte registers, 0(%rbp) and 0(%r13), and addq
    of a constant to a 32-bit register. *)
Definition low_reg (o : aop) : bool :=
  match o with
  | AReg r _ _ => number r <? 8
  | ASse x => x <? 8
  | _ => true
  end.
Definition is_mem (o : aop) : bool := match o with AMem _ _ _ _ => true | _ => false end.
Definition reg_of_size (s : Z) (o : aop) : bool := match o with AReg _ _ s' => s' =? s | _ => false end.
Definition plain_operand (o : aop) : bool :=
  match o with
  | AEmpty => false
  | AReg _ upper _ => negb upper
  | AStar r upper _ => negb upper && (number r <? 8)
  | ASse x => between 0 15 x
  | AImm _ _ | AAbs _ _ => true
  | AMem None (Some b) _ offset => negb ((offset mod 2 ^ 64 =? 0) && (reg_eqb b RBP || reg_eqb b R_13))
  | AMem _ _ _ _ => false
  end.
Definition named (names : list string) (s : string) : bool := existsb (String.eqb s) names.
Definition encodable (mnemonic : string) (ops : list aop) : bool :=
  forallb plain_operand ops &&
  (forallb low_reg ops || existsb is_mem ops ||
   (existsb (reg_of_size 8) ops && negb (named ["pushq"; "popq"; "movabsq"]%string mnemonic))) &&
  negb (named ["addq"]%string mnemonic && existsb (reg_of_size 4) ops) &&
  negb (named ["leaq"; "leal"]%string mnemonic && negb (existsb is_mem ops)).
(** A label used as a constant must fit the field, which has 32 bits except in movabsq. *)
Definition fits (sym : list Z -> Z) (mnemonic : string) (ops : list aop) : Prop :=
  mnemonic = "movabsq"%string \/
  forall l v, In (AImm (Some l) v) ops -> - 2 ^ 31 <= sym l + v < 2 ^ 31.
