(** The part of the x86-64 machine that generated code runs on.

    Nothing here models a function of /repo: this file states what the
    processor does with the instructions which the code generator emits
    (src/codegen/*.c, through asm_ins of src/assembler/assembler.c), as given
    by the Intel manual.  It is part of the trusted base.  Operands are
    written in AT&T order, source first, as in the code generator.

    Simplifications: memory is flat and every address is accessible, the
    parity and auxiliary flags are left out (no emitted instruction reads
    them), only the low 64 bits of a vector register are kept, and the
    rounding arithmetic of the floating point unit is a parameter. *)
From Verif Require Import Base Bytes.

(** Register numbers in the order of enum reg, src/assembler/assembler.h and
    the table src/codegen/registers.c:9-25. *)
Inductive reg :=
| RAX | RBX | RCX | RDX | RSI | RDI | RBP | RSP
| R_8 | R_9 | R_10 | R_11 | R_12 | R_13 | R_14 | R_15.

Definition reg_eqb (a b : reg) : bool :=
  match a, b with
  | RAX, RAX | RBX, RBX | RCX, RCX | RDX, RDX | RSI, RSI | RDI, RDI
  | RBP, RBP | RSP, RSP | R_8, R_8 | R_9, R_9 | R_10, R_10 | R_11, R_11
  | R_12, R_12 | R_13, R_13 | R_14, R_14 | R_15, R_15 => true
  | _, _ => false
  end.

Lemma reg_eqb_spec a b : reflect (a = b) (reg_eqb a b).
Proof. destruct a, b; simpl; constructor; congruence. Qed.

Definition bits (w : width) : Z := 8 * Z.of_nat (wbytes w).

(** The four flags emitted code reads. *)
Record flags := { zf : bool; sf : bool; cf : bool; ovf : bool }.

(** [flag] is [None] when the last instruction left the flags undefined. *)
Record machine := {
  gpr : reg -> Z;
  xmm : Z -> Z;
  flag : option flags;
  mem : Z -> Z
}.

Definition set_gpr (s : machine) (r : reg) (v : Z) : machine :=
  {| gpr := fun q => if reg_eqb q r then v else gpr s q; xmm := xmm s; flag := flag s; mem := mem s |}.
Definition set_xmm (s : machine) (x v : Z) : machine :=
  {| gpr := gpr s; xmm := fun q => if q =? x then v else xmm s q; flag := flag s; mem := mem s |}.
Definition set_flag (s : machine) (f : option flags) : machine :=
  {| gpr := gpr s; xmm := xmm s; flag := f; mem := mem s |}.
Definition set_mem (s : machine) (m : Z -> Z) : machine :=
  {| gpr := gpr s; xmm := xmm s; flag := flag s; mem := m |}.

(** Little-endian memory access. *)
Fixpoint load (m : Z -> Z) (a : Z) (n : nat) : Z :=
  match n with O => 0 | S k => m a + 256 * load m (a + 1) k end.
Definition store (m : Z -> Z) (a : Z) (n : nat) (v : Z) : Z -> Z :=
  fun x => if (a <=? x) && (x <? a + Z.of_nat n) then (v / 256 ^ (x - a)) mod 256 else m x.

(** Operands; the constructors carry the names of the macros of
    src/assembler/assembler.h:30-60. *)
Inductive operand :=
| R8 (r : reg) | R4 (r : reg) | R2 (r : reg) | R1 (r : reg)
| MEM (offset : Z) (base : reg)
| IMM (v : Z)
| XMM (x : Z).

Inductive cond := CG | CLE | CL | CGE | CE | CNE | CB | CA | CBE | CNB.
Inductive fop := FADD | FSUB | FMUL | FDIV.

Inductive mnemonic :=
| Mov (w : width) | Movabsq | Movz (w d : width) | Movs (w d : width) | Lea (w : width)
| Add (w : width) | Sub (w : width) | Imul (w : width) | Xor (w : width) | Or (w : width) | And (w : width)
| Not (w : width) | Neg (w : width) | Btc (w : width)
| Sal (w : width) | Sar (w : width) | Shr (w : width)
| Cmp (w : width) | Test (w : width) | Set_ (c : cond)
| Cltd | Cqto | Idiv (w : width) | Div (w : width)
| Movd | Movs_s | Movs_d | Ucomis (w : width) | Farith (w : width) (o : fop)
| Cvtsi2 (w : width) | Cvtt2si (w : width) | Cvtss2sd | Cvtsd2ss
| Push | Leave.

Inductive instr :=
| I0 (m : mnemonic)
| I1 (m : mnemonic) (a : operand)
| I2 (m : mnemonic) (a b : operand).

(** The rounding operations of the floating point unit, on bit patterns.
    Theorems quantify over all of them. *)
Record fpu := {
  fpu_arith32 : fop -> Z -> Z -> Z;
  fpu_arith64 : fop -> Z -> Z -> Z;
  fpu_int_to_32 : Z -> Z;
  fpu_int_to_64 : Z -> Z;
  fpu_32_to_int : Z -> Z;
  fpu_64_to_int : Z -> Z;
  fpu_32_to_64 : Z -> Z;
  fpu_64_to_32 : Z -> Z
}.

(** IEEE 754 comparison of bit patterns.  [ieee_order e m v] is [None] for a
    NaN and otherwise an integer which orders like the number does: the
    magnitude bits are ordered like the magnitudes, and both zeros give 0. *)
Definition ieee_order (e m v : Z) : option Z :=
  let magnitude := v mod 2 ^ (e + m) in
  if (2 ^ e - 1) * 2 ^ m <? magnitude then None
  else Some (if v <? 2 ^ (e + m) then magnitude else - magnitude).
Definition ieee_compare (w : width) (a b : Z) : option comparison :=
  let order := match w with W8 => ieee_order 11 52 | _ => ieee_order 8 23 end in
  match order a, order b with
  | Some x, Some y => Some (x ?= y)
  | _, _ => None
  end.

(** Which register width an operand denotes. *)
Definition reg_of (w : width) (o : operand) : option reg :=
  match w, o with
  | W8, R8 r | W4, R4 r | W2, R2 r | W1, R1 r => Some r
  | _, _ => None
  end.

Definition address (s : machine) (off : Z) (base : reg) : Z := wrap 64 (gpr s base + off).

(** Reading a [w]-wide operand.  A memory access may not run over the end of
    the address space; an immediate must fit in 32 bits sign-extended. *)
Definition rd (s : machine) (w : width) (o : operand) : res Z :=
  match o with
  | MEM off base =>
      let a := address s off base in
      if a + Z.of_nat (wbytes w) <=? 2 ^ 64 then Ok (load (mem s) a (wbytes w)) else Undef
  | IMM v => if (- 2 ^ 31 <=? v) && (v <? 2 ^ Z.min 32 (bits w)) then Ok (wrap (bits w) v) else Fail
  | _ => match reg_of w o with Some r => Ok (wrap (bits w) (gpr s r)) | None => Fail end
  end.

(** Writing one: a 32-bit register write clears the upper half, an 8- or
    16-bit one keeps the rest of the register. *)
Definition wr (s : machine) (w : width) (o : operand) (v : Z) : res machine :=
  match o with
  | MEM off base =>
      let a := address s off base in
      if a + Z.of_nat (wbytes w) <=? 2 ^ 64 then Ok (set_mem s (store (mem s) a (wbytes w) v)) else Undef
  | _ =>
      match reg_of w o with
      | Some r =>
          Ok (set_gpr s r (match w with
                           | W8 | W4 => wrap (bits w) v
                           | _ => gpr s r - wrap (bits w) (gpr s r) + wrap (bits w) v
                           end))
      | None => Fail
      end
  end.

Definition is_mem (o : operand) : bool := match o with MEM _ _ => true | _ => false end.

(** Flags of the subtraction [d - s] and of a logical result. *)
Definition sub_flags (w : width) (d s : Z) : flags :=
  let r := wrap (bits w) (d - s) in
  {| zf := r =? 0; sf := 2 ^ (bits w - 1) <=? r; cf := d <? s;
     ovf := negb (signed (bits w) r =? signed (bits w) d - signed (bits w) s) |}.
Definition logic_flags (w : width) (r : Z) : flags :=
  {| zf := r =? 0; sf := 2 ^ (bits w - 1) <=? r; cf := false; ovf := false |}.

Definition holds (c : cond) (f : flags) : bool :=
  match c with
  | CE => zf f | CNE => negb (zf f)
  | CB => cf f | CNB => negb (cf f)
  | CBE => cf f || zf f | CA => negb (cf f || zf f)
  | CL => xorb (sf f) (ovf f) | CGE => negb (xorb (sf f) (ovf f))
  | CLE => zf f || xorb (sf f) (ovf f) | CG => negb (zf f || xorb (sf f) (ovf f))
  end.

(** Unordered sets ZF and CF, less sets CF, equal sets ZF. *)
Definition ucomis_flags (c : option comparison) : flags :=
  match c with
  | None => {| zf := true; sf := false; cf := true; ovf := false |}
  | Some Lt => {| zf := false; sf := false; cf := true; ovf := false |}
  | Some Eq => {| zf := true; sf := false; cf := false; ovf := false |}
  | Some Gt => {| zf := false; sf := false; cf := false; ovf := false |}
  end.

(** Two-operand arithmetic: destination [d], source [s]. *)
Definition alu (s : machine) (w : width) (a b : operand) (f : Z -> Z -> Z)
           (fl : Z -> Z -> Z -> option flags) : res machine :=
  if is_mem a && is_mem b then Fail else
  let* x := rd s w a in
  let* y := rd s w b in
  let r := wrap (bits w) (f y x) in
  let* s := wr s w b r in
  Ok (set_flag s (fl y x r)).

Definition shift_count (w : width) (c : Z) : Z := c mod (match w with W8 => 64 | _ => 32 end).

Definition low32 (v : Z) : Z := wrap 32 v.

Definition exec (F : fpu) (i : instr) (s : machine) : res machine :=
  match i with
  | I2 (Mov W8) (R8 r) (XMM x) | I2 Movd (R8 r) (XMM x) => Ok (set_xmm s x (gpr s r))
  | I2 (Mov W8) (XMM x) (R8 r) => Ok (set_gpr s r (xmm s x))
  | I2 (Mov w) a b =>
      if is_mem a && is_mem b then Fail else
      let* v := rd s w a in wr s w b v
  | I2 Movabsq (IMM v) (R8 r) => Ok (set_gpr s r (wrap 64 v))
  | I2 (Movz w d) a b => if is_mem b then Fail else let* v := rd s w a in wr s d b v
  | I2 (Movs w d) a b => if is_mem b then Fail else
      let* v := rd s w a in wr s d b (wrap (bits d) (signed (bits w) v))
  | I2 (Lea w) (MEM off base) b => if is_mem b then Fail else wr s w b (gpr s base + off)
  | I2 (Add w) a b => alu s w a b Z.add (fun _ _ _ => None)
  | I2 (Sub w) a b => alu s w a b Z.sub (fun d x _ => Some (sub_flags w d x))
  | I2 (Imul w) a b => if is_mem b then Fail else alu s w a b Z.mul (fun _ _ _ => None)
  | I2 (Xor w) a b => alu s w a b Z.lxor (fun _ _ r => Some (logic_flags w r))
  | I2 (Or w) a b => alu s w a b Z.lor (fun _ _ r => Some (logic_flags w r))
  | I2 (And w) a b => alu s w a b Z.land (fun _ _ r => Some (logic_flags w r))
  | I1 (Not w) a => let* v := rd s w a in wr s w a (wrap (bits w) (Z.lnot v))
  | I1 (Neg w) a => let* v := rd s w a in
      let* s := wr s w a (wrap (bits w) (- v)) in
      Ok (set_flag s None)
  | I2 (Btc w) (IMM n) a => let* v := rd s w a in
      let* s := wr s w a (Z.lxor v (2 ^ (n mod bits w))) in Ok (set_flag s None)
  | I2 (Sal w) c a => let* c := rd s W1 c in let* v := rd s w a in
      let* s := wr s w a (wrap (bits w) (Z.shiftl v (shift_count w c))) in Ok (set_flag s None)
  | I2 (Shr w) c a => let* c := rd s W1 c in let* v := rd s w a in
      let* s := wr s w a (Z.shiftr v (shift_count w c)) in Ok (set_flag s None)
  | I2 (Sar w) c a => let* c := rd s W1 c in let* v := rd s w a in
      let* s := wr s w a (wrap (bits w) (Z.shiftr (signed (bits w) v) (shift_count w c))) in
      Ok (set_flag s None)
  | I2 (Cmp w) a b => if is_mem a && is_mem b then Fail else
      let* x := rd s w a in let* y := rd s w b in Ok (set_flag s (Some (sub_flags w y x)))
  | I2 (Test w) a b => if is_mem a && is_mem b then Fail else
      let* x := rd s w a in let* y := rd s w b in Ok (set_flag s (Some (logic_flags w (Z.land x y))))
  | I1 (Set_ c) a =>
      match flag s with
      | Some f => wr s W1 a (if holds c f then 1 else 0)
      | None => Undef
      end
  (* Sign of eax into edx, of rax into rdx. *)
  | I0 Cltd => Ok (set_gpr s RDX (if wrap 32 (gpr s RAX) <? 2 ^ 31 then 0 else 2 ^ 32 - 1))
  | I0 Cqto => Ok (set_gpr s RDX (if gpr s RAX <? 2 ^ 63 then 0 else 2 ^ 64 - 1))
  (* edx:eax or rdx:rax divided by the operand; a zero divisor or a quotient
     that does not fit raises an exception. *)
  | I1 (Idiv w) a =>
      let* x := rd s w a in
      let d := signed (bits w) x in
      let n := signed (2 * bits w) (wrap (bits w) (gpr s RDX) * 2 ^ bits w + wrap (bits w) (gpr s RAX)) in
      if d =? 0 then Undef
      else if (Z.quot n d <? - 2 ^ (bits w - 1)) || (2 ^ (bits w - 1) <=? Z.quot n d) then Undef
      else Ok (set_flag (set_gpr (set_gpr s RAX (wrap (bits w) (Z.quot n d)))
                                 RDX (wrap (bits w) (Z.rem n d))) None)
  | I1 (Div w) a =>
      let* d := rd s w a in
      let n := wrap (bits w) (gpr s RDX) * 2 ^ bits w + wrap (bits w) (gpr s RAX) in
      if d =? 0 then Undef
      else if 2 ^ bits w <=? n / d then Undef
      else Ok (set_flag (set_gpr (set_gpr s RAX (n / d)) RDX (n mod d)) None)
  | I2 Movd (R4 r) (XMM x) => Ok (set_xmm s x (low32 (gpr s r)))
  | I2 Movd (XMM x) (R4 r) => Ok (set_gpr s r (low32 (xmm s x)))
  | I2 Movs_s (XMM x) (MEM off base) => wr s W4 (MEM off base) (low32 (xmm s x))
  | I2 Movs_d (XMM x) (MEM off base) => wr s W8 (MEM off base) (xmm s x)
  | I2 Movs_d (MEM off base) (XMM x) => let* v := rd s W8 (MEM off base) in Ok (set_xmm s x v)
  | I2 (Ucomis W4) (XMM x) (XMM y) =>
      Ok (set_flag s (Some (ucomis_flags (ieee_compare W4 (low32 (xmm s y)) (low32 (xmm s x))))))
  | I2 (Ucomis W8) (XMM x) (XMM y) =>
      Ok (set_flag s (Some (ucomis_flags (ieee_compare W8 (xmm s y) (xmm s x)))))
  | I2 (Farith W4 o) (XMM x) (XMM y) =>
      Ok (set_xmm s y (xmm s y - low32 (xmm s y)
                       + low32 (fpu_arith32 F o (low32 (xmm s y)) (low32 (xmm s x)))))
  | I2 (Farith W8 o) (XMM x) (XMM y) =>
      Ok (set_xmm s y (wrap 64 (fpu_arith64 F o (xmm s y) (xmm s x))))
  | I2 (Cvtsi2 W4) (R8 r) (XMM x) =>
      Ok (set_xmm s x (xmm s x - low32 (xmm s x) + low32 (fpu_int_to_32 F (signed 64 (gpr s r)))))
  | I2 (Cvtsi2 W8) (R8 r) (XMM x) => Ok (set_xmm s x (wrap 64 (fpu_int_to_64 F (signed 64 (gpr s r)))))
  | I2 (Cvtt2si W4) (XMM x) (R8 r) => Ok (set_gpr s r (wrap 64 (fpu_32_to_int F (low32 (xmm s x)))))
  | I2 (Cvtt2si W8) (XMM x) (R8 r) => Ok (set_gpr s r (wrap 64 (fpu_64_to_int F (xmm s x))))
  | I2 Cvtss2sd (XMM x) (XMM y) => Ok (set_xmm s y (wrap 64 (fpu_32_to_64 F (low32 (xmm s x)))))
  | I2 Cvtsd2ss (XMM x) (XMM y) =>
      Ok (set_xmm s y (xmm s y - low32 (xmm s y) + low32 (fpu_64_to_32 F (xmm s x))))
  | I1 Push (R8 r) =>
      let a := wrap 64 (gpr s RSP - 8) in
      if a + 8 <=? 2 ^ 64 then Ok (set_mem (set_gpr s RSP a) (store (mem s) a 8 (gpr s r))) else Undef
  | I0 Leave =>
      let a := gpr s RBP in
      if a + 8 <=? 2 ^ 64 then Ok (set_gpr (set_gpr s RBP (load (mem s) a 8)) RSP (wrap 64 (a + 8))) else Undef
  | _ => Fail
  end.

Fixpoint exec_all (F : fpu) (l : list instr) (s : machine) : res machine :=
  match l with
  | [] => Ok s
  | i :: l => let* s := exec F i s in exec_all F l s
  end.

(** Registers hold 64-bit words and memory holds bytes. *)
Definition machine_ok (s : machine) : Prop :=
  (forall r, 0 <= gpr s r < 2 ^ 64) /\ (forall x, 0 <= xmm s x < 2 ^ 64) /\ (forall a, 0 <= mem s a < 256).
