(** Model of calls under the Microsoft convention: src/abi/microsoft.c, at the
    level of where words are put and taken from. A word is the value of an
    argument of 1, 2, 4 or 8 bytes or the address of an object. The instructions
    that move it are those of Passing.v. *)
From Verif Require Import Base Common X86.

Local Open Scope Z_scope.
Local Open Scope list_scope.

(** What the convention needs of a type: calculate_size, type_is_floating and
    whether it is void. *)
Record mtype := { m_size : Z; m_float : bool; m_void : bool }.

(** src/abi/microsoft.c:29-32 (fits_into_reg). *)
Definition fits (t : mtype) : bool :=
  (m_size t =? 1) || (m_size t =? 2) || (m_size t =? 4) || (m_size t =? 8).

(** src/abi/microsoft.c:14-15. *)
Definition ms_registers : list reg := [RCX; RDX; R_8; R_9].
Definition shadow_space : Z := 32.

(** Where a word is: a general register, a vector register, or the stack, by the
    distance from the stack pointer when the call instruction is executed. *)
Inductive place := Gp (r : reg) | Vec (i : Z) | Slot (off : Z).
(** What is passed: argument [i], its address, or the address of the result. *)
Inductive item := Value (i : nat) | Address (i : nat) | Result.

(** src/abi/microsoft.c:72-90: the loop over the arguments. [named] is
    callee_type->n - 1, [reg] register_idx, [mem] current_mem. Also the bytes
    that are moved. *)
Fixpoint call_args (named i reg : nat) (mem : Z) (l : list mtype) : list (place * item * Z) :=
  match l with
  | [] => []
  | t :: l =>
      let it := if fits t then Value i else Address i in
      let n := if fits t then m_size t else 8 in
      if Nat.ltb reg 4 then
        (if Nat.ltb i named && m_float t then Vec (Z.of_nat reg) else Gp (nth reg ms_registers RAX), it, n)
        :: call_args named (S i) (S reg) mem l
      else (Slot (mem + shadow_space), it, n) :: call_args named (S i) reg (mem + 8) l
  end.

Inductive result := RVoid | RRegister (p : place) (n : Z) | RMemory.
Record ms_call := { mc_words : list (place * item * Z); mc_change : Z; mc_result : result }.

(** src/abi/microsoft.c:34-119 (ms_expr_call). More than 128 arguments overrun the
    arrays of 36-37. The register of the result has number REG_RAX, 0, in both
    files. *)
Definition expr_call (ret : mtype) (named : nat) (l : list mtype) : res ms_call :=
  if Nat.ltb 128 (length l) then Undef else
  let in_register := negb (m_void ret) && fits ret in
  let in_address := negb (m_void ret) && negb (fits ret) in
  let hidden := if in_address then [(Gp (nth 0 ms_registers RAX), Result, 8)] else [] in
  let* up := round_up_to_nearest (Z.of_nat (length l) * 8) 16 in
  let stack_sub := Z.max 32 up in
  Ok {| mc_words := hidden ++ call_args named 0 (length hidden) 0 l;
        mc_change := - stack_sub - shadow_space;
        mc_result := if in_register then RRegister (if m_float ret then Vec 0 else Gp RAX) (m_size ret)
                     else if in_address then RMemory else RVoid |}.

(** Where the callee takes a word from: a register, or memory by the distance from
    RBP. *)
Inductive source := FromGp (r : reg) | FromVec (i : Z) | FromBase (off : Z).

(** src/abi/microsoft.c:153-169: the loop over the parameters, with the bytes that
    are read. *)
Fixpoint function_args (reg : nat) (mem : Z) (l : list mtype) : list (source * Z) :=
  match l with
  | [] => []
  | t :: l =>
      let n := if fits t then m_size t else 8 in
      if Nat.ltb reg 4 then
        (if m_float t then FromVec (Z.of_nat reg) else FromGp (nth reg ms_registers RAX), n)
        :: function_args (S reg) mem l
      else (FromBase (mem + 16 + shadow_space), n) :: function_args reg (mem + 8) l
  end.

Record ms_function := {
  mf_result : option source;      (* ret_address *)
  mf_inputs : list (source * Z);
  mf_variadic : bool;
  mf_args : nat
}.
(** src/abi/microsoft.c:121-191 (ms_expr_function). REG_RCX is 2: with a floating
    type the address of the result is looked for in that vector register. *)
Definition expr_function (ret : mtype) (params : list mtype) (variadic : bool) : res ms_function :=
  if Nat.ltb 128 (length params) then Undef else
  let returns_address := negb (m_void ret) && negb (fits ret) in
  Ok {| mf_result := if returns_address
                     then Some (if m_float ret then FromVec 2 else FromGp (nth 0 ms_registers RAX)) else None;
        mf_inputs := function_args (if returns_address then 1 else 0) 0 params;
        mf_variadic := variadic;
        mf_args := length params |}.

(** src/abi/microsoft.c:193-211 (ms_expr_return): the registers that are set; the
    value itself goes to the object of the caller when it does not fit. *)
Definition expr_return (ret : mtype) : list place :=
  (if m_void ret then [] else if fits ret then [if m_float ret then Vec 0 else Gp RAX] else [])
  ++ [Gp RBX; Gp RDI; Gp RSI].

(** ** What happens to the words *)
Definition place_eqb (p q : place) : bool :=
  match p, q with
  | Gp r, Gp s => reg_eqb r s
  | Vec i, Vec j => i =? j
  | Slot a, Slot b => a =? b
  | _, _ => false
  end.
(** The word at each place; [n] bytes of it are written, the upper ones are
    nobody's. *)
Definition words := place -> Z.
Definition write (s : words) (p : place) (n v : Z) : words :=
  fun q => if place_eqb q p then s q / 256 ^ n * 256 ^ n + v mod 256 ^ n else s q.
Definition read (s : words) (p : place) (n : Z) : Z := s p mod 256 ^ n.

(** Stack stores, then registers (src/codegen/codegen.c:150-178, 137-148). *)
Fixpoint write_all (word : item -> Z) (s : words) (l : list (place * item * Z)) : words :=
  match l with
  | [] => s
  | (p, it, n) :: l => write_all word (write s p n (word it)) l
  end.

(** The call pushes the return address and the prologue RBP
    (src/codegen/codegen.c:671-675), so RBP is 16 below. *)
Definition at_source (p : source) : place :=
  match p with FromGp r => Gp r | FromVec i => Vec i | FromBase off => Slot (off - 16) end.

(** src/abi/microsoft.c:213-223 (ms_emit_function_preamble). *)
Definition preamble (f : ms_function) (s : words) : words :=
  if mf_variadic f then
    write (write (write (write s (at_source (FromBase 16)) 8 (s (Gp RCX)))
                        (at_source (FromBase 24)) 8 (s (Gp RDX)))
                 (at_source (FromBase 32)) 8 (s (Gp R_8)))
          (at_source (FromBase 40)) 8 (s (Gp R_9))
  else s.

(** src/abi/microsoft.c:225-231 (ms_emit_va_start): the distance from RBP. *)
Definition va_start (f : ms_function) : Z := Z.of_nat (mf_args f) * 8 + 16.
(** src/abi/microsoft.c:233-247 (ms_emit_va_arg): the word taken, and the list
    after it. The word is the value, or the address of what is copied. *)
Definition va_arg (s : words) (ap : Z) (t : mtype) : Z * Z :=
  let w := read s (at_source (FromBase ap)) 8 in
  (if fits t then w mod 256 ^ m_size t else w, ap + 8).
Fixpoint va_args (s : words) (ap : Z) (l : list mtype) : list Z :=
  match l with
  | [] => []
  | t :: l => let (w, next) := va_arg s ap t in w :: va_args s next l
  end.
