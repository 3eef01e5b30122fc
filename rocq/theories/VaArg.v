(** Model of va_start and va_arg under the System V convention
    (src/abi/sysv.c:416-506). *)
From Verif Require Import Base Bytes Common Arch X86 Codegen Frame SysV Passing.

(** src/abi/sysv.c:543-576: the fields of __builtin_va_list, an array of one
    struct of two unsigned int and two pointers. *)
Definition gp_offset_offset : Z := 0.
Definition fp_offset_offset : Z := 4.
Definition overflow_arg_area_offset : Z := 8.
Definition reg_save_area_offset : Z := 16.

(** src/abi/sysv.c:416-431 (sysv_emit_va_start); [gp_offset] and
    [overflow_position] are those of abi_data, [position] is
    codegen_get_alloc_preamble. *)
Definition emit_va_start (result : slot) (gp_offset overflow_position position : Z) : res (list instr) :=
  let* r := scalar_to_reg result RAX in
  Ok (r ++
      [I2 (Mov W4) (IMM gp_offset) (MEM gp_offset_offset RAX);
       I2 (Mov W4) (IMM 0) (MEM fp_offset_offset RAX);
       I2 (Lea W8) (MEM overflow_position RBP) (R8 RDI);
       I2 (Mov W8) (R8 RDI) (MEM overflow_arg_area_offset RAX);
       I2 (Lea W8) (MEM (- position) RBP) (R8 RDI);
       I2 (Mov W8) (R8 RDI) (MEM reg_save_area_offset RAX)]).

(** src/abi/sysv.c:356-361: the values of abi_data at the end of
    sysv_expr_function. *)
Definition variadic_data (types : list atype) (c : call_info) : res (Z * Z) :=
  let* (_, total) := stack_layout types (c_stack c) 0 in
  let* overflow := add_int total 16 in
  Ok (c_gp_offset c, overflow).

(** Code with jumps to labels further down. The labels are fresh
    (register_label); here they are numbered within one va_arg. *)
Inductive item :=
| Ins (i : instr)
| Jcc (c : cond) (l : nat)
| Jmp (l : nat)
| Lbl (l : nat).

(** Running it; [skip] is the label that is looked for. *)
Fixpoint run (F : fpu) (code : list item) (skip : option nat) (s : machine) : res machine :=
  match code with
  | [] => match skip with None => Ok s | Some _ => Fail end
  | Lbl l :: code =>
      match skip with
      | Some m => run F code (if Nat.eqb m l then None else skip) s
      | None => run F code None s
      end
  | Ins i :: code =>
      match skip with
      | Some _ => run F code skip s
      | None => let* s := exec F i s in run F code None s
      end
  | Jmp l :: code =>
      match skip with Some _ => run F code skip s | None => run F code (Some l) s end
  | Jcc c l :: code =>
      match skip with
      | Some _ => run F code skip s
      | None =>
          match flag s with
          | Some f => run F code (if holds c f then Some l else None) s
          | None => Undef
          end
      end
  end.

(** src/abi/sysv.c:450-456: num_gp. *)
Fixpoint num_gp (classes : list parameter_class) : res Z :=
  match classes with
  | [] => Ok 0
  | c :: l => if class_eqb c CLASS_INTEGER then let* n := num_gp l in Ok (n + 1) else Fail
  end.

(** src/abi/sysv.c:433-506 (sysv_emit_va_arg). Without classes, classes[0] is
    read uninitialised. *)
Definition emit_va_arg (address va_list : slot) (t : atype) : res (list item) :=
  let* classes := classify t in
  let* l := scalar_to_reg va_list RDI in
  let* from_registers :=
    match classes with
    | [] => Undef
    | c0 :: _ =>
        if class_eqb c0 CLASS_MEMORY then Ok []
        else
          let* n := num_gp classes in
          Ok [Ins (I2 (Mov W4) (MEM gp_offset_offset RDI) (R4 RAX));
              Ins (I2 (Cmp W4) (IMM (48 - 8 * n)) (R4 RAX));
              Jcc CA 0;
              Ins (I2 (Lea W4) (MEM (n * 8) RAX) (R4 RDX));
              Ins (I2 (Add W8) (MEM reg_save_area_offset RDI) (R8 RAX));
              Ins (I2 (Mov W4) (R4 RDX) (MEM gp_offset_offset RDI));
              Jmp 1]
    end in
  let* up := round_up_to_nearest (a_size t) 8 in
  let* la := scalar_to_reg address RSI in
  Ok (map Ins l ++ from_registers ++
      [Lbl 0;
       Ins (I2 (Mov W8) (MEM overflow_arg_area_offset RDI) (R8 RAX));
       Ins (I2 (Lea W8) (MEM up RAX) (R8 RDX));
       Ins (I2 (Mov W8) (R8 RDX) (MEM overflow_arg_area_offset RDI));
       Lbl 1;
       Ins (I2 (Mov W8) (R8 RAX) (R8 RDI))] ++ map Ins la ++ map Ins (codegen_memcpy (a_size t))).
