(** Model of results under the System V convention: the code of a return
    statement (src/abi/sysv.c:366-399, src/codegen/codegen.c:137-148 and
    551-558) and what the caller does after the call
    (src/abi/sysv.c:256-287). *)
From Verif Require Import Base Bytes Common Arch X86 Codegen Frame SysV Passing.

(** The nodes of a return: the value, or its address if it is an object of
    two eightbytes or is returned in memory; the parts made by
    split_variable; abi_data.ret_address; rbx_store. *)
Record return_nodes := {
  q_value : slot;
  q_part0 : Z;
  q_part1 : Z;
  q_address : slot;
  q_rbx : Z
}.

Definition eight (loc : Z) : slot := {| s_size := 8; s_loc := loc |}.

(** src/abi/sysv.c:375-398 (sysv_expr_return), with split_variable
    (src/abi/sysv.c:190-193): the code before the registers are set, and the
    registers in the order of ir_set_reg, rbx not included. [None]: no value. *)
Definition return_value (t : option atype) (q : return_nodes) : res (list instr * list (slot * place)) :=
  match t with
  | None => Ok ([], [])
  | Some t =>
      let* classes := classify t in
      match classes with
      | [CLASS_MEMORY] =>
          let* copy := codegen_copy_memory (q_address q) (q_value q) (a_size t) in Ok (copy, [])
      | [CLASS_INTEGER] => Ok ([], [(q_value q, GP RAX)])
      | [CLASS_INTEGER; _] =>
          let* p0 := codegen_load_part (q_value q) (eight (q_part0 q)) 0 in
          let* p1 := codegen_load_part (q_value q) (eight (q_part1 q)) 8 in
          Ok (p0 ++ p1, [(eight (q_part0 q), GP RAX); (eight (q_part1 q), GP RDX)])
      | [CLASS_SSE] => Ok ([], [(q_value q, VEC 0)])
      | _ => Fail
      end
  end.

(** src/codegen/codegen.c:551-558, up to the ret instruction; the last
    register set, rbx, comes first. *)
Definition return_sequence (t : option atype) (fr : frame) (q : return_nodes) : res (list instr) :=
  let* (before, sets) := return_value t q in
  let* set_codes := all_code (fun p => codegen_set_reg (fst p) (snd p)) ((eight (q_rbx q), GP RBX) :: rev sets) in
  Ok (before ++ concat set_codes ++ epilogue fr).

(** The ret instruction as the caller sees it: the return address is popped. *)
Definition pop_return (s : machine) : machine := set_gpr s RSP (gpr s RSP + 8).

(** The nodes of a result: one for each register, and then either the
    variable, or the allocated object with the node of its address. *)
Record result_nodes := {
  v_regs : list Z;
  v_out : slot;
  v_object : Z
}.

(** src/abi/sysv.c:256-287 after the call and the change of the stack pointer;
    [size] is calculate_size(return_type). *)
Definition receive_result (c : call_info) (sub size : Z) (v : result_nodes) : res (list instr) :=
  let gets := map (fun p => (r_place (fst p), piece_slot (fst p) (snd p))) (combine (c_ret_regs c) (v_regs v)) in
  let* rest :=
    if c_returns_address c then Ok []
    else match v_regs v with
         | [g0] => codegen_int_cast_zero (eight g0) {| s_size := size; s_loc := s_loc (v_out v) |}
         | [g0; g1] =>
             let* st0 := codegen_store_part (v_out v) (eight g0) 0 in
             let* st1 := codegen_store_part (v_out v) (eight g1) 8 in
             Ok (codegen_alloc (v_object v) (v_out v) ++ st0 ++ st1)
         | _ => Ok []
         end in
  Ok (after_call sub gets ++ rest).
