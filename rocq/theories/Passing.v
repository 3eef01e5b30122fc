(** Model of calls under the System V convention, from the address of each
    argument to the parameter objects of the callee: src/abi/sysv.c
    (sysv_expr_call, sysv_expr_function, sysv_expr_return) and the
    instructions src/codegen/codegen.c emits for the nodes they make.

    The nodes of one call, and those at the start of a function, are taken in
    the order in which sysv.c makes them. The scheduler keeps nodes that are
    linked by a memory state in order (src/ir/ir.c); it may move the
    others. *)
From Verif Require Import Base Bytes Common Arch X86 Codegen Frame SysV.

(** src/codegen/codegen.c:285-292 (IR_LOAD_PART_ADDRESS): [p] holds an
    address, [v] receives the bytes [off] behind it. *)
Definition codegen_load_part (p v : slot) (off : Z) : res (list instr) :=
  let* lp := scalar_to_reg p RDI in
  Ok (lp ++ [I2 (Lea W8) (MEM off RDI) (R8 RDI); I2 (Lea W8) (MEM (- s_loc v) RBP) (R8 RSI)]
         ++ codegen_memcpy (s_size v)).
(** src/codegen/codegen.c:301-307 (IR_STORE_PART_ADDRESS). *)
Definition codegen_store_part (p v : slot) (off : Z) : res (list instr) :=
  let* lp := scalar_to_reg p RSI in
  Ok (lp ++ [I2 (Lea W8) (MEM off RSI) (R8 RSI); I2 (Lea W8) (MEM (- s_loc v) RBP) (R8 RDI)]
         ++ codegen_memcpy (s_size v)).
(** src/codegen/codegen.c:167-172 (IR_STORE_STACK_RELATIVE_ADDRESS). *)
Definition codegen_store_stack (p : slot) (off size : Z) : res (list instr) :=
  let* lp := scalar_to_reg p RDI in
  Ok ([I2 (Lea W8) (MEM off RSP) (R8 RSI)] ++ lp ++ codegen_memcpy size).
(** src/codegen/codegen.c:482-487 (IR_LOAD_BASE_RELATIVE_ADDRESS). *)
Definition codegen_load_base (p : slot) (off size : Z) : res (list instr) :=
  let* lp := scalar_to_reg p RSI in
  Ok ([I2 (Lea W8) (MEM off RBP) (R8 RDI)] ++ lp ++ codegen_memcpy size).

(** src/codegen/codegen.c:139-144: one node of codegen_set_reg_chain. *)
Definition codegen_set_reg (v : slot) (p : place) : res (list instr) :=
  match p with
  | GP r => scalar_to_reg v r
  | VEC x => Ok [I2 Movs_d (MEM (- s_loc v) RBP) (XMM x)]
  end.
(** src/codegen/codegen.c:187-197: one node of codegen_get_reg_uses. *)
Definition codegen_get_reg (p : place) (v : slot) : list instr :=
  match p with
  | GP r => reg_to_scalar r v
  | VEC x => if s_size v =? 4 then [I2 Movs_s (XMM x) (MEM (- s_loc v) RBP)]
             else [I2 Movs_d (XMM x) (MEM (- s_loc v) RBP)]
  end.

(** The code of a list of nodes, one after the other. *)
Fixpoint all_code {A} (f : A -> res (list instr)) (l : list A) : res (list (list instr)) :=
  match l with
  | [] => Ok []
  | a :: l => let* c := f a in let* rest := all_code f l in Ok (c :: rest)
  end.

(** The node of a piece: its size is that of the reg_info
    (src/abi/sysv.c:228, 311), [loc] is where codegen_function put it. *)
Definition piece_slot (r : reg_info) (loc : Z) : slot := {| s_size := r_size r; s_loc := loc |}.

(** src/abi/sysv.c:224-229: the pieces of the arguments in registers are
    loaded; the hidden result address is already in its node. *)
Definition load_piece (addresses : list slot) (p : reg_info * Z) : res (list instr) :=
  match r_merged (fst p) with
  | None => Ok []
  | Some (i, pos) =>
      match nth_error addresses i with
      | Some a => codegen_load_part a (piece_slot (fst p) (snd p)) pos
      | None => Undef
      end
  end.

(** src/abi/sysv.c:231-244 and 333-344: the arguments on the stack, with
    offset and size, and the bytes they take. *)
Fixpoint stack_layout (types : list atype) (idx : list nat) (current : Z) : res (list (nat * Z * Z) * Z) :=
  match idx with
  | [] => Ok ([], current)
  | i :: idx =>
      match nth_error types i with
      | None => Undef
      | Some t =>
          let* up := round_up_to_nearest (a_size t) 8 in
          let* next := add_int current up in
          let* (l, total) := stack_layout types idx next in
          Ok ((i, current, a_size t) :: l, total)
      end
  end.
Definition store_argument (addresses : list slot) (a : nat * Z * Z) : res (list instr) :=
  let '(i, off, size) := a in
  match nth_error addresses i with Some p => codegen_store_stack p off size | None => Undef end.

(** The nodes of a call: arg_addresses, the places of reg_variables (one for
    each register of the convention), rax_constant and callee_var. *)
Record call_site := {
  k_addresses : list slot;
  k_pieces : list Z;
  k_rax : slot;
  k_callee : slot
}.

(** src/abi/sysv.c:224-254 with src/codegen/codegen.c:150-178
    (codegen_call_stack_chain), 137-148 (codegen_set_reg_chain, which starts
    from the last register set) and 32-35 (codegen_call, up to the call
    instruction); also the bytes taken off the stack pointer. *)
Definition call_sequence (types : list atype) (c : call_info) (k : call_site) : res (list instr * Z) :=
  let* loads := all_code (load_piece (k_addresses k)) (combine (c_regs c) (k_pieces k)) in
  let* (layout, total) := stack_layout types (c_stack c) 0 in
  let* sub := round_up_to_nearest total 16 in
  let* stores := all_code (store_argument (k_addresses k)) (rev layout) in
  let* rax := codegen_set_reg (k_rax k) (GP RAX) in
  let* sets := all_code (fun p => codegen_set_reg (piece_slot (fst p) (snd p)) (r_place (fst p)))
                        (rev (combine (c_regs c) (k_pieces k))) in
  let* callee := scalar_to_reg (k_callee k) RBX in
  Ok (concat loads ++ [I2 (Add W8) (IMM (- sub)) (R8 RSP)] ++ concat stores ++ rax ++ concat sets ++ callee, sub).

(** What the call instruction does to the machine before the first
    instruction of the callee: the return address is pushed. *)
Definition push_return (ret : Z) (s : machine) : machine :=
  set_mem (set_gpr s RSP (gpr s RSP - 8)) (store (mem s) (gpr s RSP - 8) 8 ret).

(** src/codegen/codegen.c:263-266: after the call, "addq" of the same change
    as before it, then the result registers. *)
Definition after_call (sub : Z) (results : list (place * slot)) : list instr :=
  I2 (Add W8) (IMM (- sub)) (R8 RSP) :: concat (map (fun p => codegen_get_reg (fst p) (snd p)) results).

(** src/abi/sysv.c:407-413 (sysv_emit_function_preamble). *)
Definition save_registers (position : Z) : list instr :=
  [I2 (Mov W8) (R8 RDI) (MEM (0 - position) RBP); I2 (Mov W8) (R8 RSI) (MEM (8 - position) RBP);
   I2 (Mov W8) (R8 RDX) (MEM (16 - position) RBP); I2 (Mov W8) (R8 RCX) (MEM (24 - position) RBP);
   I2 (Mov W8) (R8 R_8) (MEM (32 - position) RBP); I2 (Mov W8) (R8 R_9) (MEM (40 - position) RBP)].
(** src/codegen/codegen.c:687-688. *)
Definition zero_vla_slots (fr : frame) : list instr :=
  map (fun i => I2 (Mov W8) (IMM 0) (MEM (- fr_vla_offset fr + Z.of_nat i * 8) RBP)) (seq 0 (Z.to_nat (fr_vlas fr))).

(** The nodes at the start of a function: rbx_store, the places of
    reg_variables, and for each parameter the node that holds its address
    with the place of the object (alloc.stack_location). *)
Record function_nodes := {
  n_rbx : Z;
  n_pieces : list Z;
  n_params : list (slot * Z)
}.

(** src/abi/sysv.c:346-353: the pieces are put together in the parameter. *)
Definition store_piece (params : list (slot * Z)) (p : reg_info * Z) : res (list instr) :=
  match r_merged (fst p) with
  | None => Ok []
  | Some (i, pos) =>
      match nth_error params i with
      | Some (a, _) => codegen_store_part a (piece_slot (fst p) (snd p)) pos
      | None => Undef
      end
  end.
(** src/abi/sysv.c:335-344. *)
Definition load_argument (params : list (slot * Z)) (a : nat * Z * Z) : res (list instr) :=
  let '(i, off, size) := a in
  match nth_error params i with Some (p, _) => codegen_load_base p (off + 16) size | None => Undef end.

(** src/codegen/codegen.c:671-692 and the nodes of src/abi/sysv.c:308-353. *)
Definition function_entry (types : list atype) (variadic : bool) (c : call_info) (fr : frame) (n : function_nodes)
  : res (list instr) :=
  let* preamble := if variadic then match fr_preamble fr with Some p => Ok (save_registers p) | None => Undef end
                   else Ok [] in
  let gets := codegen_get_reg (GP RBX) {| s_size := 8; s_loc := n_rbx n |}
              :: map (fun p => codegen_get_reg (r_place (fst p)) (piece_slot (fst p) (snd p)))
                     (combine (c_regs c) (n_pieces n)) in
  let allocs := map (fun p => codegen_alloc (snd p) (fst p)) (n_params n) in
  let* (layout, _) := stack_layout types (c_stack c) 0 in
  let* loads := all_code (load_argument (n_params n)) layout in
  let* stores := all_code (store_piece (n_params n)) (combine (c_regs c) (n_pieces n)) in
  Ok (prologue fr ++ preamble ++ zero_vla_slots fr ++ concat gets ++ concat allocs ++ concat loads ++ concat stores).
