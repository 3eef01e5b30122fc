(** Specification: what a call and the start of a function may rely on. *)
From Verif Require Import Base Bytes Common Arch X86 Codegen AsmSpec Frame FrameSpec SysV Passing.

(** The bytes of a slot. *)
Definition in_slot (s : machine) (v : slot) (x : Z) : Prop := slot_address s v <= x < slot_address s v + s_size v.
(** The slot with eight readable bytes. *)
Definition readable (s : machine) (v : slot) : Prop := 0 <= slot_address s v /\ slot_address s v + 8 <= 2 ^ 64.
(** The slot is a pointer to [a]. *)
Definition holds_address (s : machine) (p : slot) (a : Z) : Prop :=
  s_size p = 8 /\ in_memory s p /\ slot_bits s p = a.

(** An upper bound of the bytes which the arguments can take on the stack. *)
Definition argument_bytes (types : list atype) : Z := fold_right (fun t n => a_size t + 8 + n) 0 types.

(** ** Hypotheses about a call *)

(** The bytes which the code of a call may write: the nodes of the pieces,
    and [room] bytes below the stack pointer, which the callee may use. *)
Definition scratch (s : machine) (c : call_info) (k : call_site) (room x : Z) : Prop :=
  (exists r loc, In (r, loc) (combine (c_regs c) (k_pieces k)) /\ r_merged r <> None /\ in_slot s (piece_slot r loc) x) \/
  gpr s RSP - room <= x < gpr s RSP.

(** [args] are the addresses of the argument objects. *)
Record call_ready (s : machine) (types : list atype) (c : call_info) (k : call_site) (args : list Z) (room : Z) : Prop := {
  cr_ok : machine_ok s;
  cr_args : length args = length types;
  cr_pieces : length (k_pieces k) = length (c_regs c);
  (** every address node holds the address of its argument *)
  cr_addresses : Forall2 (holds_address s) (k_addresses k) args;
  cr_address_safe : forall p x, In p (k_addresses k) -> in_slot s p x -> ~ scratch s c k room x;
  (** the argument objects are in memory and not in the way *)
  cr_objects : forall i t a, nth_error types i = Some t -> nth_error args i = Some a ->
    a + a_size t <= 2 ^ 64 /\ forall x, a <= x < a + a_size t -> ~ scratch s c k room x;
  (** the nodes of the pieces are different nodes of the caller's frame *)
  cr_slots : forall r loc, In (r, loc) (combine (c_regs c) (k_pieces k)) -> readable s (piece_slot r loc) /\
    forall x, in_slot s (piece_slot r loc) x -> ~ gpr s RSP - room <= x < gpr s RSP;
  cr_distinct : ForallOrdPairs (fun a b => forall x, in_slot s (piece_slot (fst a) (snd a)) x ->
    in_slot s (piece_slot (fst b) (snd b)) x -> False) (combine (c_regs c) (k_pieces k));
  (** so are those of the callee's address and of the number for rax *)
  cr_callee : s_size (k_callee k) = 8 /\ readable s (k_callee k) /\
    forall x, in_slot s (k_callee k) x -> ~ scratch s c k room x;
  cr_rax : s_size (k_rax k) = 8 /\ readable s (k_rax k) /\ forall x, in_slot s (k_rax k) x -> ~ scratch s c k room x;
  (** and there is room on the stack *)
  cr_room : argument_bytes types + 16 <= room <= gpr s RSP;
  cr_small : argument_bytes types + 16 < 2 ^ 31
}.

(** ** Hypotheses about a function *)

(** The nodes at the start of the function are instructions of its list,
    each of them another: the one that keeps rbx, those that receive the
    registers, and the allocations of the parameters. *)
Record placed (l : list frame_ins) (preamble : Z) (types : list atype) (c : call_info) (fr : frame) (n : function_nodes)
       (rbx : nat) (pieces params : list nat) : Prop := {
  pl_requests : Forall request_ok l;
  pl_preamble : 0 <= preamble;
  pl_frame : allocate_frame l preamble = Ok fr;
  pl_nodup : NoDup (rbx :: pieces ++ params);
  pl_rbx : region l preamble fr (Slot rbx) (n_rbx n) 8;
  pl_len : length (n_pieces n) = length (c_regs c) /\ length (n_params n) = length types;
  pl_pieces : Forall2 (fun i q => region l preamble fr (Slot i) (snd q) (r_size (fst q))) pieces (combine (c_regs c) (n_pieces n));
  pl_params : Forall2 (fun i q => s_size (fst (snd q)) = 8 /\ region l preamble fr (Slot i) (s_loc (fst (snd q))) 8 /\
    region l preamble fr (Object i) (snd (snd q)) (a_size (fst q))) params (combine types (n_params n))
}.
