(** Specification: a function between its entry and a return statement. *)
From Verif Require Import Base Bytes Common Arch X86 Codegen AsmSpec Frame FrameSpec SysV Passing PassingSpec Returning.

(** [s1] is the machine at the call instruction, [sb] the one before the
    return statement: whatever the body did, it kept the frame pointer, the
    two words above the frame (the caller's frame pointer and the return
    address), and the node that keeps rbx. *)
Record in_function (F : fpu) (ret : atype) (types : list atype) (variadic : bool) (c : call_info) (l : list frame_ins)
       (preamble : Z) (fr : frame) (n : function_nodes) (back : Z) (s1 sb : machine) : Prop := {
  if_convention : get_calling_convention ret types = Ok c;
  if_sizes : Forall (fun t => 0 < a_size t) types;
  if_vector : forall r x, In r (c_regs c) -> r_place r = VEC x -> r_size r = 4 \/ r_size r = 8;
  if_placed : exists rbx pieces params, placed l preamble types c fr n rbx pieces params;
  if_align : fr_align fr <= 16;
  if_variadic : variadic = true -> preamble = 304;
  if_ok : machine_ok s1;
  if_back : 0 <= back < 2 ^ 64;
  if_small : argument_bytes types < 2 ^ 31;
  if_room : fr_sub fr + 40 <= gpr s1 RSP;
  if_top : gpr s1 RSP + argument_bytes types <= 2 ^ 64;
  if_body : exists entry s2, function_entry types variadic c fr n = Ok entry /\
    exec_all F entry (push_return back s1) = Ok s2 /\
    machine_ok sb /\ gpr sb RBP = gpr s2 RBP /\
    (forall x, gpr s2 RBP <= x < gpr s2 RBP + 16 -> mem sb x = mem s2 x) /\
    (forall x, in_slot s2 (eight (n_rbx n)) x -> mem sb x = mem s2 x)
}.

(** An object at [a] which is returned in two registers: the nodes of the
    parts are different nodes, and apart from the object, its address, the
    node that keeps rbx and the words above the frame. *)
Record parts_ready (sb : machine) (n : function_nodes) (q : return_nodes) (a : Z) : Prop := {
  pr_address : holds_address sb (q_value q) a;
  pr_object : a + 16 <= 2 ^ 64;
  pr_memory : in_memory sb (eight (q_part0 q)) /\ in_memory sb (eight (q_part1 q));
  pr_distinct : forall x, in_slot sb (eight (q_part0 q)) x -> in_slot sb (eight (q_part1 q)) x -> False;
  pr_apart : forall x, in_slot sb (eight (q_part0 q)) x \/ in_slot sb (eight (q_part1 q)) x ->
    ~ a <= x < a + 16 /\ ~ in_slot sb (q_value q) x /\ ~ in_slot sb (eight (n_rbx n)) x /\
    ~ gpr sb RBP <= x < gpr sb RBP + 16
}.

(** The nodes of the caller for it: [o] is the address of the object which is
    allocated for the result. *)
Record object_ready (s1 : machine) (v : result_nodes) (g0 g1 o : Z) : Prop := {
  or_regs : v_regs v = [g0; g1];
  or_object : o = gpr s1 RBP - v_object v /\ 0 <= o /\ o + 16 <= 2 ^ 64;
  or_out : s_size (v_out v) = 8;
  or_memory : in_memory s1 (eight g0) /\ in_memory s1 (eight g1) /\ in_memory s1 (v_out v);
  or_g0 : forall x, in_slot s1 (eight g0) x -> ~ in_slot s1 (eight g1) x /\ ~ in_slot s1 (v_out v) x /\ ~ o <= x < o + 16;
  or_g1 : forall x, in_slot s1 (eight g1) x -> ~ in_slot s1 (v_out v) x /\ ~ o <= x < o + 16;
  or_apart : forall x, in_slot s1 (v_out v) x -> ~ o <= x < o + 16
}.
