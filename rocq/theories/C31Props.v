(** C31: dividing unsigned values. *)
From Verif Require Import Base Bytes Arch CTypesSpec ConstFold ConstFoldSpec X86 Codegen AsmSpec OpSelect
  X86Proofs CodegenProofs AsmIntProofs AsmOpProofs C30Props C34Props.

(** The signed type of the same width. *)
Definition signed_twin (t : simple_type) : simple_type :=
  match t with ST_UINT => ST_INT | ST_ULONG => ST_LONG | ST_ULLONG => ST_LLONG | other => other end.

(** When both operands are below 2^(width - 1) the code yields the unsigned
    quotient. *)
Theorem C31_small_operands_partial : forall F m t va vb s a b out_loc,
  arithmetic_int m t -> spec_signed t = false ->
  machine_ok s -> s_size a = spec_width m t / 8 -> s_size b = spec_width m t / 8 ->
  let out := {| s_size := spec_width m t / 8; s_loc := out_loc |} in
  in_memory s a -> in_memory s b -> in_memory s out ->
  0 <= va < 2 ^ (spec_width m t - 1) -> 0 < vb < 2 ^ (spec_width m t - 1) ->
  holds_value s a va -> holds_value s b vb ->
  exists code s', compile_binary (KSimple t) OP_DIV a b out_loc = Ok code /\ exec_all F code s = Ok s' /\
    holds_value s' out (va / vb) /\ only_changes s s' (slot_address s out) (s_size out) /\ keeps_frame s s'.
Proof.
  intros F m t va vb s a b out_loc A U OK SA SB out IA IB IO RA RB HA HB.
  assert (T : arithmetic_int m (signed_twin t) /\ spec_signed (signed_twin t) = true /\
              spec_width m (signed_twin t) = spec_width m t /\
              compile_binary (KSimple t) OP_DIV a b out_loc = compile_binary (KSimple (signed_twin t)) OP_DIV a b out_loc).
  { destruct A as [I W]. clear - I W U. unfold arithmetic_int, integer_type.
    repeat (destruct I as [<-|I]; [try discriminate U; try (destruct W; discriminate);
      cbn [signed_twin]; (split; [split; [simpl; tauto|exact W]|]); (split; [reflexivity|]);
      (split; [reflexivity|]); reflexivity|]).
    destruct I. }
  destruct T as (A' & S' & W' & SEL).
  assert (Q : 0 <= va / vb <= va).
  { split; [apply Z.div_pos; lia|]. apply Z.div_le_upper_bound; nia. }
  destruct (C30_operators_partial F m (signed_twin t) OP_DIV va vb (va / vb) s a b out_loc) as (code & s' & E);
    auto; try congruence.
  - rewrite W'. exact IO.
  - unfold representable, spec_min, spec_max. rewrite S', W'. lia.
  - unfold representable, spec_min, spec_max. rewrite S', W'. lia.
  - unfold c_binop, math_binop. destruct (Z.eqb_spec vb 0); [lia|]. unfold fit, spec_min, spec_max. rewrite S', W'.
    rewrite Z.quot_div_nonneg by lia.
    destruct (Z.leb_spec (- 2 ^ (spec_width m t - 1)) (va / vb)); [|lia].
    destruct (Z.leb_spec (va / vb) (2 ^ (spec_width m t - 1) - 1)); [reflexivity|lia].
  - exists code, s'. rewrite SEL. rewrite W' in E. exact E.
Qed.
Print Assumptions C31_small_operands_partial.

(** 4294967295u / 2u: the code divides -1 by 2 and yields 0. *)
Definition uint_machine : machine :=
  {| gpr := fun r => match r with RBP => 4096 | RSP => 4000 | _ => 0 end;
     xmm := fun _ => 0; flag := None;
     mem := store (store (fun _ => 0) 4092 4 4294967295) 4088 4 2 |}.

Theorem C31_unsigned_quotient_refuted :
  machine_ok uint_machine /\ holds_value uint_machine slot_a 4294967295 /\ holds_value uint_machine slot_b 2 /\
  c_binop SYSV ST_UINT OP_DIV 4294967295 2 = Some 2147483647 /\
  match compile_binary (KSimple ST_UINT) OP_DIV slot_a slot_b 12 with
  | Ok code => match exec_all no_fpu code uint_machine with
               | Ok s' => holds_value s' {| s_size := 4; s_loc := 12 |} 0
               | _ => False
               end
  | _ => False
  end.
Proof.
  split.
  { split; [|split].
    - intros []; cbn; lia.
    - intros x; cbn; lia.
    - intros x. cbn [uint_machine mem]. apply store_bytes. apply store_bytes. intros; lia. }
  split; [vm_compute; reflexivity|]. split; [vm_compute; reflexivity|]. split; [vm_compute; reflexivity|].
  vm_compute. reflexivity.
Qed.
Print Assumptions C31_unsigned_quotient_refuted.

(** 2147483648u / 4294967295u (quotient 0 in C) raises a divide exception. *)
Definition trap_machine : machine :=
  {| gpr := fun r => match r with RBP => 4096 | RSP => 4000 | _ => 0 end;
     xmm := fun _ => 0; flag := None;
     mem := store (store (fun _ => 0) 4092 4 2147483648) 4088 4 4294967295 |}.
Theorem C31_unsigned_division_traps_refuted :
  holds_value trap_machine slot_a 2147483648 /\ holds_value trap_machine slot_b 4294967295 /\
  c_binop SYSV ST_UINT OP_DIV 2147483648 4294967295 = Some 0 /\
  match compile_binary (KSimple ST_UINT) OP_DIV slot_a slot_b 12 with
  | Ok code => exec_all no_fpu code trap_machine = Undef
  | _ => False
  end.
Proof.
  split; [vm_compute; reflexivity|]. split; [vm_compute; reflexivity|]. split; [vm_compute; reflexivity|].
  vm_compute. reflexivity.
Qed.
Print Assumptions C31_unsigned_division_traps_refuted.

(** Unsigned remainder is right for all operands (it is part of C30). *)
Example C31_remainder_selected : exists o, ir_from_type_and_op (KSimple ST_UINT) OP_MOD = Ok o /\ ir_binary_op o = IR_MOD.
Proof. exists IR_MOD. split; reflexivity. Qed.
