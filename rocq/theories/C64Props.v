(** C64: storing the result of a comparison in an int object. *)
From Verif Require Import Base Bytes Arch CTypesSpec ConstFold ConstFoldSpec X86 Codegen AsmSpec OpSelect
  X86Proofs X86Preserve CodegenProofs AsmIntProofs AsmOpProofs C30Props C34Props.

(** src/parser/expression_to_ir.c:432-445 and 482-493 (evaluate_assignment),
    173-190 (assign_to_ee, EE_POINTER): [*p = a op b], an int object at [*p].
    The comparison has type int, so evaluated_expression_cast (:154-156) adds
    no conversion and ir_store copies the node, whose size is its left
    operand's. *)
Definition compile_compare_assign (k : operand_kind) (op : operator_type) (a b : slot) (out_loc : Z) (p : slot) :
  res (list instr) :=
  let* cmp := compile_binary k op a b out_loc in
  let* st := codegen_store p {| s_size := ir_binary_op_size (s_size a); s_loc := out_loc |} in
  Ok (cmp ++ st).

Definition comparison (op : operator_type) : bool :=
  match op with
  | OP_LESS | OP_GREATER | OP_LESS_EQ | OP_GREATER_EQ | OP_EQUAL | OP_NOT_EQUAL => true
  | _ => false
  end.

Lemma comparison_value m t op va vb v :
  arithmetic_int m t -> comparison op = true -> c_binop m t op va vb = Some v -> v = 0 \/ v = 1.
Proof.
  intros [_ W] C. unfold c_binop.
  assert (B : exists r, math_binop m t op va vb = Some r /\ (r = 0 \/ r = 1)).
  { destruct op; try discriminate C; (eexists; split; [reflexivity|]);
      match goal with |- context [if ?c then _ else _] => destruct c end; tauto. }
  destruct B as (r & -> & R). unfold fit. destruct (spec_signed t).
  - destruct (_ && _); [|discriminate]. intros E; inversion E; subst; exact R.
  - intros E; inversion E. destruct W as [-> | ->]; destruct R as [-> | ->]; vm_compute; tauto.
Qed.

(** What the code does at either width: the object's [width] bytes get the
    result. *)
Lemma assigned F m t op va vb v s a b out_loc p :
  arithmetic_int m t -> comparison op = true ->
  machine_ok s -> s_size a = spec_width m t / 8 -> s_size b = spec_width m t / 8 -> s_size p = 8 ->
  let out := {| s_size := spec_width m t / 8; s_loc := out_loc |} in
  in_memory s a -> in_memory s b -> in_memory s out -> in_memory s p ->
  (slot_address s p + 8 <= slot_address s out \/ slot_address s out + s_size out <= slot_address s p) ->
  let object := slot_bits s p in
  object + s_size out <= 2 ^ 64 ->
  object + s_size out <= slot_address s out \/ slot_address s out + s_size out <= object ->
  representable m t va -> representable m t vb -> holds_value s a va -> holds_value s b vb ->
  c_binop m t op va vb = Some v ->
  exists code s', compile_compare_assign (KSimple t) op a b out_loc p = Ok code /\ exec_all F code s = Ok s' /\
    load (mem s') object (Z.to_nat (spec_width m t / 8)) = v /\
    (forall x, ~ object <= x < object + s_size out -> ~ slot_address s out <= x < slot_address s out + s_size out ->
       mem s' x = mem s x) /\ keeps_frame s s'.
Proof.
  intros A C OK SA SB SP out IA IB IO IP DP object OB DO RA RB HA HB CV.
  destruct (C30_operators_partial F m t op va vb v s a b out_loc) as (c1 & s1 & E1 & X1 & V1 & O1 & K1); auto.
  { intros ->. discriminate C. }
  fold out in V1, O1.
  assert (OK1 : machine_ok s1) by (eapply exec_all_preserves; eauto).
  assert (SZ : 0 < s_size out <= 8) by (cbn [out s_size]; destruct A as [_ [-> | ->]]; vm_compute; split; congruence).
  assert (AD : forall sc, slot_address s1 sc = slot_address s sc) by (intros; unfold slot_address; rewrite (proj1 K1); reflexivity).
  assert (PB : slot_bits s1 p = object).
  { unfold object, slot_bits. rewrite AD. apply load_ext. intros x X. apply O1. rewrite Z2Nat.id in X by lia. lia. }
  assert (IP1 : in_memory s1 p) by (unfold in_memory; rewrite AD; exact IP).
  assert (IO1 : in_memory s1 out) by (unfold in_memory; rewrite AD; exact IO).
  destruct (C34_store F s1 p out OK1 IP1 IO1 SP ltac:(lia)) as (c2 & s2 & E2 & X2 & V2 & O2 & K2).
  - rewrite PB. exact OB.
  - rewrite PB, AD. tauto.
  - unfold compile_compare_assign. rewrite E1. cbn [bind]. unfold ir_binary_op_size. rewrite SA. fold out. rewrite E2. cbn [bind].
    eexists _, s2. split; [reflexivity|]. rewrite exec_all_app, X1. cbn [bind]. split; [exact X2|].
    rewrite PB in V2, O2. split; [|split].
    + assert (L : load (mem s2) object (Z.to_nat (spec_width m t / 8)) = slot_bits s1 out).
      { unfold slot_bits. cbn [out s_size]. clear - V2 SZ. cbn [out s_size] in V2, SZ.
        set (n := spec_width m t / 8) in *.
        set (m2 := mem s2) in *. set (m1 := mem s1) in *. set (q := slot_address s1 out) in *. clearbody m1 m2 q.
        assert (G : forall k j, (k + j = Z.to_nat n)%nat -> load m2 (object + Z.of_nat j) k = load m1 (q + Z.of_nat j) k).
        { induction k; intros j J; [reflexivity|]. cbn [load]. rewrite V2 by lia. f_equal.
          specialize (IHk (S j) ltac:(lia)). rewrite Nat2Z.inj_succ in IHk.
          replace (object + Z.of_nat j + 1) with (object + Z.succ (Z.of_nat j)) by lia.
          replace (q + Z.of_nat j + 1) with (q + Z.succ (Z.of_nat j)) by lia. rewrite IHk. reflexivity. }
        specialize (G (Z.to_nat n) 0%nat ltac:(lia)). cbn [Z.of_nat] in G. rewrite !Z.add_0_r in G. exact G. }
      rewrite L. unfold holds_value in V1. rewrite V1. apply Z.mod_small.
      assert (BV : v = 0 \/ v = 1) by (eapply comparison_value; eauto).
      assert (2 ^ 8 <= 2 ^ (8 * s_size out)) by (apply Z.pow_le_mono_r; lia). change (2 ^ 8) with 256 in H. lia.
    + intros x X Y. rewrite O2 by exact X. apply O1. exact Y.
    + destruct K1, K2. split; congruence.
Qed.

(** Operands of four bytes: the int object gets the result and no other object
    changes.  Missing: operands of eight bytes. *)
Theorem C64_four_byte_operands_partial : forall F m t op va vb v s a b out_loc p,
  arithmetic_int m t -> spec_width m t = 32 -> comparison op = true ->
  machine_ok s -> s_size a = 4 -> s_size b = 4 -> s_size p = 8 ->
  let out := {| s_size := 4; s_loc := out_loc |} in
  in_memory s a -> in_memory s b -> in_memory s out -> in_memory s p ->
  (slot_address s p + 8 <= slot_address s out \/ slot_address s out + 4 <= slot_address s p) ->
  let object := slot_bits s p in
  object + 4 <= 2 ^ 64 ->
  object + 4 <= slot_address s out \/ slot_address s out + 4 <= object ->
  representable m t va -> representable m t vb -> holds_value s a va -> holds_value s b vb ->
  c_binop m t op va vb = Some v ->
  exists code s', compile_compare_assign (KSimple t) op a b out_loc p = Ok code /\ exec_all F code s = Ok s' /\
    load (mem s') object 4 = v /\
    (forall x, ~ object <= x < object + 4 -> ~ slot_address s out <= x < slot_address s out + 4 -> mem s' x = mem s x) /\
    keeps_frame s s'.
Proof.
  intros F m t op va vb v s a b out_loc p A W. intros.
  pose proof (assigned F m t op va vb v s a b out_loc p A) as L. rewrite W in L. change (32 / 8) with 4 in L.
  apply L; auto.
Qed.
Print Assumptions C64_four_byte_operands_partial.

(** Operands of eight bytes: the four bytes after the int object are cleared,
    for all operands, objects and addresses. *)
Theorem C64_eight_byte_operands_refuted : forall F m t op va vb v s a b out_loc p,
  arithmetic_int m t -> spec_width m t = 64 -> comparison op = true ->
  machine_ok s -> s_size a = 8 -> s_size b = 8 -> s_size p = 8 ->
  let out := {| s_size := 8; s_loc := out_loc |} in
  in_memory s a -> in_memory s b -> in_memory s out -> in_memory s p ->
  (slot_address s p + 8 <= slot_address s out \/ slot_address s out + 8 <= slot_address s p) ->
  let object := slot_bits s p in
  object + 8 <= 2 ^ 64 ->
  object + 8 <= slot_address s out \/ slot_address s out + 8 <= object ->
  representable m t va -> representable m t vb -> holds_value s a va -> holds_value s b vb ->
  c_binop m t op va vb = Some v ->
  exists code s', compile_compare_assign (KSimple t) op a b out_loc p = Ok code /\ exec_all F code s = Ok s' /\
    load (mem s') (object + 4) 4 = 0.
Proof.
  intros F m t op va vb v s a b out_loc p A W C OK SA SB SP out IA IB IO IP DP object OB DO RA RB HA HB CV.
  pose proof (assigned F m t op va vb v s a b out_loc p A C OK) as L. rewrite W in L. change (64 / 8) with 8 in L.
  destruct L as (code & s' & E & X & V & _ & _); auto.
  exists code, s'. split; [exact E|]. split; [exact X|].
  assert (OK' : machine_ok s') by (eapply exec_all_preserves; eauto).
  assert (BV : v = 0 \/ v = 1) by (eapply comparison_value; eauto).
  destruct OK' as (_ & _ & M). fold object in V. change (Z.to_nat 8) with 8%nat in V. cbn [load] in V |- *.
  assert (N : forall k, object + 4 + Z.of_nat k = object + Z.of_nat (4 + k)) by (intros; lia).
  replace (object + 4 + 1) with (object + 1 + 1 + 1 + 1 + 1) by lia.
  replace (object + 4) with (object + 1 + 1 + 1 + 1) by lia.
  set (b0 := mem s' object) in *. set (b1 := mem s' (object + 1)) in *. set (b2 := mem s' (object + 1 + 1)) in *.
  set (b3 := mem s' (object + 1 + 1 + 1)) in *. set (b4 := mem s' (object + 1 + 1 + 1 + 1)) in *.
  set (b5 := mem s' (object + 1 + 1 + 1 + 1 + 1)) in *. set (b6 := mem s' (object + 1 + 1 + 1 + 1 + 1 + 1)) in *.
  set (b7 := mem s' (object + 1 + 1 + 1 + 1 + 1 + 1 + 1)) in *.
  assert (0 <= b0 < 256) by apply M. assert (0 <= b1 < 256) by apply M. assert (0 <= b2 < 256) by apply M.
  assert (0 <= b3 < 256) by apply M. assert (0 <= b4 < 256) by apply M. assert (0 <= b5 < 256) by apply M.
  assert (0 <= b6 < 256) by apply M. assert (0 <= b7 < 256) by apply M. clear - V BV H H0 H1 H2 H3 H4 H5 H6. lia.
Qed.
Print Assumptions C64_eight_byte_operands_refuted.

(** [long a = 1, b = 2; int x = a < b;]: the int after x loses its value. *)
Definition compare_machine : machine :=
  {| gpr := fun r => match r with RBP => 4096 | RSP => 4000 | _ => 0 end;
     xmm := fun _ => 0; flag := None;
     mem := store (store (store (store (fun _ => 0) 4088 8 1) 4080 8 2) 4072 8 2000) 2004 4 77 |}.
Example C64_example :
  let a := {| s_size := 8; s_loc := 8 |} in let b := {| s_size := 8; s_loc := 16 |} in
  let p := {| s_size := 8; s_loc := 24 |} in
  load (mem compare_machine) 2004 4 = 77 /\
  match compile_compare_assign (KSimple ST_LONG) OP_LESS a b 32 p with
  | Ok code => match exec_all no_fpu code compare_machine with
               | Ok s' => load (mem s') 2000 4 = 1 /\ load (mem s') 2004 4 = 0
               | _ => False
               end
  | _ => False
  end.
Proof. split; [vm_compute; reflexivity|]. vm_compute. split; reflexivity. Qed.
