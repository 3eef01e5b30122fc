(** From register results to slots, and from words to C values. *)
From Verif Require Import Base Bytes Arch CTypesSpec ConstFold ConstFoldSpec X86 Codegen AsmSpec OpSelect
  X86Proofs CodegenProofs AsmIntProofs.

Lemma slot_range s sc : machine_ok s -> 0 <= s_size sc -> 0 <= slot_bits s sc < 2 ^ (8 * s_size sc).
Proof.
  intros (G & X & M) S. pose proof (load_range (mem s) (slot_address s sc) (Z.to_nat (s_size sc)) M) as R.
  rewrite Z2Nat.id in R by lia. rewrite Z.pow_mul_r by lia. exact R.
Qed.

(** Spilling rax at the end of a sequence. *)
Lemma spill_result F s w st v out l :
  s_size out = Z.of_nat (wbytes w) -> word w -> in_memory s out ->
  gpr st RBP = gpr s RBP -> gpr st RSP = gpr s RSP -> (forall x, mem st x = mem s x) ->
  leaves w st v (exec_all F l st) ->
  exists s', exec_all F (l ++ reg_to_scalar RAX out) st = Ok s' /\ slot_bits s' out = v /\
    only_changes s s' (slot_address s out) (s_size out) /\ keeps_frame s s'.
Proof.
  intros SO W IO BP SP MM (s1 & E & V & M1 & B1 & S1 & OK1). rewrite exec_all_app, E. cbn [bind].
  assert (AO : slot_address s1 out = slot_address s out) by (unfold slot_address; congruence).
  assert (SZ : 0 <= s_size out <= 8) by (rewrite SO; destruct W as [->| ->]; cbn [wbytes]; lia).
  destruct (reg_to_scalar_ok F s1 RAX out) as (s' & E' & M' & G' & _); auto; try discriminate.
  { destruct IO. unfold in_memory. rewrite AO. auto. }
  exists s'. split; [exact E'|]. split; [|split].
  - unfold slot_bits.
    assert (A' : slot_address s' out = slot_address s1 out) by (unfold slot_address; rewrite G' by discriminate; auto).
    rewrite A', (load_ext (store (mem s1) (slot_address s1 out) (Z.to_nat (s_size out)) (gpr s1 RAX))) by (intros; apply M').
    rewrite load_store, Z2Nat.id by lia. rewrite SO, <- bits_pow. exact V.
  - intros x X. rewrite M', AO, store_out by lia. rewrite M1, MM. reflexivity.
  - split; rewrite G' by discriminate; congruence.
Qed.

Lemma binary_ok F o a b out s v w :
  machine_ok s -> in_memory s a -> in_memory s b -> in_memory s out -> word w ->
  s_size a = Z.of_nat (wbytes w) -> s_size b = Z.of_nat (wbytes w) -> s_size out = Z.of_nat (wbytes w) ->
  (forall st, machine_ok st -> gpr st RAX = slot_bits s a -> gpr st RCX = slot_bits s b ->
     leaves w st v (exec_all F (codegen_asm_table o w) st)) ->
  exists code s', codegen_binary o a b out = Ok code /\ exec_all F code s = Ok s' /\
    slot_bits s' out = v /\ only_changes s s' (slot_address s out) (s_size out) /\ keeps_frame s s'.
Proof.
  intros OK IA IB IO W SA SB SO H.
  assert (SW : scalar_size (Z.of_nat (wbytes w))) by (unfold scalar_size; destruct W as [->| ->]; simpl; tauto).
  unfold codegen_binary.
  destruct (scalar_to_reg a RAX) as [la| |] eqn:EA.
  2,3: destruct (scalar_to_reg_ok F s a RAX [] OK IA) as (c & E & _); [rewrite SA; exact SW|congruence].
  destruct (scalar_to_reg b RCX) as [lb| |] eqn:EB.
  2,3: destruct (scalar_to_reg_ok F s b RCX [] OK IB) as (c & E & _); [rewrite SB; exact SW|congruence].
  cbn [bind].
  assert (S48 : (s_size a =? 4) || (s_size a =? 8) = true) by (rewrite SA; destruct W as [->| ->]; reflexivity).
  assert (EW : (if s_size a =? 8 then W8 else W4) = w) by (rewrite SA; destruct W as [->| ->]; reflexivity).
  rewrite S48, EW. cbv zeta. eexists.
  destruct (scalar_to_reg_ok F s a RAX (lb ++ codegen_asm_table o w ++ reg_to_scalar RAX out) OK IA)
    as (c & E & X); [rewrite SA; exact SW|]. rewrite EA in E. inversion E; subst c. clear E.
  assert (RA : 0 <= slot_bits s a < 2 ^ 64).
  { pose proof (slot_range s a OK ltac:(lia)) as R. split; [apply R|]. eapply Z.lt_le_trans; [apply R|].
    apply Z.pow_le_mono_r; [lia|]. rewrite SA. destruct W as [->| ->]; cbn [wbytes]; lia. }
  assert (RB : 0 <= slot_bits s b < 2 ^ 64).
  { pose proof (slot_range s b OK ltac:(lia)) as R. split; [apply R|]. eapply Z.lt_le_trans; [apply R|].
    apply Z.pow_le_mono_r; [lia|]. rewrite SB. destruct W as [->| ->]; cbn [wbytes]; lia. }
  set (s1 := set_gpr s RAX (slot_bits s a)) in *.
  assert (OK1 : machine_ok s1) by (apply set_gpr_ok; auto).
  destruct (scalar_to_reg_ok F s1 b RCX (codegen_asm_table o w ++ reg_to_scalar RAX out) OK1) as (c & E & Y);
    [exact IB|rewrite SB; exact SW|]. rewrite EB in E. inversion E; subst c. clear E.
  change (slot_bits s1 b) with (slot_bits s b) in Y.
  set (s2 := set_gpr s1 RCX (slot_bits s b)) in *.
  assert (OK2 : machine_ok s2) by (apply set_gpr_ok; auto).
  destruct (spill_result F s w s2 v out (codegen_asm_table o w)) as (s' & E' & V' & O' & K'); auto.
  exists s'. split; [reflexivity|]. rewrite X, Y. auto.
Qed.

(** Words and the C values they stand for. *)
Section Values.
Variables (n : Z) (N : 0 < n).

Lemma wrap_op2 (f : Z -> Z -> Z) a b :
  (forall a b, (f a b) mod 2 ^ n = (f (a mod 2 ^ n) (b mod 2 ^ n)) mod 2 ^ n) ->
  wrap n (f (a mod 2 ^ n) (b mod 2 ^ n)) = f a b mod 2 ^ n.
Proof. intros H. unfold wrap. rewrite <- H. reflexivity. Qed.

Lemma bit_op_mod (f : Z -> Z -> Z) (g : bool -> bool -> bool) a b :
  (forall a b i, 0 <= i -> Z.testbit (f a b) i = g (Z.testbit a i) (Z.testbit b i)) ->
  (f a b) mod 2 ^ n = (f (a mod 2 ^ n) (b mod 2 ^ n)) mod 2 ^ n.
Proof.
  intros H. apply Z.bits_inj'. intros i I.
  destruct (Z.lt_ge_cases i n) as [L|L].
  - rewrite !Z.mod_pow2_bits_low, !H, !Z.mod_pow2_bits_low by lia. reflexivity.
  - rewrite !Z.mod_pow2_bits_high by lia. reflexivity.
Qed.
End Values.
