(** C35: scalars spilled to and loaded from memory. *)
From Verif Require Import Base Bytes X86 Codegen AsmSpec X86Proofs CodegenProofs C34Props.

(** Storing a register in an n-byte slot, 1 <= n <= 8: byte i of the slot is
    byte i of the register, and nothing else in memory and no other register
    changes. *)
Theorem C35_spill : forall F s r sc,
  machine_ok s -> in_memory s sc -> 1 <= s_size sc <= 8 -> r <> RBP ->
  exists s', exec_all F (reg_to_scalar r sc) s = Ok s' /\
    (forall i, 0 <= i < s_size sc -> mem s' (slot_address s sc + i) = (gpr s r / 2 ^ (8 * i)) mod 256) /\
    only_changes s s' (slot_address s sc) (s_size sc) /\ (forall q, q <> r -> gpr s' q = gpr s q).
Proof.
  intros F s r sc OK IN S N. destruct (reg_to_scalar_ok F s r sc) as (s' & E & M & G & _); auto; try lia.
  exists s'. split; [exact E|]. split; [|split; [|exact G]].
  - intros i I. rewrite M, store_in by lia. rewrite Z.pow_mul_r by lia. change (2 ^ 8) with 256.
    do 3 f_equal. lia.
  - intros x XO. rewrite M. apply store_out. lia.
Qed.
Print Assumptions C35_spill.

(** The same through the pointer in rsi. *)
Theorem C35_spill_memory : forall F s r n,
  machine_ok s -> 1 <= n <= 8 -> gpr s RSI + n <= 2 ^ 64 -> r <> RSI ->
  exists s', exec_all F (reg_to_memory r n) s = Ok s' /\
    (forall i, 0 <= i < n -> mem s' (gpr s RSI + i) = (gpr s r / 2 ^ (8 * i)) mod 256) /\
    only_changes s s' (gpr s RSI) n /\ (forall q, q <> r -> gpr s' q = gpr s q).
Proof.
  intros F s r n OK S H N. destruct (reg_to_memory_ok F s r n) as (s' & E & M & G & _); auto; try lia.
  exists s'. split; [exact E|]. split; [|split; [|exact G]].
  - intros i I. rewrite M, store_in by lia. rewrite Z.pow_mul_r by lia. change (2 ^ 8) with 256.
    do 3 f_equal. lia.
  - intros x XO. rewrite M. apply store_out. lia.
Qed.
Print Assumptions C35_spill_memory.

(** Loading a slot of 1, 2, 4 or 8 bytes: byte i of the register is byte i of
    the slot, the bytes above the slot's are zero, and nothing else changes. *)
Theorem C35_load_partial : forall F s r sc,
  machine_ok s -> in_memory s sc -> In (s_size sc) [1; 2; 4; 8] ->
  exists code s', scalar_to_reg sc r = Ok code /\ exec_all F code s = Ok s' /\
    (forall i, 0 <= i < s_size sc -> (gpr s' r / 2 ^ (8 * i)) mod 256 = mem s (slot_address s sc + i)) /\
    0 <= gpr s' r < 2 ^ (8 * s_size sc) /\
    (forall x, mem s' x = mem s x) /\ (forall q, q <> r -> gpr s' q = gpr s q).
Proof.
  intros F s r sc OK IN S. destruct (scalar_to_reg_ok F s sc r []) as (code & E & EX); auto.
  assert (P : 0 < s_size sc <= 8) by (destruct S as [<-|[<-|[<-|[<-|[]]]]]; lia).
  rewrite app_nil_r in EX. eexists code, _. split; [exact E|]. split; [exact EX|].
  rewrite gpr_same. destruct OK as (G & X & M). split; [|split; [|split]].
  - intros i I. unfold slot_bits. rewrite Z.pow_mul_r by lia. change (2 ^ 8) with 256.
    replace i with (slot_address s sc + i - slot_address s sc) at 1 by lia.
    apply digit_load; [exact M|]. lia.
  - unfold slot_bits. pose proof (load_range (mem s) (slot_address s sc) (Z.to_nat (s_size sc)) M) as R.
    rewrite Z2Nat.id in R by lia. rewrite Z.pow_mul_r by lia. exact R.
  - reflexivity.
  - intros q Q. apply gpr_other. exact Q.
Qed.
Print Assumptions C35_load_partial.

(** Spilling and reloading gives the low bytes back. *)
Theorem C35_round_trip : forall F s r q sc,
  machine_ok s -> in_memory s sc -> In (s_size sc) [1; 2; 4; 8] -> r <> RBP ->
  exists code s', scalar_to_reg sc q = Ok code /\ exec_all F (reg_to_scalar r sc ++ code) s = Ok s' /\
    gpr s' q = gpr s r mod 2 ^ (8 * s_size sc).
Proof.
  intros F s r q sc OK IN S N.
  assert (P : 0 < s_size sc <= 8) by (destruct S as [<-|[<-|[<-|[<-|[]]]]]; lia).
  destruct (reg_to_scalar_ok F s r sc) as (s1 & E1 & M1 & G1 & X1); auto; try lia.
  pose proof OK as (G & X & M).
  destruct (scalar_to_reg sc q) as [code| |] eqn:EC.
  2,3: destruct (scalar_to_reg_ok F s sc q [] OK IN S) as (c & E & _); congruence.
  exists code.
  assert (A : slot_address s1 sc = slot_address s sc) by (unfold slot_address; rewrite G1; auto).
  assert (V : slot_bits s1 sc = gpr s r mod 2 ^ (8 * s_size sc)).
  { unfold slot_bits. rewrite A. rewrite (load_ext (store (mem s) (slot_address s sc) (Z.to_nat (s_size sc)) (gpr s r))).
    - rewrite load_store. rewrite Z2Nat.id by lia. rewrite Z.pow_mul_r by lia. reflexivity.
    - intros x _. apply M1. }
  rewrite exec_all_app, E1. cbn [bind].
  assert (LOAD : forall t, gpr t RBP = gpr s1 RBP -> mem t = mem s1 ->
     exec_all F code t = Ok (set_gpr t q (slot_bits s1 sc))).
  { intros t TB TM. unfold scalar_to_reg in EC.
    assert (E : gpr t RBP + - s_loc sc = slot_address s1 sc) by (unfold slot_address; lia).
    assert (R : 0 <= slot_bits s1 sc < 2 ^ (8 * s_size sc)).
    { rewrite V. apply Z.mod_pos_bound. apply Z.pow_pos_nonneg; lia. }
    unfold slot_bits in R |- *. rewrite <- TM in R |- *.
    destruct IN as [I1 I2]. rewrite <- A in I1, I2.
    destruct S as [S|[S|[S|[S|[]]]]]; rewrite <- S in *; inversion EC; subst code;
      cbn [exec_all exec is_mem andb];
      rewrite (rd_mem t _ _ _ (slot_address s1 sc)) by (auto; cbn [wbytes]; lia);
      cbn [bind wr reg_of wbytes]; do 2 f_equal; unfold wrap; apply Z.mod_small;
      (split; [apply R|]); eapply Z.lt_le_trans; try apply R; apply Z.pow_le_mono_r; unfold bits; cbn [wbytes]; lia. }
  eexists. split; [reflexivity|]. split; [apply LOAD; auto|]. rewrite gpr_same. exact V.
Qed.
Print Assumptions C35_round_trip.

(** The loader also accepts sizes 3, 5, 6 and 7, but then moves 4 or 8 bytes:
    the bytes above the slot's are whatever lies beyond it. *)
Theorem C35_odd_sizes_refuted :
  exists s sc code, machine_ok s /\ in_memory s sc /\ s_size sc = 3 /\
    scalar_to_reg sc RAX = Ok code /\
    match exec_all no_fpu code s with
    | Ok s' => slot_bits s sc = 50462976 mod 2 ^ 24 /\ gpr s' RAX = 50462976 /\ gpr s' RAX <> slot_bits s sc
    | _ => False
    end.
Proof.
  exists sample, {| s_size := 3; s_loc := 16384 - 4096 |}.
  eexists. split; [apply sample_ok|].
  split; [split; vm_compute; congruence|]. split; [reflexivity|].
  split; [reflexivity|]. vm_compute. repeat split. congruence.
Qed.
Print Assumptions C35_odd_sizes_refuted.

(** A seven-byte spill is 4 + 2 + 1 with the register shifted in between. *)
Example C35_example :
  in_memory sample {| s_size := 7; s_loc := 16 |} /\
  length (reg_to_scalar RAX {| s_size := 7; s_loc := 16 |}) = 5%nat /\
  match exec_all no_fpu (reg_to_scalar RAX {| s_size := 7; s_loc := 16 |})
          (set_gpr sample RAX 578437695752307201) with
  | Ok s' => slot_bits s' {| s_size := 7; s_loc := 16 |} = 578437695752307201 mod 2 ^ 56 /\
             mem s' (16384 - 9) = mem sample (16384 - 9)
  | _ => False
  end.
Proof.
  split; [split; vm_compute; congruence|]. split; [reflexivity|].
  vm_compute. split; reflexivity.
Qed.
