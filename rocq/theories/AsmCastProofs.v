(** One-operand sequences. *)
From Verif Require Import Base Bytes Arch CTypesSpec X86 Codegen AsmSpec X86Proofs CodegenProofs AsmIntProofs
  AsmOpProofs CastSelect.

(** What the middle of a one-operand sequence must leave in rax for an
    [n]-byte result. *)
Definition leaves_low (n : Z) (s : machine) (r : Z) (out : res machine) : Prop :=
  exists s', out = Ok s' /\ (gpr s' RAX) mod 2 ^ (8 * n) = r /\ (forall x, mem s' x = mem s x) /\
    gpr s' RBP = gpr s RBP /\ gpr s' RSP = gpr s RSP /\ machine_ok s'.

Lemma unary_ok F a out s v l :
  machine_ok s -> in_memory s a -> in_memory s out -> scalar_size (s_size a) -> 0 <= s_size out <= 8 ->
  leaves_low (s_size out) (set_gpr s RAX (slot_bits s a)) v (exec_all F l (set_gpr s RAX (slot_bits s a))) ->
  exists la s', scalar_to_reg a RAX = Ok la /\ exec_all F (la ++ l ++ reg_to_scalar RAX out) s = Ok s' /\
    slot_bits s' out = v /\ only_changes s s' (slot_address s out) (s_size out) /\ keeps_frame s s'.
Proof.
  intros OK IA IO SA SO (s1 & E & V & M1 & B1 & S1 & OK1).
  destruct (scalar_to_reg_ok F s a RAX (l ++ reg_to_scalar RAX out) OK IA SA) as (la & EL & EX).
  exists la. rewrite EX, exec_all_app, E. cbn [bind].
  change (gpr (set_gpr s RAX (slot_bits s a)) RBP) with (gpr s RBP) in B1.
  change (gpr (set_gpr s RAX (slot_bits s a)) RSP) with (gpr s RSP) in S1.
  change (mem (set_gpr s RAX (slot_bits s a))) with (mem s) in M1.
  assert (AO : slot_address s1 out = slot_address s out) by (unfold slot_address; congruence).
  destruct (reg_to_scalar_ok F s1 RAX out) as (s' & E' & M' & G' & _); auto; try discriminate.
  { destruct IO. unfold in_memory. rewrite AO. auto. }
  exists s'. split; [exact EL|]. split; [exact E'|]. split; [|split].
  - unfold slot_bits.
    assert (A' : slot_address s' out = slot_address s1 out) by (unfold slot_address; rewrite G' by discriminate; auto).
    rewrite A', (load_ext (store (mem s1) (slot_address s1 out) (Z.to_nat (s_size out)) (gpr s1 RAX))) by (intros; apply M').
    rewrite load_store, Z2Nat.id by lia. rewrite <- V. rewrite Z.pow_mul_r by lia. reflexivity.
  - intros x X. rewrite M', AO, store_out by lia. apply M1.
  - split; rewrite G' by discriminate; congruence.
Qed.

Lemma mod_mod_le v p q : 0 <= q <= p -> (v mod 2 ^ p) mod 2 ^ q = v mod 2 ^ q.
Proof.
  intros H. assert (P : 0 < 2 ^ q) by (apply Z.pow_pos_nonneg; lia).
  assert (P' : 0 < 2 ^ (p - q)) by (apply Z.pow_pos_nonneg; lia).
  replace p with (q + (p - q)) by lia. rewrite Z.pow_add_r by lia.
  rewrite Z.rem_mul_r by lia. rewrite (Z.mul_comm (2 ^ q)), Z.mod_add by lia. apply Z.mod_mod. lia.
Qed.

(** Instructions that only write rax. *)
Lemma leaves_set n s v f r :
  machine_ok s -> 0 <= v < 2 ^ 64 -> v mod 2 ^ (8 * n) = r ->
  leaves_low n s r (Ok (set_flag (set_gpr s RAX v) f)).
Proof.
  intros OK V R. eexists. split; [reflexivity|]. cbn [set_flag gpr mem]. rewrite gpr_same.
  split; [exact R|]. split; [reflexivity|]. split; [reflexivity|]. split; [reflexivity|].
  apply set_flag_ok, set_gpr_ok; auto.
Qed.

Lemma leaves_set' n s v r :
  machine_ok s -> 0 <= v < 2 ^ 64 -> v mod 2 ^ (8 * n) = r -> leaves_low n s r (Ok (set_gpr s RAX v)).
Proof.
  intros OK V R. eexists. split; [reflexivity|]. rewrite gpr_same.
  split; [exact R|]. split; [reflexivity|]. split; [reflexivity|]. split; [reflexivity|].
  apply set_gpr_ok; auto.
Qed.

Lemma mod64_range v : 0 <= v mod 2 ^ 64 < 2 ^ 64.
Proof. apply Z.mod_pos_bound. reflexivity. Qed.

(** Sign extension of the low bytes of a register. *)
Lemma movs_leaves F n s x w d :
  machine_ok s -> gpr s RAX = x -> (w, d) = (W1, W8) \/ (w, d) = (W2, W8) \/ (w, d) = (W4, W8) ->
  0 <= n <= 8 ->
  leaves_low n s (signed (bits w) x mod 2 ^ (8 * n)) (exec_all F [I2 (Movs w d) (sized w RAX) (R8 RAX)] s).
Proof.
  intros OK E D N.
  assert (BW : 0 < bits w) by (apply bits_pos).
  assert (X : exec F (I2 (Movs w d) (sized w RAX) (R8 RAX)) s = Ok (set_gpr s RAX (wrap 64 (signed (bits w) x)))).
  { cbn [exec is_mem]. rewrite rd_sized. cbn [bind].
    assert (D8 : d = W8) by (destruct D as [D|[D|D]]; inversion D; reflexivity). subst d.
    cbn [wr reg_of]. change (bits W8) with 64. rewrite wrap_wrap by lia. rewrite signed_wrap by auto. rewrite E. reflexivity. }
  cbn [exec_all]. rewrite X. cbn [bind]. apply leaves_set'; auto; [apply mod64_range|].
  unfold wrap. apply mod_mod_le. lia.
Qed.
