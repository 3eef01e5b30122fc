(** C63: floating arithmetic. *)
From Verif Require Import Base Bytes Arch CTypesSpec ConstFold X86 Codegen AsmSpec OpSelect
  X86Proofs X86Preserve CodegenProofs AsmIntProofs AsmOpProofs AsmCastProofs C32Props C34Props.

(** The processor's operation of the given width; the operators' names. *)
Definition float_operation (op : operator_type) : option fop :=
  match op with OP_ADD => Some FADD | OP_SUB => Some FSUB | OP_MUL => Some FMUL | OP_DIV => Some FDIV | _ => None end.
Definition float_result (F : fpu) (w : width) (f : fop) (x y : Z) : Z :=
  match w with W8 => fpu_arith64 F f x y mod 2 ^ 64 | _ => fpu_arith32 F f x y mod 2 ^ 32 end.

Lemma arith_leaves F w f s x y :
  word w -> machine_ok s -> gpr s RAX = x -> gpr s RCX = y -> 0 <= x < 2 ^ bits w -> 0 <= y < 2 ^ bits w ->
  leaves w s (float_result F w f x y) (exec_all F (binary_ins_flt f w) s).
Proof.
  intros W OK EX EY RX RY.
  assert (Q : forall s', exec_all F (binary_ins_flt f w) s = Ok s' -> machine_ok s')
    by (intros s'; apply exec_all_preserves; exact OK).
  destruct W as [->| ->]; unfold binary_ins_flt in *;
    cbn [exec_all exec bind set_xmm xmm gpr Z.eqb Pos.eqb] in *; rewrite EX, EY in *; unfold low32 in *.
  - change (bits W4) with 32 in *. rewrite !(wrap_small 32 x), !(wrap_small 32 y) in * by assumption.
    eexists. split; [reflexivity|]. rewrite gpr_same.
    split; [|split; [reflexivity|split; [reflexivity|split; [reflexivity|apply Q; reflexivity]]]].
    rewrite wrap_wrap by lia. rewrite Z.sub_diag, Z.add_0_l, wrap_wrap by lia. reflexivity.
  - eexists. split; [reflexivity|]. rewrite gpr_same.
    split; [|split; [reflexivity|split; [reflexivity|split; [reflexivity|apply Q; reflexivity]]]].
    change (bits W8) with 64. rewrite wrap_wrap by lia. reflexivity.
Qed.

Theorem C63_arithmetic : forall F t w op f s a b out_loc,
  float_type t w -> float_operation op = Some f -> machine_ok s ->
  s_size a = Z.of_nat (wbytes w) -> s_size b = Z.of_nat (wbytes w) ->
  let out := {| s_size := Z.of_nat (wbytes w); s_loc := out_loc |} in
  in_memory s a -> in_memory s b -> in_memory s out ->
  exists code s', compile_binary (KSimple t) op a b out_loc = Ok code /\ exec_all F code s = Ok s' /\
    slot_bits s' out = float_result F w f (slot_bits s a) (slot_bits s b) /\
    only_changes s s' (slot_address s out) (s_size out) /\ keeps_frame s s'.
Proof.
  intros F t w op f s a b out_loc T FO OK SA SB out IA IB IO.
  assert (W : word w) by (destruct T; [left|right]; reflexivity).
  assert (SEL : exists o, ir_from_type_and_op (KSimple t) op = Ok o /\ codegen_asm_table (ir_binary_op o) w = binary_ins_flt f w).
  { destruct op; inversion FO; destruct T; eexists; split; reflexivity. }
  destruct SEL as (o & EO & ET).
  unfold compile_binary. rewrite EO. cbn [bind]. unfold ir_binary_op_size. rewrite SA. fold out.
  assert (BW : 8 * Z.of_nat (wbytes w) = bits w) by reflexivity.
  apply binary_ok with (w := w); auto.
  intros st OKS RA RC. rewrite ET. apply arith_leaves; auto.
  - pose proof (slot_range s a OK) as R. rewrite SA, BW in R. apply R. lia.
  - pose proof (slot_range s b OK) as R. rewrite SB, BW in R. apply R. lia.
Qed.
Print Assumptions C63_arithmetic.

(** Adding the sign bit's weight inverts it and changes no other bit. *)
Lemma flip_sign n v : 0 < n -> 0 <= v < 2 ^ n -> (v + 2 ^ (n - 1)) mod 2 ^ n = Z.lxor v (2 ^ (n - 1)).
Proof.
  intros N V. assert (P : 0 < 2 ^ (n - 1)) by (apply Z.pow_pos_nonneg; lia).
  assert (E : 2 ^ n = 2 * 2 ^ (n - 1)) by (rewrite <- Z.pow_succ_r by lia; f_equal; lia).
  assert (TB : Z.testbit v (n - 1) = (2 ^ (n - 1) <=? v)).
  { destruct (Z.leb_spec (2 ^ (n - 1)) v) as [L|L].
    - rewrite Z.testbit_true by lia. replace (v / 2 ^ (n - 1)) with 1; [reflexivity|].
      apply Z.div_unique with (v - 2 ^ (n - 1)); lia.
    - rewrite Z.testbit_false by lia. rewrite Z.div_small by lia. reflexivity. }
  destruct (Z.leb_spec (2 ^ (n - 1)) v) as [L|L].
  - replace (v + 2 ^ (n - 1)) with (v - 2 ^ (n - 1) + 1 * 2 ^ n) by lia. rewrite Z_mod_plus_full, Z.mod_small by lia.
    apply Z.bits_inj'. intros i I. rewrite Z.lxor_spec, Z.pow2_bits_eqb by lia.
    assert (S : v - 2 ^ (n - 1) = Z.clearbit v (n - 1)).
    { rewrite Z.clearbit_spec'.
      apply Z.add_cancel_r with (2 ^ (n - 1)). rewrite Z.sub_add.
      assert (ND : Z.land (Z.ldiff v (2 ^ (n - 1))) (2 ^ (n - 1)) = 0).
      { apply Z.bits_inj'. intros j J. rewrite Z.land_spec, Z.ldiff_spec, Z.bits_0, Z.pow2_bits_eqb by lia.
        destruct (_ =? _); [rewrite andb_false_r|]; rewrite ?andb_false_r; reflexivity. }
      rewrite Z.add_nocarry_lxor by exact ND. apply Z.bits_inj'. intros j J.
      rewrite Z.lxor_spec, Z.ldiff_spec, Z.pow2_bits_eqb by lia.
      destruct (Z.eqb_spec (n - 1) j) as [<-|D]; [rewrite TB|]; rewrite ?andb_true_r, ?andb_false_r, ?xorb_false_r; reflexivity. }
    rewrite S, Z.clearbit_eqb by lia. destruct (Z.eqb_spec (n - 1) i) as [<-|D].
    + rewrite TB. reflexivity.
    + cbn [negb]. rewrite andb_true_r, xorb_false_r. reflexivity.
  - rewrite Z.mod_small by lia. apply Z.add_nocarry_lxor. apply Z.bits_inj'. intros j J.
    rewrite Z.land_spec, Z.bits_0, Z.pow2_bits_eqb by lia.
    destruct (Z.eqb_spec (n - 1) j) as [<-|D]; [rewrite TB; reflexivity|apply andb_false_r].
Qed.

Theorem C63_negation : forall F t w s a out,
  float_type t w -> machine_ok s ->
  s_size a = Z.of_nat (wbytes w) -> s_size out = Z.of_nat (wbytes w) ->
  in_memory s a -> in_memory s out ->
  exists code s', codegen_negate_float a out = Ok code /\ exec_all F code s = Ok s' /\
    (forall i, 0 <= i < bits w -> Z.testbit (slot_bits s' out) i
       = if i =? bits w - 1 then negb (Z.testbit (slot_bits s a) i) else Z.testbit (slot_bits s a) i) /\
    only_changes s s' (slot_address s out) (s_size out) /\ keeps_frame s s'.
Proof.
  intros F t w s a out T OK SA SO IA IO.
  assert (W : word w) by (destruct T; [left|right]; reflexivity).
  assert (BW : 8 * Z.of_nat (wbytes w) = bits w) by reflexivity.
  assert (R : 0 <= slot_bits s a < 2 ^ bits w).
  { pose proof (slot_range s a OK) as R. rewrite SA, BW in R. apply R. lia. }
  assert (R64 : 0 <= slot_bits s a < 2 ^ 64).
  { pose proof (Z.pow_le_mono_r 2 (bits w) 64 ltac:(lia) (proj2 (bits_le w))). lia. }
  set (neg := match w with W8 => [I2 (Btc W8) (IMM 63) (R8 RAX)] | _ => [I2 (Lea W4) (MEM (-2147483648) RAX) (R4 RAX)] end).
  set (x := slot_bits s a) in *.
  destruct (unary_ok F a out s (Z.lxor x (2 ^ (bits w - 1))) neg) as (la & s' & E1 & E2 & E3 & E4 & E5); auto.
  - rewrite SA. destruct T; unfold scalar_size; simpl; tauto.
  - rewrite SO. destruct T; cbn [wbytes]; lia.
  - fold x. assert (OKA : machine_ok (set_gpr s RAX x)) by (apply set_gpr_ok; auto).
    rewrite SO. destruct T; cbn [neg exec_all exec is_mem bind rd reg_of wr].
    + rewrite gpr_same. change (bits W4) with 32 in *. apply leaves_set'; auto.
      * apply mod_range. lia.
      * change (8 * Z.of_nat (wbytes W4)) with 32. fold (wrap 32 (wrap 32 (x + -2147483648))). rewrite wrap_wrap by lia.
        unfold wrap. rewrite <- flip_sign by (lia || exact R). change (2 ^ (32 - 1)) with 2147483648.
        rewrite <- (Z_mod_plus_full (x + -2147483648) 1 (2 ^ 32)). f_equal. change (2 ^ 32) with 4294967296. lia.
    + rewrite gpr_same. change (bits W8) with 64 in *. rewrite (wrap_small 64 x) by exact R64.
      change (63 mod 64) with 63. cbn [bind]. apply leaves_set; auto.
      * apply mod_range. lia.
      * change (8 * Z.of_nat (wbytes W8)) with 64. fold (wrap 64 (wrap 64 (Z.lxor x (2 ^ 63)))).
        rewrite wrap_wrap by lia. unfold wrap. change (64 - 1) with 63.
        pose proof (flip_sign 64 x ltac:(lia) R) as FS. change (64 - 1) with 63 in FS. rewrite <- FS.
        apply Z.mod_mod. vm_compute; discriminate.
  - unfold codegen_negate_float. rewrite E1. cbn [bind]. exists (la ++ neg ++ reg_to_scalar RAX out), s'.
    split; [rewrite SO; destruct T; reflexivity|]. split; [exact E2|]. split; [|auto].
    intros i I. rewrite E3, Z.lxor_spec, Z.pow2_bits_eqb by (pose proof (bits_pos w); lia).
    rewrite (Z.eqb_sym (bits w - 1) i). destruct (i =? bits w - 1); [apply xorb_true_r|apply xorb_false_r].
Qed.
Print Assumptions C63_negation.

(** The double -0.0 is 0.0 with its sign inverted; a - b is not b - a. *)
Definition show_fpu : fpu :=
  {| fpu_arith32 := fun _ x y => x - y; fpu_arith64 := fun _ x y => x - y; fpu_int_to_32 := fun _ => 0;
     fpu_int_to_64 := fun _ => 0; fpu_32_to_int := fun _ => 0; fpu_64_to_int := fun _ => 0;
     fpu_32_to_64 := fun _ => 0; fpu_64_to_32 := fun _ => 0 |}.
Example C63_example :
  let a := {| s_size := 4; s_loc := 4 |} in let b := {| s_size := 4; s_loc := 8 |} in
  match compile_binary (KSimple ST_FLOAT) OP_SUB a b 12 with
  | Ok code => match exec_all show_fpu code (float_machine 50 8) with
               | Ok s' => slot_bits s' {| s_size := 4; s_loc := 12 |} = 42
               | _ => False
               end
  | _ => False
  end.
Proof. vm_compute. reflexivity. Qed.
