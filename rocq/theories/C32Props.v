(** C32: comparisons of floating operands. *)
From Verif Require Import Base Bytes Arch CTypesSpec ConstFold X86 Codegen AsmSpec OpSelect
  X86Proofs CodegenProofs AsmIntProofs AsmOpProofs C34Props.

(** The result C (with IEEE 754 operands) gives to a comparison, [r] being
    the order of the operands and [None] meaning that one is a NaN: every
    operator is false on a NaN except [!=]. *)
Definition c_float_comparison (op : operator_type) (r : option comparison) : option bool :=
  match op with
  | OP_LESS => Some (match r with Some Lt => true | _ => false end)
  | OP_LESS_EQ => Some (match r with Some Lt | Some Eq => true | _ => false end)
  | OP_GREATER => Some (match r with Some Gt => true | _ => false end)
  | OP_GREATER_EQ => Some (match r with Some Gt | Some Eq => true | _ => false end)
  | OP_EQUAL => Some (match r with Some Eq => true | _ => false end)
  | OP_NOT_EQUAL => Some (match r with Some Eq => false | _ => true end)
  | _ => None
  end.

(** The floating types the code generator can compare, and their width. *)
Inductive float_type : simple_type -> width -> Prop :=
| is_float : float_type ST_FLOAT W4
| is_double : float_type ST_DOUBLE W8.

Lemma flt_leaves F w c s x y :
  word w -> machine_ok s -> gpr s RAX = x -> gpr s RCX = y -> 0 <= x < 2 ^ bits w -> 0 <= y < 2 ^ bits w ->
  leaves w s (if holds c (ucomis_flags (ieee_compare w x y)) then 1 else 0) (exec_all F (binary_comp_flt c w) s).
Proof.
  intros W OK EX EY RX RY.
  assert (R64 : forall r, 0 <= gpr s r < 2 ^ 64) by apply OK.
  assert (XOK : forall v a b, 0 <= a < 2 ^ 64 -> 0 <= b < 2 ^ 64 -> machine_ok v ->
            machine_ok (set_xmm (set_xmm v 0 a) 1 b)).
  { intros v a b A B (G & X & M). split; [exact G|]. split; [|exact M]. intros k. cbn [set_xmm xmm].
    destruct (k =? 1); [exact B|]. destruct (k =? 0); [exact A|apply X]. }
  destruct W as [->| ->].
  - change (bits W4) with 32 in *. unfold binary_comp_flt.
    cbn [exec_all exec bind]. unfold alu. cbn [is_mem andb rd reg_of bind wr set_xmm gpr]. rewrite !gpr_same || idtac.
    cbn [set_flag set_gpr set_xmm gpr xmm flag mem reg_eqb bind wr reg_of rd Z.eqb Pos.eqb].
    change (bits W8) with 64. change (bits W1) with 8.
    unfold low32. rewrite EX, EY. rewrite !(wrap_small 32 x), !(wrap_small 32 y) by assumption.
    rewrite Z.lxor_nilpotent. change (wrap 64 (wrap 64 0)) with 0. change (wrap 8 0) with 0.
    set (h := holds c _). assert (HB : 0 <= (if h then 1 else 0) < 2) by (destruct h; lia).
    eexists. split; [reflexivity|]. cbn [gpr mem set_gpr reg_eqb].
    split; [destruct h; reflexivity|]. split; [reflexivity|]. split; [reflexivity|]. split; [reflexivity|].
    assert (Q32 : 2 ^ 32 <= 2 ^ 64) by (apply Z.pow_le_mono_r; lia).
    apply set_gpr_ok; [|destruct h; vm_compute; split; congruence]. repeat apply set_flag_ok.
    apply set_gpr_ok; [|lia]. apply XOK; [lia|lia|exact OK].
  - change (bits W8) with 64 in *. unfold binary_comp_flt.
    cbn [exec_all exec bind rd reg_of wr set_xmm set_flag set_gpr gpr xmm flag mem reg_eqb Z.eqb Pos.eqb is_mem].
    change (bits W4) with 32. change (bits W1) with 8.
    rewrite EX, EY.
    set (h := holds c _). assert (HB : 0 <= (if h then 1 else 0) < 2) by (destruct h; lia).
    assert (LOW : wrap 8 (x - wrap 8 x + wrap 8 (if h then 1 else 0)) = if h then 1 else 0).
    { rewrite (wrap_small 8 (if h then 1 else 0)) by (destruct h; vm_compute; split; congruence).
      unfold wrap. rewrite Zplus_mod, Zminus_mod_idemp_r, Z.sub_diag. change (0 mod 2 ^ 8) with 0.
      rewrite Z.add_0_l, Z.mod_mod by (vm_compute; discriminate). destruct h; reflexivity. }
    rewrite LOW.
    eexists. split; [reflexivity|]. cbn [gpr mem set_gpr reg_eqb].
    split; [destruct h; reflexivity|]. split; [reflexivity|]. split; [reflexivity|]. split; [reflexivity|].
    apply set_gpr_ok; [|destruct h; vm_compute; split; congruence].
    apply set_gpr_ok; [repeat apply set_flag_ok; apply XOK; [lia|lia|exact OK]|].
    fold (wrap 8 (if h then 1 else 0)). rewrite (wrap_small 8 (if h then 1 else 0)) by (destruct h; vm_compute; split; congruence).
    assert (D : x = 256 * (x / 256) + wrap 8 x) by (unfold wrap; change (2 ^ 8) with 256; apply Z.div_mod; lia).
    assert (Q : 0 <= 256 * (x / 256)) by (apply Z.mul_nonneg_nonneg; [lia|apply Z.div_pos; lia]).
    assert (T : 256 * (x / 256) + 1 < 2 ^ 64).
    { assert (x / 256 < 2 ^ 56); [|change (2 ^ 64) with (256 * 2 ^ 56); lia].
      apply Z.div_lt_upper_bound; [lia|]. change (256 * 2 ^ 56) with (2 ^ 64). lia. }
    destruct h; lia.
Qed.

(** What the emitted sequence computes. *)
Lemma compare_code F t w op c s a b out_loc :
  float_type t w -> machine_ok s ->
  s_size a = Z.of_nat (wbytes w) -> s_size b = Z.of_nat (wbytes w) ->
  in_memory s a -> in_memory s b -> in_memory s {| s_size := Z.of_nat (wbytes w); s_loc := out_loc |} ->
  (exists o, ir_from_type_and_op (KSimple t) op = Ok o /\ codegen_asm_table (ir_binary_op o) w = binary_comp_flt c w) ->
  exists code s', compile_binary (KSimple t) op a b out_loc = Ok code /\ exec_all F code s = Ok s' /\
    slot_bits s' {| s_size := Z.of_nat (wbytes w); s_loc := out_loc |}
    = (if holds c (ucomis_flags (ieee_compare w (slot_bits s a) (slot_bits s b))) then 1 else 0) /\
    only_changes s s' (gpr s RBP - out_loc) (Z.of_nat (wbytes w)) /\ keeps_frame s s'.
Proof.
  intros T OK SA SB IA IB IO (o & EO & ET).
  assert (W : word w) by (destruct T; [left|right]; reflexivity).
  unfold compile_binary. rewrite EO. cbn [bind]. unfold ir_binary_op_size. rewrite SA.
  assert (BW : 8 * Z.of_nat (wbytes w) = bits w) by reflexivity.
  destruct (binary_ok F (ir_binary_op o) a b {| s_size := Z.of_nat (wbytes w); s_loc := out_loc |} s
    (if holds c (ucomis_flags (ieee_compare w (slot_bits s a) (slot_bits s b))) then 1 else 0) w)
    as (code & s' & E1 & E2 & E3 & E4 & E5); auto.
  - intros st OKS RA RC. rewrite ET. apply flt_leaves; auto.
    + pose proof (slot_range s a OK) as R. rewrite SA, BW in R. apply R. lia.
    + pose proof (slot_range s b OK) as R. rewrite SB, BW in R. apply R. lia.
  - exists code, s'. auto.
Qed.

Lemma selected t w op r : float_type t w -> c_float_comparison op r <> None ->
  exists c, (exists o, ir_from_type_and_op (KSimple t) op = Ok o /\
                       codegen_asm_table (ir_binary_op o) w = binary_comp_flt c w) /\
    c = match op with OP_LESS => CB | OP_LESS_EQ => CBE | OP_GREATER => CA | OP_GREATER_EQ => CNB
                 | OP_EQUAL => CE | _ => CNE end.
Proof.
  intros T N. destruct op; try (exfalso; apply N; reflexivity);
    (eexists; split; [|reflexivity]; destruct T; eexists; split; reflexivity).
Qed.

(** Ordered operands compare as in C with every operator, and with [>] and
    [>=] so do NaNs.  Missing: [<], [<=], [==] and [!=] on NaNs, see below. *)
Theorem C32_comparison_partial : forall F t w op v s a b out_loc,
  float_type t w -> machine_ok s ->
  s_size a = Z.of_nat (wbytes w) -> s_size b = Z.of_nat (wbytes w) ->
  let out := {| s_size := Z.of_nat (wbytes w); s_loc := out_loc |} in
  in_memory s a -> in_memory s b -> in_memory s out ->
  let order := ieee_compare w (slot_bits s a) (slot_bits s b) in
  c_float_comparison op order = Some v ->
  order <> None \/ op = OP_GREATER \/ op = OP_GREATER_EQ ->
  exists code s', compile_binary (KSimple t) op a b out_loc = Ok code /\ exec_all F code s = Ok s' /\
    holds_value s' out (if v then 1 else 0) /\
    only_changes s s' (slot_address s out) (s_size out) /\ keeps_frame s s'.
Proof.
  intros F t w op v s a b out_loc T OK SA SB out IA IB IO order C ORD.
  destruct (selected t w op order T ltac:(congruence)) as (c & SEL & EC).
  destruct (compare_code F t w op c s a b out_loc T OK SA SB IA IB IO SEL) as (code & s' & E1 & E2 & E3 & E4 & E5).
  exists code, s'. split; [exact E1|]. split; [exact E2|]. split; [|auto].
  unfold holds_value. fold out in E3. rewrite E3. fold order.
  assert (V : holds c (ucomis_flags order) = v).
  { destruct order as [[]|]; destruct op; inversion C; subst; try reflexivity;
      destruct ORD as [ORD|[ORD|ORD]]; try discriminate; congruence. }
  rewrite V. rewrite Z.mod_small; [reflexivity|]. destruct T, v; vm_compute; split; congruence.
Qed.
Print Assumptions C32_comparison_partial.

(** With a NaN operand the other four operators give the opposite of what C
    requires, whatever the operands. *)
Theorem C32_nan_refuted : forall F t w op v s a b out_loc,
  float_type t w -> machine_ok s ->
  s_size a = Z.of_nat (wbytes w) -> s_size b = Z.of_nat (wbytes w) ->
  let out := {| s_size := Z.of_nat (wbytes w); s_loc := out_loc |} in
  in_memory s a -> in_memory s b -> in_memory s out ->
  ieee_compare w (slot_bits s a) (slot_bits s b) = None ->
  c_float_comparison op None = Some v -> op <> OP_GREATER -> op <> OP_GREATER_EQ ->
  exists code s', compile_binary (KSimple t) op a b out_loc = Ok code /\ exec_all F code s = Ok s' /\
    holds_value s' out (if v then 0 else 1).
Proof.
  intros F t w op v s a b out_loc T OK SA SB out IA IB IO NAN C N1 N2.
  destruct (selected t w op None T ltac:(congruence)) as (c & SEL & EC).
  destruct (compare_code F t w op c s a b out_loc T OK SA SB IA IB IO SEL) as (code & s' & E1 & E2 & E3 & E4 & E5).
  exists code, s'. split; [exact E1|]. split; [exact E2|].
  unfold holds_value. fold out in E3. rewrite E3, NAN.
  destruct op; inversion C; subst; try congruence; destruct T; reflexivity.
Qed.
Print Assumptions C32_nan_refuted.

(** 1.0f, 2.5f and a NaN; -0.0 equals 0.0. *)
Example ieee_examples :
  ieee_compare W4 1065353216 1075838976 = Some Lt /\ ieee_compare W4 1075838976 1065353216 = Some Gt /\
  ieee_compare W4 2147483648 0 = Some Eq /\ ieee_compare W4 2143289344 0 = None /\
  ieee_compare W4 3212836864 1065353216 = Some Lt /\
  ieee_compare W8 4607182418800017408 4611686018427387904 = Some Lt.
Proof. repeat split; vm_compute; reflexivity. Qed.

Definition float_machine (x y : Z) : machine :=
  {| gpr := fun r => match r with RBP => 4096 | RSP => 4000 | _ => 0 end;
     xmm := fun _ => 0; flag := None;
     mem := store (store (fun _ => 0) 4092 4 x) 4088 4 y |}.

Lemma float_machine_ok x y : machine_ok (float_machine x y).
Proof.
  split; [|split].
  - intros []; cbn; lia.
  - intros k; cbn; lia.
  - intros k. cbn [float_machine mem]. apply store_bytes. apply store_bytes. intros; lia.
Qed.

(** NaN < 0.0f is computed as 1. *)
Example C32_nan_less :
  let a := {| s_size := 4; s_loc := 4 |} in let b := {| s_size := 4; s_loc := 8 |} in
  ieee_compare W4 (slot_bits (float_machine 2143289344 0) a) (slot_bits (float_machine 2143289344 0) b) = None /\
  match compile_binary (KSimple ST_FLOAT) OP_LESS a b 12 with
  | Ok code => match exec_all no_fpu code (float_machine 2143289344 0) with
               | Ok s' => slot_bits s' {| s_size := 4; s_loc := 12 |} = 1
               | _ => False
               end
  | _ => False
  end.
Proof. split; vm_compute; reflexivity. Qed.
