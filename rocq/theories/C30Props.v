(** C30: the code of each integer operator computes the C value. *)
From Verif Require Import Base Bytes Arch CTypesSpec ConstFold ConstFoldSpec X86 Codegen AsmSpec OpSelect
  X86Proofs CodegenProofs AsmIntProofs AsmOpProofs.

(** The types arithmetic is done in after the usual conversions. *)
Definition arithmetic_int (m : abi) (t : simple_type) : Prop :=
  integer_type t /\ (spec_width m t = 32 \/ spec_width m t = 64).

Definition word_of (n : Z) : width := if n =? 64 then W8 else W4.

Lemma arith_facts m t : arithmetic_int m t ->
  is_signed t = Ok (spec_signed t) /\ word (word_of (spec_width m t)) /\
  bits (word_of (spec_width m t)) = spec_width m t /\
  Z.of_nat (wbytes (word_of (spec_width m t))) = spec_width m t / 8.
Proof.
  intros [I W]. split.
  - repeat (destruct I as [<-|I]; [reflexivity|]). destruct I.
  - destruct W as [->| ->]; repeat split; unfold word; auto.
Qed.

Section Operators.
Variables (F : fpu) (m : abi) (t : simple_type) (va vb : Z) (st : machine).
Let n := spec_width m t.
Let w := word_of n.
Let x := va mod 2 ^ n.
Let y := vb mod 2 ^ n.
Hypothesis A : arithmetic_int m t.
Hypothesis RA : representable m t va.
Hypothesis RB : representable m t vb.
Hypothesis OK : machine_ok st.
Hypothesis EX : gpr st RAX = x.
Hypothesis EY : gpr st RCX = y.

Lemma n_pos : 0 < n.
Proof. unfold n. destruct A as [_ [-> | ->]]; lia. Qed.
Lemma w_word : word w.
Proof. apply (arith_facts m t A). Qed.
Lemma w_bits : bits w = n.
Proof. apply (arith_facts m t A). Qed.
Lemma pow_n : 0 < 2 ^ n.
Proof. apply Z.pow_pos_nonneg; [lia|]. pose proof n_pos; lia. Qed.
Lemma x_range : 0 <= x < 2 ^ bits w.
Proof. rewrite w_bits. apply Z.mod_pos_bound, pow_n. Qed.
Lemma y_range : 0 <= y < 2 ^ bits w.
Proof. rewrite w_bits. apply Z.mod_pos_bound, pow_n. Qed.

Lemma signed_value v : spec_signed t = true -> representable m t v -> signed n (v mod 2 ^ n) = v.
Proof.
  intros S R. change (signed n (wrap n v) = v). rewrite signed_wrap by apply n_pos.
  unfold representable, spec_min, spec_max in R. rewrite S in R.
  apply signed_id; [apply n_pos|]. fold n in R. lia.
Qed.
Lemma unsigned_value v : spec_signed t = false -> representable m t v -> v mod 2 ^ n = v.
Proof.
  intros S R. unfold representable, spec_min, spec_max in R. rewrite S in R. fold n in R.
  apply Z.mod_small. lia.
Qed.

(** A result that fits its type is determined modulo 2^n. *)
Lemma fit_mod r v : fit m t r = Some v -> v mod 2 ^ n = r mod 2 ^ n.
Proof.
  unfold fit. destruct (spec_signed t).
  - destruct (_ && _); [|discriminate]. intros E; inversion E; reflexivity.
  - intros E; inversion E. fold n. apply Z.mod_mod. pose proof pow_n. lia.
Qed.

Lemma small_result (c : bool) v : fit m t (if c then 1 else 0) = Some v ->
  (if c then 1 else 0) = v mod 2 ^ n.
Proof.
  intros E. apply fit_mod in E. rewrite E. symmetry. apply Z.mod_small.
  assert (2 ^ 1 <= 2 ^ n) by (apply Z.pow_le_mono_r; pose proof n_pos; lia). change (2 ^ 1) with 2 in H.
  destruct c; lia.
Qed.

Ltac use_alu f := 
  rewrite <- w_bits; apply (alu_leaves F w); auto using w_word, x_range, y_range; eexists; reflexivity.

Lemma arith_op op f mn v :
  math_binop m t op va vb = Some (f va vb) -> c_binop m t op va vb = Some v ->
  (forall a b, (f a b) mod 2 ^ n = (f (a mod 2 ^ n) (b mod 2 ^ n)) mod 2 ^ n) ->
  (exists fl, exec F (I2 (mn w) (sized w RCX) (sized w RAX)) st = alu st w (sized w RCX) (sized w RAX) f fl) ->
  leaves w st (v mod 2 ^ n) (exec_all F (binary_ins mn w) st).
Proof.
  intros M C MOD E. unfold c_binop in C. rewrite M in C. rewrite (fit_mod _ _ C).
  replace (f va vb mod 2 ^ n) with (wrap (bits w) (f x y)).
  - apply alu_leaves; auto using w_word, x_range, y_range.
  - rewrite w_bits. unfold x, y. apply wrap_op2. exact MOD.
Qed.

Lemma compare_op op c v (b : bool) :
  math_binop m t op va vb = Some (if b then 1 else 0) -> c_binop m t op va vb = Some v ->
  cond_holds c w x y = b ->
  leaves w st (v mod 2 ^ n) (exec_all F (binary_comp c w) st).
Proof.
  intros M C E. unfold c_binop in C. rewrite M in C. rewrite <- (small_result _ _ C), <- E.
  apply comp_leaves; auto using w_word, x_range, y_range.
Qed.

Lemma eq_values : (x =? y) = (va =? vb).
Proof.
  unfold x, y. destruct (spec_signed t) eqn:S.
  - destruct (Z.eqb_spec va vb) as [->|NE]; [apply Z.eqb_refl|]. apply Z.eqb_neq. intros E. apply NE.
    rewrite <- (signed_value va S RA), <- (signed_value vb S RB), E. reflexivity.
  - rewrite !unsigned_value by auto. reflexivity.
Qed.

Ltac unsigned S := unfold cond_holds, x, y; rewrite !(unsigned_value _ S) by auto.
Ltac signedly S := unfold cond_holds, x, y; rewrite !w_bits, !(signed_value _ S) by auto.

Lemma ext_dividend_sign : spec_signed t = true -> signed (bits w) x = va /\ signed (bits w) y = vb.
Proof. intros S. rewrite w_bits. split; apply signed_value; auto. Qed.

Lemma table_ok op o v :
  ir_from_type_and_op (KSimple t) op = Ok o -> c_binop m t op va vb = Some v ->
  leaves w st (v mod 2 ^ n) (exec_all F (codegen_asm_table o w) st).
Proof.
  intros SEL C. destruct (arith_facts m t A) as (SG & _).
  assert (SEL' : ir_from_type_and_op (KSimple t) op =
     (let* sign := Ok (spec_signed t) in
      Ok (match op with
          | OP_ADD => IR_ADD | OP_SUB => IR_SUB
          | OP_MUL => if sign : bool then IR_IMUL else IR_MUL
          | OP_DIV => if sign then IR_IDIV else IR_DIV
          | OP_MOD => if sign then IR_IMOD else IR_MOD
          | OP_BXOR => IR_BXOR | OP_BOR => IR_BOR | OP_BAND => IR_BAND | OP_LSHIFT => IR_LSHIFT
          | OP_RSHIFT => if sign then IR_IRSHIFT else IR_RSHIFT
          | OP_LESS => if sign then IR_ILESS else IR_LESS
          | OP_GREATER => if sign then IR_IGREATER else IR_GREATER
          | OP_LESS_EQ => if sign then IR_ILESS_EQ else IR_LESS_EQ
          | OP_GREATER_EQ => if sign then IR_IGREATER_EQ else IR_GREATER_EQ
          | OP_EQUAL => IR_EQUAL | OP_NOT_EQUAL => IR_NOT_EQUAL
          end))).
  { rewrite <- SG. clear - A. destruct A as [I _].
    repeat (destruct I as [<-|I]; [reflexivity|]). destruct I. }
  rewrite SEL' in SEL. cbn [bind] in SEL. inversion SEL; subst o. clear SEL SEL'.
  pose proof w_word as W. pose proof w_bits as WB. pose proof x_range as XR. pose proof y_range as YR.
  pose proof n_pos as NP. pose proof pow_n as PN.
  destruct op; cbn [codegen_asm_table].
  - (* xor *)
    apply (arith_op OP_BXOR Z.lxor); auto.
    + intros. apply (bit_op_mod n NP Z.lxor xorb). intros. apply Z.lxor_spec.
    + eexists. reflexivity.
  - (* or *)
    apply (arith_op OP_BOR Z.lor); auto.
    + intros. apply (bit_op_mod n NP Z.lor orb). intros. apply Z.lor_spec.
    + eexists. reflexivity.
  - (* and *)
    apply (arith_op OP_BAND Z.land); auto.
    + intros. apply (bit_op_mod n NP Z.land andb). intros. apply Z.land_spec.
    + eexists. reflexivity.
  - (* left shift *)
    unfold c_binop, math_binop in C. fold n in C.
    destruct ((0 <=? vb) && (vb <? n) && (0 <=? va)) eqn:B; [|discriminate].
    apply andb_prop in B. destruct B as [B B3]. apply andb_prop in B. destruct B as [B1 B2].
    apply Z.leb_le in B1, B3. apply Z.ltb_lt in B2.
    assert (N2 : n < 2 ^ n) by (apply Z.pow_gt_lin_r; lia).
    assert (Y : y = vb) by (apply Z.mod_small; lia).
    apply (shift_leaves F w (Sal w) st x y); auto; [rewrite WB; lia|].
    intros c RC SC. eexists. split.
    + cbn [exec]. rewrite RC. cbn [bind]. rewrite rd_sized. cbn [bind]. rewrite SC. reflexivity.
    + rewrite wrap_bits_twice, EX, (wrap_small (bits w) x) by auto.
      rewrite (fit_mod _ _ C). rewrite WB, Y. unfold wrap, x. rewrite Z.shiftl_mul_pow2 by lia.
      rewrite Z.mul_mod_idemp_l by lia. reflexivity.
  - (* right shift *)
    unfold c_binop, math_binop in C. fold n in C.
    destruct ((0 <=? vb) && (vb <? n)) eqn:B; [|discriminate].
    apply andb_prop in B. destruct B as [B1 B2]. apply Z.leb_le in B1. apply Z.ltb_lt in B2.
    assert (N2 : n < 2 ^ n) by (apply Z.pow_gt_lin_r; lia).
    assert (Y : y = vb) by (apply Z.mod_small; lia).
    destruct (spec_signed t) eqn:S; cbn [codegen_asm_table].
    + apply (shift_leaves F w (Sar w) st x y); auto; [rewrite WB; lia|].
      intros c RC SC. eexists. split.
      * cbn [exec]. rewrite RC. cbn [bind]. rewrite rd_sized. cbn [bind]. rewrite SC. reflexivity.
      * rewrite wrap_bits_twice, EX, (wrap_small (bits w) x) by auto.
        rewrite (fit_mod _ _ C). rewrite WB, Y. unfold x. rewrite signed_value by auto.
        unfold wrap. rewrite Z.shiftr_div_pow2 by lia. reflexivity.
    + apply (shift_leaves F w (Shr w) st x y); auto; [rewrite WB; lia|].
      intros c RC SC. eexists. split.
      * cbn [exec]. rewrite RC. cbn [bind]. rewrite rd_sized. cbn [bind]. rewrite SC. reflexivity.
      * rewrite EX, (wrap_small (bits w) x) by auto.
        rewrite (fit_mod _ _ C). rewrite WB, Y. unfold x. rewrite unsigned_value by auto.
        unfold wrap. rewrite Z.shiftr_div_pow2 by lia. reflexivity.
  - apply (arith_op OP_ADD Z.add); auto; [intros; apply Zplus_mod|eexists; reflexivity].
  - apply (arith_op OP_SUB Z.sub); auto; [intros; apply Zminus_mod|eexists; reflexivity].
  - assert (EM : (if spec_signed t then IR_IMUL else IR_MUL) = IR_IMUL \/ (if spec_signed t then IR_IMUL else IR_MUL) = IR_MUL)
      by (destruct (spec_signed t); auto).
    assert (ET : codegen_asm_table (if spec_signed t then IR_IMUL else IR_MUL) w = binary_ins Imul w)
      by (destruct EM as [->| ->]; reflexivity).
    rewrite ET. apply (arith_op OP_MUL Z.mul); auto; [intros; apply Zmult_mod|].
    exists (fun _ _ _ => None). cbn [exec]. rewrite sized_not_mem. reflexivity.
  - (* division *)
    unfold c_binop, math_binop in C. destruct (Z.eqb_spec vb 0) as [|NZ]; [discriminate|].
    destruct (spec_signed t) eqn:S; cbn [codegen_asm_table].
    + destruct (ext_dividend_sign S) as [SX SY].
      destruct (idiv_ok F w st x y) as (q & E & QA & QD & QM & QB & QS & QO); auto.
      * rewrite SY. exact NZ.
      * rewrite SX, SY, WB. unfold fit in C. rewrite S in C. unfold spec_min, spec_max in C. rewrite S in C. fold n in C.
        destruct (Z.leb_spec (- 2 ^ (n - 1)) (va ÷ vb)) as [Q1|Q1]; [|discriminate].
        destruct (Z.leb_spec (va ÷ vb) (2 ^ (n - 1) - 1)) as [Q2|Q2]; [lia|discriminate].
      * apply (div_leaves F w st _ _ q); auto. rewrite QA, wrap_bits_twice, SX, SY, WB.
        symmetry. apply fit_mod. exact C.
    + assert (X : x = va) by (apply unsigned_value; auto). assert (Y : y = vb) by (apply unsigned_value; auto).
      assert (VP : 0 <= va /\ 0 <= vb).
      { unfold representable, spec_min in RA, RB. rewrite S in RA, RB. lia. }
      destruct (div_ok F w st x y) as (q & E & QA & QD & QM & QB & QS & QO); auto; [lia|].
      apply (div_leaves F w st _ _ q); auto. rewrite QA, X, Y. rewrite (fit_mod _ _ C), WB.
      unfold wrap. rewrite Z.quot_div_nonneg by lia. reflexivity.
  - (* remainder *)
    unfold c_binop, math_binop in C. destruct (Z.eqb_spec vb 0) as [|NZ]; [discriminate|].
    destruct (spec_signed t) eqn:S; cbn [codegen_asm_table].
    + destruct (ext_dividend_sign S) as [SX SY]. cbn [andb] in C.
      destruct (Z.eqb_spec (va ÷ vb) (spec_max m t + 1)) as [|NO]; [discriminate|].
      destruct (idiv_ok F w st x y) as (q & E & QA & QD & QM & QB & QS & QO); auto.
      * rewrite SY. exact NZ.
      * rewrite SX, SY, WB. unfold spec_max in NO. rewrite S in NO. fold n in NO.
        pose proof RA as RA'. unfold representable, spec_min, spec_max in RA'. rewrite S in RA'. fold n in RA'.
        assert (P1 : 0 < 2 ^ (n - 1)) by (apply Z.pow_pos_nonneg; lia).
        assert (AB : Z.abs (va ÷ vb) <= Z.abs va).
        { rewrite <- Z.quot_abs by exact NZ. apply Z.quot_le_upper_bound; [lia|]. nia. }
        lia.
      * change (leaves w st (v mod 2 ^ n)
          (exec_all F ([extension w; I1 (Idiv w) (sized w RCX)] ++ [I2 (Mov w) (sized w RDX) (sized w RAX)]) st)).
        apply (rem_leaves F w st _ _ q); auto. rewrite QD, wrap_bits_twice, SX, SY, WB.
        symmetry. apply fit_mod. exact C.
    + assert (X : x = va) by (apply unsigned_value; auto). assert (Y : y = vb) by (apply unsigned_value; auto).
      assert (VP : 0 <= va /\ 0 <= vb).
      { unfold representable, spec_min in RA, RB. rewrite S in RA, RB. lia. }
      cbn [andb] in C.
      destruct (div_ok F w st x y) as (q & E & QA & QD & QM & QB & QS & QO); auto; [lia|].
      change (leaves w st (v mod 2 ^ n)
          (exec_all F ([I2 (Xor W8) (R8 RDX) (R8 RDX); I1 (Div w) (sized w RCX)] ++ [I2 (Mov w) (sized w RDX) (sized w RAX)]) st)).
      apply (rem_leaves F w st _ _ q); auto. rewrite QD, X, Y. rewrite (fit_mod _ _ C), WB.
      unfold wrap. rewrite Z.rem_mod_nonneg by lia. reflexivity.
  - (* less *)
    destruct (spec_signed t) eqn:S; cbn [codegen_asm_table]; apply (compare_op OP_LESS _ _ (va <? vb)); auto.
    + signedly S. reflexivity.
    + unsigned S. reflexivity.
  - destruct (spec_signed t) eqn:S; cbn [codegen_asm_table]; apply (compare_op OP_GREATER _ _ (va >? vb)); auto.
    + signedly S. rewrite Z.gtb_ltb, Z.ltb_antisym. reflexivity.
    + unsigned S. rewrite Z.gtb_ltb, Z.ltb_antisym. reflexivity.
  - destruct (spec_signed t) eqn:S; cbn [codegen_asm_table]; apply (compare_op OP_LESS_EQ _ _ (va <=? vb)); auto.
    + signedly S. reflexivity.
    + unsigned S. reflexivity.
  - destruct (spec_signed t) eqn:S; cbn [codegen_asm_table]; apply (compare_op OP_GREATER_EQ _ _ (va >=? vb)); auto.
    + signedly S. rewrite Z.geb_leb, Z.leb_antisym. reflexivity.
    + unsigned S. rewrite Z.geb_leb, Z.leb_antisym. reflexivity.
  - apply (compare_op OP_EQUAL _ _ (va =? vb)); auto. cbn [cond_holds]. apply eq_values.
  - apply (compare_op OP_NOT_EQUAL _ _ (negb (va =? vb))); auto.
    + cbn [math_binop]. destruct (va =? vb); reflexivity.
    + cbn [cond_holds]. rewrite eq_values. reflexivity.
Qed.
End Operators.

(** For every integer operator but unsigned division, the code the compiler
    emits leaves the C value in the result slot, which is as wide as the
    operands; nothing else in memory changes. *)
Theorem C30_operators_partial : forall F m t op va vb v s a b out_loc,
  arithmetic_int m t -> (op = OP_DIV -> spec_signed t = true) ->
  machine_ok s -> s_size a = spec_width m t / 8 -> s_size b = spec_width m t / 8 ->
  let out := {| s_size := spec_width m t / 8; s_loc := out_loc |} in
  in_memory s a -> in_memory s b -> in_memory s out ->
  representable m t va -> representable m t vb -> holds_value s a va -> holds_value s b vb ->
  c_binop m t op va vb = Some v ->
  exists code s', compile_binary (KSimple t) op a b out_loc = Ok code /\ exec_all F code s = Ok s' /\
    holds_value s' out v /\ only_changes s s' (slot_address s out) (s_size out) /\ keeps_frame s s'.
Proof.
  intros F m t op va vb v s a b out_loc A ND OK SA SB out IA IB IO RA RB HA HB C.
  destruct (arith_facts m t A) as (SG & W & WB & WY).
  set (w := word_of (spec_width m t)) in *.
  assert (W8N : 8 * (spec_width m t / 8) = spec_width m t) by (destruct A as [_ [-> | ->]]; reflexivity).
  unfold holds_value in HA, HB. rewrite SA, W8N in HA. rewrite SB, W8N in HB.
  assert (SEL : exists o, ir_from_type_and_op (KSimple t) op = Ok o /\ ir_binary_op o = o).
  { destruct A as [I _]. clear - I ND SG.
    repeat (destruct I as [<-|I]; [destruct op; eexists; (split; [reflexivity|]); try reflexivity; specialize (ND eq_refl); discriminate ND|]).
    destruct I. }
  destruct SEL as (o & SEL & SAME). unfold compile_binary. rewrite SEL. cbn [bind]. rewrite SAME.
  unfold ir_binary_op_size. rewrite SA. fold out.
  destruct (binary_ok F o a b out s (v mod 2 ^ spec_width m t) w) as (code & s' & E1 & E2 & E3 & E4 & E5);
    auto; try (cbn [out s_size]; congruence).
  - intros st OKS GX GY. apply (table_ok F m t va vb st A RA RB OKS) with (op := op); auto; congruence.
  - exists code, s'. split; [exact E1|]. split; [exact E2|]. split; [|auto].
    unfold holds_value. cbn [out s_size]. rewrite W8N. exact E3.
Qed.
Print Assumptions C30_operators_partial.

(** The sequence kept for an IR_DIV node does divide unsigned words. *)
Theorem C30_unsigned_division_sequence : forall F m t va vb s a b out,
  arithmetic_int m t -> spec_signed t = false ->
  machine_ok s -> s_size a = spec_width m t / 8 -> s_size b = spec_width m t / 8 -> s_size out = spec_width m t / 8 ->
  in_memory s a -> in_memory s b -> in_memory s out ->
  representable m t va -> representable m t vb -> holds_value s a va -> holds_value s b vb -> vb <> 0 ->
  exists code s', codegen_binary IR_DIV a b out = Ok code /\ exec_all F code s = Ok s' /\
    holds_value s' out (va / vb) /\ only_changes s s' (slot_address s out) (s_size out) /\ keeps_frame s s'.
Proof.
  intros F m t va vb s a b out A U OK SA SB SO IA IB IO RA RB HA HB NZ.
  destruct (arith_facts m t A) as (SG & W & WB & WY).
  set (w := word_of (spec_width m t)) in *.
  assert (W8N : 8 * (spec_width m t / 8) = spec_width m t) by (destruct A as [_ [-> | ->]]; reflexivity).
  unfold holds_value in HA, HB. rewrite SA, W8N in HA. rewrite SB, W8N in HB.
  assert (VP : 0 <= va /\ 0 <= vb).
  { unfold representable, spec_min in RA, RB. rewrite U in RA, RB. lia. }
  destruct (binary_ok F IR_DIV a b out s ((va / vb) mod 2 ^ spec_width m t) w) as (code & s' & E1 & E2 & E3 & E4 & E5);
    auto; try congruence.
  - intros st OKS GX GY.
    apply (table_ok F m t va vb st A RA RB OKS) with (op := OP_DIV); [congruence|congruence| |].
    + destruct A as [I _]. clear - I U. repeat (destruct I as [<-|I]; [try discriminate U; reflexivity|]). destruct I.
    + unfold c_binop, math_binop. destruct (Z.eqb_spec vb 0); [contradiction|]. unfold fit. rewrite U.
      rewrite Z.quot_div_nonneg by lia. do 1 f_equal. apply Z.mod_small.
      unfold representable, spec_max in RA. rewrite U in RA.
      split; [apply Z.div_pos; lia|]. apply Z.div_lt_upper_bound; [lia|]. nia.
  - exists code, s'. split; [exact E1|]. split; [exact E2|]. split; [|auto].
    unfold holds_value. rewrite SO, W8N. exact E3.
Qed.
Print Assumptions C30_unsigned_division_sequence.

(** Complement and negation, at any size. *)
From Verif Require Import AsmCastProofs.

Theorem C30_unary : forall F m t op va v s a out,
  integer_type t -> t <> ST_BOOL -> machine_ok s ->
  s_size a = spec_width m t / 8 -> s_size out = spec_width m t / 8 ->
  in_memory s a -> in_memory s out -> holds_value s a va ->
  c_unop m t op va = Some v -> op <> UOP_PLUS ->
  exists code s',
    (match op with UOP_BNOT => codegen_binary_not a out | _ => codegen_negate_int a out end) = Ok code /\
    exec_all F code s = Ok s' /\
    holds_value s' out v /\ only_changes s s' (slot_address s out) (s_size out) /\ keeps_frame s s'.
Proof.
  intros F m t op va v s a out I NB OK SA SO IA IO HA C NP.
  assert (SZ : scalar_size (spec_width m t / 8) /\ 8 * (spec_width m t / 8) = spec_width m t /\ 0 < spec_width m t <= 64).
  { clear - I NB. unfold scalar_size.
    repeat (destruct I as [<-|I]; [try congruence; destruct m; cbn; (split; [tauto|split; [reflexivity|lia]])|]). destruct I. }
  destruct SZ as (SZ & W8N & NR). set (n := spec_width m t) in *.
  unfold holds_value in HA. rewrite SA, W8N in HA.
  assert (R64 : 0 <= slot_bits s a < 2 ^ 64).
  { rewrite HA. assert (0 < 2 ^ n) by (apply Z.pow_pos_nonneg; lia). pose proof (Z.mod_pos_bound va (2 ^ n) H).
    assert (2 ^ n <= 2 ^ 64) by (apply Z.pow_le_mono_r; lia). lia. }
  assert (FIT : forall r, fit m t r = Some v -> v mod 2 ^ n = r mod 2 ^ n).
  { intros r. unfold fit. fold n. destruct (spec_signed t).
    - destruct (_ && _); [|discriminate]. intros E; inversion E; reflexivity.
    - intros E; inversion E. apply Z.mod_mod. assert (0 < 2 ^ n) by (apply Z.pow_pos_nonneg; lia). lia. }
  assert (OKA : machine_ok (set_gpr s RAX (slot_bits s a))) by (apply set_gpr_ok; auto).
  assert (GOAL : forall i, leaves_low (s_size out) (set_gpr s RAX (slot_bits s a)) (v mod 2 ^ n)
                     (exec_all F [i] (set_gpr s RAX (slot_bits s a))) ->
    exists code s', (let* la := scalar_to_reg a RAX in Ok (la ++ [i] ++ reg_to_scalar RAX out)) = Ok code /\
    exec_all F code s = Ok s' /\ holds_value s' out v /\ only_changes s s' (slot_address s out) (s_size out) /\ keeps_frame s s').
  { intros i L.
    destruct (unary_ok F a out s (v mod 2 ^ n) [i]) as (la & s' & E1 & E2 & E3 & E4 & E5); auto; try (rewrite ?SA, ?SO; auto; lia).
    rewrite E1. cbn [bind]. eexists _, s'. split; [reflexivity|]. split; [exact E2|]. split; [|auto].
    unfold holds_value. rewrite SO, W8N. exact E3. }
  destruct op; [congruence| |].
  - apply GOAL. cbn [exec_all exec rd reg_of bind wr]. rewrite gpr_same. change (bits W8) with 64.
    rewrite (wrap_small 64 (slot_bits s a)) by exact R64. cbn [bind].
    apply leaves_set; auto; [apply mod64_range|].
    cbn [c_unop] in C. rewrite (FIT _ C), HA, SO, W8N. rewrite wrap_wrap by lia. unfold wrap. rewrite mod_mod_le by lia.
    rewrite <- (Z.sub_0_l (va mod 2 ^ n)), Zminus_mod_idemp_r. reflexivity.
  - apply GOAL. cbn [exec_all exec rd reg_of bind wr]. rewrite gpr_same. change (bits W8) with 64.
    rewrite (wrap_small 64 (slot_bits s a)) by exact R64. cbn [bind].
    apply leaves_set'; auto; [apply mod64_range|].
    cbn [c_unop] in C. rewrite (FIT _ C), HA, SO, W8N. rewrite wrap_wrap by lia. unfold wrap. rewrite mod_mod_le by lia.
    unfold Z.lnot, Z.pred. rewrite (Z.mod_eq va (2 ^ n)) by (apply Z.pow_nonzero; lia).
    replace (- (va - 2 ^ n * (va / 2 ^ n)) + -1) with (- va + -1 + va / 2 ^ n * 2 ^ n) by ring.
    rewrite Z_mod_plus_full. reflexivity.
Qed.
Print Assumptions C30_unary.

(** A machine with two operands in its frame: 7 and -3 as ints. *)
Definition int_machine : machine :=
  {| gpr := fun r => match r with RBP => 4096 | RSP => 4000 | _ => 0 end;
     xmm := fun _ => 0; flag := None;
     mem := store (store (fun _ => 0) 4092 4 7) 4088 4 (-3) |}.
Definition slot_a := {| s_size := 4; s_loc := 4 |}.
Definition slot_b := {| s_size := 4; s_loc := 8 |}.

Example C30_example :
  arithmetic_int SYSV ST_INT /\ machine_ok int_machine /\
  in_memory int_machine slot_a /\ in_memory int_machine slot_b /\ in_memory int_machine {| s_size := 4; s_loc := 12 |} /\
  holds_value int_machine slot_a 7 /\ holds_value int_machine slot_b (-3) /\
  c_binop SYSV ST_INT OP_DIV 7 (-3) = Some (-2) /\ c_binop SYSV ST_INT OP_LESS 7 (-3) = Some 0 /\
  match compile_binary (KSimple ST_INT) OP_DIV slot_a slot_b 12 with
  | Ok code => length code = 5%nat
  | _ => False
  end.
Proof.
  split; [split; [cbn; tauto|left; reflexivity]|]. split.
  { split; [|split].
    - intros []; cbn; lia.
    - intros x; cbn; lia.
    - intros x. cbn [int_machine mem]. apply store_bytes. apply store_bytes. intros; lia. }
  repeat split; vm_compute; congruence.
Qed.
