(** C11: constant folding agrees with C. [wrap 64 a] is the 64-bit pattern that
    stores a. *)
From Verif Require Import Base Arch CTypesSpec ConstConv ConstConvProofs ConstFold ConstFoldSpec ConstFoldProofs.

(** Whenever C defines the operation, it is folded to the C value and type. *)
Theorem C11_fold_binary :
  forall m t op a b v,
  integer_type t -> t <> ST_BOOL -> representable m t a -> representable m t b ->
  c_binop m t op a b = Some v ->
  exists bits, operators_constant m op t (wrap 64 a) t (wrap 64 b) = Ok (Some (c_result_type t op, bits)) /\
    constant_value (c_result_type t op) bits = Ok v.
Proof. intros m t op a b v I N. apply fold_spec. split; auto. Qed.
Print Assumptions C11_fold_binary.

Theorem C11_fold_unary :
  forall m t op a v,
  integer_type t -> t <> ST_BOOL -> representable m t a -> c_unop m t op a = Some v ->
  exists bits, operators_constant_unary m op t (wrap 64 a) = Ok (Some (t, bits)) /\ constant_value t bits = Ok v.
Proof. intros m t op a v I N. apply fold_unary_spec. split; auto. Qed.
Print Assumptions C11_fold_unary.

(** Bitwise operators are among the defined ones for all operands. *)
Theorem C11_bitwise_defined :
  forall m t op a b, integer_type t -> t <> ST_BOOL -> representable m t a -> representable m t b ->
  In op [OP_BXOR; OP_BOR; OP_BAND] -> c_binop m t op a b <> None.
Proof. intros m t op a b I N. apply bitwise_defined. split; auto. Qed.
Print Assumptions C11_bitwise_defined.

(** Signed division by zero is left unfolded... *)
Theorem C11_signed_div_zero :
  forall m t a, integer_type t -> spec_signed t = true -> representable m t a ->
  operators_constant m OP_DIV t (wrap 64 a) t (wrap 64 0) = Ok None.
Proof.
  intros m t a I S R. unfold operators_constant. destruct (st_eqb_spec t t); [|contradiction].
  destruct (int_cases t I) as [-> ->]. rewrite S. reflexivity.
Qed.
Print Assumptions C11_signed_div_zero.

(** ... but signed remainder by zero, unsigned division and remainder by zero
    and the overflowing 64-bit quotient are executed by the compiler itself. *)
Theorem C11_signed_mod_zero_refuted :
  exists m t a, integer_type t /\ spec_signed t = true /\ representable m t a /\
  operators_constant m OP_MOD t (wrap 64 a) t (wrap 64 0) = Undef.
Proof. exists SYSV, ST_INT, 1. repeat split; try (cbn; intuition; fail); vm_compute; discriminate. Qed.
Print Assumptions C11_signed_mod_zero_refuted.
Theorem C11_unsigned_div_zero_refuted :
  forall m op a, (op = OP_DIV \/ op = OP_MOD) -> representable m ST_UINT a ->
  operators_constant m op ST_UINT (wrap 64 a) ST_UINT 0 = Undef.
Proof. intros m op a [->| ->] R; reflexivity. Qed.
Print Assumptions C11_unsigned_div_zero_refuted.
Theorem C11_overflowing_quotient_refuted :
  exists m t a b, integer_type t /\ representable m t a /\ representable m t b /\ b <> 0 /\
  operators_constant m OP_DIV t (wrap 64 a) t (wrap 64 b) = Undef.
Proof. exists SYSV, ST_LONG, (-9223372036854775808), (-1). repeat split; try (cbn; intuition; fail); vm_compute; discriminate. Qed.
Print Assumptions C11_overflowing_quotient_refuted.

Example C11_nontrivial :
  representable SYSV ST_UINT 4294967295 /\ c_binop SYSV ST_UINT OP_ADD 4294967295 3 = Some 2 /\
  c_binop SYSV ST_INT OP_DIV (-7) 2 = Some (-3) /\ c_binop SYSV ST_INT OP_MOD (-7) 2 = Some (-1) /\
  c_binop SYSV ST_INT OP_ADD 2147483647 1 = None /\ c_unop SYSV ST_UCHAR UOP_NEG 1 = Some 255.
Proof. repeat split; try (vm_compute; discriminate); reflexivity. Qed.
