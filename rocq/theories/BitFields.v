(** Model of the bit-field access code built by src/ir/ir.c. *)
From Verif Require Import Base Common.

(** Word semantics of the IR operators used (codegen.c IR_INT_CAST_ZERO,
    binary_operators.h band/bor/shl/shr/sar 64-bit, codegen.c IR_BINARY_NOT).
    A node of [size] bytes holds a value in [0, 2^(8*size)). Shift counts are
    taken modulo 64, as shlq/shrq/sarq %cl do. *)
Definition ev_cast_zero (v : Z) (target_size : Z) : Z := wrap (8 * target_size) v.
Definition ev_and64 (a b : Z) : Z := Z.land a b.
Definition ev_or64 (a b : Z) : Z := Z.lor a b.
Definition ev_not64 (a : Z) : Z := wrap 64 (Z.lnot a).
Definition ev_shl64 (a c : Z) : Z := wrap 64 (Z.shiftl a (c mod 64)).
Definition ev_shr64 (a c : Z) : Z := Z.shiftr a (c mod 64).
Definition ev_sar64 (a c : Z) : Z := wrap 64 (Z.shiftr (signed 64 a) (c mod 64)).

(** src/ir/ir.c:313-331 (ir_set_bits): value of the node it returns, given the
    values of [field] (a node of [fs] bytes) and [value].
    gen_mask takes its pads as unsigned char. *)
Definition set_bits (fs field value offset length : Z) : res Z :=
  let* mask := gen_mask (wrap 8 (64 - offset - length)) (wrap 8 offset) in
  let value_large := ev_cast_zero value 8 in
  let field_large := ev_cast_zero field 8 in
  let result_large := ev_and64 mask field_large in
  let mask_inverted := ev_not64 mask in
  let value_large := ev_shl64 value_large offset in
  let mask_inverted := ev_and64 mask_inverted value_large in
  let result_large := ev_or64 mask_inverted result_large in
  Ok (ev_cast_zero result_large fs).

(** src/ir/ir.c:333-342 (ir_get_bits). *)
Definition get_bits (fs field offset length : Z) (sign_extend : bool) : Z :=
  let field_large := ev_cast_zero field 8 in
  let l := ev_shl64 field_large (64 - offset - length) in
  let r := if sign_extend then ev_sar64 l (64 - length) else ev_shr64 l (64 - length) in
  ev_cast_zero r fs.
