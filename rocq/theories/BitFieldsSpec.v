(** Specification of bit-field access, by individual bits. *)
From Verif Require Import Base.

(** Value C assigns to a bit-field of width [len] after storing [v]:
    [v] modulo 2^len, read as unsigned or as two's complement. *)
Definition field_value (is_signed : bool) (len v : Z) : Z :=
  if is_signed then signed len v else v mod 2 ^ len.

(** [unit'] is [unit] with bits [off, off+len) replaced by the low bits of [v]. *)
Definition replaces_bits (unit unit' v off len : Z) : Prop :=
  forall i, 0 <= i ->
    Z.testbit unit' i =
      if (off <=? i) && (i <? off + len) then Z.testbit v (i - off) else Z.testbit unit i.
