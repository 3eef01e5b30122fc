(** Model of arithmetic helpers of src/common.c. *)
From Verif Require Import Base.

(** Range of C int. *)
Definition INT_MIN := -2147483648.
Definition INT_MAX := 2147483647.
Definition in_int (v : Z) : Prop := INT_MIN <= v <= INT_MAX.
Definition int_ok (v : Z) : bool := (INT_MIN <=? v) && (v <=? INT_MAX).

(** src/common.c:44-49 (round_up_to_nearest). [%] is C's truncating
    remainder ([Z.rem]); division by zero and signed overflow are [Undef]. *)
Definition round_up_to_nearest (num div : Z) : res Z :=
  if div =? 0 then Undef else
  if (div =? -1) && (num =? INT_MIN) then Undef else
  let r := Z.rem num div in
  if r =? 0 then Ok num
  else let v := num + (div - r) in
       if int_ok (div - r) && int_ok v then Ok v else Undef.

(** src/common.c:94-101 (gen_mask). uint64_t arithmetic; a shift by 64 or
    more is [Undef]. *)
Definition gen_mask (left_pad right_pad : Z) : res Z :=
  if (64 <=? left_pad) || (64 <=? right_pad) then Undef else
  let start := 2 ^ 64 - 1 in
  let start := wrap 64 (Z.shiftl (Z.shiftr start right_pad) right_pad) in
  let start := Z.shiftr (wrap 64 (Z.shiftl start left_pad)) left_pad in
  Ok (wrap 64 (Z.lnot start)).

(** src/common.c:51-60 (character_constant_to_int): intmax_t accumulation of
    (signed) chars. The left shift of a value that leaves the intmax_t range,
    or of a negative value, is undefined in C. *)
Definition schar (b : Z) : Z := signed 8 b.
Fixpoint character_constant_loop (acc : Z) (l : list Z) : res Z :=
  match l with
  | [] => Ok acc
  | b :: t =>
      if (acc <? 0) || (2 ^ 63 <=? acc * 256) then Undef
      else character_constant_loop (Z.lor (acc * 256) (schar b)) t
  end.
Definition character_constant_to_int (l : list Z) : res Z := character_constant_loop 0 l.
