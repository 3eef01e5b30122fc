(** Model of integer constant conversions: src/arch/x64.c:465-553. A constant
    of integer type is its type and its 64-bit pattern (the union of int_d and
    uint_d). *)
From Verif Require Import Base Arch.

Definition int_d (bits : Z) : Z := signed 64 bits.

(** src/arch/x64.c:465-468 (conv_ui): unsigned 64-bit arithmetic; the result
    (a constant_uint converted to constant_int) is kept as a pattern. *)
Definition conv_ui (x range_min range_max : Z) : Z :=
  let x := Z.land x (wrap 64 (range_min + range_max)) in
  if range_max <? x
  then wrap 64 (- wrap 64 (wrap 64 (range_min + 1) - wrap 64 (x - range_max)))
  else x.
(** src/arch/x64.c:470-472 (conv_iu), 474-476 (conv_uu), 478-480 (conv_ii):
    conversion of int_d to constant_uint keeps the pattern. *)
Definition conv_iu (x range_max : Z) : Z := Z.land x range_max.
Definition conv_uu (x range_max : Z) : Z := Z.land x range_max.
Definition conv_ii (x range_min range_max : Z) : Z :=
  conv_ui (conv_iu x (wrap 64 (range_max + range_min))) range_min range_max.

(** src/arch/x64.c:482-492 (constant_normalize). *)
Definition constant_normalize (m : abi) (t : simple_type) (bits : Z) : res Z :=
  if negb (st_is_integer t) then Fail else
  let* r := get_range m t (-1) in
  let* rmin := range_min_of (fst r) in
  let* rmax := range_max_of (snd r) in
  let* s := is_signed t in
  Ok (if s then conv_ii bits rmin rmax else conv_uu bits rmax).

(** src/arch/x64.c:494-553 (simple_cast), integer to integer. Conversions that
    involve floating types are not modelled and return [Fail]. *)
Definition simple_cast (m : abi) (from : simple_type) (bits : Z) (target : simple_type) : res Z :=
  if st_eqb target ST_VOID || st_eqb target from then Ok bits
  else if st_is_integer from && st_is_integer target then
    let* r := get_range m target (-1) in
    let* rmin := range_min_of (fst r) in
    let* rmax := range_max_of (snd r) in
    let* sf := is_signed from in
    let* st := is_signed target in
    Ok (if sf && st then conv_ii bits rmin rmax
        else if sf && negb st then conv_iu bits rmax
        else if negb sf && st then conv_ui bits rmin rmax
        else conv_uu bits rmax)
  else Fail.

(** Value of an integer constant: int_d for signed types, uint_d otherwise
    (src/arch/x64.c:555-566, constant_to_u64, reads the same members). *)
Definition constant_value (t : simple_type) (bits : Z) : res Z :=
  let* s := is_signed t in Ok (if s then int_d bits else bits).
