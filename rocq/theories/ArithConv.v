(** Model of the conversions of src/parser/expression.c on simple types. *)
From Verif Require Import Base Arch.

(** src/parser/expression.c:16-52 (get_arithmetic_type). *)
Definition get_arithmetic_type (m : abi) (a : simple_type) (bitfield_a : Z)
  (b : simple_type) (bitfield_b : Z) : res simple_type :=
  if st_eqb a ST_LDOUBLE || st_eqb b ST_LDOUBLE then Ok ST_LDOUBLE
  else if st_eqb a ST_DOUBLE || st_eqb b ST_DOUBLE then Ok ST_DOUBLE
  else if st_eqb a ST_FLOAT || st_eqb b ST_FLOAT then Ok ST_FLOAT
  else if st_eqb a b then Ok a
  else
    let* sa := is_signed a in
    let* sb := is_signed b in
    let* ra := type_rank a in
    let* rb := type_rank b in
    if Bool.eqb sa sb then Ok (if rb <? ra then a else b)
    else if negb sa && (rb <=? ra) then Ok a
    else if negb sb && (ra <=? rb) then Ok b
    else
      let* ca := (if sa then is_contained_in m a bitfield_a b bitfield_b else Ok false) in
      if ca then Ok a else
      let* cb := (if sb then is_contained_in m b bitfield_b a bitfield_a else Ok false) in
      if cb then Ok b
      else if sb then Ok (to_unsigned b)
      else if sa then Ok (to_unsigned a)
      else Fail.

(** src/parser/expression.c:97-106 (do_integer_promotion): the type after it. *)
Definition do_integer_promotion (m : abi) (t : simple_type) (bitfield : Z) : res simple_type :=
  if st_is_integer t then
    let* c := is_contained_in m ST_INT (-1) t bitfield in
    Ok (if c then ST_INT else t)
  else Ok t.

(** src/parser/expression.c:108-113 (do_default_argument_promotion). *)
Definition do_default_argument_promotion (m : abi) (t : simple_type) (bitfield : Z) : res simple_type :=
  let* t' := do_integer_promotion m t bitfield in
  Ok (if st_eqb t' ST_FLOAT then ST_DOUBLE else t').

(** src/parser/expression.c:420-455 (expr_new) followed by 64-82
    (convert_arithmetic): the common type of a binary arithmetic operator whose
    operands are no bit-fields. *)
Definition common_type (m : abi) (a b : simple_type) : res simple_type :=
  let* pa := do_integer_promotion m a (-1) in
  let* pb := do_integer_promotion m b (-1) in
  get_arithmetic_type m pa (-1) pb (-1).
