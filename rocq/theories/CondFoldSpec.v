(** Specification for C90: when a constant compares equal to 0 (6.5.15p4, 6.5.3.3p5). *)
From Verif Require Import Base Arch CTypesSpec ArithConvSpec CondFold.
Local Open Scope Z_scope.

(** IEEE 754: a number with [e] exponent bits and [f] fraction bits is 0 exactly if
    its significand is. Infinities and NaNs are not 0. *)
Definition significand (e f bits : Z) : Z :=
  if (bits / 2 ^ f) mod 2 ^ e =? 0 then bits mod 2 ^ f else 2 ^ f + bits mod 2 ^ f.

(** What the union holds: integers in two's complement of 64 bits (C08, C11), a double
    in all 8 bytes, a float in the low 4. *)
Inductive compares_equal_to_0 : constant -> Prop :=
| zero_integer t : integer_type t -> compares_equal_to_0 {| data_type := Arithmetic t; union := 0 |}
| zero_pointer : compares_equal_to_0 {| data_type := PointerTo; union := 0 |}
| zero_float u : significand 8 23 u = 0 -> compares_equal_to_0 {| data_type := Arithmetic ST_FLOAT; union := u |}
| zero_double u : significand 11 52 u = 0 -> compares_equal_to_0 {| data_type := Arithmetic ST_DOUBLE; union := u |}.

(** The result of a test, of type int. *)
Inductive truth (P : Prop) : constant -> Prop :=
| is_true : P -> truth P {| data_type := Arithmetic ST_INT; union := 1 |}
| is_false : ~ P -> truth P {| data_type := Arithmetic ST_INT; union := 0 |}.
