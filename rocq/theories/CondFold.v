(** Constant conditions: ?: (and with it !, && and ||) over constants. *)
From Verif Require Import Base Arch CTypesSpec.
Local Open Scope Z_scope.

(** src/arch/x64.h:49-72 (struct constant) with type CONSTANT_TYPE: a type and the 8
    bytes of the union as a number, least significant byte first, as on the
    machines the compiler runs on. Only types of scalars. *)
Inductive scalar := Arithmetic (t : simple_type) | PointerTo.
Record constant := { data_type : scalar; union : Z }.

(** float_d == 0 and double_d == 0 of that union: both zeros compare equal to 0. *)
Definition float_d_is_0 (u : Z) : bool := (u mod 2 ^ 32) mod 2 ^ 31 =? 0.
Definition double_d_is_0 (u : Z) : bool := u mod 2 ^ 63 =? 0.

(** src/parser/expression.c:1099-1116. A float is read as double and a double as
    float. int_d and uint_d are the whole union. *)
Definition constant_is_zero (c : constant) : bool :=
  match data_type c with
  | Arithmetic ST_FLOAT => double_d_is_0 (union c)
  | Arithmetic ST_DOUBLE => float_d_is_0 (union c)
  | Arithmetic t => if st_is_integer t then union c =? 0 else false
  | PointerTo => union c =? 0
  end.

(** src/parser/expression.c:1014-1032 (evaluate_constant_expression, E_CONDITIONAL)
    once all three operands are constants. *)
Definition fold_conditional (lhs mid rhs : constant) : constant :=
  if constant_is_zero lhs then rhs else mid.
(** src/parser/expression.c:544-548 (!), 827-831 (||), 832-837 (&&). *)
Definition int_constant (v : Z) : constant := {| data_type := Arithmetic ST_INT; union := v |}.
Definition fold_not (a : constant) : constant := fold_conditional a (int_constant 0) (int_constant 1).
Definition fold_or (a b : constant) : constant :=
  fold_conditional a (int_constant 1) (fold_conditional b (int_constant 1) (int_constant 0)).
Definition fold_and (a b : constant) : constant :=
  fold_conditional a (fold_conditional b (int_constant 1) (int_constant 0)) (int_constant 0).
