(** Specification: C11 6.5 integer arithmetic at a type, [None] = undefined. *)
From Verif Require Import Base Arch CTypesSpec ConstFold.

(** The mathematical result, before it is fitted to the type. [None] where C
    has no result whatever the type. Right shift of a negative value is
    implementation-defined; arithmetic shift is assumed. *)
Definition math_binop (m : abi) (t : simple_type) (op : operator_type) (a b : Z) : option Z :=
  match op with
  | OP_ADD => Some (a + b)
  | OP_SUB => Some (a - b)
  | OP_MUL => Some (a * b)
  | OP_DIV => if b =? 0 then None else Some (Z.quot a b)
  | OP_MOD => if b =? 0 then None
              else if spec_signed t && (Z.quot a b =? spec_max m t + 1) then None
              else Some (Z.rem a b)
  | OP_LSHIFT => if (0 <=? b) && (b <? spec_width m t) && (0 <=? a) then Some (a * 2 ^ b) else None
  | OP_RSHIFT => if (0 <=? b) && (b <? spec_width m t) then Some (a / 2 ^ b) else None
  | OP_BXOR => Some (Z.lxor a b)
  | OP_BOR => Some (Z.lor a b)
  | OP_BAND => Some (Z.land a b)
  | OP_LESS => Some (if a <? b then 1 else 0)
  | OP_GREATER => Some (if a >? b then 1 else 0)
  | OP_LESS_EQ => Some (if a <=? b then 1 else 0)
  | OP_GREATER_EQ => Some (if a >=? b then 1 else 0)
  | OP_EQUAL => Some (if a =? b then 1 else 0)
  | OP_NOT_EQUAL => Some (if a =? b then 0 else 1)
  end.

(** Unsigned results are reduced modulo 2^width; an unrepresentable signed
    result is undefined. *)
Definition fit (m : abi) (t : simple_type) (v : Z) : option Z :=
  if spec_signed t then
    if (spec_min m t <=? v) && (v <=? spec_max m t) then Some v else None
  else Some (v mod 2 ^ spec_width m t).
Definition c_binop (m : abi) (t : simple_type) (op : operator_type) (a b : Z) : option Z :=
  match math_binop m t op a b with Some v => fit m t v | None => None end.
Definition c_unop (m : abi) (t : simple_type) (op : unary_operator_type) (a : Z) : option Z :=
  match op with
  | UOP_PLUS => fit m t a
  | UOP_NEG => fit m t (- a)
  | UOP_BNOT => fit m t (- a - 1)
  end.
(** Relational and equality operators yield an int. *)
Definition c_result_type (t : simple_type) (op : operator_type) : simple_type :=
  match op with
  | OP_LESS | OP_GREATER | OP_LESS_EQ | OP_GREATER_EQ | OP_EQUAL | OP_NOT_EQUAL => ST_INT
  | _ => t
  end.
