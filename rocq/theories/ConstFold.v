(** Model of the integer part of src/ir/operators.c. The compiler's own C
    arithmetic on int64_t/uint64_t is modelled with C's undefined cases. *)
From Verif Require Import Base Arch ConstConv.

(** src/ir/operators.h:7-31 (enum operator_type). *)
Inductive operator_type :=
| OP_BXOR | OP_BOR | OP_BAND | OP_LSHIFT | OP_RSHIFT | OP_ADD | OP_SUB | OP_MUL | OP_DIV | OP_MOD
| OP_LESS | OP_GREATER | OP_LESS_EQ | OP_GREATER_EQ | OP_EQUAL | OP_NOT_EQUAL.
Inductive unary_operator_type := UOP_PLUS | UOP_NEG | UOP_BNOT.

(** src/ir/operators.c:8-40 (operators_get_result_type) for equal operand types. *)
Definition returns_int (op : operator_type) : bool :=
  match op with
  | OP_GREATER | OP_GREATER_EQ | OP_LESS | OP_LESS_EQ | OP_EQUAL | OP_NOT_EQUAL => true
  | _ => false
  end.
Definition operators_get_result_type (op : operator_type) (t : simple_type) : simple_type :=
  if returns_int op then ST_INT else t.

(** int64_t arithmetic: overflow is undefined. *)
Definition i64 (v : Z) : res Z :=
  if (- 2 ^ 63 <=? v) && (v <? 2 ^ 63) then Ok v else Undef.
Definition b2z (b : bool) : Z := if b then 1 else 0.
Definition shl_i64 (a b : Z) : res Z :=
  if (b <? 0) || (64 <=? b) || (a <? 0) then Undef else i64 (Z.shiftl a b).
Definition shr_i64 (a b : Z) : res Z :=
  if (b <? 0) || (64 <=? b) then Undef else Ok (Z.shiftr a b).
Definition div_i64 (a b : Z) : res Z := if b =? 0 then Undef else i64 (Z.quot a b).
Definition mod_i64 (a b : Z) : res Z :=
  if b =? 0 then Undef else if (a =? - 2 ^ 63) && (b =? -1) then Undef else Ok (Z.rem a b).

(** src/ir/operators.c:95-113: the switch for signed types. *)
Definition fold_signed (op : operator_type) (a b : Z) : res Z :=
  match op with
  | OP_ADD => i64 (a + b)
  | OP_SUB => i64 (a - b)
  | OP_MUL => i64 (a * b)
  | OP_DIV => div_i64 a b
  | OP_MOD => mod_i64 a b
  | OP_BXOR => Ok (Z.lxor a b)
  | OP_BOR => Ok (Z.lor a b)
  | OP_BAND => Ok (Z.land a b)
  | OP_LSHIFT => shl_i64 a b
  | OP_RSHIFT => shr_i64 a b
  | OP_LESS => Ok (b2z (a <? b))
  | OP_GREATER => Ok (b2z (b <? a))
  | OP_LESS_EQ => Ok (b2z (a <=? b))
  | OP_GREATER_EQ => Ok (b2z (b <=? a))
  | OP_EQUAL => Ok (b2z (a =? b))
  | OP_NOT_EQUAL => Ok (b2z (negb (a =? b)))
  end.

(** src/ir/operators.c:117-135: the switch for unsigned types. *)
Definition fold_unsigned (op : operator_type) (a b : Z) : res Z :=
  match op with
  | OP_ADD => Ok (wrap 64 (a + b))
  | OP_SUB => Ok (wrap 64 (a - b))
  | OP_MUL => Ok (wrap 64 (a * b))
  | OP_DIV => if b =? 0 then Undef else Ok (a / b)
  | OP_MOD => if b =? 0 then Undef else Ok (a mod b)
  | OP_BXOR => Ok (Z.lxor a b)
  | OP_BOR => Ok (Z.lor a b)
  | OP_BAND => Ok (Z.land a b)
  | OP_LSHIFT => if 64 <=? b then Undef else Ok (wrap 64 (Z.shiftl a b))
  | OP_RSHIFT => if 64 <=? b then Undef else Ok (Z.shiftr a b)
  | OP_LESS => Ok (b2z (a <? b))
  | OP_GREATER => Ok (b2z (b <? a))
  | OP_LESS_EQ => Ok (b2z (a <=? b))
  | OP_GREATER_EQ => Ok (b2z (b <=? a))
  | OP_EQUAL => Ok (b2z (a =? b))
  | OP_NOT_EQUAL => Ok (b2z (negb (a =? b)))
  end.

(** src/ir/operators.c:42-147 (operators_constant) for two constants of simple
    types, given as type and 64-bit pattern. [None] is "return 0". Floating types
    are not modelled and return [Fail]. *)
Definition operators_constant (m : abi) (op : operator_type) (tl : simple_type) (lhs : Z)
  (tr : simple_type) (rhs : Z) : res (option (simple_type * Z)) :=
  if negb (st_eqb tl tr) then Ok None else
  if negb (st_is_integer tl) then Fail else
  let rt := operators_get_result_type op tl in
  let* s := is_signed tl in
  if s then
    (* 93: the guard tests OP_DIV twice *)
    if match op with OP_DIV => int_d rhs =? 0 | _ => false end then Ok None else
    let* v := fold_signed op (int_d lhs) (int_d rhs) in
    Ok (Some (rt, wrap 64 v))
  else
    let* v := fold_unsigned op lhs rhs in
    if returns_int op then Ok (Some (rt, wrap 64 v))
    else let* n := constant_normalize m rt v in Ok (Some (rt, n)).

(** src/ir/operators.c:149-199 (operators_constant_unary), integer types. *)
Definition operators_constant_unary (m : abi) (op : unary_operator_type) (t : simple_type) (rhs : Z)
  : res (option (simple_type * Z)) :=
  if negb (st_is_integer t) then Fail else
  let* s := is_signed t in
  if s then
    let* v := match op with
              | UOP_PLUS => Ok (int_d rhs)
              | UOP_NEG => i64 (- int_d rhs)
              | UOP_BNOT => Ok (Z.lnot (int_d rhs))
              end in
    Ok (Some (t, wrap 64 v))
  else
    let v := match op with
             | UOP_PLUS => rhs
             | UOP_NEG => wrap 64 (- rhs)
             | UOP_BNOT => wrap 64 (Z.lnot rhs)
             end in
    let* n := constant_normalize m t v in Ok (Some (t, n)).
