(** Model of the choice of conversion: src/parser/expression_to_ir.c
    (variable_cast) over simple types, and src/ir/ir.c:449-467. *)
From Verif Require Import Base Bytes Arch X86 Codegen.

(** src/types.c:261-290 (type_is_floating), simple types. *)
Definition st_is_floating (t : simple_type) : bool :=
  match t with
  | ST_FLOAT | ST_DOUBLE | ST_LDOUBLE
  | ST_FLOAT_COMPLEX | ST_DOUBLE_COMPLEX | ST_LDOUBLE_COMPLEX => true
  | _ => false
  end.

(** src/parser/expression_to_ir.c:129-152 (variable_cast) followed by
    codegen_instruction on the node it builds. The result is the slot that
    holds the converted value: the operand's own when no node is built, else a
    new one at [loc], of the size the node gets in src/ir/ir.c:449-467. *)
Definition compile_cast (m : abi) (from to : simple_type) (a : slot) (loc : Z) : res (slot * list instr) :=
  let node size f :=
    let out := {| s_size := size; s_loc := loc |} in
    let* code := f a out in Ok (out, code) in
  if st_eqb from to then Ok (a, [])
  else if st_eqb to ST_BOOL then node (sizeof_simple m ST_BOOL) codegen_bool_cast
  else if st_is_integer to && st_is_integer from then
    if sizeof_simple m to =? sizeof_simple m from then Ok (a, [])
    else
      let* s := is_signed from in
      node (sizeof_simple m to) (if s : bool then codegen_int_cast_sign else codegen_int_cast_zero)
  else if st_is_floating to && st_is_floating from then node (sizeof_simple m to) codegen_float_cast
  else if st_is_floating to && st_is_integer from then
    let* s := is_signed from in
    node (sizeof_simple m to) (if s : bool then codegen_int_float_cast else codegen_uint_float_cast)
  else if st_is_integer to && st_is_floating from then node (sizeof_simple m to) codegen_float_int_cast
  else Ok (a, []).
