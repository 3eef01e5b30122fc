(** Model of __builtin_offsetof: src/parser/expression.c:743-768, with the parts
    of expr_new (404-470), expr_dot_operator (389-402), parse_pratt_with_lhs
    (775-877) and evaluate_constant_expression (899-1070) that its designators
    go through. *)
From Verif Require Import Base Common Arch.

Local Open Scope Z_scope.
Local Open Scope list_scope.

(** src/types.h:10-66 (struct type, struct field) after calculate_offsets: a
    member has its name (an unnamed one has none), type, byte offset and the
    width of its bit-field (-1 for none). Qualifiers, variable-length arrays,
    functions and incomplete structures are left out. *)
Inductive ty :=
| Scalar (size : Z)
| Pointer
| Array (length : Z) (t : ty)
| Flexible (t : ty)
| Agg (size : Z) (ms : members)
with members :=
| Nil
| Cons (name : option Z) (t : ty) (offset bits : Z) (rest : members).

(** What may follow the first member name: .x, or [e] where e has been folded to
    a constant of the given type. Other operators, which parse_pratt_with_lhs
    also accepts here, are left out. *)
Inductive designator :=
| Dot (x : Z)
| Index (st : simple_type) (v : Z).

(** src/arch/x64.c:166-193 (calculate_size), on System V. *)
Fixpoint calculate_size (t : ty) : Z :=
  match t with
  | Scalar s => s
  | Pointer => 8
  | Array n t' => signed 32 (n * calculate_size t')
  | Flexible _ => -1
  | Agg s _ => s
  end.

(** src/types.c:186-213 (type_search_member) on the members of a structure: the
    indices in the order in which expr_dot_operator uses them. *)
Fixpoint search_members (ms : members) (x : Z) : option (list nat) :=
  match ms with
  | Nil => None
  | Cons name t _ _ rest =>
      let later := match search_members rest x with Some (i :: p) => Some (S i :: p) | r => r end in
      match name with
      | Some y => if y =? x then Some [O] else later
      | None =>
          match t with
          | Agg _ inner => match search_members inner x with Some p => Some (O :: p) | None => later end
          | _ => later
          end
      end
  end.
Definition type_search_member (t : ty) (x : Z) : option (list nat) :=
  match t with Agg _ ms => search_members ms x | _ => None end.

(** data->fields[index] *)
Fixpoint nth_member (ms : members) (i : nat) : option (ty * Z * Z) :=
  match ms, i with
  | Nil, _ => None
  | Cons _ t off bits _, O => Some (t, off, bits)
  | Cons _ _ _ _ rest, S i => nth_member rest i
  end.

(** An expression as far as this goes: CONSTANT_LABEL with the null label, an
    offset and a type, or one that is no constant, of some type. *)
Inductive node := Label (offset : Z) (t : ty) | Plain (t : ty).

(** label.offset is an int64_t (src/arch/x64.h:67-70). *)
Definition add64 (a b : Z) : res Z :=
  if (- 2 ^ 63 <=? a + b) && (a + b <? 2 ^ 63) then Ok (a + b) else Undef.
Definition mul64 (a b : Z) : res Z :=
  if (- 2 ^ 63 <=? a * b) && (a * b <? 2 ^ 63) then Ok (a * b) else Undef.

(** E_DOT_OPERATOR: src/parser/expression.c:956-978, src/types.c:301-335
    (type_select, type_get_offsets). *)
Definition mk_dot (n : node) (i : nat) : res node :=
  match n with
  | Label o (Agg _ ms) =>
      match nth_member ms i with
      | Some (t, off, bits) =>
          if negb (bits =? -1) then Ok (Plain t)
          else let* o' := add64 o off in Ok (Label o' t)
      | None => Undef
      end
  | Plain (Agg _ ms) =>
      match nth_member ms i with Some (t, _, _) => Ok (Plain t) | None => Undef end
  | _ => Fail
  end.

(** src/parser/expression.c:389-402 (expr_dot_operator); None is NULL. *)
Fixpoint dots (n : node) (path : list nat) : res node :=
  match path with
  | [] => Ok n
  | i :: path => let* n' := mk_dot n i in dots n' path
  end.
Definition type_of (n : node) : ty := match n with Label _ t | Plain t => t end.
Definition expr_dot_operator (n : node) (x : Z) : res (option node) :=
  match type_search_member (type_of n) x with
  | None => Ok None
  | Some path => let* n' := dots n path in Ok (Some n')
  end.

(** lhs[index], src/parser/expression.c:839-848: decay_array (83-95) with
    E_ARRAY_PTR_DECAY (1000-1012), do_integer_promotion (97-106), E_POINTER_ADD
    (927-953), E_INDIRECTION (1049-1061). A pointer member decays to nothing and
    is no address constant; an operand that is neither is refused by type_deref
    (src/types.c:159-163). What the pointer member points to is left out. *)
Definition mk_index (n : node) (st : simple_type) (v : Z) : res node :=
  match n with
  | Label o (Array _ t) | Label o (Flexible t) =>
      let* int_constant := is_contained_in SYSV ST_INT (-1) st (-1) in
      if int_constant then
        let* d := mul64 v (calculate_size t) in
        let* o' := add64 o d in
        Ok (Label o' t)
      else Ok (Plain t)
  | Plain (Array _ t) | Plain (Flexible t) => Ok (Plain t)
  | Label _ Pointer | Plain Pointer => Ok (Plain (Scalar 1))
  | _ => Fail
  end.

(** The postfix operators of parse_pratt_with_lhs, src/parser/expression.c:839-870.
    A member that is not there is an error. *)
Fixpoint designate (n : node) (ds : list designator) : res node :=
  match ds with
  | [] => Ok n
  | Dot x :: ds =>
      let* m := expr_dot_operator n x in
      match m with Some n' => designate n' ds | None => Fail end
  | Index st v :: ds => let* n' := mk_index n st v in designate n' ds
  end.

(** The value of the whole expression: a constant of type unsigned long, or an
    expression left for the generated program. *)
Inductive value := Constant (v : Z) | NotConstant.

(** src/parser/expression.c:743-768, and the folding of E_ADDRESS_OF (1034-1047)
    and of the cast of a pointer with the null label (906-924). If the first
    member is not there, expr is NULL: the next .x reads through it, anything
    else is refused by expr_new (405-408). *)
Definition offsetof (t : ty) (x : Z) (ds : list designator) : res value :=
  let* first := expr_dot_operator (Label 0 t) x in
  match first with
  | None => match ds with Dot _ :: _ => Undef | _ => Fail end
  | Some n =>
      let* n' := designate n ds in
      match n' with
      | Label o _ => Ok (Constant (o mod 2 ^ 64))
      | Plain _ => Ok NotConstant
      end
  end.
