(** Model of variable-length array types: src/types.c:346-366
    (type_has_variable_size), 381-401 (type_sizeof), 413-431 (type_evaluate_vla,
    type_contains_unevaluated_vla), and their use at declarations,
    src/parser/declaration.c:1247-1253. *)
From Verif Require Import Base.
Local Open Scope Z_scope.
Local Open Scope list_scope.

(** src/types.h:10-100 (struct type). A size expression that is no constant is
    given by a number; [None] is the size [*], which has no expression
    (src/parser/declaration.c:687-694). Structures stand with the simple types. *)
Inductive ty :=
| Plain (size : Z)
| Pointer (t : ty)
| Array (length : Z) (t : ty)
| Incomplete (t : ty)
| Vla (length : option nat) (t : ty)
| Function (children : tys)
with tys := TNil | TCons (t : ty) (rest : tys).

(** is_evaluated and length_var of the types met so far, by size expression: the
    value of the node that length_var is. *)
Definition state := list (nat * Z).
Fixpoint length_var (i : nat) (st : state) : option Z :=
  match st with [] => None | (k, v) :: r => if Nat.eqb k i then Some v else length_var i r end.

(** type_evaluate_vla. [now] is the value of each size expression where the code
    is emitted, converted to 64 bits (src/parser/expression_to_ir.c:739-744); the
    list has the expressions for which code is emitted, in order. Without an
    expression, expression_evaluate reads through a null pointer. *)
Fixpoint evaluate (now : nat -> Z) (t : ty) (st : state) : res (state * list nat) :=
  match t with
  | Plain _ => Ok (st, [])
  | Pointer t' | Array _ t' | Incomplete t' => evaluate now t' st
  | Function l => evaluate_all now l st
  | Vla i t' =>
      let* (st', ev) := evaluate now t' st in
      match i with
      | None => Undef
      | Some i =>
          match length_var i st' with
          | Some _ => Ok (st', ev)
          | None => Ok ((i, wrap 64 (now i)) :: st', ev ++ [i])
          end
      end
  end
with evaluate_all (now : nat -> Z) (l : tys) (st : state) : res (state * list nat) :=
  match l with
  | TNil => Ok (st, [])
  | TCons t r =>
      let* (st', ev) := evaluate now t st in
      let* (st'', ev') := evaluate_all now r st' in
      Ok (st'', ev ++ ev')
  end.

(** type_contains_unevaluated_vla *)
Fixpoint contains_unevaluated (t : ty) (st : state) : bool :=
  match t with
  | Plain _ => false
  | Pointer t' | Array _ t' | Incomplete t' => contains_unevaluated t' st
  | Function l => any_unevaluated l st
  | Vla i t' =>
      if contains_unevaluated t' st then true
      else match i with
           | Some i => match length_var i st with Some _ => true | None => false end
           | None => false
           end
  end
with any_unevaluated (l : tys) (st : state) : bool :=
  match l with TNil => false | TCons t r => if contains_unevaluated t st then true else any_unevaluated r st end.

(** src/parser/declaration.c:1247-1253 *)
Definition declare (external : bool) (now : nat -> Z) (t : ty) (st : state) : res (state * list nat) :=
  if external then if contains_unevaluated t st then Fail else Ok (st, [])
  else evaluate now t st.

(** src/arch/x64.c:166-193 (calculate_size) *)
Fixpoint calculate_size (t : ty) : Z :=
  match t with
  | Plain s => s
  | Pointer _ => 8
  | Array n t' => signed 32 (n * calculate_size t')
  | Incomplete _ | Function _ | Vla _ _ => -1
  end.
Fixpoint has_variable_size (t : ty) : bool :=
  match t with Array _ t' => has_variable_size t' | Vla _ _ => true | _ => false end.

(** The value of the expression type_sizeof. length_var is a node of 8 bytes that
    is said to be of type int; the conversion of 8 bytes to size_t emits no
    extension (src/codegen/codegen.c:314-328), so the whole value is multiplied.
    An array length is a constant of type int, below 2^31. *)
Fixpoint type_sizeof (t : ty) (st : state) : res Z :=
  match t with
  | Vla i t' =>
      match i with
      | None => Fail
      | Some i =>
          match length_var i st with
          | None => Fail
          | Some v => let* s := type_sizeof t' st in Ok (wrap 64 (v * s))
          end
      end
  | Array n t' =>
      if has_variable_size t' then let* s := type_sizeof t' st in Ok (wrap 64 (n * s))
      else Ok (wrap 64 (calculate_size t))
  | _ => Ok (wrap 64 (calculate_size t))
  end.
