(** Specification: expressions over variables of integer type, and the value
    and effect C11 gives them (6.3.1, 6.5). *)
From Verif Require Import Base Arch CTypesSpec ArithConvSpec ConstFold ConstFoldSpec.

Inductive cexpr :=
| CLit (t : simple_type) (v : Z)                                        (* constant *)
| CVar (x : nat)
| CBin (op : operator_type) (a b : cexpr)
| CUn (op : unary_operator_type) (a : cexpr)
| CCast (t : simple_type) (a : cexpr)
| CAssign (x : nat) (a : cexpr)
| CAssignOp (op : operator_type) (postfix : bool) (x : nat) (a : cexpr) (* x op= a; with the old value, x++ *)
| CComma (a b : cexpr).

(** 6.3.1.2, 6.3.1.3: conversion of a value to an integer type. Out of range
    for a signed type is implementation-defined: modulo, as the psABI compilers
    do. *)
Definition convert (m : abi) (t : simple_type) (v : Z) : Z :=
  match t with
  | ST_BOOL => if v =? 0 then 0 else 1
  | _ => if spec_signed t then signed (spec_width m t) v else v mod 2 ^ spec_width m t
  end.

Definition is_shift (op : operator_type) : bool :=
  match op with OP_LSHIFT | OP_RSHIFT => true | _ => false end.
Definition is_comparison (op : operator_type) : bool :=
  match op with
  | OP_LESS | OP_GREATER | OP_LESS_EQ | OP_GREATER_EQ | OP_EQUAL | OP_NOT_EQUAL => true
  | _ => false
  end.

(** The type an operator works in: 6.5.7p3 for shifts, 6.3.1.8 for the rest. *)
Definition working_type (m : abi) (op : operator_type) (ta tb : simple_type) : simple_type :=
  if is_shift op then spec_promote m ta else spec_common m ta tb.

(** [a op b] on values: a shift count is not converted. *)
Definition c_operator (m : abi) (op : operator_type) (ta tb : simple_type) (a b : Z) : option Z :=
  let T := working_type m op ta tb in
  c_binop m T op (convert m T a) (if is_shift op then b else convert m T b).

Section Eval.
Variables (m : abi) (G : nat -> simple_type).

Fixpoint c_type (e : cexpr) : simple_type :=
  match e with
  | CLit t _ => t
  | CVar x => G x
  | CBin op a b => c_result_type (working_type m op (c_type a) (c_type b)) op
  | CUn _ a => spec_promote m (c_type a)
  | CCast t _ => t
  | CAssign x _ | CAssignOp _ _ x _ => G x
  | CComma _ b => c_type b
  end.

Definition update (st : nat -> Z) (x : nat) (v : Z) : nat -> Z :=
  fun y => if Nat.eqb y x then v else st y.

(** Value and store afterwards; [None] where C leaves the result undefined. *)
Fixpoint c_eval (e : cexpr) (st : nat -> Z) : option (Z * (nat -> Z)) :=
  match e with
  | CLit _ v => Some (v, st)
  | CVar x => Some (st x, st)
  | CBin op a b =>
      match c_eval a st with
      | Some (va, st) =>
          match c_eval b st with
          | Some (vb, st) =>
              match c_operator m op (c_type a) (c_type b) va vb with
              | Some v => Some (v, st)
              | None => None
              end
          | None => None
          end
      | None => None
      end
  | CUn op a =>
      match c_eval a st with
      | Some (va, st) =>
          let T := spec_promote m (c_type a) in
          match c_unop m T op (convert m T va) with Some v => Some (v, st) | None => None end
      | None => None
      end
  | CCast t a =>
      match c_eval a st with Some (va, st) => Some (convert m t va, st) | None => None end
  | CAssign x a =>
      match c_eval a st with
      | Some (va, st) => Some (convert m (G x) va, update st x (convert m (G x) va))
      | None => None
      end
  | CAssignOp op postfix x a =>
      match c_eval a st with
      | Some (va, st) =>
          match c_operator m op (G x) (c_type a) (st x) va with
          | Some v => Some (if postfix then st x else convert m (G x) v, update st x (convert m (G x) v))
          | None => None
          end
      | None => None
      end
  | CComma a b =>
      match c_eval a st with Some (_, st) => c_eval b st | None => None end
  end.
End Eval.

(** 6.5p2: a side effect on an object is not unsequenced relative to another
    side effect on it or to a use of its value. Comma is a sequence point. *)
Fixpoint reads (e : cexpr) : list nat :=
  match e with
  | CLit _ _ => []
  | CVar x => [x]
  | CBin _ a b | CComma a b => reads a ++ reads b
  | CUn _ a | CCast _ a | CAssign _ a => reads a
  | CAssignOp _ _ x a => x :: reads a
  end.
Fixpoint writes (e : cexpr) : list nat :=
  match e with
  | CLit _ _ | CVar _ => []
  | CBin _ a b | CComma a b => writes a ++ writes b
  | CUn _ a | CCast _ a => writes a
  | CAssign x a | CAssignOp _ _ x a => x :: writes a
  end.
Definition apart (l k : list nat) : Prop := forall x, In x l -> ~ In x k.
Fixpoint sequenced (e : cexpr) : Prop :=
  match e with
  | CLit _ _ | CVar _ => True
  | CBin _ a b => sequenced a /\ sequenced b /\
      apart (writes a) (reads b) /\ apart (writes a) (writes b) /\ apart (writes b) (reads a)
  | CUn _ a | CCast _ a => sequenced a
  | CAssign x a | CAssignOp _ _ x a => sequenced a /\ ~ In x (writes a)
  | CComma a b => sequenced a /\ sequenced b
  end.

(** Every literal is a value of its type, and the types are integer types. *)
Fixpoint well_typed (m : abi) (G : nat -> simple_type) (e : cexpr) : Prop :=
  match e with
  | CLit t v => integer_type t /\ representable m t v
  | CVar x => integer_type (G x)
  | CBin _ a b | CComma a b => well_typed m G a /\ well_typed m G b
  | CUn _ a => well_typed m G a
  | CCast t a => integer_type t /\ well_typed m G a
  | CAssign x a => integer_type (G x) /\ well_typed m G a
  | CAssignOp op _ x a => integer_type (G x) /\ well_typed m G a /\ is_comparison op = false
  end.

(** The expressions the compiler is right about. Left out: unsigned division
    and comparisons of 64-bit operands (see C30, C31), conversion of a constant
    expression to _Bool (see C08), and [x >>= e] where x's promoted type is
    signed but its common type with e is not. *)
Fixpoint supported (m : abi) (G : nat -> simple_type) (e : cexpr) : Prop :=
  match e with
  | CLit _ _ | CVar _ => True
  | CBin op a b => supported m G a /\ supported m G b /\
      (op = OP_DIV -> spec_signed (spec_common m (c_type m G a) (c_type m G b)) = true) /\
      (is_comparison op = true -> spec_width m (spec_common m (c_type m G a) (c_type m G b)) = 32)
  | CUn _ a => supported m G a
  | CCast t a => supported m G a /\ (t = ST_BOOL -> reads a ++ writes a <> [])
  | CAssign _ a => supported m G a
  | CAssignOp op _ x a => supported m G a /\
      (op = OP_DIV -> spec_signed (spec_common m (G x) (c_type m G a)) = true) /\
      (op = OP_RSHIFT -> spec_signed (spec_promote m (G x)) = true ->
         spec_signed (spec_common m (G x) (c_type m G a)) = true)
  | CComma a b => supported m G a /\ supported m G b
  end.
