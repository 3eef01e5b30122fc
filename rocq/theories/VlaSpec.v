(** C11 6.7.6.2: the size expressions of a type and the size of an object. *)
From Verif Require Import Base Vla.
Local Open Scope Z_scope.
Local Open Scope list_scope.

(** The size expressions in a declarator, from the inside of the type. *)
Fixpoint expressions (t : ty) : list nat :=
  match t with
  | Plain _ => []
  | Pointer t' | Array _ t' | Incomplete t' => expressions t'
  | Vla i t' => expressions t' ++ match i with Some i => [i] | None => [] end
  | Function l => expressions_of l
  end
with expressions_of (l : tys) : list nat :=
  match l with TNil => [] | TCons t r => expressions t ++ expressions_of r end.

(** No size is given as [*]. *)
Fixpoint no_star (t : ty) : Prop :=
  match t with
  | Plain _ => True
  | Pointer t' | Array _ t' | Incomplete t' => no_star t'
  | Vla i t' => i <> None /\ no_star t'
  | Function l => no_stars l
  end
with no_stars (l : tys) : Prop :=
  match l with TNil => True | TCons t r => no_star t /\ no_stars r end.

(** The size of an object of type t, when [len] are the values of the size
    expressions. *)
Fixpoint bytes (len : nat -> Z) (t : ty) : Z :=
  match t with
  | Plain s => s
  | Pointer _ => 8
  | Array n t' => n * bytes len t'
  | Vla (Some i) t' => len i * bytes len t'
  | _ => 0
  end.
(** Object types whose constant part is smaller than 2 GiB. *)
Fixpoint object_type (t : ty) : Prop :=
  match t with
  | Plain s => 0 <= s < 2 ^ 31
  | Pointer _ => True
  | Array n t' => 0 <= n < 2 ^ 31 /\ object_type t' /\
      (has_variable_size t' = false -> n * bytes (fun _ => 0) t' < 2 ^ 31)
  | Vla i t' => i <> None /\ object_type t'
  | _ => False
  end.
