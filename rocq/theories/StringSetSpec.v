(** Sets of strings as predicates, and histories of set operations. *)
From Verif Require Import Base StringSet.

(** How the expander builds sets: from the empty set by the three operations. *)
Inductive set_expr :=
| SEmpty
| SInsert (e : set_expr) (s : list Z)
| SUnion (e1 e2 : set_expr)
| SInter (e1 e2 : set_expr).
Fixpoint computed (e : set_expr) : list (list Z) :=
  match e with
  | SEmpty => []
  | SInsert e s => string_set_insert (computed e) s
  | SUnion a b => string_set_union (computed a) (computed b)
  | SInter a b => string_set_intersection (computed a) (computed b)
  end.
(** The mathematical set. *)
Fixpoint denotes (e : set_expr) (x : list Z) : Prop :=
  match e with
  | SEmpty => False
  | SInsert e s => denotes e x \/ x = s
  | SUnion a b => denotes a x \/ denotes b x
  | SInter a b => denotes a x /\ denotes b x
  end.
Fixpoint without_intersection (e : set_expr) : Prop :=
  match e with
  | SEmpty => True
  | SInsert e _ => without_intersection e
  | SUnion a b => without_intersection a /\ without_intersection b
  | SInter _ _ => False
  end.
(** Strictly increasing in the order of strcmp. *)
Fixpoint ascending (l : list (list Z)) : Prop :=
  match l with
  | [] => True
  | x :: t => (forall y, In y t -> strcmp x y = Lt) /\ ascending t
  end.
