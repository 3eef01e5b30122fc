(** Outcomes of loops and recursions given fuel: [None] means the fuel ran out,
    [Some r] that the C code ends with the outcome [r]. *)
From Verif Require Import Base.

Definition ex (A : Type) := option (res A).
Definition exbind {A B} (x : ex A) (f : A -> ex B) : ex B :=
  match x with Some (Ok a) => f a | Some Fail => Some Fail | Some Undef => Some Undef | None => None end.
Notation "'let!' x ':=' e 'in' k" := (exbind e (fun x => k))
  (at level 200, x pattern, right associativity).
Definition ok {A} (a : A) : ex A := Some (Ok a).
