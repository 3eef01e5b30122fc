(** Specification: positional value of a little-endian byte sequence. *)
From Verif Require Import Base.

(** value of b0 b1 b2 ... = b0 + 256*b1 + 256^2*b2 + ... *)
Fixpoint le_value (l : list Z) : Z :=
  match l with [] => 0 | b :: t => b + 256 * le_value t end.

(** the [n] bytes of [buf] starting at [pos] *)
Definition window (buf : list Z) (pos n : nat) : list Z := firstn n (skipn pos buf).
