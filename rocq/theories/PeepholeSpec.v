(** Phis with one operand have its value. *)
From Verif Require Import Base IR.
Local Open Scope Z_scope.

(** A phi of which one operand is missing: its block is entered from one block only. *)
Definition one_operand (g : graph) (n r : nat) : Prop :=
  type (node_at g n) = IR_PHI /\ (argument g n 1 = Some r /\ argument g n 2 = None \/ argument g n 1 = None /\ argument g n 2 = Some r).
(** Values of the nodes that agree with this; of other nodes nothing is said. *)
Definition consistent {V : Type} (g : graph) (val : nat -> V) : Prop := forall n r, one_operand g n r -> val n = val r.
(** Every operand of every node has the value it had. *)
Definition same_operands {V : Type} (val : nat -> V) (g g' : graph) : Prop :=
  forall n i, option_map val (argument g' n i) = option_map val (argument g n i).
