(** Control flow and dominance, stated on the graph alone. *)
From Verif Require Import Base IR.

(** Block [p] is followed by block [b]: [b] is a target of the branch at the end of [p], or
    a region that [p] jumps to. *)
Inductive edge (g : graph) (p b : nat) : Prop :=
| edge_branch i : type (node_at g b) = IR_PROJECT -> argument g b 0 = Some i -> type (node_at g i) = IR_IF -> argument g i 0 = Some p -> edge g p b
| edge_jump k : type (node_at g b) = IR_REGION -> argument g b k = Some p -> edge g p b.
(** The blocks an execution goes through on its way from [entry] to [b]. *)
Inductive path (g : graph) (entry : nat) : nat -> list nat -> Prop :=
| path_start : path g entry entry [entry]
| path_edge p b l : path g entry p l -> edge g p b -> path g entry b (l ++ [b]).
Definition block_reachable (g : graph) (entry b : nat) : Prop := exists l, path g entry b l.
(** Every way to [b] goes through [d]. *)
Definition dominates (g : graph) (entry d b : nat) : Prop := forall l, path g entry b l -> In d l.
(** The first block of a function in a graph the parser has completed. *)
Definition control_graph (g : graph) (entry : nat) : Prop :=
  (* the entry is the block projection of a function *)
  (exists f, type (node_at g entry) = IR_PROJECT /\ number (node_at g entry) = 0 /\ argument g entry 0 = Some f /\ type (node_at g f) = IR_FUNCTION) /\
  (* projections have their node; those of a branch are the ones it lists *)
  (forall n, type (node_at g n) = IR_PROJECT -> argument g n 0 <> None) /\
  (forall b i, type (node_at g b) = IR_PROJECT -> argument g b 0 = Some i -> type (node_at g i) = IR_IF ->
     nth 0 (projects (node_at g i)) None = Some b \/ nth 1 (projects (node_at g i)) None = Some b) /\
  (forall i k b, type (node_at g i) = IR_IF -> (k < 2)%nat -> nth k (projects (node_at g i)) None = Some b ->
     type (node_at g b) = IR_PROJECT /\ argument g b 0 = Some i) /\
  (* a branch ends a block; blocks are no operands of branches or projections *)
  (forall i, type (node_at g i) = IR_IF -> argument g i 0 <> None) /\
  (forall i k p, type (node_at g i) = IR_IF -> argument g i k = Some p -> node_is_control g p = Ok true -> k = O) /\
  (forall n k p, type (node_at g n) = IR_PROJECT -> argument g n k = Some p -> node_is_control g p <> Ok true) /\
  (* what precedes a region or a branch is a block *)
  (forall n k p, type (node_at g n) = IR_REGION -> argument g n k = Some p -> node_is_control g p = Ok true) /\
  (forall i p, type (node_at g i) = IR_IF -> argument g i 0 = Some p -> node_is_control g p = Ok true).
