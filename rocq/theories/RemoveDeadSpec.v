(** Which nodes matter, stated on the graph alone. *)
From Verif Require Import Base IR.

(** Control flows from [n] to [m]: [m] is a return, region or branch target that hangs
    off the block [n], or a target of the branch that ends it. *)
Inductive flows (g : graph) (n : nat) : nat -> Prop :=
| flows_return m : In m (uses g n) -> type (node_at g m) = IR_RETURN -> flows g n m
| flows_block m : In m (uses g n) -> node_is_control g m = Ok true -> flows g n m
| flows_branch b m i : In b (uses g n) -> type (node_at g b) = IR_IF -> (i < 2)%nat -> nth i (projects (node_at g b)) None = Some m -> flows g n m.
(** [n] can be reached from the start of a function. *)
Inductive reachable (g : graph) : nat -> Prop :=
| reachable_entry f n : (f < count g)%nat -> type (node_at g f) = IR_FUNCTION -> nth 0 (projects (node_at g f)) None = Some n -> reachable g n
| reachable_flow n m : reachable g n -> flows g n m -> reachable g m.
(** [n] depends on [m]. *)
Inductive depends (g : graph) (n : nat) : nat -> Prop :=
| depends_self : depends g n n
| depends_argument m i x : depends g n m -> argument g m i = Some x -> depends g n x.
(** A reachable return or region depends on [n]. *)
Definition needed (g : graph) (n : nat) : Prop :=
  exists r, reachable g r /\ (type (node_at g r) = IR_RETURN \/ type (node_at g r) = IR_REGION) /\ depends g r n.
(** A graph as it is after parsing: regions are sealed, projections, functions and branches
    are complete, nothing has been visited by this pass. *)
Definition complete_graph (g : graph) : Prop :=
  (forall n, type (node_at g n) = IR_REGION -> is_sealed (node_at g n) = true) /\
  (forall n, type (node_at g n) = IR_PROJECT -> 0 <= number (node_at g n) < 4 /\ argument g n 0 <> None) /\
  (forall n, type (node_at g n) = IR_FUNCTION -> exists p, nth 0 (projects (node_at g n)) None = Some p /\ (p < count g)%nat) /\
  (forall n i, type (node_at g n) = IR_IF -> (i < 2)%nat -> exists p, nth i (projects (node_at g n)) None = Some p /\ (p < count g)%nat) /\
  (forall n, visited (node_at g n) <> -1 /\ visited (node_at g n) <> -2).
