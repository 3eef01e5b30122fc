(** What placing and ordering instructions has to achieve, stated on the graph, the blocks
    given to the instructions and the lists of the blocks. *)
From Verif Require Import Base IR DominatorSpec.

(** Nodes that are blocks, and nodes that are computed inside one. *)
Definition block_node (g : graph) (n : nat) : Prop :=
  type (node_at g n) = IR_REGION \/
  type (node_at g n) = IR_PROJECT /\ exists a, argument g n 0 = Some a /\
    (type (node_at g a) = IR_IF \/ type (node_at g a) = IR_FUNCTION /\ number (node_at g n) = 0).
Definition instruction (g : graph) (n : nat) : Prop := (n < count g)%nat /\ type (node_at g n) <> IR_FUNCTION /\ ~ block_node g n.
Definition phi (g : graph) (n : nat) : Prop := type (node_at g n) = IR_PHI.
(** Instructions that belong to a block from the start: it is their first argument. *)
Definition tied (g : graph) (n : nat) : Prop :=
  type (node_at g n) = IR_PHI \/ type (node_at g n) = IR_IF \/ type (node_at g n) = IR_RETURN.
(** [q] is one of the results of the instruction [n]. *)
Definition result_of (g : graph) (n q : nat) : Prop := type (node_at g q) = IR_PROJECT /\ argument g q 0 = Some n.

(** The memory state an instruction replaces, as ir.h lays out the arguments of each type. *)
Definition replaces_state (g : graph) (n q : nat) : Prop :=
  (In (type (node_at g n)) [IR_CALL; IR_VA_START; IR_LOAD_VOLATILE; IR_LOAD_BASE_RELATIVE_ADDRESS; IR_SET_ZERO_PTR; IR_LOAD_PART_ADDRESS] /\ argument g n 1 = Some q) \/
  (In (type (node_at g n)) [IR_STORE; IR_VA_ARG; IR_STORE_PART_ADDRESS; IR_COPY_MEMORY; IR_DIV; IR_IDIV; IR_MOD; IR_IMOD] /\ argument g n 2 = Some q).

(** Graphs of a function. [order] orders the instructions of a path without phis: operands
    come first, and whatever else uses a state comes before the instruction replacing it.
    [home] is the block the parser was in when it made the instruction. *)
Record well_formed (g : graph) (entry : nat) (order home : nat -> nat) : Prop := {
  wf_operands : forall y k a, argument g y k = Some a -> instruction g y -> instruction g a -> ~ tied g y -> (order a < order y)%nat;
  wf_states : forall y q u k, replaces_state g y q -> argument g u k = Some q -> ~ replaces_state g u q -> ~ tied g u -> (order u < order y)%nat;
  wf_home_tied : forall y b, tied g y -> argument g y 0 = Some b -> home y = b;
  wf_home : forall y k a, argument g y k = Some a -> instruction g y -> instruction g a -> ~ phi g y -> block_reachable g entry (home y) -> dominates g entry (home a) (home y);
  wf_home_phi : forall y r k a p, phi g y -> argument g y 0 = Some r -> block_reachable g entry r -> argument g y (S k) = Some a -> instruction g a -> argument g r k = Some p ->
    dominates g entry (home a) p;
  wf_phi : forall y, phi g y -> exists r, argument g y 0 = Some r /\ type (node_at g r) = IR_REGION;
  wf_phi_size : forall y, phi g y -> argument g y 3 = None;
  (* what a phi takes comes from a predecessor that can be reached *)
  wf_phi_operand : forall y r k a, phi g y -> argument g y 0 = Some r -> block_reachable g entry r -> argument g y (S k) = Some a ->
    exists p, argument g r k = Some p /\ block_reachable g entry p;
  wf_return : forall y, type (node_at g y) = IR_RETURN -> argument g y 0 <> None;
  (* branches and returns are not operands *)
  wf_ends : forall y k a, argument g y k = Some a -> instruction g y -> type (node_at g a) <> IR_IF /\ type (node_at g a) <> IR_RETURN;
  wf_results : forall n q, result_of g n q -> type (node_at g n) <> IR_PROJECT;
  wf_result : forall q k a, type (node_at g q) = IR_PROJECT -> argument g q k = Some a -> k = O;
  wf_fresh : forall n, visited (node_at g n) <> 11 /\ visited (node_at g n) <> 5 }.

(** Where the value [v] has to be available because of [y]: in the block of [y], or, if [y]
    is a phi, at the end of the predecessor it belongs to. *)
Inductive wanted (g : graph) (entry : nat) (blk : nat -> option nat) (v y : nat) : nat -> Prop :=
| wanted_here k c : ~ phi g y -> argument g y k = Some v -> blk y = Some c -> block_reachable g entry c -> wanted g entry blk v y c
| wanted_there r k c : phi g y -> argument g y 0 = Some r -> block_reachable g entry r -> argument g y (S k) = Some v -> argument g r k = Some c -> wanted g entry blk v y c.
(** The same for an instruction and all its results. *)
Definition demand (g : graph) (entry : nat) (blk : nat -> option nat) (n c : nat) : Prop :=
  exists v y, (v = n /\ type (node_at g y) <> IR_PROJECT \/ result_of g n v) /\ wanted g entry blk v y c.
(** [b] is the last block that is on every way to the blocks [C]. *)
Definition latest (g : graph) (entry : nat) (C : nat -> Prop) (b : nat) : Prop :=
  block_reachable g entry b /\ (forall c, C c -> dominates g entry b c) /\
  (forall d, (forall c, C c -> dominates g entry d c) -> dominates g entry d b).
Definition is_result (g : graph) (n : nat) : Prop := exists m, result_of g m n /\ instruction g m /\ ~ tied g m.

(** Every instruction is in the last block from which all its users can be served; one that
    no reachable user needs has no block. *)
Record placed (g : graph) (entry : nat) (blk : nat -> option nat) : Prop := {
  pl_tied : forall n, tied g n -> blk n = argument g n 0;
  pl_result : forall n q, result_of g n q -> instruction g n -> ~ tied g n -> blk q = blk n;
  pl_other : forall n, instruction g n -> ~ tied g n -> ~ is_result g n ->
    match blk n with None => forall c, ~ demand g entry blk n c | Some b => latest g entry (demand g entry blk n) b end;
  pl_none : forall n, ~ instruction g n -> blk n = None }.

(** In the list [l], [a] comes before [b]. *)
Definition before (l : list nat) (a b : nat) : Prop := exists x y z, l = x ++ a :: y ++ b :: z.
(** [a] is computed before [y] however the execution came to [y]: in a block that is always
    passed before, or earlier in the block. *)
Definition computed_before (g : graph) (entry : nat) (r : list (nat * list nat)) (a y : nat) : Prop :=
  forall c l, In (c, l) r -> In y l ->
    before l a y \/ exists b m, In (b, m) r /\ In a m /\ b <> c /\ dominates g entry b c.
(** [a] is computed at the end of block [c] however the execution came there. *)
Definition computed_in (g : graph) (entry : nat) (r : list (nat * list nat)) (a c : nat) : Prop :=
  exists b m, In (b, m) r /\ In a m /\ dominates g entry b c.

(** Placements for which the order is right: no phi takes a value computed in its own block,
    and when a state is replaced in the block it comes from, its other users are in that
    block too, or need nothing else but what is computed in earlier blocks. *)
Record calm (g : graph) (entry : nat) (blk : nat -> option nat) : Prop := {
  calm_phi : forall y r k a, phi g y -> argument g y 0 = Some r -> argument g y (S k) = Some a -> blk a <> Some r;
  calm_users : forall y q b u k, replaces_state g y q -> blk y = Some b -> blk q = Some b -> argument g u k = Some q -> instruction g u -> u <> y -> blk u <> None ->
    ~ replaces_state g u q /\ ~ tied g u /\
    (blk u = Some b \/ forall j a, argument g u j = Some a -> instruction g a -> a = q \/ exists d, blk a = Some d /\ d <> b /\ dominates g entry d b) }.
