(** What the loads of a local variable observe when a function runs. *)
From Verif Require Import Base IR Mem2reg.

(** A moment of an execution: the state node that was executed last, and the values that
    have been computed and are still valid. *)
Record moment := { at_ : nat; value : nat -> option Z }.

(** The state that a node other than a phi follows. *)
Definition follows (g : graph) (s : nat) : option nat :=
  if type (node_at g s) =? IR_PROJECT then argument g s 0
  else if type (node_at g s) =? IR_PHI then None
  else prev_state g s.

(** From one moment to the next. [input q i] is the i-th input of the phi [q]. Without a phi of
    the state control stays within a block or goes on to a block that it can only be reached from:
    what has been computed is valid still. At a phi of the state control enters its region, from
    predecessor [i]: all phis of the region get their i-th inputs. *)
Definition next (g all : graph) (input : nat -> nat -> option nat) (m m' : moment) : Prop :=
  (type (node_at g (at_ m')) <> IR_PHI /\ follows g (at_ m') = Some (at_ m) /\
   forall n x, value m n = Some x -> value m' n = Some x) \/
  (type (node_at g (at_ m')) = IR_PHI /\ exists i block, (i = 1 \/ i = 2)%nat /\
   argument g (at_ m') i = Some (at_ m) /\ argument g (at_ m') 0 = Some block /\
   forall q a x, type (node_at all q) = IR_PHI -> input q O = Some block ->
     input q i = Some a -> value m a = Some x -> value m' q = Some x).
(** The constant zero is always there. *)
Definition zeros (all : graph) (m : moment) : Prop := forall n, type (node_at all n) = IR_ZERO -> value m n = Some 0.
(** A history, latest moment first. *)
Inductive history (g all : graph) (input : nat -> nat -> option nat) : list moment -> Prop :=
| H_start : forall m, type (node_at g (at_ m)) = IR_FUNCTION -> zeros all m -> history g all input [m]
| H_next : forall m m' h, history g all input (m :: h) -> next g all input m m' -> zeros all m' -> history g all input (m' :: m :: h).

(** What the object holds: what the last store put there, if anything. *)
Definition writes (g : graph) (alloc s : nat) : Prop :=
  (type (node_at g s) = IR_STORE \/ type (node_at g s) = IR_SET_ZERO_PTR) /\ argument g s 0 = Some alloc.
Definition loads (g : graph) (alloc l : nat) : Prop := type (node_at g l) = IR_LOAD /\ argument g l 0 = Some alloc.
Fixpoint content (g : graph) (alloc : nat) (h : list moment) : option Z :=
  match h with
  | [] => None
  | m :: h =>
      if is (argument g (at_ m) 0) alloc then
        if type (node_at g (at_ m)) =? IR_STORE then
          match argument g (at_ m) 1 with Some v => value m v | None => None end
        else if type (node_at g (at_ m)) =? IR_SET_ZERO_PTR then Some 0
        else content g alloc h
      else content g alloc h
  end.

(** The executions of [g], and those of [g] with the phis that [g'] has more. *)
Definition runs (g : graph) (h : list moment) : Prop := history g g (argument g) h.
Definition runs_with (g g' : graph) (h : list moment) : Prop :=
  history g g' (fun q i => if (q <? count g)%nat then argument g q i else argument g' q i) h.
(** The same execution, as far as the nodes of [g] go. *)
Definition extends (g : graph) (h h' : list moment) : Prop :=
  Forall2 (fun m m' => at_ m' = at_ m /\ forall n, (n < count g)%nat -> value m' n = value m n) h h'.

(** The state before [s], the writes to the object left out. *)
Inductive skips (g : graph) (alloc : nat) : nat -> nat -> Prop :=
| Skip_not : forall s, ~ writes g alloc s -> skips g alloc s s
| Skip : forall s p t, writes g alloc s -> prev_state g s = Some p -> skips g alloc p t -> skips g alloc s t.

(** The part of the graph that the state runs through. *)
Record state_graph (g : graph) (alloc : nat) (St : nat -> Prop) (rank : nat -> nat) : Prop := {
  (* the states of the loads of the object and the writes to it are states *)
  st_load : forall l, loads g alloc l -> exists s, argument g l 1 = Some s /\ St s;
  st_write : forall s, writes g alloc s -> St s;
  st_count : forall s, St s -> (s < count g)%nat;
  (* a state is the start of the function, a phi in a region, or follows a state; only through phis
     is there a way round *)
  st_kind : forall s, St s ->
    type (node_at g s) = IR_FUNCTION \/
    (type (node_at g s) = IR_PHI /\ exists b, argument g s 0 = Some b /\ type (node_at g b) = IR_REGION) \/
    (type (node_at g s) <> IR_PHI /\ exists p, follows g s = Some p /\ St p /\ (rank p < rank s)%nat);
  st_phi : forall s i a, St s -> type (node_at g s) = IR_PHI -> (i = 1 \/ i = 2)%nat -> argument g s i = Some a -> St a;
  (* the object *)
  st_alloc : type (node_at g alloc) = IR_ALLOC;
  st_slot : forall n i, argument g n i = Some alloc -> type (node_at g n) = IR_LOAD \/ type (node_at g n) = IR_SET_ZERO_PTR -> i = O }.
