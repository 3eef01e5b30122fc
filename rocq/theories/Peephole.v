(** Model of src/optimize/peephole.c: phis with one operand. *)
From Verif Require Import Base Fuel IR.
Local Open Scope Z_scope.
Local Open Scope list_scope.

(** src/optimize/peephole.c:14-22 (peephole_phi). *)
Definition peephole_phi (fuel : nat) (g : graph) (phi : nat) : ex graph :=
  match argument g phi 1, argument g phi 2 with
  | None, None => ok g
  | None, Some r => ir_replace_node fuel g phi (Some r)
  | Some r, None => ir_replace_node fuel g phi (Some r)
  | Some _, Some _ => ok g
  end.
(** peephole.c:38-47: the nodes of the worklist in turn. *)
Fixpoint peephole_nodes (fuel : nat) (g : graph) (l : list nat) : ex graph :=
  match l with
  | [] => ok g
  | n :: r =>
      let! g1 := if type (node_at g n) =? IR_PHI then peephole_phi fuel g n else ok g in
      peephole_nodes fuel g1 r
  end.
(** peephole.c:24-47 (optimize_peephole): all nodes that are not dead, the last one first. *)
Definition optimize_peephole (fuel : nat) (g : graph) : ex graph :=
  peephole_nodes fuel g (rev (filter (fun n => negb (type (node_at g n) =? IR_DEAD)) (seq 0 (count g)))).
