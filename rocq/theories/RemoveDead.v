(** Dead code removal (src/optimize/remove_dead.c). *)
From Verif Require Import Base Fuel IR.

(** The body of a loop over [l]. *)
Fixpoint each {G A} (f : G -> A -> ex G) (g : G) (l : list A) : ex G :=
  match l with [] => ok g | x :: l' => let! g1 := f g x in each f g1 l' end.
(** A walk that marks nodes with [v]: what recurse_mark_reachable and recurse_mark_useful
    have in common. [next] lists the nodes they recurse into, in order. *)
Fixpoint mark (v : Z) (next : graph -> nat -> res (list nat)) (fuel : nat) (g : graph) (n : nat) : ex graph :=
  match fuel with
  | O => None
  | S fuel' =>
      if visited (node_at g n) =? v then ok g
      else
        let! l := Some (next g n) in
        each (mark v next fuel') (update g n (set_visited v)) l
  end.
Definition project (g : graph) (n i : nat) : option nat := nth i (projects (node_at g n)) None.
(** src/optimize/remove_dead.c:13-24: recursing into NULL is undefined. *)
Fixpoint next_of_uses (g : graph) (l : list nat) : res (list nat) :=
  match l with
  | [] => Ok []
  | u :: l' =>
      let* here := (if type (node_at g u) =? IR_RETURN then Ok [u]
                    else
                      let* c := node_is_control g u in
                      if c then Ok [u]
                      else if type (node_at g u) =? IR_IF then
                        match project g u 0, project g u 1 with Some p, Some q => Ok [p; q] | _, _ => Undef end
                      else Ok []) in
      let* rest := next_of_uses g l' in Ok (here ++ rest)
  end.
Definition next_control (g : graph) (n : nat) : res (list nat) := next_of_uses g (uses g n).
(** src/optimize/remove_dead.c:33-36. *)
Definition some_arguments (g : graph) (n : nat) : list nat :=
  flat_map (fun a => match a with Some x => [x] | None => [] end) (arguments (node_at g n)).
Definition next_argument (g : graph) (n : nat) : res (list nat) := Ok (some_arguments g n).
(** src/optimize/remove_dead.c:7-25 (recurse_mark_reachable). *)
Definition recurse_mark_reachable : nat -> graph -> nat -> ex graph := mark (-1) next_control.
(** src/optimize/remove_dead.c:27-37 (recurse_mark_useful). *)
Definition recurse_mark_useful : nat -> graph -> nat -> ex graph := mark (-2) next_argument.

(** src/optimize/remove_dead.c:51-56. *)
Definition mark_function (fuel : nat) (g : graph) (n : nat) : ex graph :=
  if type (node_at g n) =? IR_FUNCTION then
    match project g n 0 with None => Some Undef | Some p => recurse_mark_reachable fuel g p end
  else ok g.
(** src/optimize/remove_dead.c:58-68. *)
Definition mark_root (fuel : nat) (g : graph) (n : nat) : ex graph :=
  if negb (visited (node_at g n) =? -1) then ok g
  else if (type (node_at g n) =? IR_RETURN) || (type (node_at g n) =? IR_REGION) then recurse_mark_useful fuel g n
  else ok g.
(** src/optimize/remove_dead.c:70-80. *)
Definition clear_slot (fuel : nat) (n : nat) (g : graph) (i : nat) : ex graph :=
  match argument g n i with Some _ => node_set_argument fuel g n i None | None => ok g end.
Definition prune (fuel : nat) (g : graph) (n : nat) : ex graph :=
  if negb (visited (node_at g n) =? -2) && negb (type (node_at g n) =? IR_PROJECT) then
    let! g1 := each (clear_slot fuel n) g (seq 0 IR_MAX) in
    ok (update g1 n (set_type IR_DEAD))
  else ok g.
(** src/optimize/remove_dead.c:45-81 (optimize_remove_dead). *)
Definition optimize_remove_dead (fuel : nat) (g : graph) : ex graph :=
  let nodes := seq 0 (count g) in
  let! g1 := each (mark_function fuel) g nodes in
  let! g2 := each (mark_root fuel) g1 nodes in
  each (prune fuel) g2 nodes.
