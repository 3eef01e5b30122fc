(** The dominator tree (src/ir/dominator_tree.c). *)
From Verif Require Import Base Fuel IR RemoveDead.

(** src/ir/dominator_tree.c:13-21: the blocks post_order_recurse recurses into; NULL
    projections are passed over (line 9). *)
Definition some_node (x : option nat) : list nat := match x with Some n => [n] | None => [] end.
Fixpoint successors_of_uses (g : graph) (l : list nat) : res (list nat) :=
  match l with
  | [] => Ok []
  | u :: l' =>
      let* c := node_is_control g u in
      let here := (if c then [u] else if type (node_at g u) =? IR_IF then some_node (project g u 0) ++ some_node (project g u 1) else []) in
      let* rest := successors_of_uses g l' in Ok (here ++ rest)
  end.
Definition successors (g : graph) (n : nat) : res (list nat) := successors_of_uses g (uses g n).

(** What the walk changes: the marks (visited == 7), the list that the next fields make up
    and post_idx. The counter *idx is the length of the list. *)
Record walk_state := Walk { seen : nat -> bool; list_head : list nat; post_idx : nat -> nat }.
Definition upd {A} (f : nat -> A) (n : nat) (x : A) : nat -> A := fun m => if Nat.eqb m n then x else f m.
(** src/ir/dominator_tree.c:6-26 (post_order_recurse). *)
Fixpoint post_order_recurse (fuel : nat) (g : graph) (w : walk_state) (start : nat) : ex walk_state :=
  match fuel with
  | O => None
  | S fuel' =>
      if seen w start then ok w
      else
        let! l := Some (successors g start) in
        let! w1 := each (post_order_recurse fuel' g) (Walk (upd (seen w) start true) (list_head w) (post_idx w)) l in
        ok (Walk (seen w1) (start :: list_head w1) (upd (post_idx w1) start (length (list_head w1))))
  end.
(** src/ir/dominator_tree.c:30-35, for one function whose first block is [entry]. *)
Definition post_order (fuel : nat) (g : graph) (entry : nat) : ex walk_state :=
  post_order_recurse fuel g (Walk (fun _ => false) [] (fun _ => O)) entry.

(** src/ir/dominator_tree.c:46-49: up the tree while the number is smaller. *)
Fixpoint climb (fuel : nat) (post : nat -> nat) (idom : nat -> option nat) (b limit : nat) : ex nat :=
  match fuel with
  | O => None
  | S fuel' =>
      if (post b <? limit)%nat then
        match idom b with None => Some Undef | Some x => climb fuel' post idom x limit end
      else ok b
  end.
(** src/ir/dominator_tree.c:45-50. *)
Fixpoint meet (fuel : nat) (post : nat -> nat) (idom : nat -> option nat) (b1 b2 : nat) : ex nat :=
  match fuel with
  | O => None
  | S fuel' =>
      if Nat.eqb b1 b2 then ok b1
      else
        let! c1 := climb fuel' post idom b1 (post b2) in
        let! c2 := climb fuel' post idom b2 (post c1) in
        meet fuel' post idom c1 c2
  end.
(** src/ir/dominator_tree.c:42-53 (intersect). *)
Definition intersect (fuel : nat) (post : nat -> nat) (idom : nat -> option nat) (b1 : option nat) (b2 : nat) : ex (option nat) :=
  match b1 with
  | None => ok (Some b2)
  | Some b1 => let! m := meet fuel post idom b1 b2 in ok (Some m)
  end.
(** src/ir/dominator_tree.c:76-79: the loop over the arguments. *)
Fixpoint meet_arguments (fuel : nat) (post : nat -> nat) (idom : nat -> option nat) (l : list (option nat)) (ni : option nat) : ex (option nat) :=
  match l with
  | [] => ok ni
  | a :: l' =>
      let! ni1 := match a with
                  | None => ok ni
                  | Some p => match idom p with None => ok ni | Some _ => intersect fuel post idom ni p end
                  end in
      meet_arguments fuel post idom l' ni1
  end.
(** src/ir/dominator_tree.c:67-80. *)
Definition new_idom (fuel : nat) (g : graph) (post : nat -> nat) (idom : nat -> option nat) (b : nat) : ex (option nat) :=
  let m := node_at g b in
  let! if_node := Some (if type m =? IR_PROJECT then
                          match argument g b 0 with
                          | None => Undef
                          | Some a => Ok (if type (node_at g a) =? IR_IF then Some a else None)
                          end
                        else Ok None) in
  match if_node with
  | Some a => match argument g a 0 with
              | None => Some Undef
              | Some p => match idom p with Some _ => ok (Some p) | None => ok None end
              end
  | None => if type m =? IR_REGION then meet_arguments fuel post idom (arguments m) None else ok None
  end.
Definition same_idom (a b : option nat) : bool :=
  match a, b with Some x, Some y => Nat.eqb x y | None, None => true | _, _ => false end.
(** src/ir/dominator_tree.c:66-85: one pass over the list. *)
Fixpoint pass (fuel : nat) (g : graph) (post : nat -> nat) (l : list nat) (idom : nat -> option nat) (changed : bool) : ex ((nat -> option nat) * bool) :=
  match l with
  | [] => ok (idom, changed)
  | b :: l' =>
      let! ni := new_idom fuel g post idom b in
      if same_idom (idom b) ni then pass fuel g post l' idom changed
      else pass fuel g post l' (upd idom b ni) true
  end.
(** src/ir/dominator_tree.c:61-86. *)
Fixpoint passes (n fuel : nat) (g : graph) (post : nat -> nat) (l : list nat) (idom : nat -> option nat) : ex (nat -> option nat) :=
  match n with
  | O => None
  | S n' =>
      let! (idom1, changed) := pass fuel g post l idom false in
      if (changed : bool) then passes n' fuel g post l idom1 else ok idom1
  end.
(** src/ir/dominator_tree.c:90-92. *)
Fixpoint depths (idom : nat -> option nat) (l : list nat) (depth : nat -> nat) : res (nat -> nat) :=
  match l with
  | [] => Ok depth
  | b :: l' => match idom b with None => Undef | Some x => depths idom l' (upd depth b (S (depth x))) end
  end.
(** src/ir/dominator_tree.c:55-93 (ir_calculate_dominator_tree_function) on the list that
    the walk from [entry] built; idom is NULL before. *)
Definition dominator_tree (fuel : nat) (g : graph) (entry : nat) : ex ((nat -> option nat) * (nat -> nat)) :=
  let! w := post_order fuel g entry in
  match list_head w with
  | [] => ok (fun _ => None, fun _ => O)
  | e :: l =>
      let! idom := passes fuel fuel g (post_idx w) l (upd (fun _ => None) e (Some e)) in
      let! depth := Some (depths idom l (upd (fun _ => O) e 1%nat)) in
      ok (idom, depth)
  end.
