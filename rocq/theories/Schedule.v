(** Placing instructions in blocks and ordering them (src/ir/global_code_motion.c,
    src/ir/ir.c:669-803), for one function whose first block is [entry]. The graph itself
    does not change; [visited] and [block] of the nodes are kept beside it. *)
From Verif Require Import Base Fuel IR RemoveDead Dominator Mem2reg.

Record place := Place { marks : nat -> Z; block : nat -> option nat }.

(** src/ir/ir.c:702-707 (node_is_instruction). *)
Definition node_is_instruction (g : graph) (n : nat) : res bool :=
  if type (node_at g n) =? IR_FUNCTION then Ok false
  else let* c := node_is_control g n in Ok (negb c).

Section Late.
Variables (fuel : nat) (g : graph) (post : nat -> nat) (idom : nat -> option nat).

(** src/ir/dominator_tree.c:42-53 (intersect), whose second argument may be NULL too. *)
Definition meet_with (lca b : option nat) : ex (option nat) :=
  match b with None => ok lca | Some b => intersect fuel post idom lca b end.

(** src/ir/global_code_motion.c:38-55: the part of schedule_user_late after the recursive
    call, [v] being its argument ins. *)
Definition user_block (blk : nat -> option nat) (lca : option nat) (v y : nat) : ex (option nat) :=
  match blk y with
  | None => ok lca
  | Some use =>
      match idom use with
      | None => ok lca
      | Some _ =>
          if type (node_at g y) =? IR_PHI then
            match argument g y 0 with
            | None => Some Undef
            | Some b =>
                if negb (type (node_at g b) =? IR_REGION) then Some Fail
                else
                  let! l1 := (if is (argument g y 1) v then meet_with lca (argument g b 0) else ok lca) in
                  if is (argument g y 2) v then meet_with l1 (argument g b 1) else ok l1
            end
          else intersect fuel post idom lca use
      end
  end.
(** src/ir/global_code_motion.c:35-56 (schedule_user_late); [late] is schedule_late. *)
Definition schedule_user_late (late : place -> nat -> ex place) (s : place * option nat) (c : nat * nat) : ex (place * option nat) :=
  let! p := late (fst s) (snd c) in
  let! lca := user_block (block p) (snd s) (fst c) (snd c) in
  ok (p, lca).

(** src/ir/global_code_motion.c:66-76: the calls of schedule_user_late for the users of
    [ins], and of its projections, in order. *)
Definition customers (ins : nat) : list (nat * nat) :=
  flat_map (fun u => if type (node_at g u) =? IR_PROJECT then map (pair u) (uses g u) else [(ins, u)]) (uses g ins).
(** src/ir/global_code_motion.c:78-85. *)
Definition settle (p : place) (ins : nat) (lca : option nat) : place :=
  Place (marks p) (upd (fold_left (fun blk u => if type (node_at g u) =? IR_PROJECT then upd blk u lca else blk) (uses g ins) (block p)) ins lca).
(** src/ir/global_code_motion.c:58-86 (schedule_late). *)
Fixpoint schedule_late (n : nat) (p : place) (ins : nat) : ex place :=
  match n with
  | O => None
  | S n' =>
      if (marks p ins =? 11) || (match block p ins with Some _ => true | None => false end) then ok p
      else
        let! i := Some (node_is_instruction g ins) in
        if negb i then ok p
        else
          let! (p1, lca) := each (schedule_user_late (schedule_late n')) (Place (upd (marks p) ins 11) (block p), None) (customers ins) in
          ok (settle p1 ins lca)
  end.
(** src/ir/global_code_motion.c:116-125. *)
Definition late_all (n : nat) (p : place) : ex place :=
  each (fun p ins => let! i := Some (node_is_instruction g ins) in if negb i then ok p else schedule_late n p ins) p (seq 0 (count g)).
End Late.

(** src/ir/global_code_motion.c:96-114: nodes that are tied to a block. *)
Definition pinned (g : graph) (n : nat) : bool := existsb (Z.eqb (type (node_at g n))) [IR_PHI; IR_IF; IR_RETURN].
Definition pins (g : graph) : place := Place (fun n => visited (node_at g n)) (fun n => if pinned g n then argument g n 0 else None).
(** src/ir/global_code_motion.c:88-126 (ir_schedule_instructions_to_blocks), after
    ir_post_order_blocks and ir_calculate_dominator_tree. *)
Definition schedule_to_blocks (fuel : nat) (g : graph) (entry : nat) : ex place :=
  let! w := post_order fuel g entry in
  let! (idom, _) := dominator_tree fuel g entry in
  late_all fuel g (post_idx w) idom fuel (pins g).

(** The list being made (first, end and the next fields) and the marks. *)
Record line := Line { stamp : nat -> Z; listing : list nat }.
Definition same_block (blk : nat -> option nat) (a b : nat) : bool :=
  match blk a, blk b with Some x, Some y => Nat.eqb x y | _, _ => false end.
(** src/ir/ir.c:738-771 (ir_local_schedule_recursive). *)
Fixpoint local_recursive (n : nat) (g : graph) (blk : nat -> option nat) (s : line) (node : nat) : ex line :=
  match n with
  | O => None
  | S n' =>
      if stamp s node =? 5 then ok s
      else
        let! i := Some (node_is_instruction g node) in
        if negb i || (match blk node with Some _ => false | None => true end) then ok s
        else
          let! s1 := each (fun s a => match a with
                                      | Some x => if same_block blk x node then local_recursive n' g blk s x else ok s
                                      | None => ok s
                                      end) (Line (upd (stamp s) node 5) (listing s)) (arguments (node_at g node)) in
          let! s2 := match prev_state g node with
                     | Some q => if same_block blk q node then each (local_recursive n' g blk) s1 (uses g q) else ok s1
                     | None => ok s1
                     end in
          ok (Line (stamp s2) (listing s2 ++ [node]))
  end.
(** src/ir/ir.c:773-783: the children of block [b]. *)
Fixpoint children (g : graph) (blk : nat -> option nat) (b : nat) (l : list nat) : res (list nat) :=
  match l with
  | [] => Ok []
  | n :: l' =>
      let* i := node_is_instruction g n in
      let* r := children g blk b l' in
      Ok (if i && is (blk n) b then n :: r else r)
  end.
(** src/ir/ir.c:789-800: the blocks in order; each keeps its list. *)
Fixpoint local_blocks (n : nat) (g : graph) (blk : nat -> option nat) (stamps : nat -> Z) (l : list nat) : ex (list (nat * list nat)) :=
  match l with
  | [] => ok []
  | b :: l' =>
      let! c := Some (children g blk b (seq 0 (count g))) in
      let! s := each (local_recursive n g blk) (Line stamps []) c in
      let! r := local_blocks n g blk (stamp s) l' in
      ok ((b, listing s) :: r)
  end.
(** src/main.c:167-168, src/ir/ir.c:785-803 (ir_local_schedule): where the instructions are
    placed and the list of each block. *)
Definition ir_local_schedule (fuel : nat) (g : graph) (entry : nat) : ex ((nat -> option nat) * list (nat * list nat)) :=
  let! w := post_order fuel g entry in
  let! p := schedule_to_blocks fuel g entry in
  let! r := local_blocks fuel g (block p) (marks p) (list_head w) in
  ok (block p, r).
