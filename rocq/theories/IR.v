(** The IR graph (src/ir/ir.h:13-176, src/ir/ir.c). A node is a number; 0 nodes exist at
    the start and ir_new takes the next number. *)
From Verif Require Import Base Fuel.

(** src/ir/ir.h:14-88: the node types the modelled code looks at. *)
Definition IR_DIV : Z := 4.
Definition IR_IDIV : Z := 5.
Definition IR_MOD : Z := 6.
Definition IR_IMOD : Z := 7.
Definition IR_ALLOC : Z := 37.
Definition IR_LOAD_VOLATILE : Z := 38.
Definition IR_LOAD : Z := 39.
Definition IR_STORE : Z := 40.
Definition IR_CALL : Z := 42.
Definition IR_SET_ZERO_PTR : Z := 50.
Definition IR_VA_START : Z := 51.
Definition IR_VA_ARG : Z := 52.
Definition IR_COPY_MEMORY : Z := 54.
Definition IR_LOAD_PART_ADDRESS : Z := 55.
Definition IR_STORE_PART_ADDRESS : Z := 56.
Definition IR_LOAD_BASE_RELATIVE_ADDRESS : Z := 63.
Definition IR_PHI : Z := 64.
Definition IR_REGION : Z := 65.
Definition IR_PROJECT : Z := 66.
Definition IR_IF : Z := 67.
Definition IR_RETURN : Z := 68.
Definition IR_FUNCTION : Z := 69.
Definition IR_ZERO : Z := 70.
Definition IR_DEAD : Z := 71.
Definition IR_UNDEFINED : Z := 72.
Definition IR_MAX : nat := 4.

(** src/ir/ir.h:13-176 (struct node). [buf] is the array behind uses, of which the first
    [use_size] entries are the use list; [number] is the integer of the first union that
    the code below looks at (project.index, alloc.size, set_zero_ptr.size). Fields of later
    passes (label, children, next, ...) and parent_function are left out. *)
Record node := Node {
  type : Z; size : Z; arguments : list (option nat); projects : list (option nat); number : Z;
  visited : Z; scratch : option nat;
  state : option nat; incomplete_phi : option nat; is_sealed : bool;
  buf : list nat; use_size : nat }.
(** ALLOC((struct node) { .type = type }): everything else is zero. *)
Definition fresh (ty sz : Z) : node :=
  Node ty sz (repeat None IR_MAX) (repeat None 4) 0 0 None None None false [] 0.
Record graph := Graph { count : nat; node_at : nat -> node }.
Definition empty : graph := Graph 0 (fun _ => fresh 0 0).

Definition set_type x n := Node x (size n) (arguments n) (projects n) (number n) (visited n) (scratch n) (state n) (incomplete_phi n) (is_sealed n) (buf n) (use_size n).
Definition set_arguments x n := Node (type n) (size n) x (projects n) (number n) (visited n) (scratch n) (state n) (incomplete_phi n) (is_sealed n) (buf n) (use_size n).
Definition set_projects x n := Node (type n) (size n) (arguments n) x (number n) (visited n) (scratch n) (state n) (incomplete_phi n) (is_sealed n) (buf n) (use_size n).
Definition set_number x n := Node (type n) (size n) (arguments n) (projects n) x (visited n) (scratch n) (state n) (incomplete_phi n) (is_sealed n) (buf n) (use_size n).
Definition set_visited x n := Node (type n) (size n) (arguments n) (projects n) (number n) x (scratch n) (state n) (incomplete_phi n) (is_sealed n) (buf n) (use_size n).
Definition set_scratch x n := Node (type n) (size n) (arguments n) (projects n) (number n) (visited n) x (state n) (incomplete_phi n) (is_sealed n) (buf n) (use_size n).
Definition set_state x n := Node (type n) (size n) (arguments n) (projects n) (number n) (visited n) (scratch n) x (incomplete_phi n) (is_sealed n) (buf n) (use_size n).
Definition set_phi x n := Node (type n) (size n) (arguments n) (projects n) (number n) (visited n) (scratch n) (state n) x (is_sealed n) (buf n) (use_size n).
Definition set_sealed x n := Node (type n) (size n) (arguments n) (projects n) (number n) (visited n) (scratch n) (state n) (incomplete_phi n) x (buf n) (use_size n).
Definition set_uses b s n := Node (type n) (size n) (arguments n) (projects n) (number n) (visited n) (scratch n) (state n) (incomplete_phi n) (is_sealed n) b s.
Definition update (g : graph) (i : nat) (f : node -> node) : graph :=
  Graph (count g) (fun j => if Nat.eqb j i then f (node_at g i) else node_at g j).
Definition argument (g : graph) (n : nat) (i : nat) : option nat := nth i (arguments (node_at g n)) None.
Definition uses (g : graph) (n : nat) : list nat := firstn (use_size (node_at g n)) (buf (node_at g n)).

(** src/ir/ir.c:23-35 (ir_new). *)
Definition ir_new (g : graph) (ty sz : Z) : graph * nat :=
  (update (Graph (S (count g)) (node_at g)) (count g) (fun _ => fresh ty sz), count g).

(** src/ir/ir.c:98-102: the first entry of the use list that is [n]. *)
Fixpoint find_use (n : nat) (k : nat) (b : list nat) : option nat :=
  match k, b with
  | S k', x :: b' => if Nat.eqb x n then Some O else option_map S (find_use n k' b')
  | _, _ => None
  end.
(** src/ir/ir.c:106-108: entries from [i] on move down, [k] times. *)
Fixpoint move_down (b : list nat) (i : nat) (k : nat) : list nat :=
  match k with O => b | S k' => move_down (set_nth b i (nth (S i) b O)) (S i) k' end.
(** ADD_ELEMENT: entry [k] of the array, which grows when it is full. *)
Definition add_element (b : list nat) (k : nat) (n : nat) : list nat := if (k <? length b)%nat then set_nth b k n else b ++ [n].

(** projects[node->project.index] = x of the node [p]. *)
Definition put_project (g : graph) (p : nat) (i : Z) (x : option nat) : res graph :=
  if (0 <=? i) && (i <? 4) then Ok (update g p (fun m => set_projects (set_nth (projects m) (Z.to_nat i) x) m)) else Undef.
(** src/ir/ir.c:91-122: node_set_argument for a node that is no control node. *)
Definition set_argument (g : graph) (n : nat) (i : nat) (a : option nat) : res graph :=
  if (i <? IR_MAX)%nat then
    let prev := argument g n i in
    if match prev, a with Some p, Some q => Nat.eqb p q | None, None => true | _, _ => false end then Ok g
    else
      let is_project := type (node_at g n) =? IR_PROJECT in
      let* g1 := match prev with
                 | None => Ok g
                 | Some p =>
                     let m := node_at g p in
                     match find_use n (use_size m) (buf m) with
                     | None => Fail
                     | Some k =>
                         let* g' := (if is_project then put_project g p (number (node_at g n)) None else Ok g) in
                         Ok (update g' p (fun m => set_uses (move_down (buf m) k (use_size m - 1 - k)) (use_size m - 1) m))
                     end
                 end in
      let g2 := match a with
                | None => g1
                | Some q => update g1 q (fun m => set_uses (add_element (buf m) (use_size m) n) (S (use_size m)) m)
                end in
      let g3 := update g2 n (fun m => set_arguments (set_nth (arguments m) i a) m) in
      if is_project then
        match a with None => Undef | Some q => put_project g3 q (number (node_at g n)) (Some n) end
      else Ok g3
  else Undef.

(** src/ir/ir.c:134-141 (node_argument_count). *)
Definition node_argument_count (g : graph) (n : nat) : nat :=
  length (filter (fun a => match a with Some _ => true | None => false end) (arguments (node_at g n))).
(** src/ir/ir.c:809-822 (node_is_control). *)
Definition node_is_control (g : graph) (n : nat) : res bool :=
  let m := node_at g n in
  if type m =? IR_REGION then Ok true
  else if type m =? IR_PROJECT then
    match argument g n 0 with
    | None => Undef
    | Some a => Ok ((type (node_at g a) =? IR_IF) || (number m =? 0) && (type (node_at g a) =? IR_FUNCTION))
    end
  else Ok false.
(** src/ir/ir.c:67-69 (ir_new1) for a phi, which is no control node. *)
Definition new_phi (g : graph) (block : nat) (sz : Z) : res (graph * nat) :=
  let (g1, v) := ir_new g IR_PHI sz in let* g2 := set_argument g1 v 0 (Some block) in Ok (g2, v).

(** src/ir/ir.c:190-239 (read_state, read_state_recursive, add_phi_operands). *)
Fixpoint read_state (fuel : nat) (g : graph) (block : nat) {struct fuel} : ex (graph * nat) :=
  match fuel with
  | O => None
  | S fuel' =>
      match state (node_at g block) with
      | Some s => ok (g, s)
      | None =>
          let! (g1, v) :=
            (if negb (is_sealed (node_at g block)) then
               let! (g1, v) := Some (new_phi g block 0) in ok (update g1 block (set_phi (Some v)), v)
             else if type (node_at g block) =? IR_PROJECT then
               match argument g block 0 with
               | None => Some Undef
               | Some i => match argument g i 0 with None => Some Undef | Some b => read_state fuel' g b end
               end
             else
               let! (g1, v) := Some (new_phi g block 0) in
               let! g2 := add_phi_operands fuel' (update g1 block (set_state (Some v))) v O in
               ok (g2, v)) in
          ok (update g1 block (set_state (Some v)), v)
      end
  end
(** The loop of src/ir/ir.c:196-206 from [i] on. *)
with add_phi_operands (fuel : nat) (g : graph) (phi : nat) (i : nat) {struct fuel} : ex graph :=
  match fuel with
  | O => None
  | S fuel' =>
      match argument g phi 0 with
      | None => Some Undef
      | Some block =>
          if negb (type (node_at g block) =? IR_REGION) then Some Fail
          else if (i <? node_argument_count g block)%nat then
            match argument g block i with
            | None => Some Undef
            | Some pred =>
                let! (g1, v) := read_state fuel' g pred in
                let! g2 := Some (set_argument g1 phi (S i) (Some v)) in
                add_phi_operands fuel' g2 phi (S i)
            end
          else ok g
      end
  end.
(** src/ir/ir.c:241-248 (seal_block). *)
Definition seal_block (fuel : nat) (g : graph) (n : nat) : ex graph :=
  if is_sealed (node_at g n) then ok g
  else
    let! g1 := match incomplete_phi (node_at g n) with None => ok g | Some phi => add_phi_operands fuel g phi O end in
    ok (update g1 n (set_sealed true)).
(** src/ir/ir.c:91-132 (node_set_argument). *)
Definition node_set_argument (fuel : nat) (g : graph) (n i : nat) (a : option nat) : ex graph :=
  if match argument g n i, a with Some p, Some q => Nat.eqb p q | None, None => true | _, _ => false end then
    if (i <? IR_MAX)%nat then ok g else Some Undef
  else
    let! g1 := Some (set_argument g n i a) in
    let! c := Some (node_is_control g1 n) in
    if c then
      if type (node_at g1 n) =? IR_PROJECT then ok (update g1 n (set_sealed true))
      else if Nat.eqb i 1 then seal_block fuel g1 n else ok g1
    else ok g1.

(** src/ir/ir.c:828-832: the slots of one user, from [j] on, [k] of them. *)
Fixpoint replace_slots (fuel : nat) (g : graph) (use original : nat) (replacement : option nat) (j k : nat) : ex graph :=
  match k with
  | O => ok g
  | S k' =>
      let! g1 := match argument g use j with
                 | Some p => if Nat.eqb p original then node_set_argument fuel g use j replacement else ok g
                 | None => ok g
                 end in
      replace_slots fuel g1 use original replacement (S j) k'
  end.
(** src/ir/ir.c:824-836 (ir_replace_node): the loop with [i] entries to go. *)
Fixpoint replace_uses (fuel : nat) (g : graph) (original : nat) (replacement : option nat) (i : nat) : ex graph :=
  match i with
  | O => ok g
  | S i' =>
      match nth_error (buf (node_at g original)) i' with
      | None => Some Undef
      | Some use =>
          let! g1 := replace_slots fuel g use original replacement 0 IR_MAX in
          replace_uses fuel g1 original replacement i'
      end
  end.
Definition ir_replace_node (fuel : nat) (g : graph) (original : nat) (replacement : option nat) : ex graph :=
  replace_uses fuel g original replacement (use_size (node_at g original)).
