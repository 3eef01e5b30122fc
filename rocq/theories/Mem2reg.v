(** Promotion of local variables to values (src/optimize/mem2reg.c). *)
From Verif Require Import Base Fuel IR.

(** src/ir/ir.c:709-736 (node_get_prev_state). *)
Definition prev_state (g : graph) (n : nat) : option nat :=
  let ty := type (node_at g n) in
  if existsb (Z.eqb ty) [IR_CALL; IR_VA_START; IR_LOAD_VOLATILE; IR_LOAD_BASE_RELATIVE_ADDRESS; IR_SET_ZERO_PTR; IR_LOAD_PART_ADDRESS]
  then argument g n 1
  else if existsb (Z.eqb ty) [IR_STORE; IR_VA_ARG; IR_STORE_PART_ADDRESS; IR_COPY_MEMORY; IR_DIV; IR_IDIV; IR_MOD; IR_IMOD]
  then argument g n 2
  else None.

Definition is (a : option nat) (b : nat) : bool := match a with Some a => Nat.eqb a b | None => false end.

(** src/optimize/mem2reg.c:9-62 (recursive_find). [vsize] is alloc->alloc.size. A NULL
    state is dereferenced; NOTIMP ends the compiler. node_set_argument is set_argument
    because a phi is no control node. *)
Fixpoint recursive_find (fuel : nat) (g : graph) (state alloc : nat) (vsize visit_idx : Z) {struct fuel} : ex (graph * nat) :=
  match fuel with
  | O => None
  | S fuel =>
      let into := fun g a => match a with None => Some Undef | Some s => recursive_find fuel g s alloc vsize visit_idx end in
      match (if visited (node_at g state) =? visit_idx then scratch (node_at g state) else None) with
      | Some r => ok (g, r)
      | None =>
          let g := update g state (fun m => set_scratch None (set_visited visit_idx m)) in
          let ty := type (node_at g state) in
          let! (g, ret_value) :=
            (if ty =? IR_PROJECT then into g (argument g state 0)
             else if ty =? IR_FUNCTION then ok (ir_new g IR_UNDEFINED vsize)
             else if ty =? IR_SET_ZERO_PTR then
               if is (argument g state 0) alloc then ok (ir_new g IR_ZERO vsize) else into g (argument g state 1)
             else if ty =? IR_STORE then
               if is (argument g state 0) alloc then
                 match argument g state 1 with None => Some Undef | Some v => ok (g, v) end
               else into g (argument g state 2)
             else if ty =? IR_PHI then
               match argument g state 0 with
               | None => Some Undef
               | Some block =>
                   let! (g, phi) := Some (new_phi g block vsize) in
                   let g := update g state (set_scratch (Some phi)) in
                   let! g := match argument g state 1 with
                             | None => ok g
                             | Some a => let! (g, v) := into g (Some a) in Some (set_argument g phi 1 (Some v))
                             end in
                   let! g := match argument g state 2 with
                             | None => ok g
                             | Some a => let! (g, v) := into g (Some a) in Some (set_argument g phi 2 (Some v))
                             end in
                   ok (g, phi)
               end
             else match prev_state g state with None => Some Fail | Some s => into g (Some s) end) in
          ok (update g state (set_scratch (Some ret_value)), ret_value)
      end
  end.

(** src/optimize/mem2reg.c:72-95: may the object become values? *)
Definition use_ok (g : graph) (alloc : nat) (vsize : Z) (use : nat) : res bool :=
  let ty := type (node_at g use) in
  if ty =? IR_SET_ZERO_PTR then Ok (number (node_at g use) =? vsize)
  else if ty =? IR_STORE then
    match argument g use 1 with
    | None => Undef
    | Some v => Ok ((size (node_at g v) =? vsize) && negb (Nat.eqb v alloc) && is (argument g use 0) alloc)
    end
  else if ty =? IR_LOAD then Ok (size (node_at g use) =? vsize)
  else Ok false.
Fixpoint uses_ok (g : graph) (alloc : nat) (vsize : Z) (l : list nat) : res bool :=
  match l with
  | [] => Ok true
  | u :: l => let* b := use_ok g alloc vsize u in if b then uses_ok g alloc vsize l else Ok false
  end.

(** src/optimize/mem2reg.c:97-107 and 109-123. The use list of the object stays as it is
    while the loops run ; the model reads it anew every time all the same. *)
Definition replace_load (fuel : nat) (alloc : nat) (vsize visit_idx : Z) (g : graph) (use : nat) : ex graph :=
  if type (node_at g use) =? IR_LOAD then
    match argument g use 1 with
    | None => Some Undef
    | Some s =>
        let! (g, replacement) := recursive_find fuel g s alloc vsize visit_idx in
        ir_replace_node fuel g use (Some replacement)
    end
  else ok g.
Definition bypass (fuel : nat) (g : graph) (use : nat) : ex graph :=
  let ty := type (node_at g use) in
  if (ty =? IR_STORE) || (ty =? IR_SET_ZERO_PTR) then ir_replace_node fuel g use (prev_state g use)
  else if ty =? IR_LOAD then ok g
  else Some Fail.
(** [for (i = 0; i < alloc->use_size; i++)] with the use list read anew every time. *)
Fixpoint over_uses (f : graph -> nat -> ex graph) (rounds : nat) (g : graph) (alloc i : nat) : ex graph :=
  match rounds with
  | O => None
  | S rounds =>
      if (i <? use_size (node_at g alloc))%nat then
        match nth_error (buf (node_at g alloc)) i with
        | None => Some Undef
        | Some use => let! g := f g use in over_uses f rounds g alloc (S i)
        end
      else ok g
  end.

(** src/optimize/mem2reg.c:64-124 (try_remove_alloc); alloc.size is kept in [number]. *)
Definition try_remove_alloc (fuel : nat) (g : graph) (alloc : nat) (visit_idx : Z) : ex graph :=
  let vsize := number (node_at g alloc) in
  let! b := Some (uses_ok g alloc vsize (uses g alloc)) in
  if b then
    let! g := over_uses (replace_load fuel alloc vsize visit_idx) fuel g alloc 0 in
    over_uses (bypass fuel) fuel g alloc 0
  else ok g.

(** src/optimize/mem2reg.c:126-146 (optimize_mem2reg). *)
Fixpoint remove_allocs (fuel : nat) (g : graph) (allocs : list nat) (visit_idx : Z) : ex graph :=
  match allocs with
  | [] => ok g
  | a :: l => let! g := try_remove_alloc fuel g a visit_idx in remove_allocs fuel g l (visit_idx + 1)
  end.
Definition optimize_mem2reg (fuel : nat) (g : graph) : ex graph :=
  remove_allocs fuel g (filter (fun n => type (node_at g n) =? IR_ALLOC) (seq 0 (count g))) 30.
