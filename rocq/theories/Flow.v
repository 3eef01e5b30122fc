(** Model of the construction of the control flow graph of a function:
    src/parser/function_parser.c:17-540 and src/ir/ir.c:143-149 and 262-306.

    Simplifications. The statements are taken from a tree: the parser visits
    them in the order of the tree, and the calls made for each are those below.
    (The token-level oddity that parse_labeled_statement returns 0 after
    default, so that the statement after it is taken into the same statement,
    is not covered.) What an expression or declaration puts into its block is
    one instruction, though &&, || and ?: make blocks of their own. Labels are
    numbers instead of spellings. Nodes for memory state (read_state,
    seal_block) are not covered here: see IR.v. An IR_IF tests the value the
    statement gives it: all of it for if, after expression_to_int for the
    others. *)
From Verif Require Import Base FlowSpec.
Local Open Scope nat_scope.

(** What a block does, and the node that uses it as control: the region it was
    made a predecessor of (ir_connect), an IR_IF with its two projections, or an
    IR_RETURN. An IR_IF made for a case compares the control node, numbered by
    the switch, with a constant. *)
Inductive instr := IAct (a : nat) | IControl (e n : nat).
Inductive ending := TGoto (b : nat) | TIf (c bt bf : nat) | TIfEq (n : nat) (k : Z) (bt bf : nat) | TReturn (r : nat).

(** src/parser/function_parser.c:25-33 (struct function_scope_label). *)
Record entry := { chain : nat; end_block : nat; used : bool }.
(** src/parser/function_parser.c:17-23 (struct jump_blocks). *)
Record jumps := { j_break : option nat; j_continue : option nat; j_entry : option nat; j_default : option nat;
                  j_control : option nat }.
(** The nodes made so far ([next] is the number of the next one), current_block
    (src/ir/ir.c), the instructions and the end of each block, how many
    predecessors it has, and function_scope. *)
Record st := { next : nat; cur : nat; code : nat -> list instr; term : nat -> option ending; preds : nat -> nat;
               labels : list (nat * entry) }.

Definition upd {A} (f : nat -> A) (b : nat) (v : A) : nat -> A := fun x => if x =? b then v else f x.

(** src/ir/ir.c:143-149 (new_block). *)
Definition new_block (g : st) : nat * st :=
  (next g, {| next := S (next g); cur := cur g; code := code g; term := term g; preds := preds g; labels := labels g |}).
(** src/ir/ir.c:262-268 (ir_block_start). *)
Definition block_start (b : nat) (g : st) : st :=
  {| next := next g; cur := b; code := code g; term := term g; preds := preds g; labels := labels g |}.
(** Code put into the current block. *)
Definition emit (i : instr) (g : st) : st :=
  {| next := next g; cur := cur g; code := upd (code g) (cur g) (code g (cur g) ++ [i]); term := term g;
     preds := preds g; labels := labels g |}.
(** A node that uses block [b] as control is made. A second one leaves a block
    with two successors, of which no order is defined: [Undef]. *)
Definition finish (b : nat) (t : ending) (g : st) : res st :=
  match term g b with
  | None => Ok {| next := next g; cur := cur g; code := code g; term := upd (term g) b (Some t); preds := preds g;
                  labels := labels g |}
  | Some _ => Undef
  end.
(** src/ir/ir.c:293-301 (ir_connect). *)
Definition connect (start b : nat) (g : st) : res st :=
  if preds g b <? 2
  then finish start (TGoto b) {| next := next g; cur := cur g; code := code g; term := term g;
                                 preds := upd (preds g) b (S (preds g b)); labels := labels g |}
  else Fail.
(** src/ir/ir.c:286-291 (ir_goto): the assertion fails where ir_connect would
    give up. *)
Definition goto (b : nat) (g : st) : res st := connect (cur g) b g.
(** src/ir/ir.c:270-284 (ir_if_selection), with the ending it makes from its
    two projections. *)
Definition if_selection (t : nat -> nat -> ending) (g : st) : res (nat * nat * st) :=
  let '(bf, g) := new_block g in
  let '(bt, g) := new_block g in
  let* g := finish (cur g) (t bt bf) g in
  Ok (bt, bf, g).

(** function_scope: the loops at src/parser/function_parser.c:58-67 and
    423-435, and add_function_scope_label (35-38). *)
Fixpoint lookup (l : nat) (t : list (nat * entry)) : option entry :=
  match t with
  | [] => None
  | (l', e) :: t => if l =? l' then Some e else lookup l t
  end.
Fixpoint replace (l : nat) (e : entry) (t : list (nat * entry)) : list (nat * entry) :=
  match t with
  | [] => []
  | (l', e') :: t => if l =? l' then (l', e) :: t else (l', e') :: replace l e t
  end.
Definition with_labels (t : list (nat * entry)) (g : st) : st :=
  {| next := next g; cur := cur g; code := code g; term := term g; preds := preds g; labels := t |}.

(** The common part of goto, continue and break,
    src/parser/function_parser.c:427-431, 437-443, 446-450, 455-459: a block of
    its own goes on to the target, so that no block has a third predecessor;
    what follows is a new block. *)
Definition step_to (to : nat) (step : nat) (g : st) : res st :=
  let* g := goto step g in
  let g := block_start step g in
  let* g := goto to g in
  let '(b, g) := new_block g in
  Ok (block_start b g).

Definition emit_option (a : option nat) (g : st) : st := match a with Some a => emit (IAct a) g | None => g end.

(** src/parser/function_parser.c:49-490, one case for each statement. The
    struct jump_blocks is passed by address and may be changed. *)
Fixpoint parse (s : stmt) (j : jumps) (g : st) {struct s} : res (jumps * st) :=
  match s with
  | SSkip => Ok (j, g)
  | SDo_ a => Ok (j, emit (IAct a) g)
  | SSeq a b => let* (j, g) := parse a j g in parse b j g
  | SLabel l a => (* 50-78 *)
      let* r :=
        match lookup l (labels g) with
        | Some e =>
            if used e then Fail
            else Ok (end_block e, with_labels (replace l {| chain := chain e; end_block := end_block e; used := true |} (labels g)) g)
        | None =>
            let '(b, g) := new_block g in
            Ok (b, with_labels (labels g ++ [(l, {| chain := b; end_block := b; used := true |})]) g)
        end in
      let '(b, g) := r in
      let* g := goto b g in
      parse a j (block_start b g)
  | SCase k a => (* 79-111 *)
      match j_control j, j_entry j with
      | None, _ => Fail
      | Some _, None => Undef
      | Some n, Some e =>
          let '(block_case, g) := new_block g in
          let '(new_entry, g) := new_block g in
          let* g := goto block_case g in
          let g := block_start e g in
          let* r := if_selection (TIfEq n k) g in
          let '(bt, bf, g) := r in
          let* g := connect bt block_case g in
          let* g := connect bf new_entry g in
          let g := block_start block_case g in
          parse a {| j_break := j_break j; j_continue := j_continue j; j_entry := Some new_entry;
                     j_default := j_default j; j_control := j_control j |} g
      end
  | SDefault a => (* 112-122 *)
      let '(block_default, g) := new_block g in
      let* g := goto block_default g in
      let g := block_start block_default g in
      match j_entry j with
      | None => Fail
      | Some _ =>
          parse a {| j_break := j_break j; j_continue := j_continue j; j_entry := j_entry j;
                     j_default := Some block_default; j_control := j_control j |} g
      end
  | SSwitch e a => (* 148-189 *)
      let n := next g in
      let g := emit (IControl e n) g in
      let '(block_body, g) := new_block g in
      let '(block_entry, g) := new_block g in
      let '(block_end, g) := new_block g in
      let* g := goto block_entry g in
      let g := block_start block_body g in
      let* (j', g) := parse a {| j_break := Some block_end; j_continue := j_continue j; j_entry := Some block_entry;
                                 j_default := None; j_control := Some n |} g in
      match j_entry j', j_break j' with
      | Some entry, Some break =>
          let* g := connect entry (match j_default j' with Some d => d | None => break end) g in
          let* g := goto block_end g in
          Ok (j, block_start block_end g)
      | _, _ => Undef
      end
  | SIf c a b => (* 192-226 *)
      let* r := if_selection (TIf c) g in
      let '(bt, bf, g) := r in
      let* (j, g) := parse a j (block_start bt g) in
      let '(block_end, g) := new_block g in
      let* g := goto block_end g in
      let* (j, g) := parse b j (block_start bf g) in
      let* g := goto block_end g in
      Ok (j, block_start block_end g)
  | SDoWhile a c => (* 234-274 *)
      let '(block_body, g) := new_block g in
      let '(block_control, g) := new_block g in
      let '(block_end, g) := new_block g in
      let* g := goto block_body g in
      let g := block_start block_body g in
      let* (_, g) := parse a {| j_break := Some block_end; j_continue := Some block_control; j_entry := j_entry j;
                                j_default := j_default j; j_control := j_control j |} g in
      let* g := goto block_control g in
      let g := block_start block_control g in
      let* r := if_selection (TIf c) g in
      let '(bt, bf, g) := r in
      let* g := connect bt block_body g in
      let* g := connect bf block_end g in
      Ok (j, block_start block_end g)
  | SWhile c a => (* 276-324 *)
      let '(block_body, g) := new_block g in
      let '(block_control, g) := new_block g in
      let '(block_end, g) := new_block g in
      let* g := goto block_control g in
      let g := block_start block_control g in
      let* r := if_selection (TIf c) g in
      let '(bt, bf, g) := r in
      let* g := connect bt block_body g in
      let* g := connect bf block_end g in
      let g := block_start block_body g in
      let* (j', g) := parse a {| j_break := Some block_end; j_continue := Some block_control; j_entry := j_entry j;
                                 j_default := j_default j; j_control := j_control j |} g in
      match j_continue j' with
      | None => Undef
      | Some b => let* g := goto b g in Ok (j, block_start block_end g)
      end
  | SFor i c v a => (* 326-404 *)
      let '(block_init, g) := new_block g in
      let '(block_control, g) := new_block g in
      let '(block_advance, g) := new_block g in
      let '(block_body, g) := new_block g in
      let '(block_end, g) := new_block g in
      let* g := goto block_init g in
      let g := emit_option i (block_start block_init g) in
      let* g := goto block_control g in
      let g := block_start block_control g in
      let* g :=
        match c with
        | Some c =>
            let* r := if_selection (TIf c) g in
            let '(bt, bf, g) := r in
            let* g := connect bt block_body g in
            connect bf block_end g
        | None => goto block_body g
        end in
      let g := emit_option v (block_start block_advance g) in
      let* g := goto block_control g in
      let g := block_start block_body g in
      let* (_, g) := parse a {| j_break := Some block_end; j_continue := Some block_advance; j_entry := j_entry j;
                                j_default := j_default j; j_control := j_control j |} g in
      let* g := goto block_advance g in
      Ok (j, block_start block_end g)
  | SGoto l => (* 419-444 *)
      match lookup l (labels g) with
      | Some e =>
          let '(step, g) := new_block g in
          let* g := step_to (chain e) step g in
          Ok (j, with_labels (replace l {| chain := step; end_block := end_block e; used := used e |} (labels g)) g)
      | None =>
          let '(end_block, g) := new_block g in
          let '(step, g) := new_block g in
          let g := with_labels (labels g ++ [(l, {| chain := step; end_block := end_block; used := false |})]) g in
          let* g := step_to end_block step g in
          Ok (j, g)
      end
  | SContinue => (* 445-453 *)
      let '(step, g) := new_block g in
      match j_continue j with
      | None => Undef
      | Some b =>
          let* g := step_to b step g in
          Ok ({| j_break := j_break j; j_continue := Some step; j_entry := j_entry j; j_default := j_default j;
                 j_control := j_control j |}, g)
      end
  | SBreak => (* 454-462 *)
      let '(step, g) := new_block g in
      match j_break j with
      | None => Undef
      | Some b =>
          let* g := step_to b step g in
          Ok ({| j_break := Some step; j_continue := j_continue j; j_entry := j_entry j; j_default := j_default j;
                 j_control := j_control j |}, g)
      end
  | SReturn r => (* 463-476 *)
      let* g := finish (cur g) (TReturn r) g in
      let '(b, g) := new_block g in
      Ok (j, block_start b g)
  end.

(** src/parser/function_parser.c:499-537 (parse_function); [implicit] is the
    return made at the end of main and of a void function. Block 0 is the one
    abi_expr_function starts. *)
Definition no_jumps : jumps := {| j_break := None; j_continue := None; j_entry := None; j_default := None; j_control := None |}.
Definition start : st :=
  {| next := 1; cur := 0; code := fun _ => []; term := fun _ => None; preds := fun _ => 0; labels := [] |}.
Definition parse_function (body : stmt) (implicit : option nat) : res st :=
  let* (_, g) := parse body no_jumps start in
  match implicit with
  | Some r => finish (cur g) (TReturn r) g
  | None => Ok g
  end.

(** Running the graph: the instructions of the block, then its end. A block
    without an end is where the function falls off (codegen emits ud2). *)
Section Run.
Context {store : Type}.
Context (act : nat -> store -> store) (test : nat -> store -> store * bool) (sel : nat -> store -> store * Z).
Context (g : st).
Inductive gstate :=
| At (b i : nat) (m : store) (control : nat -> Z)
| GReturned (r : nat) (m : store)
| GFell (m : store).
Definition gstep (x : gstate) : gstate :=
  match x with
  | At b i m control =>
      match nth_error (code g b) i with
      | Some (IAct a) => At b (S i) (act a m) control
      | Some (IControl e n) => let '(m, v) := sel e m in At b (S i) m (upd control n v)
      | None =>
          match term g b with
          | Some (TGoto b) => At b 0 m control
          | Some (TIf c bt bf) => let '(m, v) := test c m in At (if v then bt else bf) 0 m control
          | Some (TIfEq n k bt bf) => At (if (control n =? k)%Z then bt else bf) 0 m control
          | Some (TReturn r) => GReturned r m
          | None => GFell m
          end
      end
  | x => x
  end.
Fixpoint gsteps (n : nat) (x : gstate) : gstate := match n with O => x | S n => gsteps n (gstep x) end.
End Run.
Arguments gstate : clear implicits.
