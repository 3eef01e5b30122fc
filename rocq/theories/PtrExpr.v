(** Model of the translation of expressions over objects in memory:
    src/parser/expression_to_ir.c. The expressions are those of
    src/parser/expression.h after expr_new, with their types.

    Simplifications: integer, pointer, array and structure types (no floating
    types, no variable length arrays), no calls and no compound literals;
    operators other than shifts and divisions; a conditional expression is one
    instruction with the code of its two arms; instructions are executed in the
    order in which they are built (C72 is about that) and what they do is given
    on words (C03, C30, C33, C35 are about their code). *)
From Verif Require Import Base Bytes Arch ConstFold X86 Codegen OpSelect PtrSpec.

Local Open Scope Z_scope.
Local Open Scope list_scope.

(** A node that holds a word of [size] bytes. *)
Record node := { id : nat; size : Z }.

(** src/ir/ir.h: the instructions that arise. *)
Inductive ins :=
| IConst (d : node) (w : Z)
| ILoad (d p : node)
| IStore (p v : node)
| ICopy (dst src : node) (n : Z)
| IBin (o : ir_op) (d a b : node)
| INeg (d a : node)
| INot (d a : node)
| ICast (sign_extend : bool) (d a : node)
| IBool (d a : node)
| IAlloc (d : node) (n : Z)
| IGet (d a : node) (offset length : Z) (sign_extend : bool)
| ISet (d field v : node) (offset length : Z)
| IIf (c : node) (t : list ins) (f : list ins)
| IPhi (c : node) (t : list ins) (ta : node) (f : list ins) (fa : node) (d : node).

(** ** Execution *)
Record state := { env : nat -> Z; mem_of : memory }.
Definition word (s : state) (n : node) : Z := env s (id n).
Definition set_node (s : state) (d : node) (w : Z) : state :=
  {| env := fun k => if Nat.eqb k (id d) then w mod 256 ^ size d else env s k; mem_of := mem_of s |}.
Definition set_memory (s : state) (m : memory) : state := {| env := env s; mem_of := m |}.

(** The operators on words of [n] bytes (the code is in C30; for pointers the
    unsigned ones are chosen). *)
Definition ir_value (o : ir_op) (n a b : Z) : res Z :=
  let sa := signed (8 * n) a in
  let sb := signed (8 * n) b in
  let truth (c : bool) := Ok (if c then 1 else 0) in
  match o with
  | IR_ADD => Ok (a + b)
  | IR_SUB => Ok (a - b)
  | IR_MUL | IR_IMUL => Ok (a * b)
  | IR_BAND => Ok (Z.land a b)
  | IR_BOR => Ok (Z.lor a b)
  | IR_BXOR => Ok (Z.lxor a b)
  | IR_IDIV => if sb =? 0 then Undef
               else if (sb =? -1) && (sa =? - 2 ^ (8 * n - 1)) then Undef else Ok (Z.quot sa sb)
  | IR_ILESS => truth (sa <? sb)
  | IR_IGREATER => truth (sb <? sa)
  | IR_ILESS_EQ => truth (sa <=? sb)
  | IR_IGREATER_EQ => truth (sb <=? sa)
  | IR_LESS => truth (a <? b)
  | IR_GREATER => truth (b <? a)
  | IR_LESS_EQ => truth (a <=? b)
  | IR_GREATER_EQ => truth (b <=? a)
  | IR_EQUAL => truth (a =? b)
  | IR_NOT_EQUAL => truth (negb (a =? b))
  | _ => Fail
  end.

Section Run.
(** Where the frame puts what IR_ALLOC nodes allocate. *)
Variable tmp : nat -> Z.

Fixpoint step (i : ins) (s : state) {struct i} : res state :=
  let fix steps (l : list ins) (s : state) {struct l} : res state :=
    match l with
    | [] => Ok s
    | i :: l => let* s := step i s in steps l s
    end in
  match i with
  | IConst d w => Ok (set_node s d w)
  | ILoad d p => Ok (set_node s d (get (mem_of s) (word s p) (size d)))
  | IStore p v => Ok (set_memory s (put (mem_of s) (word s p) (size v) (word s v)))
  | ICopy dst src n => Ok (set_memory s (put (mem_of s) (word s dst) n (get (mem_of s) (word s src) n)))
  | IBin o d a b => let* v := ir_value o (size a) (word s a) (word s b) in Ok (set_node s d v)
  | INeg d a => Ok (set_node s d (- word s a))
  | INot d a => Ok (set_node s d (- word s a - 1))
  | ICast sx d a => Ok (set_node s d (if sx : bool then signed (8 * size a) (word s a) else word s a))
  | IBool d a => Ok (set_node s d (if word s a =? 0 then 0 else 1))
  | IAlloc d _ => Ok (set_node s d (tmp (id d)))
  | IGet d a offset length sx =>
      let b := (word s a / 2 ^ offset) mod 2 ^ length in
      Ok (set_node s d (if sx : bool then signed length b else b))
  | ISet d field v offset length =>
      let w := word s field in
      Ok (set_node s d (w - (w / 2 ^ offset) mod 2 ^ length * 2 ^ offset + word s v mod 2 ^ length * 2 ^ offset))
  | IIf c t f => if word s c =? 0 then steps f s else steps t s
  | IPhi c t ta f fa d =>
      if word s c =? 0
      then let* s := steps f s in Ok (set_node s d (word s fa))
      else let* s := steps t s in Ok (set_node s d (word s ta))
  end.
Fixpoint steps (l : list ins) (s : state) : res state :=
  match l with
  | [] => Ok s
  | i :: l => let* s := step i s in steps l s
  end.
End Run.

(** ** Translation *)
(** From the number of the next node: a result, the code and the next number. *)
Definition gen (A : Type) : Type := nat -> res (A * list ins * nat).
Definition ret {A} (a : A) : gen A := fun n => Ok (a, [], n).
Definition fail {A} : gen A := fun _ => Fail.
Definition gbind {A B} (x : gen A) (f : A -> gen B) : gen B := fun n =>
  let* r := x n in
  let '(a, c, n) := r in
  let* q := f a n in
  let '(b, c', n) := q in
  Ok (b, c ++ c', n).
Notation "'do' x <- a ; b" := (gbind a (fun x => b)) (at level 200, x name, a at level 100, b at level 200).
Definition emit (i : ins) : gen unit := fun n => Ok (tt, [i], n).
Definition new_node (sz : Z) (f : node -> ins) : gen node := fun n =>
  let d := {| id := n; size := sz |} in Ok (d, [f d], S n).
(** The code of a block, to be put into an instruction. *)
Definition block {A} (x : gen A) : gen (A * list ins) := fun n =>
  let* r := x n in let '(a, c, n) := r in Ok ((a, c), [], n).

(** src/parser/expression_to_ir.h (struct evaluated_expression). A constant has
    its own type. *)
Inductive kind :=
| EE_VOID
| EE_CONSTANT (t : ty) (w : Z)
| EE_VARIABLE (v : node)
| EE_POINTER (p : node)
| EE_BITFIELD_POINTER (p : node) (offset length : Z) (sign_extend : bool).
Record evaluated := { kind_of : kind; data_type : ty }.

Section Translate.
Variables (G : nat -> ty) (fields : nat -> list field) (struct_size : nat -> Z).
(** symbol->variable.ptr. *)
Variable ptr : nat -> node.

(** src/arch/x64.c:166-193 (calculate_size). *)
Fixpoint calculate_size (t : ty) : Z :=
  match t with
  | TVoid => sizeof_simple SYSV ST_VOID
  | TInt t => sizeof_simple SYSV t
  | TPtr _ => 8
  | TArr n t => n * calculate_size t
  | TStr i => struct_size i
  end.
(** is_signed of a simple type; pointers are not signed. *)
Definition type_is_signed (t : ty) : bool :=
  match t with TInt t => match is_signed t with Ok b => b | _ => false end | _ => false end.
Notation etype := (etype G fields).

(** src/parser/expression_to_ir.c:103-127 (evaluated_expression_to_var). *)
Definition to_var (e : evaluated) : gen node :=
  match kind_of e with
  | EE_BITFIELD_POINTER p o l sx =>
      do v <- new_node (calculate_size (data_type e)) (fun d => ILoad d p);
      new_node (size v) (fun d => IGet d v o l sx)
  | EE_CONSTANT t w => new_node (calculate_size t) (fun d => IConst d w)
  | EE_POINTER p => new_node (calculate_size (data_type e)) (fun d => ILoad d p)
  | EE_VARIABLE v => ret v
  | EE_VOID => fail
  end.

(** src/parser/expression_to_ir.c:60-101 (evaluated_expression_to_address). *)
Definition to_address (e : evaluated) : gen node :=
  let allocate := new_node 8 (fun d => IAlloc d (calculate_size (data_type e))) in
  match kind_of e with
  | EE_BITFIELD_POINTER _ _ _ _ =>
      do v <- to_var e;
      do a <- allocate;
      do _ <- emit (IStore a v);
      ret a
  | EE_CONSTANT _ _ =>
      do a <- allocate;
      do v <- to_var e;
      do _ <- emit (IStore a v);
      ret a
  | EE_POINTER p => ret p
  | EE_VARIABLE v =>
      do a <- allocate;
      do _ <- emit (IStore a v);
      ret a
  | EE_VOID => fail
  end.

(** src/parser/expression_to_ir.c:129-152 (variable_cast), integers and pointers. *)
Definition variable_cast (v : node) (from to : ty) : gen node :=
  if ty_eqb from to then ret v
  else match to with
  | TInt ST_BOOL => new_node (calculate_size (TInt ST_BOOL)) (fun d => IBool d v)
  | TInt _ | TPtr _ =>
      match from with
      | TInt _ | TPtr _ =>
          if calculate_size to =? calculate_size from then ret v
          else new_node (calculate_size to) (fun d => ICast (type_is_signed from) d v)
      | _ => ret v
      end
  | _ => ret v
  end.

(** src/parser/expression_to_ir.c:154-171 (evaluated_expression_cast). *)
Definition evaluated_cast (e : evaluated) (t : ty) : gen evaluated :=
  if ty_eqb (data_type e) t then ret e
  else match t with
  | TVoid => ret {| kind_of := EE_VOID; data_type := TVoid |}
  | _ =>
      do v <- to_var e;
      do r <- variable_cast v (data_type e) t;
      ret {| kind_of := EE_VARIABLE r; data_type := t |}
  end.

(** src/parser/expression_to_ir.c:173-189 (assign_to_ee). *)
Definition assign_to (lhs : evaluated) (v : node) : gen unit :=
  match kind_of lhs with
  | EE_POINTER p => emit (IStore p v)
  | EE_BITFIELD_POINTER p o l _ =>
      do prev <- new_node (size v) (fun d => ILoad d p);
      do new <- new_node (size prev) (fun d => ISet d prev v o l);
      emit (IStore p new)
  | _ => fail
  end.

(** src/parser/expression_to_ir.c:191-206 (assign_ee_to_ee). *)
Definition assign_ee (lhs rhs : evaluated) : gen unit :=
  if calculate_size (data_type rhs) <=? 8 then
    do v <- to_var rhs; assign_to lhs v
  else
    do a <- to_address rhs;
    match kind_of lhs with
    | EE_POINTER p => emit (ICopy p a (calculate_size (data_type lhs)))
    | _ => fail
    end.

(** src/ir/ir.c:555-565 (ir_binary_op) for the operator of [t]. *)
Definition operand_kind_of (t : ty) : operand_kind :=
  match t with TInt t => KSimple t | TPtr _ => KPointer | _ => KOther end.
Definition binary_node (t : ty) (op : operator_type) (a b : node) : gen node := fun n =>
  let* o := ir_from_type_and_op (operand_kind_of t) op in
  new_node (ir_binary_op_size (size a)) (fun d => IBin (ir_binary_op o) d a b) n.

(** src/types.c:380-402 (type_sizeof) evaluated: a constant of type size_t. *)
Definition size_constant (t : ty) : evaluated :=
  {| kind_of := EE_CONSTANT (TInt ST_ULONG) (calculate_size (match t with TPtr t => t | _ => TVoid end)); data_type := TInt ST_ULONG |}.

Definition with_type (t : ty) (e : evaluated) : evaluated := {| kind_of := kind_of e; data_type := t |}.
Definition variable (v : node) (t : ty) : evaluated := {| kind_of := EE_VARIABLE v; data_type := t |}.
Definition pointer (v : node) (t : ty) : evaluated := {| kind_of := EE_POINTER v; data_type := t |}.

(** src/parser/expression_to_ir.c:674-726 (expression_evaluate) with
    evaluate_symbol 247-254, evaluate_constant 282-307, evaluate_indirection
    209-245, evaluate_address_of 394-406, evaluate_array_ptr_decay 408-420,
    evaluate_dot_operator 354-387, evaluate_pointer_arithmetic 309-335,
    evaluate_pointer_diff 337-352, evaluate_cast 389-392, evaluate_binary_operator
    432-445, evaluate_unary_operator 447-480, evaluate_assignment 482-493,
    evaluate_assignment_op 495-534, evaluate_assignment_pointer 589-619,
    evaluate_conditional 536-587. An address constant is CONSTANT_LABEL_POINTER;
    evaluate_indirection leaves it as it is. *)
Fixpoint evaluate (e : expr) : gen evaluated :=
  let t := etype e in
  match e with
  | EConst _ w => ret {| kind_of := EE_CONSTANT t w; data_type := t |}
  | EObject x => ret (pointer (ptr x) t)
  | EInd a =>
      do r <- evaluate a;
      match kind_of r with
      | EE_VARIABLE v => ret (pointer v t)
      | EE_POINTER p => do v <- new_node 8 (fun d => ILoad d p); ret (pointer v t)
      | EE_CONSTANT _ _ => ret (with_type t r)
      | _ => fail
      end
  | EAddr a | EDecay a =>
      do r <- evaluate a;
      match kind_of r with
      | EE_POINTER p => ret (variable p t)
      | _ => fail
      end
  | EDot a i =>
      do l <- evaluate a;
      match data_type l with
      | TStr sid =>
          match nth_error (fields sid) i with
          | Some f =>
              do address <- to_address l;
              do o <- new_node 8 (fun d => IConst d (f_offset f));
              do member <- new_node (size address) (fun d => IBin IR_ADD d address o);
              match f_bits f with
              | Some (first, width) =>
                  ret {| kind_of := EE_BITFIELD_POINTER member first width (type_is_signed (f_type f)); data_type := t |}
              | None => ret (pointer member t)
              end
          | None => fail
          end
      | _ => fail
      end
  | EPtr sub a b =>
      do p <- evaluate a;
      do i <- evaluate b;
      do i <- evaluated_cast i (TInt ST_ULONG);
      do pv <- to_var p;
      do iv <- to_var i;
      do sv <- to_var (size_constant (etype a));
      do iv <- new_node (size iv) (fun d => IBin IR_MUL d iv sv);
      do v <- new_node (size pv) (fun d => IBin (if sub : bool then IR_SUB else IR_ADD) d pv iv);
      ret (variable v t)
  | EDiff a b =>
      do l <- evaluate a;
      do r <- evaluate b;
      do lv <- to_var l;
      do rv <- to_var r;
      do sv <- to_var (size_constant (etype a));
      do dv <- new_node (size lv) (fun d => IBin IR_SUB d lv rv);
      do v <- new_node (size dv) (fun d => IBin IR_IDIV d dv sv);
      ret (variable v t)
  | ECast _ a =>
      do r <- evaluate a;
      do c <- evaluated_cast r t;
      ret (with_type t c)
  | EBin op a b =>
      do l <- evaluate a;
      do r <- evaluate b;
      do lv <- to_var l;
      do rv <- to_var r;
      do v <- binary_node (etype a) op lv rv;
      ret (variable v t)
  | EUn op a =>
      do r <- evaluate a;
      match op with
      | UOP_PLUS => ret (with_type t r)
      | UOP_BNOT => do v <- to_var r; do n <- new_node (size v) (fun d => INot d v); ret (variable n t)
      | UOP_NEG => do v <- to_var r; do n <- new_node (size v) (fun d => INeg d v); ret (variable n t)
      end
  | EAssign a b =>
      do l <- evaluate a;
      do r <- evaluate b;
      do r <- evaluated_cast r (etype a);
      do _ <- assign_ee l r;
      ret (with_type t r)
  | EAssignOp op postfix a b =>
      do l <- evaluate a;
      do r <- evaluate b;
      do old <- to_var l;
      do rv <- to_var r;
      do lv <- variable_cast old (data_type l) (etype b);
      do v <- binary_node (etype b) op lv rv;
      do new <- variable_cast v (etype b) (data_type l);
      do _ <- assign_to l new;
      ret (variable (if postfix : bool then old else new) t)
  | EAssignPtr sub postfix a b =>
      do p <- evaluate a;
      do i <- evaluate b;
      do i <- evaluated_cast i (TInt ST_ULONG);
      do pv <- to_var p;
      do iv <- to_var i;
      do sv <- to_var (size_constant (etype a));
      do iv <- new_node (size iv) (fun d => IBin IR_MUL d iv sv);
      do v <- new_node (size pv) (fun d => IBin (if sub : bool then IR_SUB else IR_ADD) d pv iv);
      do _ <- assign_to p v;
      ret (variable (if postfix : bool then pv else v) t)
  | ECond c a b =>
      do r <- evaluate c;
      do cv <- to_var r;
      match t with
      | TVoid =>
          do x <- block (evaluate a);
          do y <- block (evaluate b);
          do _ <- emit (IIf cv (snd x) (snd y));
          ret {| kind_of := EE_VOID; data_type := t |}
      | _ =>
          do x <- block (do l <- evaluate a; to_address l);
          do y <- block (do l <- evaluate b; to_address l);
          do d <- new_node 8 (fun d => IPhi cv (snd x) (fst x) (snd y) (fst y) d);
          ret (pointer d t)
      end
  | EComma a b =>
      do _ <- evaluate a;
      do r <- evaluate b;
      ret (with_type t r)
  end.
End Translate.

(** What the code allocates: node and number of bytes. *)
Fixpoint allocated (i : ins) : list (nat * Z) :=
  match i with
  | IAlloc d n => [(id d, n)]
  | IIf _ t f => flat_map allocated t ++ flat_map allocated f
  | IPhi _ t _ f _ _ => flat_map allocated t ++ flat_map allocated f
  | _ => []
  end.
