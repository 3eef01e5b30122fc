(** Model of how src/parser/expression.c gives expressions their types: expr_new
    with the conversions it applies to the operands, the folding of constants as
    far as types depend on it, and the operators that the parser rewrites
    (405-470, 510-900). *)
From Verif Require Import Base Arch ArithConv.

Local Open Scope Z_scope.
Local Open Scope list_scope.

(** src/types.h:10-41 (struct type). Types are interned in the code
    (type_create), so equality of pointers is equality of types. Variable-length
    arrays are left out. Arrays and functions carry no qualifier: an array type
    qualified through a typedef is left out. [Struct] names its struct_data. *)
Inductive ty : Type :=
| Simple (const : bool) (s : simple_type)
| Ptr (const : bool) (t : ty)
| Arr (n : option Z) (t : ty)
| Fn (r : ty) (ps : list ty) (variadic : bool)
| Struct (const : bool) (tag : nat).

Definition is_const (t : ty) : bool :=
  match t with Simple c _ | Ptr c _ | Struct c _ => c | _ => false end.
(** src/types.c:165-175 (type_make_const with 0, type_remove_qualifications). *)
Definition unq (t : ty) : ty :=
  match t with
  | Simple _ s => Simple false s
  | Ptr _ u => Ptr false u
  | Struct _ g => Struct false g
  | _ => t
  end.
Definition is_ptr (t : ty) : bool := match t with Ptr _ _ => true | _ => false end.
(** src/types.c:230-259 (type_is_integer) and type_is_arithmetic. *)
Definition is_integer (t : ty) : bool :=
  match t with Simple _ s => st_is_integer s | _ => false end.
Definition st_is_float (s : simple_type) : bool :=
  match s with
  | ST_FLOAT | ST_DOUBLE | ST_LDOUBLE
  | ST_FLOAT_COMPLEX | ST_DOUBLE_COMPLEX | ST_LDOUBLE_COMPLEX => true
  | _ => false
  end.
Definition is_arithmetic (t : ty) : bool :=
  match t with Simple _ s => st_is_integer s || st_is_float s | _ => false end.

Definition opt_eqb (a b : option Z) : bool :=
  match a, b with Some x, Some y => x =? y | None, None => true | _, _ => false end.
Fixpoint ty_eqb (a b : ty) : bool :=
  match a, b with
  | Simple c s, Simple d r => Bool.eqb c d && st_eqb s r
  | Ptr c t, Ptr d u => Bool.eqb c d && ty_eqb t u
  | Arr n t, Arr k u => opt_eqb n k && ty_eqb t u
  | Fn r ps v, Fn q qs w =>
      ty_eqb r q && Bool.eqb v w &&
      (fix all (l l' : list ty) : bool :=
         match l, l' with
         | [], [] => true
         | x :: k, y :: k' => ty_eqb x y && all k k'
         | _, _ => false
         end) ps qs
  | Struct c g, Struct d h => Bool.eqb c d && Nat.eqb g h
  | _, _ => false
  end.

(** src/types.h (struct field): an unnamed member has no name; [fbits] is -1 for
    a member that is no bit-field. *)
Record field := { fname : option Z; ftype : ty; fbits : Z }.
(** The structures in the order they are completed, the latest first: the number
    of one is the count of those before it. *)
Definition structs : Type := list (list field).
Fixpoint fields (env : structs) (g : nat) : option (list field) :=
  match env with
  | [] => None
  | fs :: rest => if Nat.eqb g (length rest) then Some fs else fields rest g
  end.

(** src/types.c:186-213 (type_search_member): the stack of indices, the innermost
    one first. A member of structure type is complete, so it comes before. *)
Fixpoint search_member (env : structs) (g : nat) (x : Z) : option (list nat) :=
  match env with
  | [] => None
  | fs :: rest =>
      if Nat.eqb g (length rest) then
        (fix loop (fs : list field) (i : nat) : option (list nat) :=
           match fs with
           | [] => None
           | f :: k =>
               match fname f with
               | Some y => if y =? x then Some [i] else loop k (S i)
               | None =>
                   match ftype f with
                   | Struct _ h =>
                       match search_member rest h x with
                       | Some st => Some (st ++ [i])
                       | None => loop k (S i)
                       end
                   | _ => loop k (S i)
                   end
               end
           end) fs O
      else search_member rest g x
  end.

(** What expr_new looks at in an operand: a constant that is a number
    (CONSTANT_TYPE), an object with static storage or a function
    (CONSTANT_LABEL), the address of one (CONSTANT_LABEL_POINTER), a cast, a
    member access with the width of the bit-field, or anything else. *)
Inductive kind : Type :=
| KVal (v : Z)
| KLabel
| KLabelPtr
| KCast (arg : kind) (argty : ty)
| KDot (bits : Z)
| KOther.
Record node := N { kd : kind; dt : ty }.

Inductive unop := UPlus | UNeg | UBnot.
Inductive binop :=
| OAdd | OSub | OMul | ODiv | OMod | OBand | OBor | OBxor | OLshift | ORshift
| OLess | OGreater | OLessEq | OGreaterEq | OEqual | ONotEqual.

(** Expressions as they are written. [Global] is an identifier with static
    storage or a function, [Local] a parameter or a variable with automatic
    storage; each comes with the type it was declared with. [Num] is a numeric or
    character constant or an enumerator. *)
Inductive expr : Type :=
| Num (s : simple_type) (v : Z)
| Global (t : ty)
| Local (t : ty)
| Str (s : simple_type) (n : Z)
| Compound (t : ty)
| Unary (op : unop) (e : expr)
| Deref (e : expr)
| AddrOf (e : expr)
| Not (e : expr)
| SizeofE (e : expr)
| SizeofT (t : ty)
| Cast (t : ty) (e : expr)
| Bin (op : binop) (a b : expr)
| OrElse (a b : expr)
| AndAlso (a b : expr)
| Cond (a b c : expr)
| Comma (a b : expr)
| Assign (a b : expr)
| AssignOp (op : binop) (a b : expr)
| IncDec (inc : bool) (a : expr)
| Index (a b : expr)
| Call (f : expr) (args : list expr)
| Dot (e : expr) (x : Z)
| Arrow (e : expr) (x : Z).

Section Types.

Variable env : structs.
(** The values that folding yields: constant_cast between simple types, to a
    pointer, operators_constant and operators_constant_unary (None: not folded),
    and calculate_size. The types do not depend on them. *)
Variable fold_cast : simple_type -> simple_type -> Z -> Z.
Variable fold_addr : simple_type -> Z -> Z.
Variable fold_bin : binop -> simple_type -> Z -> Z -> option Z.
Variable fold_un : unop -> simple_type -> Z -> option Z.
Variable size_of : ty -> Z.

(** src/parser/expression.c:1099-1117 (constant_is_zero). A value of floating
    type is its bit pattern: for a double the code looks at the float in the low
    half, for a float at the double whose high half the rest of the union holds
    (here zero). *)
Definition is_zero (t : ty) (v : Z) : bool :=
  match t with
  | Simple _ ST_FLOAT => Z.land v (2 ^ 63 - 1) =? 0
  | Simple _ ST_DOUBLE => Z.land v (2 ^ 31 - 1) =? 0
  | Simple _ s => if st_is_integer s then v =? 0 else false
  | Ptr _ _ => v =? 0
  | _ => false
  end.

(** src/arch/x64.c:495-553 (simple_cast): no long double but from and to itself. *)
Definition simple_cast (s target : simple_type) (v : Z) : res Z :=
  if st_eqb target ST_VOID || st_eqb target s then Ok v
  else if st_is_integer s && st_is_integer target then Ok (fold_cast s target v)
  else if st_is_integer s && (st_eqb target ST_DOUBLE || st_eqb target ST_FLOAT) then Ok (fold_cast s target v)
  else if st_is_integer target && (st_eqb s ST_DOUBLE || st_eqb s ST_FLOAT) then Ok (fold_cast s target v)
  else if st_is_float s && st_is_float target then Ok (fold_cast s target v)
  else Fail.

(** src/parser/expression.c:911-933 (evaluate_constant_expression on E_CAST) with
    src/arch/x64.c:567-605 (constant_cast). The label -1 of offsetof is left
    out. *)
Definition mk_cast (n : node) (target : ty) : res node :=
  match kd n with
  | KVal v =>
      match dt n, target with
      | Ptr _ _, Ptr _ _ => Ok (N (KVal v) target)
      | Ptr _ _, _ => Ok (N (KCast (kd n) (dt n)) target)
      | Simple _ s, Ptr _ _ =>
          if st_is_integer s then Ok (N (KVal (fold_addr s v)) target) else Fail
      | Simple _ s, Simple _ r =>
          let* w := simple_cast s r v in Ok (N (KVal w) (Simple false r))
      | _, _ => Fail
      end
  | KLabelPtr =>
      match dt n, target with
      | Ptr _ _, Ptr _ _ => Ok (N KLabelPtr target)
      | Ptr _ _, _ => Ok (N (KCast (kd n) (dt n)) target)
      | _, _ => Fail
      end
  | _ => Ok (N (KCast (kd n) (dt n)) target)
  end.

(** src/parser/expression.c:1018-1034 and 137-138 (E_ADDRESS_OF). *)
Definition mk_addr (n : node) : node :=
  match kd n with
  | KLabel => N KLabelPtr (Ptr false (dt n))
  | _ => N KOther (Ptr false (dt n))
  end.

(** src/parser/expression.c:84-97 (decay_array) with 986-997
    (E_ARRAY_PTR_DECAY) and 1063-1068 (E_CONST_REMOVE of a constant is that
    constant, with the type it has). *)
Definition decay (n : node) : res node :=
  let* m :=
    match dt n with
    | Arr _ u =>
        match kd n with
        | KLabel => Ok (N KLabelPtr (Ptr false u))
        | KVal _ | KLabelPtr => Fail
        | _ => Ok (N KOther (Ptr false u))
        end
    | Fn _ _ _ => Ok (mk_addr n)
    | _ => Ok n
    end in
  if is_const (dt m) then
    match kd m with
    | KVal _ | KLabel | KLabelPtr => Ok m
    | _ => Ok (N KOther (unq (dt m)))
    end
  else Ok m.

(** src/parser/expression.c:1082-1090 (expression_cast). *)
Definition cast (n : node) (t : ty) : res node :=
  let* n := decay n in
  if ty_eqb (dt n) t then Ok n else mk_cast n t.

(** src/parser/expression.c:54-62 (get_expression_bitfield). *)
Definition bits_of (n : node) : Z := match kd n with KDot b => b | _ => -1 end.

(** src/parser/expression.c:97-106 (do_integer_promotion). *)
Definition promote (n : node) : res node :=
  match dt n with
  | Simple _ s =>
      if st_is_integer s then
        let* c := is_contained_in SYSV ST_INT (-1) s (bits_of n) in
        if c then cast n (Simple false ST_INT) else Ok n
      else Ok n
  | _ => Ok n
  end.

(** src/parser/expression.c:108-113 (do_default_argument_promotion). *)
Definition default_promote (n : node) : res node :=
  let* n := promote n in
  if ty_eqb (unq (dt n)) (Simple false ST_FLOAT) then cast n (Simple false ST_DOUBLE) else Ok n.

(** src/parser/expression.c:64-82 (convert_arithmetic). *)
Definition convert (a b : node) : res (node * node) :=
  match dt a, dt b with
  | Simple _ s, Simple _ r =>
      let* t := get_arithmetic_type SYSV s (bits_of a) r (bits_of b) in
      let* a := cast a (Simple false t) in
      let* b := cast b (Simple false t) in
      Ok (a, b)
  | _, _ => Ok (a, b)
  end.

(** src/parser/expression.c:233-237 (is_null_pointer_constant). *)
Definition is_null (n : node) : bool :=
  match kd n with KVal v => is_zero (dt n) v | _ => false end.

(** src/types.c:435-464 (type_make_composite). *)
Definition composite (a b : ty) : option ty :=
  if ty_eqb a b then Some a else
  match a, b with
  | Arr (Some _) _, Arr None _ => Some a
  | Arr None _, Arr (Some _) _ => Some b
  | Fn _ ps v, Fn _ qs w =>
      if v && match ps with [] => true | _ => false end then Some b
      else if w && match qs with [] => true | _ => false end then Some a
      else None
  | _, _ => None
  end.

Definition void : ty := Simple false ST_VOID.

(** src/parser/expression.c:239-279 (cast_conditional). *)
Definition cast_conditional (x y : node) : res (node * node) :=
  let a := dt x in
  let b := dt y in
  if ty_eqb a b then Ok (x, y) else
  match a, b with
  | Ptr _ ua, Ptr _ ub =>
      if ty_eqb (unq ua) void then let* x := cast x b in Ok (x, y)
      else if ty_eqb (unq ub) void then let* y := cast y a in Ok (x, y)
      else match composite (unq ua) (unq ub) with
           | Some c =>
               let* y := cast y (Ptr false c) in
               let* x := cast x (Ptr false c) in
               Ok (x, y)
           | None => Fail
           end
  | _, _ =>
      if is_ptr a && is_null y then let* y := cast y a in Ok (x, y)
      else if is_ptr b && is_null x then let* x := cast x b in Ok (x, y)
      else if is_arithmetic a && is_arithmetic b then convert x y
      else Fail
  end.

(** src/parser/expression.c:999-1016 (E_CONDITIONAL): the constant that is kept. *)
Definition mk_cond (c x y : node) : res node :=
  let* c := decay c in
  let* x := decay x in
  let* y := decay y in
  let* c := promote c in
  let* x := promote x in
  let* y := promote y in
  let* p := cast_conditional x y in
  let '(x, y) := p in
  if negb (ty_eqb (dt x) (dt y)) then Fail
  else match kd c, kd x, kd y with
       | KVal v, KVal _, KVal _ => Ok (if is_zero (dt c) v then y else x)
       | _, _, _ => Ok (N KOther (dt x))
       end.

Definition is_shift (op : binop) : bool :=
  match op with OLshift | ORshift => true | _ => false end.
Definition is_comparison (op : binop) : bool :=
  match op with
  | OLess | OGreater | OLessEq | OGreaterEq | OEqual | ONotEqual => true
  | _ => false
  end.

(** src/ir/operators.c:8-39 (operators_get_result_type). *)
Definition result_type (op : binop) (a b : ty) : res ty :=
  if negb (ty_eqb a b) && (negb (is_comparison op) || negb (Bool.eqb (is_ptr a) (is_ptr b))) then Fail
  else Ok (if is_comparison op then Simple false ST_INT else a).

(** src/ir/operators.c:41-56 (operators_constant): two numbers of the same simple
    type. *)
Definition mk_binary (op : binop) (x y : node) : res node :=
  let* t := result_type op (dt x) (dt y) in
  match kd x, kd y, dt x, dt y with
  | KVal v, KVal w, Simple c s, Simple d r =>
      if ty_eqb (dt x) (dt y)
      then match fold_bin op s v w with
           | Some u => Ok (N (KVal u) t)
           | None => Ok (N KOther t)
           end
      else Ok (N KOther t)
  | _, _, _, _ => Ok (N KOther t)
  end.

(** src/parser/expression.c:935-958 (E_POINTER_ADD, E_POINTER_SUB): an address
    moved by a constant of type int is an address. *)
Definition mk_padd (p i : node) : node :=
  match kd p, kd i with
  | KLabelPtr, KVal _ =>
      if ty_eqb (unq (dt i)) (Simple false ST_INT) then p else N KOther (dt p)
  | _, _ => N KOther (dt p)
  end.

(** src/parser/expression.c:281-348 (fix_binary_operator) after 84-106 and before
    115-123 and 148-149, 172-173. *)
Definition mk_bin (op : binop) (x y : node) : res node :=
  let* x := decay x in
  let* y := decay y in
  let* x := promote x in
  let* y := promote y in
  let* p := (if is_shift op then let* y := cast y (dt x) in Ok (x, y) else convert x y) in
  let '(x, y) := p in
  match op with
  | OSub =>
      if is_ptr (dt x) && is_ptr (dt y) then Ok (N KOther (Simple false ST_LONG))
      else if is_ptr (dt x) then Ok (mk_padd x y)
      else if is_ptr (dt y) then Fail
      else mk_binary op x y
  | OAdd =>
      if negb (is_ptr (dt x) || is_ptr (dt y)) then mk_binary op x y
      else if is_ptr (dt x) && is_ptr (dt y) then Fail
      else if negb (is_ptr (dt x)) then Ok (mk_padd y x)
      else Ok (mk_padd x y)
  | OEqual | ONotEqual =>
      if Bool.eqb (is_ptr (dt x)) (is_ptr (dt y)) then mk_binary op x y
      else
        let non_ptr := if is_ptr (dt x) then y else x in
        if negb (is_null non_ptr) then Fail
        else
          let* y := (if is_ptr (dt y) then Ok y else cast y (Ptr false void)) in
          let* x := (if is_ptr (dt x) then Ok x else cast x (Ptr false void)) in
          mk_binary op x y
  | _ => mk_binary op x y
  end.

(** src/parser/expression.c:124-125 and 977-984 (E_UNARY_OP). *)
Definition mk_unary (op : unop) (x : node) : res node :=
  let* x := decay x in
  let* x := promote x in
  match kd x, dt x with
  | KVal v, Simple _ s =>
      match fold_un op s v with
      | Some u => Ok (N (KVal u) (dt x))
      | None => Ok (N KOther (dt x))
      end
  | _, _ => Ok (N KOther (dt x))
  end.

(** src/parser/expression.c:134-135 and 1036-1049 (E_INDIRECTION), src/types.c:159-163. *)
Definition mk_deref (x : node) : res node :=
  let* x := decay x in
  match dt x with
  | Ptr _ u => Ok (N (match kd x with KLabelPtr => KLabel | _ => KOther end) u)
  | _ => Fail
  end.

(** src/parser/expression.c:175-176 and 1051-1061 (E_COMMA). *)
Definition constant_kind (k : kind) : bool :=
  match k with KVal _ | KLabel | KLabelPtr => true | _ => false end.
Definition mk_comma (x y : node) : res node :=
  let* x := decay x in
  let* y := decay y in
  Ok (if constant_kind (kd x) && constant_kind (kd y) then y else N KOther (dt y)).

(** src/parser/expression.c:383-395 (check_const_correctness). *)
Definition modified (t : ty) : res node :=
  if is_const t then Fail else Ok (N KOther t).

(** E_ASSIGNMENT: the left operand is not converted (196-202). *)
Definition mk_assign (x y : node) : res node :=
  let* y := decay y in
  modified (dt x).

(** src/parser/expression.c:350-378 (fix_assignment_operators) after the promotion
    of both operands: the casts of the left one are taken off again, two at
    most. *)
Definition strip (x : node) : node :=
  match kd x with
  | KCast (KCast k t) _ => N k t
  | KCast k t => N k t
  | _ => x
  end.
Definition mk_assign_op (op : binop) (x y : node) : res node :=
  let* y := decay y in
  let* x := promote x in
  let* y := promote y in
  let* p := convert x y in
  let '(x, y) := p in
  modified (dt (strip x)).

(** src/types.c:301-313 (type_select), src/parser/expression.c:960-976 and
    158-159 (E_DOT_OPERATOR). *)
Definition mk_dot (x : node) (i : nat) : res node :=
  match dt x with
  | Struct _ g =>
      match fields env g with
      | Some fs =>
          match nth_error fs i with
          | Some f =>
              Ok (N (match kd x with
                     | KLabel => if fbits f =? -1 then KLabel else KDot (fbits f)
                     | _ => KDot (fbits f)
                     end) (ftype f))
          | None => Fail
          end
      | None => Fail
      end
  | _ => Fail
  end.
(** src/parser/expression.c:397-411 (expr_dot_operator): from the last index on
    the stack to the first. *)
Fixpoint dots (x : node) (path : list nat) : res node :=
  match path with
  | [] => Ok x
  | i :: k => let* x := mk_dot x i in dots x k
  end.
Definition mk_member (x : node) (m : Z) : res node :=
  match dt x with
  | Struct _ g =>
      match search_member env g m with
      | Some st => dots x (rev st)
      | None => Fail
      end
  | _ => Fail
  end.

(** src/parser/expression.c:127-133 and 434-458 (E_CALL). *)
Fixpoint each_node (f : node -> res node) (l : list node) : res (list node) :=
  match l with
  | [] => Ok []
  | x :: k => let* y := f x in let* r := each_node f k in Ok (y :: r)
  end.
Definition mk_call (f : node) (args : list node) : res node :=
  let* args := each_node decay args in
  let* f := decay f in
  match dt f with
  | Ptr _ (Fn r ps v) =>
      let named := length ps in
      if negb (if v then Nat.leb named (length args) else Nat.eqb named (length args)) then Fail
      else
        let* _ := each_node default_promote (skipn named args) in
        Ok (N KOther r)
  | _ => Fail
  end.

Definition int_node (v : Z) : node := N (KVal v) (Simple false ST_INT).

(** parse_prefix and parse_pratt_with_lhs (510-890): the nodes they build. *)
Fixpoint build (e : expr) : res node :=
  match e with
  | Num s v => Ok (N (KVal v) (Simple false s))
  | Global t => Ok (N KLabel t)
  | Local t => Ok (N KOther t)
  | Str s n => Ok (N KLabel (Arr (Some n) (Simple false s)))
  | Compound t => Ok (N KOther t)
  | Unary op e => let* x := build e in mk_unary op x
  | Deref e => let* x := build e in mk_deref x
  | AddrOf e => let* x := build e in Ok (mk_addr x)
  | Not e => let* x := build e in mk_cond x (int_node 0) (int_node 1)
  | SizeofE e => let* x := build e in Ok (N (KVal (size_of (dt x))) (Simple false ST_ULONG))
  | SizeofT t => Ok (N (KVal (size_of t)) (Simple false ST_ULONG))
  | Cast t e => let* x := build e in cast x t
  | Bin op a b => let* x := build a in let* y := build b in mk_bin op x y
  | OrElse a b =>
      let* x := build a in
      let* y := build b in
      let* z := mk_cond y (int_node 1) (int_node 0) in
      mk_cond x (int_node 1) z
  | AndAlso a b =>
      let* x := build a in
      let* y := build b in
      let* z := mk_cond y (int_node 1) (int_node 0) in
      mk_cond x z (int_node 0)
  | Cond a b c =>
      let* x := build a in let* y := build b in let* z := build c in mk_cond x y z
  | Comma a b => let* x := build a in let* y := build b in mk_comma x y
  | Assign a b => let* x := build a in let* y := build b in mk_assign x y
  | AssignOp op a b => let* x := build a in let* y := build b in mk_assign_op op x y
  | IncDec inc a =>
      let* x := build a in
      mk_assign_op (if inc then OAdd else OSub) x (int_node 1)
  | Index a b =>
      let* x := build a in let* y := build b in
      let* p := mk_bin OAdd x y in mk_deref p
  | Call f args =>
      let* x := build f in
      let* l := (fix all (l : list expr) : res (list node) :=
                   match l with
                   | [] => Ok []
                   | a :: k => let* n := build a in let* r := all k in Ok (n :: r)
                   end) args in
      mk_call x l
  | Dot e m => let* x := build e in mk_member x m
  | Arrow e m => let* x := build e in let* y := mk_deref x in mk_member y m
  end.

(** src/parser/expression.c:662-702 (_Generic): the association that is taken.
    [None] is default. The flag is set by default even if default is not taken. *)
Fixpoint associations {A : Type} (t : ty) (l : list (option ty * A)) (found : option A) (flag : bool) : res A :=
  match l with
  | [] => match found with Some a => Ok a | None => Fail end
  | (None, a) :: k =>
      associations t k (match found with Some b => Some b | None => Some a end) true
  | (Some u, a) :: k =>
      if ty_eqb u t then
        match found with
        | Some _ => if flag then associations t k (Some a) flag else Fail
        | None => associations t k (Some a) flag
        end
      else associations t k found flag
  end.
Definition generic {A : Type} (e : expr) (l : list (option ty * A)) : res A :=
  let* x := build e in
  let* x := decay x in
  associations (unq (dt x)) l None false.

End Types.
