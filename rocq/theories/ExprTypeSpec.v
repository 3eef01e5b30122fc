(** Specification: the types C11 6.5 gives to expressions (LP64), with the
    conversions of 6.3.1.1, 6.3.1.8 and 6.3.2. Long double, the complex types and
    variable-length arrays are not in it. Types and the syntax of expressions come
    from ExprType.v, the arithmetic conversions from ArithConvSpec.v.

    The conditions guarded by [strict = true] are not in the standard: they leave
    out what the compiler does differently, so [types false] is the standard's
    relation and [types true] the part of it on which the compiler is right. *)
From Verif Require Import Base Arch CTypesSpec ArithConvSpec ExprType.

Local Open Scope Z_scope.
Local Open Scope list_scope.

(** 6.7.3p9: a qualified array type qualifies the elements. *)
Fixpoint qualified (t : ty) : ty :=
  match t with
  | Simple _ s => Simple true s
  | Ptr _ u => Ptr true u
  | Struct _ g => Struct true g
  | Arr n u => Arr n (qualified u)
  | Fn _ _ _ => t
  end.

(** 6.3.2.1: an lvalue is converted to its value, whose type is unqualified, an
    array to a pointer to its first element, a function to a pointer to it. *)
Definition value_type (t : ty) : ty :=
  match t with
  | Arr _ u => Ptr false u
  | Fn _ _ _ => Ptr false t
  | _ => unq t
  end.

Definition floating (s : simple_type) : Prop := s = ST_FLOAT \/ s = ST_DOUBLE.
Definition arith (s : simple_type) : Prop := integer_type s \/ floating s.
Definition scalar (t : ty) : Prop :=
  match t with Simple _ s => arith s | Ptr _ _ => True | _ => False end.

(** 6.3.1.1p2, with the values of a bit-field of width [w] (none: -1). *)
Definition promoted (w : Z) (s : simple_type) : simple_type :=
  if w =? -1 then spec_promote SYSV s
  else match s with
       | ST_UINT => if w <? 32 then ST_INT else ST_UINT
       | _ => ST_INT
       end.
(** 6.7.2.1p5: the types a bit-field may have, and its widths. *)
Definition bit_field (f : field) : Prop :=
  fbits f = -1 \/
  (exists c, ftype f = Simple c ST_INT /\ 0 < fbits f <= 32) \/
  (exists c, ftype f = Simple c ST_UINT /\ 0 < fbits f <= 32) \/
  (exists c, ftype f = Simple c ST_BOOL /\ fbits f = 1).

(** 6.7.2.1p13: a member, or a member of an unnamed member. [c] says that an
    unnamed member on the way is const. *)
Inductive member (env : structs) : nat -> Z -> list nat -> field -> bool -> Prop :=
| member_here : forall g x i fs f,
    fields env g = Some fs -> nth_error fs i = Some f -> fname f = Some x ->
    member env g x [i] f false
| member_inside : forall g x i fs u h c p f c',
    fields env g = Some fs -> nth_error fs i = Some u -> fname u = None ->
    ftype u = Struct c h ->
    member env h x p f c' ->
    member env g x (i :: p) f (c || c').
(** 6.7.2.1, 6.2.3: names of members are distinct; a structure is complete before
    it is the type of a member. *)
Definition well_formed (env : structs) : Prop :=
  (forall g x p f c p' f' c', member env g x p f c -> member env g x p' f' c' -> p = p') /\
  (forall g fs f c h, fields env g = Some fs -> In f fs -> ftype f = Struct c h -> (h < g)%nat) /\
  (forall g fs f, fields env g = Some fs -> In f fs -> bit_field f).

(** 6.3.2.3p3: an integer constant zero, or such a one cast to void pointer. *)
Inductive zero_constant : expr -> Prop :=
| zero_num : forall s, integer_type s -> zero_constant (Num s 0)
| zero_cast : forall c s e, integer_type s -> zero_constant e -> zero_constant (Cast (Simple c s) e).
Inductive null_constant : expr -> Prop :=
| null_zero : forall e, zero_constant e -> null_constant e
| null_void : forall e, zero_constant e -> null_constant (Cast (Ptr false (Simple false ST_VOID)) e).

(** 6.2.7p3, of types that agree but for a missing length or parameter list. *)
Inductive composite_type : ty -> ty -> ty -> Prop :=
| composite_same : forall t, composite_type t t t
| composite_left : forall n t, composite_type (Arr (Some n) t) (Arr None t) (Arr (Some n) t)
| composite_right : forall n t, composite_type (Arr None t) (Arr (Some n) t) (Arr (Some n) t)
| composite_fn_left : forall r ps v, composite_type (Fn r ps v) (Fn r [] true) (Fn r ps v)
| composite_fn_right : forall r ps v, composite_type (Fn r [] true) (Fn r ps v) (Fn r ps v).

(** What an expression is besides its type: whether & applies to it, the width of
    the bit-field it designates (none: -1), and whether the compiler agrees on the
    qualifier of its type, which the standard does not ask about ([exact]). *)
Record look := { lvalue : bool; width : Z; exact : bool }.
Definition rvalue (ex : bool) : look := {| lvalue := false; width := -1; exact := ex |}.
Definition designates (ex : bool) : look := {| lvalue := true; width := -1; exact := ex |}.
(** Whether it agrees on the type of the value. *)
Definition value_exact (t : ty) (l : look) : bool :=
  match t with
  | Arr _ _ => true
  | Fn _ _ _ => true
  | _ => exact l && negb (is_const t)
  end.
Definition promoted_exact (t : ty) (l : look) (s : simple_type) : bool :=
  value_exact t l || st_eqb (promoted (width l) s) ST_INT.

Definition arithmetic_op (op : binop) (a b : simple_type) : Prop :=
  match op with
  | OAdd | OSub | OMul | ODiv => arith a /\ arith b
  | OMod | OBand | OBor | OBxor => integer_type a /\ integer_type b
  | _ => False
  end.
Definition relation_op (op : binop) : Prop :=
  match op with
  | OLess | OGreater | OLessEq | OGreaterEq | OEqual | ONotEqual => True
  | _ => False
  end.
Definition equality_op (op : binop) : Prop :=
  match op with OEqual | ONotEqual => True | _ => False end.
Definition shift_op (op : binop) : Prop :=
  match op with OLshift | ORshift => True | _ => False end.

Section Rules.
Variable env : structs.
Variable strict : bool.

Notation int := (Simple false ST_INT).

Inductive types : expr -> ty -> look -> Prop :=
(* 6.5.1 *)
| types_num : forall s v, arith s -> types (Num s v) (Simple false s) (rvalue true)
| types_global : forall t, types (Global t) t (designates true)
| types_local : forall t, types (Local t) t (designates true)
| types_str : forall s n, types (Str s n) (Arr (Some n) (Simple false s)) (designates true)
| types_compound : forall t, types (Compound t) t (designates true)
(* 6.5.2.1: a[b] is *(a + b) *)
| types_index : forall a b ta la tb lb c t s,
    types a ta la -> types b tb lb ->
    value_type ta = Ptr c t -> value_type tb = Simple false s -> integer_type s ->
    types (Index a b) t (designates true)
| types_index_swapped : forall a b ta la tb lb c t s,
    types a ta la -> types b tb lb ->
    value_type tb = Ptr c t -> value_type ta = Simple false s -> integer_type s ->
    types (Index a b) t (designates true)
(* 6.5.2.2 *)
| types_call : forall f tf lf args c r ps v,
    types f tf lf -> value_type tf = Ptr c (Fn r ps v) ->
    types_all args ->
    (if v then (length ps <= length args)%nat else length ps = length args) ->
    types (Call f args) (unq r) (rvalue (negb (is_const r)))
(* 6.5.2.3: the member is qualified as the structure is *)
| types_dot : forall e c g l x p f c',
    types e (Struct c g) l -> member env g x p f c' ->
    (strict = true -> c || c' = true -> forall n u, ftype f <> Arr n u) ->
    (strict = true -> fbits f <> -1 -> is_const (ftype f) = false) ->
    types (Dot e x) (if c || c' then qualified (ftype f) else ftype f)
      {| lvalue := lvalue l; width := fbits f; exact := negb (c || c') |}
| types_arrow : forall e t l k c g x p f c',
    types e t l -> value_type t = Ptr k (Struct c g) -> member env g x p f c' ->
    (strict = true -> c || c' = true -> forall n u, ftype f <> Arr n u) ->
    (strict = true -> fbits f <> -1 -> is_const (ftype f) = false) ->
    types (Arrow e x) (if c || c' then qualified (ftype f) else ftype f)
      {| lvalue := true; width := fbits f; exact := negb (c || c') |}
(* 6.5.2.4, 6.5.3.1 *)
| types_incdec : forall i e s l,
    types e (Simple false s) l -> lvalue l = true -> arith s ->
    types (IncDec i e) (Simple false s) (rvalue true)
| types_incdec_ptr : forall i e t l,
    types e (Ptr false t) l -> lvalue l = true ->
    types (IncDec i e) (Ptr false t) (rvalue true)
(* 6.5.3.2 *)
| types_deref : forall e t l c u,
    types e t l -> value_type t = Ptr c u -> types (Deref e) u (designates true)
| types_addr : forall e t l,
    types e t l -> lvalue l = true -> width l = -1 ->
    (strict = true -> exact l = true) ->
    types (AddrOf e) (Ptr false t) (rvalue true)
(* 6.5.3.3 *)
| types_unary : forall op e t l s,
    types e t l -> value_type t = Simple false s -> arith s ->
    (op = UBnot -> integer_type s) ->
    types (Unary op e) (Simple false (promoted (width l) s)) (rvalue (promoted_exact t l s))
| types_not : forall e t l,
    types e t l -> scalar (value_type t) -> types (Not e) int (rvalue true)
(* 6.5.3.4 *)
| types_sizeof : forall e t l,
    types e t l -> types (SizeofE e) (Simple false ST_ULONG) (rvalue true)
| types_sizeof_type : forall t, types (SizeofT t) (Simple false ST_ULONG) (rvalue true)
(* 6.5.4 *)
| types_cast_void : forall e t l c,
    types e t l -> types (Cast (Simple c ST_VOID) e) (Simple false ST_VOID) (rvalue (negb c))
| types_cast_arith : forall e t l c s r,
    types e t l -> value_type t = Simple false s -> arith s -> arith r ->
    (strict = true -> s = ST_UINT -> r = ST_UINT -> promoted (width l) s = ST_UINT) ->
    types (Cast (Simple c r) e) (Simple false r) (rvalue (negb c))
| types_cast_pointer : forall e t l c u,
    types e t l ->
    (exists v, value_type t = Ptr false v) \/ (exists s, value_type t = Simple false s /\ integer_type s) ->
    types (Cast (Ptr c u) e) (Ptr false u) (rvalue (negb c))
| types_cast_address : forall e t l c s v,
    types e t l -> value_type t = Ptr false v -> integer_type s ->
    types (Cast (Simple c s) e) (Simple false s) (rvalue (negb c))
(* 6.5.5, 6.5.6, 6.5.10 to 6.5.12 on numbers *)
| types_arith : forall op a b ta la tb lb s r,
    types a ta la -> types b tb lb ->
    value_type ta = Simple false s -> value_type tb = Simple false r ->
    arithmetic_op op s r ->
    types (Bin op a b)
      (Simple false (spec_common SYSV (promoted (width la) s) (promoted (width lb) r))) (rvalue true)
(* 6.5.6 on pointers *)
| types_add : forall a b ta la tb lb c t s op,
    types a ta la -> types b tb lb ->
    value_type ta = Ptr c t -> value_type tb = Simple false s -> integer_type s ->
    (op = OAdd \/ op = OSub) ->
    types (Bin op a b) (Ptr false t) (rvalue (value_exact ta la))
| types_add_swapped : forall a b ta la tb lb c t s,
    types a ta la -> types b tb lb ->
    value_type tb = Ptr c t -> value_type ta = Simple false s -> integer_type s ->
    types (Bin OAdd a b) (Ptr false t) (rvalue (value_exact tb lb))
| types_difference : forall a b ta la tb lb c t d u,
    types a ta la -> types b tb lb ->
    value_type ta = Ptr c t -> value_type tb = Ptr d u ->
    types (Bin OSub a b) (Simple false ST_LONG) (rvalue true)
(* 6.5.7 *)
| types_shift : forall op a b ta la tb lb s r,
    types a ta la -> types b tb lb ->
    value_type ta = Simple false s -> value_type tb = Simple false r ->
    integer_type s -> integer_type r -> shift_op op ->
    (strict = true -> promoted_exact ta la s = true) ->
    types (Bin op a b) (Simple false (promoted (width la) s)) (rvalue true)
(* 6.5.8, 6.5.9 *)
| types_relation : forall op a b ta la tb lb s r,
    types a ta la -> types b tb lb ->
    value_type ta = Simple false s -> value_type tb = Simple false r ->
    arith s -> arith r -> relation_op op ->
    types (Bin op a b) int (rvalue true)
| types_relation_ptr : forall op a b ta la tb lb c t d u,
    types a ta la -> types b tb lb ->
    value_type ta = Ptr c t -> value_type tb = Ptr d u -> relation_op op ->
    types (Bin op a b) int (rvalue true)
| types_equal_null : forall op a b ta la tb lb c t,
    types a ta la -> types b tb lb ->
    value_type ta = Ptr c t -> null_constant b -> equality_op op ->
    types (Bin op a b) int (rvalue true)
| types_null_equal : forall op a b ta la tb lb c t,
    types a ta la -> types b tb lb ->
    value_type tb = Ptr c t -> null_constant a -> equality_op op ->
    types (Bin op a b) int (rvalue true)
(* 6.5.13, 6.5.14 *)
| types_or : forall a b ta la tb lb,
    types a ta la -> types b tb lb -> scalar (value_type ta) -> scalar (value_type tb) ->
    types (OrElse a b) int (rvalue true)
| types_and : forall a b ta la tb lb,
    types a ta la -> types b tb lb -> scalar (value_type ta) -> scalar (value_type tb) ->
    types (AndAlso a b) int (rvalue true)
(* 6.5.15 *)
| types_cond_arith : forall e a b te le ta la tb lb s r,
    types e te le -> types a ta la -> types b tb lb -> scalar (value_type te) ->
    value_type ta = Simple false s -> value_type tb = Simple false r ->
    arith s -> arith r ->
    types (Cond e a b)
      (Simple false (spec_common SYSV (promoted (width la) s) (promoted (width lb) r)))
      (rvalue (promoted_exact ta la s && promoted_exact tb lb r))
| types_cond_struct : forall e a b te le ta la tb lb g,
    types e te le -> types a ta la -> types b tb lb -> scalar (value_type te) ->
    value_type ta = Struct false g -> value_type tb = Struct false g ->
    (strict = true -> value_exact ta la = true /\ value_exact tb lb = true) ->
    types (Cond e a b) (Struct false g) (rvalue true)
| types_cond_void : forall e a b te le ta la tb lb,
    types e te le -> types a ta la -> types b tb lb -> scalar (value_type te) ->
    value_type ta = Simple false ST_VOID -> value_type tb = Simple false ST_VOID ->
    (strict = true -> value_exact ta la = true /\ value_exact tb lb = true) ->
    types (Cond e a b) (Simple false ST_VOID) (rvalue true)
| types_cond_ptr : forall e a b te le ta la tb lb c d t u v,
    types e te le -> types a ta la -> types b tb lb -> scalar (value_type te) ->
    value_type ta = Ptr c t -> value_type tb = Ptr d u ->
    composite_type (unq t) (unq u) v ->
    (strict = true -> (t = u /\ value_exact ta la = true /\ value_exact tb lb = true) \/
                      (is_const t = false /\ is_const u = false)) ->
    types (Cond e a b) (Ptr false (if is_const t || is_const u then qualified v else v))
      (rvalue (value_exact ta la && value_exact tb lb))
| types_cond_void_ptr : forall e a b te le ta la tb lb c d t u,
    types e te le -> types a ta la -> types b tb lb -> scalar (value_type te) ->
    value_type ta = Ptr c t -> value_type tb = Ptr d u ->
    (unq t = Simple false ST_VOID \/ unq u = Simple false ST_VOID) ->
    ~ null_constant a -> ~ null_constant b ->
    (strict = true -> False) ->
    types (Cond e a b) (Ptr false (Simple (is_const t || is_const u) ST_VOID)) (rvalue false)
| types_cond_null : forall e a b te le ta la tb lb c t,
    types e te le -> types a ta la -> types b tb lb -> scalar (value_type te) ->
    value_type ta = Ptr c t -> null_constant b -> ~ null_constant a ->
    (strict = true -> unq t = Simple false ST_VOID -> zero_constant b) ->
    types (Cond e a b) (Ptr false t) (rvalue (value_exact ta la))
| types_null_cond : forall e a b te le ta la tb lb c t,
    types e te le -> types a ta la -> types b tb lb -> scalar (value_type te) ->
    value_type tb = Ptr c t -> null_constant a -> ~ null_constant b ->
    types (Cond e a b) (Ptr false t) (rvalue (value_exact tb lb))
(* 6.5.16: the left operand is a modifiable lvalue *)
| types_assign : forall a b t la tb lb,
    types a t la -> types b tb lb -> lvalue la = true -> is_const t = false ->
    (forall n u, t <> Arr n u) -> (forall r ps v, t <> Fn r ps v) ->
    types (Assign a b) t (rvalue true)
| types_assign_op : forall op a b s la tb lb r,
    types a (Simple false s) la -> types b tb lb -> lvalue la = true ->
    value_type tb = Simple false r -> arithmetic_op op s r \/ (shift_op op /\ integer_type s /\ integer_type r) ->
    types (AssignOp op a b) (Simple false s) (rvalue true)
| types_assign_ptr : forall op a b t la tb lb r,
    types a (Ptr false t) la -> types b tb lb -> lvalue la = true ->
    value_type tb = Simple false r -> integer_type r -> (op = OAdd \/ op = OSub) ->
    types (AssignOp op a b) (Ptr false t) (rvalue true)
(* 6.5.17 *)
| types_comma : forall a b ta la tb lb,
    types a ta la -> types b tb lb ->
    types (Comma a b) (value_type tb) (rvalue (value_exact tb lb))
with types_all : list expr -> Prop :=
| types_nil : types_all []
| types_cons : forall e t l k, types e t l -> types_all k -> types_all (e :: k).

End Rules.

Scheme types_ind2 := Minimality for types Sort Prop
  with types_all_ind2 := Minimality for types_all Sort Prop.
