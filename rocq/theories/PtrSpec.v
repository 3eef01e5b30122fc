(** Specification: expressions over objects in memory — variables, pointers,
    arrays, structures and bit-fields — and what C11 (6.5) says they read, write
    and yield. All conversions are written out (C73 says which ones there are);
    [a && b], [a || b] and [!a] are conditional expressions. *)
From Verif Require Import Base Arch CTypesSpec ConstFold X86.

Local Open Scope Z_scope.
Local Open Scope list_scope.

Inductive ty := TVoid | TInt (t : simple_type) | TPtr (t : ty) | TArr (n : Z) (t : ty) | TStr (id : nat).

(** A member: its place in the structure, its type, and of a bit-field the first
    bit and the number of bits within the unit of its type (C12, C13). *)
Record field := { f_offset : Z; f_type : ty; f_bits : option (Z * Z) }.

Inductive expr :=
| EConst (t : ty) (w : Z)                        (* integer constant, or address constant *)
| EObject (x : nat)                              (* variable *)
| EInd (e : expr)                                (* *e *)
| EAddr (e : expr)                               (* &e *)
| EDecay (e : expr)                              (* array to pointer *)
| EDot (e : expr) (i : nat)                      (* e.member *)
| EPtr (sub : bool) (p i : expr)                 (* p + i, p - i *)
| EDiff (p q : expr)                             (* p - q *)
| ECast (t : ty) (e : expr)
| EBin (op : operator_type) (a b : expr)
| EUn (op : unary_operator_type) (a : expr)
| EAssign (a b : expr)
| EAssignOp (op : operator_type) (postfix : bool) (a b : expr)
| EAssignPtr (sub postfix : bool) (p i : expr)   (* p += i, p++, ... *)
| ECond (c a b : expr)
| EComma (a b : expr).

(** Memory, and ranges of it: first address and number of bytes. *)
Definition memory := Z -> Z.
Definition range : Type := Z * Z.
Definition within (x : Z) (r : range) : Prop := fst r <= x < fst r + snd r.
Definition disjoint (r s : range) : bool := (fst r + snd r <=? fst s) || (fst s + snd s <=? fst r).
Definition apart (l k : list range) : bool := forallb (fun r => forallb (disjoint r) k) l.

(** The value of an object is the number its bytes make, least first, whatever its
    type. *)
Definition get (m : memory) (a n : Z) : Z := load m a (Z.to_nat n).
Definition put (m : memory) (a n v : Z) : memory := store m a (Z.to_nat n) v.

(** What an expression designates or yields. With a value comes the object it was
    read from, if it was just read (6.5.16.1p3 speaks of that). *)
Inductive origin := Nowhere | Whole (r : range) | Part (r : range).
Inductive result :=
| Void
| Obj (a : Z)
| Bits (a first width : Z)
| Val (v : Z) (o : origin).

Definition comparison (op : operator_type) : bool :=
  match op with
  | OP_LESS | OP_GREATER | OP_LESS_EQ | OP_GREATER_EQ | OP_EQUAL | OP_NOT_EQUAL => true
  | _ => false
  end.

Fixpoint ty_eqb (a b : ty) : bool :=
  match a, b with
  | TVoid, TVoid => true
  | TInt t, TInt u => st_eqb t u
  | TPtr a, TPtr b => ty_eqb a b
  | TArr n a, TArr k b => (n =? k) && ty_eqb a b
  | TStr i, TStr j => Nat.eqb i j
  | _, _ => false
  end.

Section Semantics.
(** The variables' types and addresses, the structures' members and sizes, and
    which ranges lie in objects. *)
Variables (G : nat -> ty) (A : nat -> Z) (fields : nat -> list field) (struct_size : nat -> Z).
Variable valid_range : range -> bool.

Fixpoint bytes (t : ty) : Z :=
  match t with
  | TVoid => 0
  | TInt ST_BOOL => 1
  | TInt ST_FLOAT => 4
  | TInt ST_DOUBLE => 8
  | TInt ST_LDOUBLE => 16
  | TInt t => spec_width SYSV t / 8
  | TPtr _ => 8
  | TArr n t => n * bytes t
  | TStr id => struct_size id
  end.

Fixpoint etype (e : expr) : ty :=
  match e with
  | EConst t _ | ECast t _ => t
  | EObject x => G x
  | EInd e => match etype e with TPtr t => t | _ => TVoid end
  | EAddr e => TPtr (etype e)
  | EDecay e => match etype e with TArr _ t => TPtr t | _ => TVoid end
  | EDot e i =>
      match etype e with
      | TStr id => match nth_error (fields id) i with Some f => f_type f | None => TVoid end
      | _ => TVoid
      end
  | EPtr _ p _ | EAssignPtr _ _ p _ => etype p
  | EDiff _ _ => TInt ST_LONG
  | EBin op a _ => if comparison op then TInt ST_INT else etype a
  | EUn _ a | EAssign a _ | EAssignOp _ _ a _ => etype a
  | ECond _ a _ => etype a
  | EComma _ b => etype b
  end.

(** The integer a value stands for, and back. Pointers are unsigned. *)
Definition signed_type (t : ty) : bool := match t with TInt t => spec_signed t | _ => false end.
Definition integer (t : ty) (w : Z) : Z := if signed_type t then signed (8 * bytes t) w else w.
Definition encode (t : ty) (z : Z) : Z := z mod 256 ^ bytes t.
Definition is_bool (t : ty) : bool := match t with TInt ST_BOOL => true | _ => false end.
(** 6.3.1.2, 6.3.1.3, 6.3.2.3. *)
Definition convert (from to : ty) (w : Z) : Z :=
  if is_bool to then (if w =? 0 then 0 else 1) else encode to (integer from w).

(** Integer arithmetic: the result must be a value of a signed type, and is
    reduced for an unsigned one (6.5p5, 6.2.5p9). *)
Definition fit (t : ty) (z : Z) : option Z :=
  if signed_type t
  then if (- 2 ^ (8 * bytes t - 1) <=? z) && (z <? 2 ^ (8 * bytes t - 1)) then Some (encode t z) else None
  else Some (encode t z).
Definition truth (b : bool) : option Z := Some (if b then 1 else 0).
(** The operators covered; shifts, division and remainder are those of C65. *)
Definition operate (t : ty) (op : operator_type) (a b : Z) : option Z :=
  let x := integer t a in
  let y := integer t b in
  match op with
  | OP_ADD => fit t (x + y)
  | OP_SUB => fit t (x - y)
  | OP_MUL => fit t (x * y)
  | OP_BAND => Some (encode t (Z.land x y))
  | OP_BOR => Some (encode t (Z.lor x y))
  | OP_BXOR => Some (encode t (Z.lxor x y))
  | OP_LESS => truth (x <? y)
  | OP_GREATER => truth (y <? x)
  | OP_LESS_EQ => truth (x <=? y)
  | OP_GREATER_EQ => truth (y <=? x)
  | OP_EQUAL => truth (x =? y)
  | OP_NOT_EQUAL => truth (negb (x =? y))
  | _ => None
  end.
Definition operate_unary (t : ty) (op : unary_operator_type) (a : Z) : option Z :=
  match op with
  | UOP_PLUS => Some a
  | UOP_NEG => fit t (- integer t a)
  | UOP_BNOT => Some (encode t (- integer t a - 1))
  end.

(** An address stays within the address space. *)
Definition address (a : Z) : option Z := if (0 <=? a) && (a <? 2 ^ 64) then Some a else None.

(** The value of [width] bits of unit [w] from bit [first] on, as a value of type [t], and
    the unit with these bits replaced (6.7.2.1p10, 6.3.1.3). *)
Definition get_field (t : ty) (first width w : Z) : Z :=
  let b := (w / 2 ^ first) mod 2 ^ width in
  encode t (if signed_type t then signed width b else b).
Definition put_field (first width w v : Z) : Z :=
  w - (w / 2 ^ first) mod 2 ^ width * 2 ^ first + v mod 2 ^ width * 2 ^ first.

(** 6.3.2.1p2: the value of what is designated, what is read for it, and where it
    is from. *)
Definition value_of (t : ty) (r : result) (m : memory) : option (Z * list range * origin) :=
  match r with
  | Void => None
  | Obj a => if valid_range (a, bytes t) then Some (get m a (bytes t), [(a, bytes t)], Whole (a, bytes t)) else None
  | Bits a first width =>
      if valid_range (a, bytes t)
      then Some (get_field t first width (get m a (bytes t)), [(a, bytes t)], Part (a, bytes t)) else None
  | Val v o => Some (v, [], o)
  end.

(** 6.5p2: the evaluations of two operands are not ordered, so what one writes the
    other neither reads nor writes. *)
Definition unordered (r1 w1 r2 w2 : list range) : bool :=
  apart w1 r2 && apart w1 w2 && apart w2 r1.

(** 6.5.16.1p3: the object a stored value was read from is that object or apart. *)
Definition may_store (d : range) (o : origin) : bool :=
  match o with
  | Nowhere => true
  | Whole r => ((fst r =? fst d) && (snd r =? snd d)) || disjoint r d
  | Part r => disjoint r d
  end.

(** What an evaluation does: result, memory, what was read, what was written. *)
Definition done : Type := result * memory * list range * list range.

(** The value an operand yields. *)
Definition yields (t : ty) (d : option done) : option (Z * origin * memory * list range * list range) :=
  match d with
  | Some (r, m, R, W) =>
      match value_of t r m with Some (v, R', o) => Some (v, o, m, R ++ R', W) | None => None end
  | None => None
  end.

(** [d = w]: the object [r] of type [t] gets the value [w]. *)
Definition assign (t : ty) (r : result) (m : memory) (w : Z) : option (memory * list range * list range) :=
  match r with
  | Obj a => if valid_range (a, bytes t) then Some (put m a (bytes t) w, [], [(a, bytes t)]) else None
  | Bits a first width =>
      if valid_range (a, bytes t)
      then Some (put m a (bytes t) (put_field first width (get m a (bytes t)) w), [(a, bytes t)], [(a, bytes t)])
      else None
  | _ => None
  end.
(** The value of an assignment is that of the object afterwards (6.5.16p3). *)
Definition assigned (t : ty) (r : result) (w : Z) (o : origin) : result :=
  match r with
  | Bits _ _ width => Val (get_field t 0 width w) Nowhere
  | _ => Val w o
  end.

Fixpoint eval (e : expr) (m : memory) : option done :=
  match e with
  | EConst _ w => Some (Val w Nowhere, m, [], [])
  | EObject x => Some (Obj (A x), m, [], [])
  | EInd e =>
      match yields (etype e) (eval e m) with
      | Some (v, _, m, R, W) => Some (Obj v, m, R, W)
      | None => None
      end
  | EAddr e | EDecay e =>
      match eval e m with
      | Some (Obj a, m, R, W) => Some (Val a Nowhere, m, R, W)
      | _ => None
      end
  | EDot e i =>
      match etype e, eval e m with
      | TStr id, Some (r, m, R, W) =>
          match nth_error (fields id) i, r with
          | Some f, Obj a =>
              match address (a + f_offset f), f_bits f with
              | Some a, None => Some (Obj a, m, R, W)
              | Some a, Some (first, width) => Some (Bits a first width, m, R, W)
              | None, _ => None
              end
          | _, _ => None
          end
      | _, _ => None
      end
  | EPtr sub p i =>
      match yields (etype p) (eval p m) with
      | Some (vp, _, m, Rp, Wp) =>
          match yields (etype i) (eval i m) with
          | Some (vi, _, m, Ri, Wi) =>
              if unordered Rp Wp Ri Wi then
                let size := match etype p with TPtr t => bytes t | _ => 0 end in
                let step := integer (etype i) vi * size in
                match address (if sub : bool then vp - step else vp + step) with
                | Some v => Some (Val v Nowhere, m, Rp ++ Ri, Wp ++ Wi)
                | None => None
                end
              else None
          | None => None
          end
      | None => None
      end
  | EDiff p q =>
      match yields (etype p) (eval p m) with
      | Some (vp, _, m, Rp, Wp) =>
          match yields (etype q) (eval q m) with
          | Some (vq, _, m, Rq, Wq) =>
              let size := match etype p with TPtr t => bytes t | _ => 0 end in
              if unordered Rp Wp Rq Wq && ((vp - vq) mod size =? 0)
                 && (- 2 ^ 63 <=? vp - vq) && (vp - vq <? 2 ^ 63)
              then Some (Val (encode (TInt ST_LONG) ((vp - vq) / size)) Nowhere, m, Rp ++ Rq, Wp ++ Wq)
              else None
          | None => None
          end
      | None => None
      end
  | ECast t e =>
      match t with
      | TVoid => match eval e m with Some (_, m, R, W) => Some (Void, m, R, W) | None => None end
      | _ =>
          match yields (etype e) (eval e m) with
          | Some (v, o, m, R, W) =>
              Some (if ty_eqb (etype e) t then Val v o else Val (convert (etype e) t v) Nowhere, m, R, W)
          | None => None
          end
      end
  | EBin op a b =>
      match yields (etype a) (eval a m) with
      | Some (va, _, m, Ra, Wa) =>
          match yields (etype b) (eval b m) with
          | Some (vb, _, m, Rb, Wb) =>
              if unordered Ra Wa Rb Wb then
                match operate (etype a) op va vb with
                | Some v => Some (Val v Nowhere, m, Ra ++ Rb, Wa ++ Wb)
                | None => None
                end
              else None
          | None => None
          end
      | None => None
      end
  | EUn op a =>
      match yields (etype a) (eval a m) with
      | Some (va, o, m, R, W) =>
          match operate_unary (etype a) op va with
          | Some v => Some (Val v (match op with UOP_PLUS => o | _ => Nowhere end), m, R, W)
          | None => None
          end
      | None => None
      end
  | EAssign a b =>
      match eval a m with
      | Some (ra, m, Ra, Wa) =>
          match yields (etype b) (eval b m) with
          | Some (vb, o, m, Rb, Wb) =>
              let same := ty_eqb (etype b) (etype a) in
              let w := if same then vb else convert (etype b) (etype a) vb in
              let o := if same then o else Nowhere in
              match assign (etype a) ra m w with
              | Some (m, R, W) =>
                  if unordered Ra Wa Rb Wb && apart W (Wa ++ Wb)
                     && match ra with Obj _ => forallb (fun d => may_store d o) W | _ => true end
                  then Some (assigned (etype a) ra w o, m, Ra ++ Rb ++ R, Wa ++ Wb ++ W)
                  else None
              | None => None
              end
          | None => None
          end
      | None => None
      end
  | EAssignOp op postfix a b =>
      match eval a m with
      | Some (ra, m, Ra, Wa) =>
          match yields (etype b) (eval b m) with
          | Some (vb, _, m, Rb, Wb) =>
              match value_of (etype a) ra m with
              | Some (old, Rold, _) =>
                  match operate (etype b) op (convert (etype a) (etype b) old) vb with
                  | Some v =>
                      let w := convert (etype b) (etype a) v in
                      match assign (etype a) ra m w with
                      | Some (m, R, W) =>
                          if unordered (Ra ++ Rold) Wa Rb Wb && apart W (Wa ++ Wb)
                          then Some (if postfix : bool then Val old Nowhere else assigned (etype a) ra w Nowhere,
                                     m, (Ra ++ Rold) ++ Rb ++ R, Wa ++ Wb ++ W)
                          else None
                      | None => None
                      end
                  | None => None
                  end
              | None => None
              end
          | None => None
          end
      | None => None
      end
  | EAssignPtr sub postfix p i =>
      match eval p m with
      | Some (rp, m, Rp, Wp) =>
          match yields (etype i) (eval i m) with
          | Some (vi, _, m, Ri, Wi) =>
              match value_of (etype p) rp m with
              | Some (old, Rold, _) =>
                  let size := match etype p with TPtr t => bytes t | _ => 0 end in
                  let step := integer (etype i) vi * size in
                  match address (if sub : bool then old - step else old + step) with
                  | Some v =>
                      match assign (etype p) rp m v with
                      | Some (m, R, W) =>
                          if unordered (Rp ++ Rold) Wp Ri Wi && apart W (Wp ++ Wi)
                          then Some (Val (if postfix : bool then old else v) Nowhere,
                                     m, (Rp ++ Rold) ++ Ri ++ R, Wp ++ Wi ++ W)
                          else None
                      | None => None
                      end
                  | None => None
                  end
              | None => None
              end
          | None => None
          end
      | None => None
      end
  | ECond c a b =>
      match yields (etype c) (eval c m) with
      | Some (vc, _, m, Rc, Wc) =>
          match etype a with
          | TVoid => match eval (if vc =? 0 then b else a) m with
                     | Some (_, m, R, W) => Some (Void, m, Rc ++ R, Wc ++ W)
                     | None => None
                     end
          | _ =>
              match yields (etype (if vc =? 0 then b else a)) (eval (if vc =? 0 then b else a) m) with
              | Some (v, o, m, R, W) => Some (Val v o, m, Rc ++ R, Wc ++ W)
              | None => None
              end
          end
      | None => None
      end
  | EComma a b =>
      match eval a m with
      | Some (_, m, Ra, Wa) =>
          match etype b with
          | TVoid => match eval b m with Some (_, m, R, W) => Some (Void, m, Ra ++ R, Wa ++ W) | None => None end
          | _ =>
              match yields (etype b) (eval b m) with
              | Some (v, o, m, R, W) => Some (Val v o, m, Ra ++ R, Wa ++ W)
              | None => None
              end
          end
      | None => None
      end
  end.

(** ** The rules an expression keeps *)
Definition scalar (t : ty) : Prop :=
  match t with TInt t => integer_type t | TPtr _ => True | _ => False end.
Definition is_integer (t : ty) : Prop := match t with TInt t => integer_type t | _ => False end.
(** The types integer promotion leaves (6.3.1.1p2). *)
Definition promoted (t : ty) : Prop :=
  match t with TInt t => In t [ST_INT; ST_UINT; ST_LONG; ST_ULONG; ST_LLONG; ST_ULLONG] | _ => False end.
Definition plain_value (t : ty) : Prop := scalar t \/ match t with TStr _ => True | _ => False end.

Definition arithmetic (op : operator_type) : Prop :=
  In op [OP_ADD; OP_SUB; OP_MUL; OP_BAND; OP_BOR; OP_BXOR].

(** Bit-field members, and expressions that designate an object (6.3.2.1p1). *)
Definition member_of (t : ty) (i : nat) : option field :=
  match t with TStr id => nth_error (fields id) i | _ => None end.
Fixpoint designates (e : expr) : Prop :=
  match e with
  | EObject _ | EInd _ => True
  | EDot e _ => designates e
  | _ => False
  end.
Definition bit_field (e : expr) : bool :=
  match e with
  | EDot e i => match member_of (etype e) i with
                | Some f => match f_bits f with Some _ => true | None => false end
                | None => false
                end
  | _ => false
  end.

(** 6.5: the constraints, with the conversions made. *)
Fixpoint typed (e : expr) : Prop :=
  match e with
  | EConst t w => scalar t /\ 0 <= w < 256 ^ bytes t
  | EObject x => 0 <= A x < 2 ^ 64
  | EInd e => typed e /\ exists t, etype e = TPtr t
  | EAddr e => typed e /\ designates e /\ bit_field e = false
  | EDecay e => typed e /\ designates e /\ bit_field e = false /\ exists n t, etype e = TArr n t
  | EDot e i => typed e /\ designates e /\ bit_field e = false /\ exists f, member_of (etype e) i = Some f
      /\ match f_bits f with
         | Some (first, width) => is_integer (f_type f) /\ 0 <= first /\ 0 < width
             /\ first + width <= 8 * bytes (f_type f)
             /\ (f_type f = TInt ST_BOOL -> width = 1)
         | None => True
         end
  | EPtr _ p i | EAssignPtr _ _ p i =>
      typed p /\ typed i /\ is_integer (etype i) /\ (exists t, etype p = TPtr t /\ 0 < bytes t < 2 ^ 31)
      /\ match e with EAssignPtr _ _ _ _ => designates p /\ bit_field p = false | _ => True end
  | EDiff p q => typed p /\ typed q /\ exists t, etype p = TPtr t /\ etype q = TPtr t /\ 0 < bytes t < 2 ^ 31
  | ECast t e => typed e /\
      (t = TVoid \/ (scalar t /\ scalar (etype e)) \/ (t = etype e /\ plain_value t))
  | EBin op a b => typed a /\ typed b /\ etype a = etype b
      /\ ((arithmetic op /\ promoted (etype a)) \/ (comparison op = true /\ (promoted (etype a) \/ exists t, etype a = TPtr t)))
  | EUn _ a => typed a /\ promoted (etype a)
  | EAssign a b => typed a /\ typed b /\ designates a
      /\ ((scalar (etype a) /\ scalar (etype b)) \/ (etype a = etype b /\ plain_value (etype a)))
  | EAssignOp op _ a b => typed a /\ typed b /\ designates a /\ is_integer (etype a) /\ promoted (etype b) /\ arithmetic op
  | ECond c a b => typed c /\ typed a /\ typed b /\ scalar (etype c) /\ etype a = etype b
      /\ (etype a = TVoid \/ plain_value (etype a))
  | EComma a b => typed a /\ typed b /\ (etype b = TVoid \/ plain_value (etype b))
  end.

(** ** The expressions the theorem is about *)
(** How the value is used. *)
Inductive use := Unused | Condition | Value.
(** An expression whose value is a constant without a conversion or an operator. *)
Fixpoint yields_constant (e : expr) : bool :=
  match e with
  | EConst _ _ => true
  | EComma _ b => yields_constant b
  | EAssign a b => ty_eqb (etype b) (etype a) && yields_constant b
  | ECast t a => ty_eqb (etype a) t && yields_constant a
  | EUn UOP_PLUS a => yields_constant a
  | _ => false
  end.
(** Left out: a constant address is not dereferenced; the value of an assignment
    to a bit-field is not used; and a comparison of operands of eight bytes is used
    in a condition only (C64). *)
Fixpoint covered (u : use) (e : expr) : Prop :=
  match e with
  | EConst _ _ | EObject _ => True
  | EInd a => covered Value a /\ yields_constant a = false
  | EAddr a | EDecay a | EDot a _ | EUn _ a => covered Value a
  | ECast t a => match t with TVoid => covered Unused a | _ => covered Value a end
  | EPtr _ a b | EDiff a b | EAssignPtr _ _ a b => covered Value a /\ covered Value b
  | EBin op a b => covered Value a /\ covered Value b
      /\ (comparison op = true -> u = Value -> bytes (etype a) = 4)
  | EAssign a b => covered Value a /\ covered Value b /\ (bit_field a = true -> u = Unused)
  | EAssignOp _ postfix a b => covered Value a /\ covered Value b
      /\ (bit_field a = true -> postfix = false -> u = Unused)
  | ECond c a b => covered Condition c /\
      match etype a with
      | TVoid => covered Unused a /\ covered Unused b
      | _ => covered Value a /\ covered Value b
      end
  | EComma a b => covered Unused a /\ covered u b
  end.
End Semantics.
