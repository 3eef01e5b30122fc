(** #if expressions (src/preprocessor/directives.c:173-329). A number token
    carries the signedness of its type and its value, which constant_from_string
    computes (C07); an identifier left after macro replacement is [KIdent]; every
    other token is its type. [KWrong ty u] is a number or character constant whose
    conversion fails ([u] false) or is undefined ([u] true) once it is reached. *)
From Verif Require Import Base Tokens Fuel Precedence.

Inductive pptok := KNum (sgn : bool) (v : Z) | KIdent | KChar (v : Z) | KOp (ty : Z) | KWrong (ty : Z) (u : bool).
Definition ktype (t : pptok) : Z :=
  match t with KNum _ _ => T_NUM | KIdent => T_IDENT | KChar _ => T_CHARACTER_CONSTANT | KOp ty => ty | KWrong ty _ => ty end.

(** src/preprocessor/directives.c:176-186 (buffer_next). The buffer always ends
    with T_EOI (line 360); reading past it is represented as [Undef] because the
    push back of line 326 would then overwrite a token. *)
Definition buffer_next (l : list pptok) : res (pptok * list pptok) :=
  match l with
  | [] => Undef
  | KIdent :: r => Ok (KNum true 0, r)
  | t :: r => Ok (t, r)
  end.

(** src/preprocessor/directives.c:188-206: [vl] is the member the flag selects. *)
Record result := { sg : bool; vl : Z }.
Definition result_signed (v : Z) : result := {| sg := true; vl := v |}.
Definition result_unsigned (v : Z) : result := {| sg := false; vl := wrap 64 v |}.
Definition result_is_zero (r : result) : bool := vl r =? 0.

(** intmax_t arithmetic: overflow is undefined. *)
Definition imax (v : Z) : res Z := if (- 2 ^ 63 <=? v) && (v <? 2 ^ 63) then Ok v else Undef.

(** src/preprocessor/directives.c:216-218 (RESULT_UNARY). *)
Definition unary_minus (r : result) : res result :=
  if sg r then let* v := imax (- vl r) in Ok (result_signed v) else Ok (result_unsigned (- vl r)).
Definition unary_not (r : result) : result :=
  let v := if vl r =? 0 then 1 else 0 in if sg r then result_signed v else result_unsigned v.

(** src/preprocessor/directives.c:208-214 (check_div_overflow). *)
Definition check_div_overflow (l r : result) : res unit :=
  if result_is_zero r then Fail
  else if sg l && (vl l =? - 2 ^ 63) && (vl r =? -1) then Fail else Ok tt.

Definition b2z (b : bool) : Z := if b then 1 else 0.
(** A host shift: the count has to lie between 0 and 63; shifting a negative
    value left, or a bit into or past the sign, is undefined. *)
Definition shift_left (s : bool) (a b : Z) : res Z :=
  if (b <? 0) || (64 <=? b) then Undef
  else if s then if a <? 0 then Undef else imax (a * 2 ^ b) else Ok (a * 2 ^ b).
Definition shift_right (a b : Z) : res Z :=
  if (b <? 0) || (64 <=? b) then Undef else Ok (a / 2 ^ b).

(** src/preprocessor/directives.c:292-317: both operands have the signedness of [l]. *)
Definition binary_op (ty : Z) (l r : result) : res result :=
  let arith := fun v => if sg l then let* x := imax v in Ok (result_signed x) else Ok (result_unsigned v) in
  let exact := fun v => if sg l then Ok (result_signed v) else Ok (result_unsigned v) in
  let a := vl l in
  let b := vl r in
  if ty =? T_BOR then exact (Z.lor a b)
  else if ty =? T_XOR then exact (Z.lxor a b)
  else if ty =? T_AMP then exact (Z.land a b)
  else if ty =? T_EQ then Ok (result_signed (b2z (a =? b)))
  else if ty =? T_NEQ then Ok (result_signed (b2z (negb (a =? b))))
  else if ty =? T_LEQ then Ok (result_signed (b2z (a <=? b)))
  else if ty =? T_GEQ then Ok (result_signed (b2z (b <=? a)))
  else if ty =? T_L then Ok (result_signed (b2z (a <? b)))
  else if ty =? T_G then Ok (result_signed (b2z (b <? a)))
  else if ty =? T_LSHIFT then let* v := shift_left (sg l) a b in exact v
  else if ty =? T_RSHIFT then let* v := shift_right a b in exact v
  else if ty =? T_ADD then arith (a + b)
  else if ty =? T_SUB then arith (a - b)
  else if ty =? T_STAR then arith (a * b)
  else if ty =? T_DIV then let* _ := check_div_overflow l r in exact (Z.quot a b)
  else if ty =? T_MOD then let* _ := check_div_overflow l r in exact (Z.rem a b)
  else Fail.

(** src/preprocessor/directives.c:285-289. *)
Definition convert_operands (l r : result) : result * result :=
  if sg r && negb (sg l) then (l, result_unsigned (vl r))
  else if negb (sg r) && sg l then (result_unsigned (vl l), r)
  else (l, r).

(** src/preprocessor/directives.c:230-329 (evaluate_expression): the prefix part,
    then the while loop. *)
Fixpoint evaluate (n : nat) (prec : Z) (ev : bool) (l : list pptok) : ex (result * list pptok) :=
  match n with
  | O => None
  | S n =>
      let! (t, l1) := Some (buffer_next l) in
      let! (e, l2) :=
        if ktype t =? T_ADD then evaluate n PREFIX_PREC ev l1
        else if ktype t =? T_SUB then
          let! (r, l2) := evaluate n PREFIX_PREC ev l1 in
          let! v := Some (unary_minus r) in ok (v, l2)
        else if ktype t =? T_NOT then
          let! (r, l2) := evaluate n PREFIX_PREC ev l1 in ok (unary_not r, l2)
        else if ktype t =? T_LPAR then
          let! (r, l2) := evaluate n 0 ev l1 in
          let! (p, l3) := Some (buffer_next l2) in
          if ktype p =? T_RPAR then ok (r, l3) else Some Fail
        else match t with
             | KNum s v => ok ({| sg := s; vl := v |}, l1)
             | KChar v => ok (result_signed v, l1)
             | KWrong _ u => if u then Some Undef else Some Fail
             | _ => Some Fail
             end in
      infix n prec ev e l2
  end
with infix (n : nat) (prec : Z) (ev : bool) (e : result) (l : list pptok) : ex (result * list pptok) :=
  match n with
  | O => None
  | S n =>
      let! (t, l1) := Some (buffer_next l) in
      if prec <? precedence_get (ktype t) true then
        let new_prec := precedence_get (ktype t) false in
        let nz := negb (result_is_zero e) in
        if ktype t =? T_QUEST then
          let! (mid, l2) := evaluate n 0 (if nz then ev else false) l1 in
          let! (colon, l3) := Some (buffer_next l2) in
          if negb (ktype colon =? T_COLON) then Some Fail else
          let! (rhs, l4) := evaluate n new_prec (if nz then false else ev) l3 in
          infix n prec ev (if nz then mid else rhs) l4
        else if ktype t =? T_AND then
          let! (rhs, l2) := evaluate n new_prec (if nz then ev else false) l1 in
          infix n prec ev (result_signed (b2z (nz && negb (result_is_zero rhs)))) l2
        else if ktype t =? T_OR then
          let! (rhs, l2) := evaluate n new_prec (if nz then false else ev) l1 in
          infix n prec ev (result_signed (b2z (nz || negb (result_is_zero rhs)))) l2
        else
          let! (rhs, l2) := evaluate n new_prec ev l1 in
          let '(a, b) := convert_operands e rhs in
          let! r := if ev then Some (binary_op (ktype t) a b) else ok a in
          infix n prec ev r l2
      else ok (e, t :: l1)
  end.

(** src/preprocessor/directives.c:359-363 (the end of evaluate_until_newline) and
    398: the condition of the directive, from the tokens left on its line after
    macro replacement. *)
Definition if_condition (n : nat) (l : list pptok) : ex bool :=
  let! (r, _) := evaluate n 0 true (l ++ [KOp T_EOI]) in ok (negb (result_is_zero r)).
