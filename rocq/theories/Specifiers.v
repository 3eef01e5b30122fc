(** Declaration specifiers: src/parser/declaration.c and declaration.h.
    Simplifications: a declaration's specifier tokens are given as a list of
    classified tokens; struct, union, enum, typedef-name and _Alignas specifiers
    are not among them, so ts->data_type stays NULL. *)
From Verif Require Import Base Arch.

(** The keyword tokens tried by parse_specifier, src/parser/declaration.c:120-131. *)
Inductive keyword :=
| KVOID | KCHAR | KINT | KFLOAT | KDOUBLE | KSIGNED | KUNSIGNED | KBOOL | KCOMPLEX | KSHORT | KLONG.

Definition kw_eq_dec (a b : keyword) : {a = b} + {a <> b}.
Proof. decide equality. Defined.

(** The other counted specifiers, src/parser/declaration.c:170-186, in the order
    in which they are tried. *)
Inductive other :=
| KTYPEDEF | KEXTERN | KSTATIC | KTHREAD_LOCAL | KAUTO | KREGISTER
| KCONST | KRESTRICT | KVOLATILE | KINLINE | KNORETURN.

Definition other_eq_dec (a b : other) : {a = b} + {a <> b}.
Proof. decide equality. Defined.

(** Tokens as seen by parse_specifier; [Tok_atomic] is T_KATOMIC, [Tok_rest n] any
    token that no specifier starts with. *)
Inductive stok := Tok_kw (k : keyword) | Tok_other (o : other) | Tok_atomic | Tok_rest (n : nat).

(** src/parser/declaration.h:46-61 (TSF_ flags). *)
Definition TSF_VOID := 2 ^ 0.
Definition TSF_CHAR := 2 ^ 1.
Definition TSF_SHORT := 2 ^ 2.
Definition TSF_INT := 2 ^ 3.
Definition TSF_LONG1 := 2 ^ 4.
Definition TSF_LONG2 := 2 ^ 5.
Definition TSF_LONGB := Z.lor TSF_LONG1 TSF_LONG2.
Definition TSF_FLOAT := 2 ^ 6.
Definition TSF_DOUBLE := 2 ^ 7.
Definition TSF_SIGNED := 2 ^ 8.
Definition TSF_UNSIGNED := 2 ^ 9.
Definition TSF_BOOL := 2 ^ 10.
Definition TSF_COMPLEX := 2 ^ 11.

(** src/parser/declaration.c:18-26 (set_sbit): the returned flag and the new
    ts->specifiers. *)
Definition set_sbit (s bit : Z) : bool * Z :=
  if Z.land s bit =? 0 then (false, Z.lor s bit) else (true, s).

(** src/parser/declaration.c:120-131: what follows the && for each keyword. *)
Definition mark (k : keyword) (s : Z) : bool * Z :=
  match k with
  | KVOID => set_sbit s TSF_VOID
  | KCHAR => set_sbit s TSF_CHAR
  | KINT => set_sbit s TSF_INT
  | KFLOAT => set_sbit s TSF_FLOAT
  | KDOUBLE => set_sbit s TSF_DOUBLE
  | KSIGNED => set_sbit s TSF_SIGNED
  | KUNSIGNED => set_sbit s TSF_UNSIGNED
  | KBOOL => set_sbit s TSF_BOOL
  | KCOMPLEX => set_sbit s TSF_COMPLEX
  | KSHORT => set_sbit s TSF_SHORT
  | KLONG => let (p1, s1) := set_sbit s TSF_LONG1 in
             if p1 then set_sbit s1 TSF_LONG2 else (false, s1)
  end.

(** src/parser/declaration.c:120-132: the chain of (TACCEPT(..) && set_sbit(..)) ||
    ...; a keyword whose bit was clear leaves the chain running on the next
    token, a set bit ends it in ERROR. *)
Fixpoint chain (order : list keyword) (toks : list stok) (s : Z) : res (Z * list stok) :=
  match order with
  | [] => Ok (s, toks)
  | k :: order' =>
      match toks with
      | Tok_kw k' :: rest =>
          if kw_eq_dec k k' then
            let (prev, s') := mark k s in
            if prev then Fail else chain order' rest s'
          else chain order' toks s
      | _ => chain order' toks s
      end
  end.
Definition chain_order : list keyword :=
  [KVOID; KCHAR; KINT; KFLOAT; KDOUBLE; KSIGNED; KUNSIGNED; KBOOL; KCOMPLEX; KSHORT; KLONG].

Record spec_state := { specifiers : Z; counted : list other }.

(** src/parser/declaration.c:98-203 (parse_specifier): [None] is the return value 0. *)
Definition parse_specifier (st : spec_state) (toks : list stok) : res (option (spec_state * list stok)) :=
  let* (s', toks') := chain chain_order toks (specifiers st) in
  if negb (s' =? specifiers st) then
    Ok (Some ({| specifiers := s'; counted := counted st |}, toks'))
  else
    match toks' with
    | Tok_atomic :: _ => Fail
    | Tok_other o :: rest => Ok (Some ({| specifiers := s'; counted := o :: counted st |}, rest))
    | _ => Ok None
    end.

(** src/parser/declaration.c:205-231 (parse_specifiers): the while loop. The fuel
    is the number of tokens plus one; each successful call takes a token. *)
Fixpoint parse_loop (fuel : nat) (st : spec_state) (toks : list stok) : res (spec_state * list stok) :=
  match fuel with
  | O => Undef
  | S f =>
      let* r := parse_specifier st toks in
      match r with
      | Some (st', toks') => parse_loop f st' toks'
      | None => Ok (st, toks)
      end
  end.
Definition parse_specifiers (toks : list stok) : res (spec_state * list stok) :=
  parse_loop (S (length toks)) {| specifiers := 0; counted := [] |} toks.

(** src/parser/declaration.c:548-592: the SPEC lines of specifiers_to_type. *)
Definition spec_lines : list (simple_type * Z) :=
  let b x y := Z.lor x y in
  [ (ST_VOID, TSF_VOID); (ST_CHAR, TSF_CHAR); (ST_SCHAR, b TSF_SIGNED TSF_CHAR); (ST_UCHAR, b TSF_UNSIGNED TSF_CHAR);
    (ST_SHORT, TSF_SHORT); (ST_SHORT, b TSF_SIGNED TSF_SHORT); (ST_SHORT, b TSF_SHORT TSF_INT);
    (ST_SHORT, b (b TSF_SIGNED TSF_SHORT) TSF_INT);
    (ST_USHORT, b TSF_UNSIGNED TSF_SHORT); (ST_USHORT, b (b TSF_UNSIGNED TSF_SHORT) TSF_INT);
    (ST_INT, TSF_INT); (ST_INT, TSF_SIGNED); (ST_INT, b TSF_INT TSF_SIGNED);
    (ST_UINT, TSF_UNSIGNED); (ST_UINT, b TSF_UNSIGNED TSF_INT);
    (ST_LONG, TSF_LONG1); (ST_LONG, b TSF_LONG1 TSF_SIGNED); (ST_LONG, b TSF_LONG1 TSF_INT);
    (ST_LONG, b (b TSF_LONG1 TSF_INT) TSF_SIGNED);
    (ST_ULONG, b TSF_LONG1 TSF_UNSIGNED); (ST_ULONG, b (b TSF_LONG1 TSF_INT) TSF_UNSIGNED);
    (ST_LLONG, TSF_LONGB); (ST_LLONG, b TSF_LONGB TSF_SIGNED); (ST_LLONG, b TSF_LONGB TSF_INT);
    (ST_LLONG, b (b TSF_LONGB TSF_INT) TSF_SIGNED);
    (ST_ULLONG, b TSF_LONGB TSF_UNSIGNED); (ST_ULLONG, b (b TSF_LONGB TSF_INT) TSF_UNSIGNED);
    (ST_FLOAT, TSF_FLOAT); (ST_DOUBLE, TSF_DOUBLE); (ST_DOUBLE, b TSF_DOUBLE TSF_LONG1);
    (ST_BOOL, TSF_BOOL);
    (ST_FLOAT_COMPLEX, b TSF_FLOAT TSF_COMPLEX); (ST_DOUBLE_COMPLEX, b TSF_DOUBLE TSF_COMPLEX);
    (ST_LDOUBLE_COMPLEX, b (b TSF_DOUBLE TSF_LONG1) TSF_COMPLEX) ].

(** src/parser/declaration.c:548-599 (specifiers_to_type), data_type NULL. *)
Definition specifiers_to_type (s : Z) : res simple_type :=
  match find (fun l => s =? snd l) spec_lines with
  | Some (t, _) => Ok t
  | None => Fail
  end.

(** src/parser/declaration.c:608-612 (apply_tq): whether the type is made const. *)
Definition made_const (c : list other) : bool :=
  Nat.eqb (count_occ other_eq_dec c KCONST) 1.

(** parse_specifiers followed by ast_to_type with no declarator
    (src/parser/declaration.c:614-621): simple type, constness, tokens left. *)
Definition declared_type (toks : list stok) : res (simple_type * bool * list stok) :=
  let* (st, rest) := parse_specifiers toks in
  let* t := specifiers_to_type (specifiers st) in
  Ok (t, made_const (counted st), rest).
