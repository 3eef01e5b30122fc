(** Model of _Static_assert: src/parser/declaration.c:1400-1425 (in
    parse_declaration). The expression is one token, given as a tree as for
    enumerators (Enum.v); the message is one token. *)
From Verif Require Import Base Arch ConstConv ConstFold ArithConv CExprSpec CExpr Enum.
Local Open Scope Z_scope.
Local Open Scope list_scope.

Inductive stok := SAssert | SLeft | SExpr (e : init) | SComma | SString | SRight | SSemicolon | SOther (n : Z).

(** TEXPECT of src/preprocessor/preprocessor.h *)
Definition is_tok (a b : stok) : bool :=
  match a, b with
  | SAssert, SAssert | SLeft, SLeft | SComma, SComma | SString, SString | SRight, SRight | SSemicolon, SSemicolon => true
  | _, _ => false
  end.
Definition expect (a : stok) (toks : list stok) : res (list stok) :=
  match toks with b :: r => if is_tok a b then Ok r else Fail | [] => Fail end.

(** The declaration and what follows it; Fail stands for an error message. The
    message is only read after the expression has been folded, and before the
    assertion is looked at. *)
Definition static_assert (m : abi) (s : scope) (toks : list stok) : res (list stok) :=
  let* toks := expect SAssert toks in
  let* toks := expect SLeft toks in
  match toks with
  | SExpr e :: toks =>
      let* (t, bits) := initial m s (IBin OP_EQUAL (ILit ST_INT 0) e) in
      if negb (st_eqb t ST_INT) then Fail else
      let* toks :=
        match toks with
        | SComma :: SString :: toks => Ok toks
        | SComma :: _ => Fail
        | _ => Ok toks
        end in
      if negb (bits =? 0) then Fail else
      let* toks := expect SRight toks in
      expect SSemicolon toks
  | _ => Fail
  end.
