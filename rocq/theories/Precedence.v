(** src/precedence.c and the constants of src/precedence.h:6-7. *)
From Verif Require Import Base Tokens.

Definition PREFIX_PREC : Z := 13.
Definition ASSIGNMENT_PREC : Z := 1.

(** src/precedence.c:4-20 (precedence_table); other entries are 0. *)
Definition precedence_table : list (Z * Z) := [
  (T_INC, 14); (T_DEC, 14); (T_LPAR, 14); (T_LBRACK, 14); (T_ARROW, 14); (T_DOT, 14);
  (T_STAR, 12); (T_DIV, 12); (T_MOD, 12);
  (T_ADD, 11); (T_SUB, 11);
  (T_LSHIFT, 10); (T_RSHIFT, 10);
  (T_LEQ, 9); (T_L, 9); (T_G, 9); (T_GEQ, 9);
  (T_EQ, 8); (T_NEQ, 8);
  (T_AMP, 7);
  (T_XOR, 6);
  (T_BOR, 5);
  (T_AND, 4);
  (T_OR, 3);
  (T_A, 2); (T_ADDA, 2); (T_SUBA, 2); (T_MULA, 2);
  (T_DIVA, 2); (T_MODA, 2); (T_LSHIFTA, 2); (T_RSHIFTA, 2);
  (T_BORA, 2); (T_XORA, 2); (T_BANDA, 2); (T_QUEST, 2);
  (T_COMMA, 1)].
(** src/precedence.c:22-27 (precedence_get). *)
Definition precedence_get (ty : Z) (loop : bool) : Z :=
  let prec := match find (fun p => fst p =? ty) precedence_table with Some (_, p) => p | None => 0 end in
  if negb loop && (prec =? ASSIGNMENT_PREC + 1) then ASSIGNMENT_PREC else prec.
