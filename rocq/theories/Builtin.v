(** Model of the built-in macros __LINE__ and __FILE__:
    src/preprocessor/macro_expander.c:231-246 (builtin_macros). *)
From Coq Require Import String.
From Verif Require Import Base CharTypes Labels.
Local Open Scope Z_scope.
Local Open Scope list_scope.

(** struct token (src/preprocessor/tokenizer.h) as far as it is looked at here;
    the hide set, which the new token does not have, is left out. *)
Inductive kind := T_IDENT | T_NUM | T_STRING.
Record token := { ty : kind; str : list Z; line : Z; path : list Z; whitespace : bool; whitespace_after : bool }.

(** printf's %d *)
Definition print_int (n : Z) : list Z := if n <? 0 then chars "-" ++ decimal (- n) else decimal n.
(** sv_string_cmp *)
Definition spelled (s : list Z) (t : token) : bool := if list_eq_dec Z.eq_dec (str t) s then true else false.

(** The token, changed or not, and whether it was a built-in macro. *)
Definition builtin_macros (t : token) : token * bool :=
  let replaced k s := ({| ty := k; str := s; line := line t; path := path t;
                          whitespace := whitespace t; whitespace_after := whitespace_after t |}, true) in
  if spelled (chars "__LINE__") t then replaced T_NUM (print_int (line t))
  else if spelled (chars "__FILE__") t then replaced T_STRING (34 :: path t ++ [34])
  else (t, false).
