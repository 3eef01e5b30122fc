(** The output of -E: src/main.c:262-275 and src/debug.c:34-43, 267-304. *)
From Coq Require Import String.
From Verif Require Import Base CharTypes Tokens Expander Directives.
Local Open Scope Z_scope.
Local Open Scope list_scope.

(** src/preprocessor/tokens.h:3-27: the X entries with their names (T_EOI, the last, is
    never printed). *)
Definition type_names : list (Z * list Z) := [
  (T_NONE, chars "Invalid token");
  (PP_HEADER_NAME_H, chars "Header name");
  (PP_HEADER_NAME_Q, chars "Header name");
  (PP_HASH, chars "#");
  (PP_HHASH, chars "##");
  (PP_DIRECTIVE, chars "#");
  (COND_IF, chars "Conditional");
  (COND_IF_TRUE, chars "Conditional");
  (COND_IF_FALSE, chars "Conditional");
  (COND_ENDIF, chars "Conditional");
  (T_IDENT, chars "Identifier");
  (T_STRING, chars "String");
  (T_STRING_CHAR32, chars "char32_t String");
  (T_STRING_CHAR16, chars "char16_t String");
  (T_STRING_WCHAR, chars "wchar_t String");
  (T_CHARACTER_CONSTANT, chars "Character constant");
  (T_CHARACTER_CONSTANT_CHAR32, chars "char32_t character constant");
  (T_CHARACTER_CONSTANT_CHAR16, chars "char16_t character constant");
  (T_CHARACTER_CONSTANT_WCHAR, chars "wchar_t character constant");
  (T_NUM, chars "Numerical")].

(** src/debug.c:289-304 (dbg_token_type). *)
Definition dbg_token_type (k : Z) : list Z :=
  match find (fun p => fst p =? k) (type_names ++ keywords ++ symbols) with Some (_, s) => s | None => [] end.

(** What printf writes for %.*s: it stops at a NUL byte. *)
Fixpoint to_nul (s : list Z) : list Z :=
  match s with [] => [] | c :: r => if c =? 0 then [] else c :: to_nul r end.

(** src/debug.c:277-285: the text asked for. *)
Definition token_string (t : dtok) : list Z :=
  if ty t =? T_IDENT then to_nul (text t)
  else if ty t =? T_NUM then to_nul (text t)
  else if ty t =? T_STRING then [34] ++ to_nul (text t) ++ [34]
  else dbg_token_type (ty t).
(** src/debug.c:34-43 (DBG_PRINT), used once with curr_pos = 0: snprintf(buffer, size, ..)
    writes at most size - 1 characters of the text, and the size given is that of the
    buffer minus one. [cap] is char_buffer_size, which is static. The size as an int: texts
    of 2^31 characters are not modelled. *)
Definition dbg_print (cap : nat) (s : list Z) : list Z * nat :=
  let req_size := (length s + 1)%nat in
  let cap := if (cap <? req_size)%nat then req_size else cap in
  (firstn (cap - 1 - 1) s, cap).
(** src/debug.c:267-287 (dbg_token): the text and the size of the buffer. *)
Definition dbg_token (cap : nat) (t : dtok) : list Z * nat := dbg_print cap (token_string t).

(** src/main.c:262-275: the loop over the tokens before T_EOI. The result is what is
    written to standard output. *)
Fixpoint print_from (cap : nat) (l : list dtok) : list Z :=
  match l with
  | [] => []
  | t :: r =>
      let '(s, cap) := dbg_token cap t in
      (if fol t then [10] else if e_ws (dt t) then [32] else []) ++ s ++
      (if e_wsa (dt t) then [32] else []) ++ print_from cap r
  end.
(** src/debug.c:268: the buffer has 100 bytes at first. *)
Definition print_tokens (l : list dtok) : list Z := print_from 100 l.
