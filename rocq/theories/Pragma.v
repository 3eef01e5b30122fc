(** Pragmas in the parser (src/parser/parser.c:13-87). *)
From Coq Require Import String.
From Verif Require Import Base CharTypes Arch Tokens IntLit.
Local Open Scope Z_scope.
Local Open Scope list_scope.

(** The parts of a token the parser of pragmas looks at
    (src/preprocessor/preprocessor.h, struct token). *)
Record ptok := { p_type : Z; p_str : list Z; p_first : bool }.
(** T0 at the end of the input is T_EOI, which starts a line. *)
Definition eoi : ptok := {| p_type := T_EOI; p_str := []; p_first := true |}.
Definition T0 (ts : list ptok) : ptok := hd eoi ts.

(** src/parser/parser.c:13-15: the file-scope variables. [alloc] is what the
    pointer packs points to. *)
Inductive pointer := Null | Live | Freed.
Record packing := { pack_stack : list Z; current_packing : Z; alloc : pointer }.
Definition no_packing : packing := {| pack_stack := []; current_packing := 0; alloc := Null |}.

(** src/parser/parser.c:21-26 (parser_reset) without symbols_reset. The
    pointer is freed and kept. *)
Definition parser_reset (p : packing) : res packing :=
  match alloc p with
  | Null => Ok {| pack_stack := []; current_packing := 0; alloc := Null |}
  | Live => Ok {| pack_stack := []; current_packing := 0; alloc := Freed |}
  | Freed => Undef
  end.
(** src/parser/parser.c:53; ADD_ELEMENT (src/common.h:28) calls realloc every time. *)
Definition push (p : packing) : res packing :=
  match alloc p with
  | Freed => Undef
  | _ => Ok {| pack_stack := current_packing p :: pack_stack p; current_packing := current_packing p; alloc := Live |}
  end.
(** src/parser/parser.c:47-48. *)
Definition pop (p : packing) : packing := {| pack_stack := tl (pack_stack p); current_packing := current_packing p; alloc := alloc p |}.
(** src/parser/parser.c:76. *)
Definition set_packing (n : Z) (p : packing) : packing := {| pack_stack := pack_stack p; current_packing := n; alloc := alloc p |}.

Definition str_eq (a b : list Z) : bool := if list_eq_dec Z.eq_dec a b then true else false.
(** src/preprocessor/preprocessor.h:47 (TEXPECT). *)
Definition texpect (ty : Z) (ts : list ptok) : res (list ptok) := if p_type (T0 ts) =? ty then Ok (tl ts) else Fail.
(** src/parser/parser.c:81-83. *)
Fixpoint skip_line (ts : list ptok) : list ptok :=
  match ts with
  | [] => []
  | t :: r => if (p_type t =? T_EOI) || p_first t then ts else skip_line r
  end.
(** src/parser/parser.c:65-76: from the number on. The value goes through
    intmax_t into an int. *)
Definition pack_value (m : abi) (ts : list ptok) (p : packing) : res (packing * list ptok) :=
  let* nt := (if p_type (T0 ts) =? T_NUM then
                let* c := constant_from_string m (p_str (T0 ts)) in
                match c with
                | Some (_, v) => Ok (signed 32 v, tl ts)
                | None => Fail
                end
              else Ok (0, ts)) in
  let '(n, ts) := nt in
  let* ts := texpect T_RPAR ts in
  Ok (set_packing n p, ts).
(** src/parser/parser.c:28-87 (parse_handle_pragma): [None] when the token is not a
    directive. A failed assert, ERROR and NOTIMP end the compiler. *)
Definition parse_handle_pragma (m : abi) (ts : list ptok) (p : packing) : res (option (packing * list ptok)) :=
  if p_type (T0 ts) =? PP_DIRECTIVE then
    let ts := tl ts in
    if negb (str_eq (p_str (T0 ts)) (chars "pragma")) then Fail else
    let ts := tl ts in
    if negb (p_type (T0 ts) =? T_IDENT) then Fail else
    if str_eq (p_str (T0 ts)) (chars "pack") then
      let ts := tl ts in
      let* ts := texpect T_LPAR ts in
      if p_type (T0 ts) =? T_IDENT then
        if str_eq (p_str (T0 ts)) (chars "pop") then
          let* ts := texpect T_RPAR (tl ts) in
          Ok (Some (pop p, ts))
        else if str_eq (p_str (T0 ts)) (chars "push") then
          let* p := push p in
          let ts := tl ts in
          if p_type (T0 ts) =? T_COMMA then
            let* r := pack_value m (tl ts) p in Ok (Some r)
          else
            let* ts := texpect T_RPAR ts in Ok (Some (p, ts))
        else Fail
      else let* r := pack_value m ts p in Ok (Some r)
    else Ok (Some (p, skip_line ts))
  else Ok None.
(** The pragmas of a piece of source, one after the other
    (src/parser/parser.c:90 and src/parser/function_parser.c:489 call
    parse_handle_pragma whenever a declaration or statement may start). *)
Fixpoint pragmas (n : nat) (m : abi) (ts : list ptok) (p : packing) : res (packing * list ptok) :=
  match n with
  | O => Ok (p, ts)
  | S k => let* r := parse_handle_pragma m ts p in
           match r with
           | Some (p, ts) => pragmas k m ts p
           | None => Fail
           end
  end.
