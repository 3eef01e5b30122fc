(** The token stream the parser reads: joining of string literals
    (src/preprocessor/string_concat.c) and look-ahead
    (src/preprocessor/preprocessor.c). *)
From Coq Require Import String.
From Verif Require Import Base CharTypes Escape Tokens StringSet Fuel Expander PPExpr Directives.

(** src/preprocessor/string_concat.c:11-20 (get_ident): the first KEY entry with
    this spelling. *)
Definition get_ident (s : list Z) : Z :=
  match find (fun k => sv_string_cmp s (snd k)) keywords with Some (ty, _) => ty | None => T_IDENT end.
Definition with_type (t : etok) (ty : Z) (s : list Z) : etok :=
  {| e_type := ty; e_str := s; e_ws := e_ws t; e_wsa := e_wsa t; e_line := e_line t; e_hs := e_hs t |}.

Definition string_type_eqb (a b : string_type) : bool :=
  match a, b with
  | STRING_DEFAULT, STRING_DEFAULT | STRING_U_SMALL, STRING_U_SMALL | STRING_U_LARGE, STRING_U_LARGE | STRING_L, STRING_L | STRING_U8, STRING_U8 => true
  | _, _ => false
  end.
(** src/preprocessor/string_concat.c:155-166: the common prefix. *)
Fixpoint combine (c : string_type) (l : list (string_type * list Z)) : res string_type :=
  match l with
  | [] => Ok c
  | (ty, _) :: r =>
      if string_type_eqb ty STRING_DEFAULT || string_type_eqb ty c then combine c r
      else if string_type_eqb c STRING_DEFAULT then combine ty r else Fail
  end.
(** src/preprocessor/string_concat.c:168-170. *)
Fixpoint escape_all_strings (c : string_type) (l : list (string_type * list Z)) : res (list Z) :=
  match l with
  | [] => Ok []
  | (_, s) :: r => let* b := escape_string_to_buffer s (List.length s) c in let* b' := escape_all_strings c r in Ok (b ++ b')
  end.
(** src/preprocessor/string_concat.c:152-202: the token for a run of strings. *)
Definition join_strings (first : etok) (l : list etok) : res etok :=
  let ps := map (fun t => take_string_prefix (e_str t)) l in
  let* c := combine STRING_DEFAULT ps in
  let* b := escape_all_strings c ps in
  Ok (match c with
      | STRING_DEFAULT | STRING_U8 => with_type first T_STRING (b ++ [0])
      | STRING_U_LARGE => with_type first T_STRING_CHAR32 (b ++ [0; 0; 0; 0])
      | STRING_U_SMALL => with_type first T_STRING_CHAR16 (b ++ [0; 0])
      | STRING_L => with_type first T_STRING_WCHAR (b ++ [0; 0; 0; 0])
      end).
(** src/preprocessor/string_concat.c:204-233. *)
Definition plain_token (t : etok) : res etok :=
  if e_type t =? T_IDENT then Ok (with_type t (get_ident (e_str t)) (e_str t))
  else if e_type t =? T_CHARACTER_CONSTANT then
    let '(ty, s) := take_string_prefix (e_str t) in
    match ty with
    | STRING_U8 => Fail
    | _ => let* b := escape_string_to_buffer s (List.length s) ty in
           Ok (with_type t (match ty with STRING_U_LARGE => T_CHARACTER_CONSTANT_CHAR32 | STRING_U_SMALL => T_CHARACTER_CONSTANT_CHAR16
                                  | STRING_L => T_CHARACTER_CONSTANT_WCHAR | _ => T_CHARACTER_CONSTANT end) b)
    end
  else Ok t.
(** The loop at 147-150: the run of strings, the token after it and the tokens
    expander_next has still to deliver. *)
Fixpoint take_strings (l : list etok) : list etok * etok * list etok :=
  match l with
  | [] => ([], eoi_token, [])
  | t :: r => if e_type t =? T_STRING then let '(ss, u, r') := take_strings r in (t :: ss, u, r') else ([], t, r)
  end.
(** src/preprocessor/string_concat.c:133-236 (string_concat_next): the static
    variable prev, and the tokens expander_next will deliver (T_EOI for ever after). *)
Record sstream := { prev : etok; input : list etok }.
Definition no_token : etok := {| e_type := 0; e_str := []; e_ws := false; e_wsa := false; e_line := 0; e_hs := [] |}.
Definition string_concat_next (s : sstream) : res (etok * sstream) :=
  if negb (e_type (prev s) =? 0) then Ok (prev s, {| prev := no_token; input := input s |})
  else
    match take_strings (input s) with
    | ([], t, r) => let* t' := plain_token t in Ok (t', {| prev := no_token; input := r |})
    | ((first :: _) as ss, t, r) => let* t' := join_strings first ss in Ok (t', {| prev := t; input := r |})
    end.
(** All tokens up to the end. *)
Fixpoint parser_tokens (n : nat) (s : sstream) : ex (list etok) :=
  match n with
  | O => None
  | S n => let! (t, s') := Some (string_concat_next s) in
           if e_type t =? T_EOI then ok [] else let! r := parser_tokens n s' in ok (t :: r)
  end.

Section Window.
(** [src i] is the i-th token string_concat_next returns. *)
Variable src : nat -> etok.
(** src/preprocessor/preprocessor.c:10-12 and how many tokens have been read. *)
Record window := { b0 : etok; b1 : etok; b2 : etok; wpushed : etok; reads : nat }.
(** src/preprocessor/preprocessor.c:14-19 (t_next). *)
Definition t_next (w : window) : window :=
  let '(t, n) := if negb (e_type (wpushed w) =? 0) then (wpushed w, reads w) else (src (reads w), S (reads w)) in
  {| b0 := b1 w; b1 := b2 w; b2 := t; wpushed := no_token; reads := n |}.
(** src/preprocessor/preprocessor.c:21-28 (t_push). *)
Definition t_push (w : window) (t : etok) : res window :=
  if negb (e_type (wpushed w) =? 0) then Fail
  else Ok {| b0 := t; b1 := b0 w; b2 := b1 w; wpushed := b2 w; reads := reads w |}.
(** src/preprocessor/preprocessor.c:37-40 (t_peek). *)
Definition t_peek (w : window) (n : nat) : res etok :=
  match n with O => Ok (b0 w) | 1%nat => Ok (b1 w) | 2%nat => Ok (b2 w) | _ => Fail end.
(** src/preprocessor/preprocessor.c:30-35 (preprocessor_init). *)
Definition window_init : window :=
  t_next (t_next (t_next {| b0 := no_token; b1 := no_token; b2 := no_token; wpushed := no_token; reads := 0 |})).

Inductive wop := Next | Push (t : etok).
Definition wstep (w : window) (o : wop) : res window := match o with Next => Ok (t_next w) | Push t => t_push w t end.
Fixpoint wrun (w : window) (l : list wop) : res window :=
  match l with [] => Ok w | o :: r => let* w' := wstep w o in wrun w' r end.
End Window.
