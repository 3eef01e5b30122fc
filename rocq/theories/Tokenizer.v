(** Preprocessing tokens (src/preprocessor/tokenizer.c). Loops are given fuel as in
    Fuel.v. Token positions are reduced to the line number. *)
From Coq Require Import String.
From Verif Require Import Base CharTypes Utf8 Tokens MacroTable Fuel Expander Directives.

(** src/preprocessor/tokenizer.c:13-33 (the EQ_ classes and eq_table; entries of
    bytes from 128 on are not written and so 0). *)
Definition EQ_UTF8 : Z := 0.
Definition EQ_NULL : Z := 1.
Definition EQ_EXPONENT : Z := 3.
Definition EQ_DECIMAL : Z := 5.
Definition EQ_SPACE : Z := 7.
Definition EQ_ALPHA : Z := 9.
Definition eq_table : list Z := [
	1; 2;  2;  2;  2; 2;   2;  2;  2;  7;  10; 2;   2;   7;   2;   2;
	2; 2;  2;  2;  2; 2;   2;  2;  2;  2;  2;  2;   2;   2;   2;   2;
	7; 33; 34; 35; 9; 37;  38; 39; 40; 41; 42; 43;  44;  45;  46;  47;
	5; 5;  5;  5;  5; 5;   5;  5;  56; 5;  58; 59;  60;  61;  62;  63;
	2; 9;  9;  9;  9; 3;   9;  9;  9;  9;  9;  9;   76;  9;   9;   9;
	3; 9;  9;  9;  9; 85;  9;  9;  9;  9;  9;  91;  92;  93;  94;  9;
	2; 9;  9;  9;  9; 3;   9;  9;  9;  9;  9;  9;   9;   9;   9;   9;
	3; 9;  9;  9;  9; 117; 9;  9;  9;  9;  9;  123; 124; 125; 126; 2].
Definition class (b : Z) : Z := nth (Z.to_nat b) eq_table 0.

(** The static variables of lines 7-12: [at_c] is the memory from str - 1 on, whose
    first byte is the one [chr] is the class of. *)
Record tk := { chr : Z; at_c : list Z; esc : bool; sep : bool; ln : Z }.
Definition with_esc (s : tk) := {| chr := chr s; at_c := at_c s; esc := true; sep := sep s; ln := ln s |}.
Definition with_sep (s : tk) := {| chr := chr s; at_c := at_c s; esc := esc s; sep := true; ln := ln s |}.
Definition no_flags (s : tk) := {| chr := chr s; at_c := at_c s; esc := false; sep := false; ln := ln s |}.

(** src/preprocessor/tokenizer.c:35-55 (next_char), [m] being the memory from str on;
    reading outside of it is undefined. *)
Fixpoint read_char (m : list Z) (e sp : bool) (l : Z) : res tk :=
  match m with
  | 92 :: 10 :: r => read_char r true sp (l + 1)
  | 92 :: 13 :: 10 :: r => read_char r true sp (l + 1)
  | x :: _ => Ok {| chr := class x; at_c := m; esc := e; sep := sp; ln := if x =? 10 then l + 1 else l |}
  | [] => Undef
  end.
Definition next_char (s : tk) : res tk := read_char (tl (at_c s)) (esc s) (sep s) (ln s).
Notation "'step!' x ':=' e 'in' k" := (exbind (Some e) (fun x => k)) (at level 200, x pattern, right associativity).

(** src/preprocessor/tokenizer.c:57-70: the copy of the token and the first loop of
    remove_escape_sequences. *)
Fixpoint remove_splices (l : list Z) : list Z :=
  match l with
  | 92 :: 10 :: r => remove_splices r
  | x :: r => x :: remove_splices r
  | [] => []
  end.
(** src/preprocessor/tokenizer.c:77-91: [n] digits. *)
Definition hex_digit (c : Z) : option Z :=
  if (48 <=? c) && (c <=? 57) then Some (c - 48)
  else if (97 <=? c) && (c <=? 102) then Some (c - 97 + 10)
  else if (65 <=? c) && (c <=? 70) then Some (c - 65 + 10)
  else None.
Fixpoint hex_digits (n : nat) (l : list Z) (cp : Z) : res (Z * list Z) :=
  match n with
  | O => Ok (cp, l)
  | S n => match l with
           | c :: r => match hex_digit c with Some d => hex_digits n r (Z.lor (wrap 32 (cp * 16)) d) | None => Fail end
           | [] => Fail
           end
  end.
(** encoded[i] up to the first NUL: line 95. *)
Fixpoint until_nul (l : list Z) : list Z :=
  match l with x :: r => if x =? 0 then [] else x :: until_nul r | [] => [] end.
(** src/preprocessor/tokenizer.c:72-101: the second loop. *)
Fixpoint decode_ucns (n : nat) (l : list Z) : ex (list Z) :=
  match n with
  | O => None
  | S n =>
      match l with
      | [] => ok []
      | x :: r =>
          if (x =? 92) && match r with u :: _ => (u =? 117) || (u =? 85) | [] => false end then
            step! (cp, r') := hex_digits (match r with 117 :: _ => 4 | _ => 8 end) (tl r) 0 in
            step! e := utf8_encode cp in
            let! k := decode_ucns n r' in ok (until_nul e ++ k)
          else let! k := decode_ucns n r in ok (x :: k)
      end
  end.
Definition remove_escape_sequences (l : list Z) : ex (list Z) :=
  let l := remove_splices l in decode_ucns (S (length l)) l.
(** src/preprocessor/tokenizer.c:106-121. *)
Definition remove_digit_separator (l : list Z) : list Z := filter (fun x => negb (x =? 39)) l.

(** src/preprocessor/tokenizer.c:124-146. *)
Definition is_one_of (c : Z) (l : list Z) : bool := existsb (Z.eqb c) l.
Fixpoint parse_number (n : nat) (s : tk) : ex tk :=
  match n with
  | O => None
  | S n =>
      if chr s =? EQ_EXPONENT then
        step! s := next_char s in
        if is_one_of (chr s) [43; 45] then step! s := next_char s in parse_number n s else parse_number n s
      else if chr s =? 39 then
        step! s := next_char s in
        if is_one_of (chr s) [56; EQ_DECIMAL; EQ_ALPHA; 117; 85; 76] then
          step! s := next_char (with_sep s) in parse_number n s
        else Some Fail
      else if is_one_of (chr s) [EQ_DECIMAL; 56; EQ_ALPHA; 117; 85; EQ_EXPONENT; 76; 46] then
        step! s := next_char s in parse_number n s
      else ok s
  end.
(** src/preprocessor/tokenizer.c:148-165. *)
Fixpoint parse_string_like (n : nat) (e : Z) (s : tk) : ex tk :=
  match n with
  | O => None
  | S n =>
      if is_one_of (chr s) [10; e; EQ_NULL] then
        if chr s =? e then Some (next_char s) else Some Fail
      else if chr s =? 92 then
        step! s := next_char s in
        if is_one_of (chr s) [117; 85] then
          step! s := next_char s in
          step! s := next_char (with_esc s) in parse_string_like n e s
        else step! s := next_char s in parse_string_like n e s
      else step! s := next_char s in parse_string_like n e s
  end.
(** src/preprocessor/tokenizer.c:167-182. *)
Fixpoint parse_identifier (n : nat) (s : tk) : ex tk :=
  match n with
  | O => None
  | S n =>
      if is_one_of (chr s) [EQ_ALPHA; 117; 85; EQ_EXPONENT; 76; EQ_DECIMAL; 56; EQ_UTF8] then
        step! s := next_char s in parse_identifier n s
      else if chr s =? 92 then
        step! s := next_char s in
        if is_one_of (chr s) [117; 85] then
          step! s := next_char s in parse_identifier n (with_esc s)
        else parse_identifier n s
      else ok s
  end.

(** The nested switches of TYPE statements in lines 213, 356-449 and 452-463: after
    the current character the token is of type [ty] unless one of the characters of
    [alts] follows. *)
Inductive switch := Switch (ty : Z) (alts : list (Z * switch)).
Fixpoint run_switch (w : switch) (s : tk) : res (Z * tk) :=
  match w with
  | Switch ty alts =>
      let* s := next_char s in
      (fix pick (l : list (Z * switch)) : res (Z * tk) :=
         match l with
         | (x, w) :: l => if chr s =? x then run_switch w s else pick l
         | [] => Ok (ty, s)
         end) alts
  end.
Definition one (ty : Z) : switch := Switch ty [].
Definition punctuators : list (Z * switch) := [
  (47, Switch T_DIV [(61, one T_DIVA)]);
  (60, Switch T_L [(60, Switch T_LSHIFT [(61, one T_LSHIFTA)]); (61, one T_LEQ)]);
  (62, Switch T_G [(62, Switch T_RSHIFT [(61, one T_RSHIFTA)]); (61, one T_GEQ)]);
  (61, Switch T_A [(61, one T_EQ)]);
  (38, Switch T_AMP [(61, one T_BANDA); (38, one T_AND)]);
  (124, Switch T_BOR [(61, one T_BORA); (124, one T_OR)]);
  (43, Switch T_ADD [(61, one T_ADDA); (43, one T_INC)]);
  (45, Switch T_SUB [(61, one T_SUBA); (45, one T_DEC); (62, one T_ARROW)]);
  (33, Switch T_NOT [(61, one T_NEQ)]);
  (94, Switch T_XOR [(61, one T_XORA)]);
  (42, Switch T_STAR [(61, one T_MULA)]);
  (37, Switch T_MOD [(61, one T_MODA)]);
  (126, one T_BNOT); (63, one T_QUEST); (58, one T_COLON); (59, one T_SEMI_COLON);
  (40, one T_LPAR); (41, one T_RPAR); (91, one T_LBRACK); (93, one T_RBRACK);
  (44, one T_COMMA); (123, one T_LBRACE); (125, one T_RBRACE)].

(** src/preprocessor/tokenizer.c:216-217. *)
Fixpoint line_comment (n : nat) (s : tk) : ex tk :=
  match n with
  | O => None
  | S n => if is_one_of (chr s) [10; EQ_NULL] then ok s else step! s := next_char s in line_comment n s
  end.
(** src/preprocessor/tokenizer.c:222-233. *)
Fixpoint block_comment (n : nat) (s : tk) : ex tk :=
  match n with
  | O => None
  | S n =>
      step! s := next_char s in
      if chr s =? 42 then
        step! s := next_char s in
        if chr s =? 47 then Some (next_char s) else block_comment n s
      else if chr s =? EQ_NULL then Some Fail
      else block_comment n s
  end.

(** A string or character constant, or an identifier, after the prefix u, U, L or u8
    (lines 243-287). *)
Definition after_prefix (n : nat) (ends : list Z) (s : tk) : ex (Z * tk) :=
  if is_one_of (chr s) ends then
    let q := chr s in
    step! s := next_char s in
    let! s := parse_string_like n q s in
    ok (if q =? 34 then T_STRING else T_CHARACTER_CONSTANT, s)
  else let! s := parse_identifier n s in ok (T_IDENT, s).
(** The switch of tokenizer_next (lines 196-467) without white space and comments:
    the type, the state after the token and whether the token starts a directive. *)
Definition scan (n : nat) (is_header first : bool) (s : tk) : ex (Z * tk * bool) :=
  let k := chr s in
  let plain (r : ex (Z * tk)) : ex (Z * tk * bool) := let! (ty, s) := r in ok (ty, s, false) in
  if k =? 117 then
    plain (step! s := next_char s in
           if chr s =? 56 then step! s := next_char s in after_prefix n [34] s
           else after_prefix n [34; 39] s)
  else if is_one_of k [76; 85] then plain (step! s := next_char s in after_prefix n [34; 39] s)
  else if k =? 34 then plain (step! s := next_char s in let! s := parse_string_like n 34 s in ok (T_STRING, s))
  else if k =? 39 then plain (step! s := next_char s in let! s := parse_string_like n 39 s in ok (T_CHARACTER_CONSTANT, s))
  else if is_one_of k [EQ_EXPONENT; EQ_UTF8; EQ_ALPHA] then
    plain (step! s := next_char s in let! s := parse_identifier n s in ok (T_IDENT, s))
  else if is_one_of k [56; EQ_DECIMAL] then
    plain (step! s := next_char s in let! s := parse_number n s in ok (T_NUM, s))
  else if k =? 46 then
    plain (step! s := next_char s in
           if is_one_of (chr s) [EQ_DECIMAL; 56] then
             step! s := next_char s in let! s := parse_number n s in ok (T_NUM, s)
           else if chr s =? 46 then
             step! s := next_char s in
             if chr s =? 46 then step! s := next_char s in ok (T_ELLIPSIS, s) else Some Fail
           else ok (T_DOT, s))
  else if k =? 35 then
    step! s := next_char s in
    if chr s =? 35 then step! s := next_char s in ok (PP_HHASH, s, false)
    else ok (if first then PP_DIRECTIVE else PP_HASH, s, first)
  else if (k =? 60) && is_header then
    plain (step! s := next_char s in let! s := parse_string_like n 62 s in ok (PP_HEADER_NAME_H, s))
  else if k =? EQ_NULL then ok (T_EOI, s, false)
  else match find (fun p => fst p =? k) punctuators with
       | Some (_, w) => plain (Some (run_switch w s))
       | None => Some Fail
       end.

(** src/preprocessor/tokenizer.c:469-480: the text of a token that starts at [s0] and
    ends before [s]. *)
Definition raw_text (s0 s : tk) : list Z := firstn (length (at_c s0) - length (at_c s)) (at_c s0).
Definition token_text (s0 s : tk) : ex (list Z) :=
  let raw := raw_text s0 s in
  let! t := (if esc s then remove_escape_sequences raw else ok raw) in
  ok (if sep s then remove_digit_separator raw else t).

(** src/preprocessor/tokenizer.c:184-485 (tokenizer_next): the token, is_header,
    is_directive and the state. [ws] and [first] are next.whitespace and
    next.first_of_line. *)
Definition make_token (ty : Z) (str : list Z) (ws first : bool) (line : Z) : dtok :=
  {| dt := {| e_type := ty; e_str := str; e_ws := ws; e_wsa := false; e_line := line; e_hs := [] |}; fol := first |}.
Fixpoint tokenizer_next (n : nat) (hdr dir ws first : bool) (s : tk) : ex (dtok * bool * bool * tk) :=
  match n with
  | O => None
  | S n =>
      let s0 := no_flags s in
      let token (_ : unit) :=
        let! (ty, s, starts) := scan n hdr first s0 in
        let! str := token_text s0 s in
        let dir := dir || starts in
        let first := first || (ty =? T_EOI) in
        let t := make_token ty str ws first (ln s0) in
        if (ty =? T_IDENT) && dir then ok (t, sv_cmp str (chars "include"), false, s) else ok (t, hdr, dir, s) in
      if chr s0 =? EQ_SPACE then step! s := next_char s0 in tokenizer_next n hdr dir true first s
      else if chr s0 =? 10 then step! s := next_char s0 in tokenizer_next n false false true true s
      else if chr s0 =? 47 then
        step! s1 := next_char s0 in
        if chr s1 =? 47 then let! s := line_comment n s1 in tokenizer_next n hdr dir true first s
        else if chr s1 =? 42 then let! s := block_comment n s1 in tokenizer_next n hdr dir true first s
        else token tt
      else token tt
  end.

(** src/preprocessor/tokenizer.c:487-516 (tokenize_input): [prev] is the last token of
    the list, already read. *)
Fixpoint tokenize_rest (n : nat) (prev : dtok) (hdr dir : bool) (s : tk) : ex (list dtok) :=
  match n with
  | O => None
  | S n =>
      if ty prev =? T_EOI then ok []
      else
        let! (t, hdr, dir, s) := tokenizer_next n hdr dir false false s in
        let! l := tokenize_rest n t hdr dir s in
        ok ({| dt := with_wsa (dt prev) (e_ws (dt t)); fol := fol prev |} :: l)
  end.
(** The byte order mark: lines 500-502. *)
Definition skip_bom (m : list Z) : list Z :=
  match m with 239 :: 187 :: 191 :: r => r | _ => m end.
(** c = '\n' before the first byte is read: an imaginary newline stands at str - 1. *)
Definition tk_start (m : list Z) : tk := {| chr := 10; at_c := 10 :: m; esc := false; sep := false; ln := 1 |}.
Definition tokenize (n : nat) (contents : list Z) : ex (list dtok) :=
  let! (t, hdr, dir, s) := tokenizer_next n false false false false (tk_start (skip_bom (contents ++ [0]))) in
  tokenize_rest n t hdr dir s.
(** Enough fuel for any source. *)
Definition tokenize_input (contents : list Z) : ex (list dtok) := tokenize (length contents + 5) contents.
