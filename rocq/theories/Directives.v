(** Preprocessing directives (src/preprocessor/directives.c) and the search for
    included files (src/preprocessor/input.c). Loops that need not end are given
    fuel as in Fuel.v. Token positions are reduced to the line number; the path
    given by #line is left out (it only changes diagnostics and __FILE__). *)
From Coq Require Import String.
From Verif Require Import Base CharTypes Tokens Arch IntLit Escape MacroTable StringSet Fuel Expander Precedence PPExpr.

(** src/preprocessor/preprocessor.h:25-36 (struct token) with first_of_line. *)
Record dtok := { dt : etok; fol : bool }.
Definition ty (t : dtok) : Z := e_type (dt t).
Definition text (t : dtok) : list Z := e_str (dt t).
Definition to_mtoken (t : dtok) : mtoken := {| k_type := ty t; k_str := text t; k_ws := e_ws (dt t); k_ws_after := e_wsa (dt t) |}.

(** src/preprocessor/directives.c:12-21 (struct tokenized_file): [pushed] has the
    token to be delivered first at the head. *)
Record dfile := { rest : list dtok; pushed : list dtok; path : list Z }.
(** The static variables of src/preprocessor/directives.c (23-34, 489-490) and
    disabled_headers of input.c:12. *)
Record dstate := { cur : dfile; parents : list dfile; macros : mstate; conds : list Z; line_diff : Z; disabled : list (list Z) }.

Definition with_files (st : dstate) (f : dfile) (ps : list dfile) :=
  {| cur := f; parents := ps; macros := macros st; conds := conds st; line_diff := line_diff st; disabled := disabled st |}.
Definition with_macros (st : dstate) (m : mstate) :=
  {| cur := cur st; parents := parents st; macros := m; conds := conds st; line_diff := line_diff st; disabled := disabled st |}.
Definition with_conds (st : dstate) (c : list Z) :=
  {| cur := cur st; parents := parents st; macros := macros st; conds := c; line_diff := line_diff st; disabled := disabled st |}.
Definition with_line_diff (st : dstate) (d : Z) :=
  {| cur := cur st; parents := parents st; macros := macros st; conds := conds st; line_diff := d; disabled := disabled st |}.
Definition with_disabled (st : dstate) (d : list (list Z)) :=
  {| cur := cur st; parents := parents st; macros := macros st; conds := conds st; line_diff := line_diff st; disabled := d |}.

Definition eoi_dtok : dtok := {| dt := eoi_token; fol := false |}.
(** src/preprocessor/directives.c:122: every delivery adds line_diff, also that of a
    token that was pushed back (int addition, not wrapped here). *)
Definition shift_line (d : Z) (t : dtok) : dtok := {| dt := with_line (dt t) (e_line (dt t) + d); fol := fol t |}.

(** src/preprocessor/directives.c:94-106, 114-126 (next_from_stack and next). *)
Fixpoint next_in (d : Z) (f : dfile) (ps : list dfile) : dtok * dfile * list dfile :=
  match pushed f with
  | t :: p => (shift_line d t, {| rest := rest f; pushed := p; path := path f |}, ps)
  | [] =>
      match rest f with
      | t :: r => (shift_line d t, {| rest := r; pushed := []; path := path f |}, ps)
      | [] =>
          match ps with
          | p :: q => let '(t, f', q') := next_in d p q in (shift_line d t, f', q')
          | [] => (shift_line d eoi_dtok, f, [])
          end
      end
  end.
Definition next (st : dstate) : dtok * dstate :=
  let '(t, f, ps) := next_in (line_diff st) (cur st) (parents st) in (t, with_files st f ps).

(** src/preprocessor/directives.c:108-112 (push). *)
Definition push_back (st : dstate) (t : dtok) : res dstate :=
  if (2 <? length (pushed (cur st)))%nat then Fail
  else Ok (with_files st {| rest := rest (cur st); pushed := t :: pushed (cur st); path := path (cur st) |} (parents st)).

(** while (!t.first_of_line) collect t: lines 163-168, 368-372, 591-596. *)
Fixpoint read_line (n : nat) (t : dtok) (acc : list dtok) (st : dstate) : ex (list dtok * dstate) :=
  match n with
  | O => None
  | S n =>
      if fol t then let! st' := Some (push_back st t) in ok (rev acc, st')
      else let '(t', st') := next st in read_line n t' (t :: acc) st'
  end.

(** src/preprocessor/directives.c:134-161: the parameter list of a function-like
    macro; [first] is idx == 0. Returns the parameters and the vararg flag. *)
Fixpoint read_params (n : nat) (first : bool) (acc : list mtoken) (st : dstate) : ex (list mtoken * bool * dstate) :=
  match n with
  | O => None
  | S n =>
      let '(t, st1) := next st in
      if first && (ty t =? T_RPAR) then ok ([], false, st1)
      else if ty t =? T_ELLIPSIS then
        let '(r, st2) := next st1 in
        if ty r =? T_RPAR then ok (rev acc, true, st2) else Some Fail
      else if negb (ty t =? T_IDENT) then Some Fail
      else
        let '(s, st2) := next st1 in
        if ty s =? T_RPAR then ok (rev (to_mtoken t :: acc), false, st2)
        else if ty s =? T_COMMA then read_params n false (to_mtoken t :: acc) st2
        else Some Fail
  end.
(** src/preprocessor/directives.c:128-171 (directiver_define). *)
Definition directiver_define (n : nat) (st : dstate) : ex dstate :=
  let '(name, st1) := next st in
  let '(t, st2) := next st1 in
  let! (func, vararg, pars, t', st3) :=
    if (ty t =? T_LPAR) && negb (e_ws (dt t)) then
      let! (pars, vararg, st3) := read_params n true [] st2 in
      let '(t', st4) := next st3 in ok (true, vararg, pars, t', st4)
    else ok (false, false, [], t, st2) in
  let! (body, st4) := read_line n t' [] st3 in
  let def := {| d_name := text name; d_func := func; d_vararg := vararg; d_def := map to_mtoken body; d_par := pars |} in
  let! m := Some (macro_step (macros st4) (OpDefine def)) in
  ok (with_macros st4 m).

Definition is_defined (st : dstate) (name : list Z) : res bool :=
  let* r := define_map_get (tab (macros st)) name in Ok (match r with Some _ => true | None => false end).
Definition lookup (st : dstate) (name : list Z) : option define :=
  match define_map_get (tab (macros st)) name with Ok r => r | _ => None end.
Definition is (t : dtok) (s : string) : bool := sv_cmp (text t) (chars s).
Definition num_token (b : bool) : etok :=
  {| e_type := T_NUM; e_str := if b then [49] else [48]; e_ws := false; e_wsa := false; e_line := 0; e_hs := [] |}.

(** src/preprocessor/directives.c:332-357: the tokens of a controlling expression,
    with defined X replaced by 1 or 0. *)
Fixpoint if_tokens (n : nat) (t : dtok) (acc : list etok) (st : dstate) : ex (list etok * dstate) :=
  match n with
  | O => None
  | S n =>
      if fol t then let! st' := Some (push_back st t) in ok (rev acc, st')
      else if is t "defined" then
        let '(t1, st1) := next st in
        let has_lpar := ty t1 =? T_LPAR in
        let '(t2, st2) := if has_lpar then next st1 else (t1, st1) in
        let! b := Some (is_defined st2 (text t2)) in
        let '(t3, st3) := next st2 in
        if has_lpar then
          if ty t3 =? T_RPAR then let '(t4, st4) := next st3 in if_tokens n t4 (num_token b :: acc) st4 else Some Fail
        else if_tokens n t3 (num_token b :: acc) st3
      else let '(t', st') := next st in if_tokens n t' (dt t :: acc) st'
  end.

(** src/preprocessor/string_concat.c:98-114 (take_string_prefix). *)
Definition take_string_prefix (s : list Z) : string_type * list Z :=
  match s with
  | 117 :: 56 :: r => (STRING_U8, r)
  | 117 :: r => (STRING_U_SMALL, r)
  | 85 :: r => (STRING_U_LARGE, r)
  | 76 :: r => (STRING_L, r)
  | _ => (STRING_DEFAULT, s)
  end.
(** src/common.c:51-60 (character_constant_to_int); plain char is signed. Shifting
    a negative value, or past 64 bits, is undefined. *)
Definition character_constant_to_int (s : list Z) : res Z :=
  fold_left (fun acc b => let* c := acc in
               if (c <? 0) || (2 ^ 55 <=? c) then Undef else Ok (Z.lor (c * 256) (signed 8 b))) s (Ok 0).
(** src/preprocessor/string_concat.c:238-251 (escaped_character_constant_to_int). *)
Definition escaped_character_constant_to_int (s : list Z) : res Z :=
  let '(type, r) := take_string_prefix s in
  let* b := escape_string_to_buffer r (List.length r) type in character_constant_to_int b.

(** Tokens as evaluate_expression sees them (src/preprocessor/directives.c:247-259). *)
Definition wrong {A} (ty : Z) (r : res A) : pptok := KWrong ty (match r with Undef => true | _ => false end).
Definition pp_token (m : abi) (t : etok) : pptok :=
  if e_type t =? T_NUM then
    match constant_from_string m (e_str t) with
    | Ok (Some (sty, v)) => match is_signed sty with Ok s => KNum s v | r => wrong T_NUM r end
    | r => wrong T_NUM r
    end
  else if e_type t =? T_IDENT then KIdent
  else if e_type t =? T_CHARACTER_CONSTANT then
    match escaped_character_constant_to_int (e_str t) with Ok v => KChar v | r => wrong T_CHARACTER_CONSTANT r end
  else KOp (e_type t).

(** src/preprocessor/directives.c:331-364 (evaluate_until_newline) and 398.
    expand_token_list leaves the input buffer of the expander as it was; it is
    called here with an empty one. *)
Definition if_line (n : nat) (m : abi) (st : dstate) : ex (bool * dstate) :=
  let '(t, st1) := next st in
  let! (l, st2) := if_tokens n t [] st1 in
  let! (l', _) := expand_token_list n (lookup st2) (path (cur st2)) l {| ib := []; feed := [] |} in
  let! b := if_condition n (map (pp_token m) l') in
  ok (b, st2).

(** src/preprocessor/directives.c:389-404 (directiver_evaluate_conditional). *)
Definition evaluate_conditional (n : nat) (m : abi) (dir : dtok) (st : dstate) : ex (bool * dstate) :=
  if is dir "ifdef" || is dir "elifdef" then
    let '(t, st1) := next st in let! b := Some (is_defined st1 (text t)) in ok (b, st1)
  else if is dir "ifndef" || is dir "elifndef" then
    let '(t, st1) := next st in let! b := Some (is_defined st1 (text t)) in ok (negb b, st1)
  else if is dir "if" || is dir "elif" then if_line n m st
  else if is dir "else" then ok (true, st)
  else Some Fail.

(** The file system: the tokens of the file with this name, if there is one. Other
    errors of fopen are left out. *)
Definition fsys := list Z -> option (list dtok).
(** src/preprocessor/input.c:26-33 (length_of_path_without_filename). *)
Fixpoint dir_length (s : list Z) (i best : nat) : nat :=
  match s with [] => best | c :: r => dir_length r (S i) (if c =? 47 then S i else best) end.
(** src/preprocessor/input.c:57-86 (input_open): the path of the opened file and its
    tokens, [None] inside when it is disabled by #pragma once. *)
Definition input_open (fs : fsys) (search : list (list Z)) (dis : list (list Z)) (parent name : list Z) (system : bool)
  : res (option (list Z * list dtok)) :=
  let candidates := (if system then [] else [firstn (dir_length parent 0 0) parent ++ name]) ++ map (fun d => d ++ 47 :: name) search in
  match find (fun p => match fs p with Some _ => true | None => false end) candidates with
  | None => Fail
  | Some p => if string_set_contains dis p then Ok None
              else match fs p with Some l => Ok (Some (p, l)) | None => Fail end
  end.
(** src/preprocessor/directives.c:74-90 (directiver_push_input). *)
Definition push_input (fs : fsys) (search : list (list Z)) (name : list Z) (system : bool) (st : dstate) : res dstate :=
  let* r := input_open fs search (disabled st) (path (cur st)) name system in
  Ok (match r with
      | None => st
      | Some (p, l) => with_files st {| rest := l; pushed := []; path := p |} (cur st :: parents st)
      end).

Definition inner (s : list Z) : list Z := firstn (List.length s - 2) (skipn 1 s).
(** src/preprocessor/directives.c:552-570 and 366-387: #include. *)
Definition do_include (n : nat) (fs : fsys) (search : list (list Z)) (st : dstate) : ex dstate :=
  let '(t, st1) := next (with_line_diff st 0) in
  if (ty t =? PP_HEADER_NAME_H) || (ty t =? PP_HEADER_NAME_Q) then
    Some (push_input fs search (inner (text t)) (ty t =? PP_HEADER_NAME_H) st1)
  else
    let! (l, st2) := read_line n t [] st1 in
    let! (l', _) := expand_token_list n (lookup st2) (path (cur st2)) (map dt l) {| ib := []; feed := [] |} in
    match l' with
    | [p] => if e_type p =? T_STRING then Some (push_input fs search (inner (e_str p)) false st2) else Some Fail
    | _ => Some Fail
    end.

(** src/preprocessor/directives.c:449-463, 465-479: ( "name" ). *)
Definition pragma_name (st : dstate) : res (list Z * dstate) :=
  let '(lpar, st1) := next st in
  if negb (ty lpar =? T_LPAR) then Fail else
  let '(name, st2) := next st1 in
  if negb (ty name =? T_STRING) then Fail else
  let '(rpar, st3) := next st2 in
  if negb (ty rpar =? T_RPAR) then Fail else Ok (inner (text name), st3).
(** src/preprocessor/directives.c:443-486 (directiver_handle_pragma): true when the
    pragma is passed on. *)
Definition handle_pragma (st : dstate) : res (bool * dstate) :=
  let '(c, st1) := next st in
  if is c "once" then Ok (false, with_disabled st1 (string_set_insert (disabled st1) (path (cur st1))))
  else if is c "push_macro" then
    let* (name, st2) := pragma_name st1 in let* m := macro_step (macros st2) (OpPush name) in Ok (false, with_macros st2 m)
  else if is c "pop_macro" then
    let* (name, st2) := pragma_name st1 in let* m := macro_step (macros st2) (OpPop name) in Ok (false, with_macros st2 m)
  else let* st2 := push_back st1 c in Ok (true, st2).

(** atoi on a digit sequence: leading digits, without overflow. *)
Fixpoint atoi (s : list Z) (acc : Z) : Z :=
  match s with
  | c :: r => if (48 <=? c) && (c <=? 57) then atoi r (acc * 10 + (c - 48)) else acc
  | [] => acc
  end.
(** src/preprocessor/directives.c:580-628: #line. [dline] is directive.pos.line. *)
Definition do_line (n : nat) (dline : Z) (st : dstate) : ex dstate :=
  let '(d, st1) := next st in
  if fol d then Some Fail
  else
    let! (d', str, st2) :=
      if negb (ty d =? T_NUM) then
        let! (l, st2) := read_line n d [] st1 in
        let! (l', _) := expand_token_list n (lookup st2) (path (cur st2)) (map dt l) {| ib := []; feed := [] |} in
        match l' with [] => Some Fail | x :: _ => ok ({| dt := x; fol := false |}, None, st2) end
      else
        let '(s, st2) := next st1 in
        if fol s then let! st3 := Some (push_back st2 s) in ok (d, None, st3) else ok (d, Some s, st2) in
    if fol d' || negb (ty d' =? T_NUM) then Some Fail
    else
      let st3 := with_line_diff st2 (line_diff st2 + (atoi (text d') 0 - dline - 1)) in
      match str with Some s => if ty s =? T_STRING then ok st3 else Some Fail | None => ok st3 end.

Definition top_cond (st : dstate) : res Z := match conds st with c :: _ => Ok c | [] => Undef end.
Definition set_top (st : dstate) (c : Z) : dstate := with_conds st (c :: tl (conds st)).
Definition is_if (t : dtok) : bool := is t "ifndef" || is t "ifdef" || is t "if".
Definition is_elif (t : dtok) : bool := is t "elif" || is t "else" || is t "elifndef" || is t "elifdef".

(** src/preprocessor/directives.c:520-632: one directive, [t] the # token. True
    when the directive is passed on (pass_directive). *)
Definition do_directive (n : nat) (m : abi) (fs : fsys) (search : list (list Z)) (t dir : dtok) (st : dstate) : ex (bool * dstate) :=
  let! c := Some (top_cond st) in
  if is_if dir then
    if c =? 1 then
      let! (b, st1) := evaluate_conditional n m dir st in ok (false, with_conds st1 ((if b then 1 else 0) :: conds st1))
    else ok (false, with_conds st (-1 :: conds st))
  else if is_elif dir then
    if c =? 0 then
      let! (b, st1) := evaluate_conditional n m dir st in ok (false, set_top st1 (if b then 1 else 0))
    else ok (false, set_top st (-1))
  else if is dir "endif" then ok (false, with_conds st (tl (conds st)))
  else if c =? 1 then
    if is dir "define" then let! st1 := directiver_define n st in ok (false, st1)
    else if is dir "undef" then
      let '(name, st1) := next st in
      let! ms := Some (macro_step (macros st1) (OpUndef (text name))) in ok (false, with_macros st1 ms)
    else if is dir "error" then Some Fail
    else if is dir "include" then let! st1 := do_include n fs search st in ok (false, st1)
    else if is dir "pragma" then
      let! (pass, st1) := Some (handle_pragma st) in
      if pass then
        let! st2 := Some (push_back st1 dir) in let! st3 := Some (push_back st2 t) in ok (true, st3)
      else ok (false, st1)
    else if is dir "line" then let! st1 := do_line n (e_line (dt dir)) st in ok (false, st1)
    else Some Fail
  else ok (false, st).

(** src/preprocessor/directives.c:496-637: the loop of directiver_next with the
    current token [t]. *)
Fixpoint dloop (n : nat) (m : abi) (fs : fsys) (search : list (list Z)) (t : dtok) (st : dstate) : ex (dtok * dstate) :=
  match n with
  | O => None
  | S n =>
      let! c := Some (top_cond st) in
      if negb ((ty t =? PP_DIRECTIVE) || negb (c =? 1)) then ok (t, st)
      else if negb (ty t =? PP_DIRECTIVE) then let '(t', st') := next st in dloop n m fs search t' st'
      else
        let '(dir, st1) := next st in
        if fol dir then dloop n m fs search dir st1
        else if negb (ty dir =? T_IDENT) && negb (c =? 1) then dloop n m fs search dir st1
        else if negb (ty dir =? T_IDENT) then Some Fail
        else
          let! (pass, st2) := do_directive n m fs search t dir st1 in
          let '(t', st3) := next st2 in
          if pass then ok (t', st3) else dloop n m fs search t' st3
  end.
(** src/preprocessor/directives.c:488-495. *)
Definition directiver_next (n : nat) (m : abi) (fs : fsys) (search : list (list Z)) (st : dstate) : ex (dtok * dstate) :=
  let st0 := match conds st with [] => with_conds st [1] | _ => st end in
  let '(t, st1) := next st0 in dloop n m fs search t st1.

(** The tokens handed to the macro expander up to the end of the input. *)
Fixpoint directives_all (k n : nat) (m : abi) (fs : fsys) (search : list (list Z)) (st : dstate) : ex (list dtok) :=
  match k with
  | O => None
  | S k =>
      let! (t, st1) := directiver_next n m fs search st in
      if ty t =? T_EOI then ok []
      else let! r := directives_all k n m fs search st1 in ok (t :: r)
  end.

(** A translation unit starting with these tokens. *)
Definition dstart (p : list Z) (ms : mstate) (l : list dtok) : dstate :=
  {| cur := {| rest := l; pushed := []; path := p |}; parents := []; macros := ms; conds := []; line_diff := 0; disabled := [] |}.
