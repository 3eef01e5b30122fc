(** Macro expansion (src/preprocessor/macro_expander.c). Loops that need not end
    are given fuel: [None] means that the fuel ran out, [Some r] that the C code
    ends with the outcome [r]. Token positions are reduced to the line number and
    the first_of_line flags are left out. *)
From Coq Require Import String.
From Verif Require Import Base CharTypes Common Escape Tokens MacroTable StringSet Fuel.

(** src/preprocessor/preprocessor.h:25-36 (struct token). *)
Record etok := { e_type : Z; e_str : list Z; e_ws : bool; e_wsa : bool; e_line : Z; e_hs : list (list Z) }.
Definition of_mtoken (t : mtoken) : etok :=
  {| e_type := k_type t; e_str := k_str t; e_ws := k_ws t; e_wsa := k_ws_after t; e_line := 0; e_hs := [] |}.
Definition with_ws (t : etok) (b : bool) := {| e_type := e_type t; e_str := e_str t; e_ws := b; e_wsa := e_wsa t; e_line := e_line t; e_hs := e_hs t |}.
Definition with_wsa (t : etok) (b : bool) := {| e_type := e_type t; e_str := e_str t; e_ws := e_ws t; e_wsa := b; e_line := e_line t; e_hs := e_hs t |}.
Definition with_hs (t : etok) (h : list (list Z)) := {| e_type := e_type t; e_str := e_str t; e_ws := e_ws t; e_wsa := e_wsa t; e_line := e_line t; e_hs := h |}.
Definition with_line (t : etok) (l : Z) := {| e_type := e_type t; e_str := e_str t; e_ws := e_ws t; e_wsa := e_wsa t; e_line := l; e_hs := e_hs t |}.
Definition eoi_token : etok := {| e_type := T_EOI; e_str := []; e_ws := false; e_wsa := false; e_line := 0; e_hs := [] |}.

(** src/preprocessor/macro_expander.c:114-144 (paste_table). *)
Definition paste_table : list (Z * Z * Z) := [
  (T_IDENT, T_IDENT, T_IDENT); (T_IDENT, T_NUM, T_IDENT); (T_IDENT, T_IDENT, T_IDENT);
  (T_LSHIFT, T_A, T_LSHIFTA); (T_RSHIFT, T_A, T_RSHIFTA); (T_NUM, T_NUM, T_NUM);
  (T_NUM, T_IDENT, T_NUM); (T_ADD, T_ADD, T_INC); (T_ADD, T_A, T_ADDA); (T_SUB, T_SUB, T_DEC);
  (T_SUB, T_G, T_ARROW); (T_SUB, T_A, T_SUBA); (T_DIV, T_A, T_DIVA); (T_MOD, T_A, T_MODA);
  (T_G, T_GEQ, T_RSHIFTA); (T_G, T_G, T_RSHIFT); (T_G, T_A, T_GEQ); (T_L, T_LEQ, T_LSHIFTA);
  (T_L, T_L, T_LSHIFT); (T_L, T_A, T_LEQ); (T_NOT, T_A, T_NEQ); (T_BOR, T_BOR, T_OR);
  (T_BOR, T_A, T_BORA); (T_XOR, T_A, T_XORA); (T_A, T_A, T_EQ); (T_STAR, T_A, T_MULA);
  (T_AMP, T_A, T_BANDA); (T_AMP, T_AMP, T_AND); (PP_HASH, PP_HASH, PP_HHASH)].

(** src/preprocessor/macro_expander.c:146-162 (glue): [b] is the left operand. *)
Definition glue (a b : etok) : res etok :=
  let ty := fold_left (fun acc row => let '(l, r, c) := row in
                         if (r =? e_type a) && (l =? e_type b) then c else acc) paste_table 0 in
  if ty =? 0 then Fail
  else Ok {| e_type := ty; e_str := e_str b ++ e_str a; e_ws := e_ws b; e_wsa := e_wsa a; e_line := e_line a;
             e_hs := string_set_intersection (e_hs a) (e_hs b) |}.

(** src/preprocessor/macro_expander.c:187-229 (stringify_add): text added for a
    token, and the new stringify_whitespace. *)
Definition stringify_add (t : etok) (start ws : bool) : res (list Z * bool) :=
  let sp := if negb start && (e_ws t || ws) then [32] else [] in
  let* body :=
    if (e_type t =? T_STRING) || (e_type t =? T_CHARACTER_CONSTANT) then escape_all true (e_str t)
    else match find (fun p => fst p =? e_type t) symbols with
         | Some (_, s) => Ok s
         | None => if (e_type t =? PP_HASH) || (e_type t =? PP_DIRECTIVE) then Ok (chars "#")
                   else if e_type t =? PP_HHASH then Ok (chars "##") else Ok (e_str t)
         end in
  Ok (sp ++ body, e_wsa t).
(** src/preprocessor/macro_expander.c:434-441: the text of a stringified list. *)
Fixpoint stringify_loop (l : list etok) (start ws : bool) : res (list Z) :=
  match l with
  | [] => Ok []
  | t :: r => let* (s, ws') := stringify_add t start ws in
              let* s' := stringify_loop r false ws' in Ok (s ++ s')
  end.
Definition stringify (l : list etok) : res (list Z) :=
  let* s := stringify_loop l true false in Ok ([34] ++ s ++ [34]).

(** Decimal printing, the %d of src/preprocessor/macro_expander.c:236. *)
Fixpoint dec_digits (n : nat) (z : Z) : list Z :=
  match n with
  | O => []
  | S n' => (if z <? 10 then [] else dec_digits n' (z / 10)) ++ [48 + z mod 10]
  end.
Definition print_dec (z : Z) : list Z := if z <? 0 then 45 :: dec_digits 20 (- z) else dec_digits 20 z.

(** src/preprocessor/macro_expander.c:231-245 (builtin_macros); [path] stands for
    the path of the token's position. *)
Definition builtin_macros (path : list Z) (t : etok) : option etok :=
  if sv_string_cmp (e_str t) (chars "__LINE__") then
    Some {| e_type := T_NUM; e_str := print_dec (e_line t); e_ws := e_ws t; e_wsa := e_wsa t; e_line := e_line t; e_hs := [] |}
  else if sv_string_cmp (e_str t) (chars "__FILE__") then
    Some {| e_type := T_STRING; e_str := [34] ++ path ++ [34]; e_ws := e_ws t; e_wsa := e_wsa t; e_line := e_line t; e_hs := [] |}
  else None.

(** The input buffer (top of the stack first) and the tokens directiver_next has
    still to deliver, followed by T_EOI for ever. *)
Record ibuf := { ib : list etok; feed : list etok }.
Definition push (s : ibuf) (t : etok) : ibuf := {| ib := t :: ib s; feed := feed s |}.
(** src/preprocessor/macro_expander.c:263-272 (input_buffer_take). *)
Definition take (input : bool) (s : ibuf) : res (etok * ibuf) :=
  match ib s with
  | t :: r => Ok (t, {| ib := r; feed := feed s |})
  | [] => if input then
            match feed s with
            | t :: f => Ok (t, {| ib := []; feed := f |})
            | [] => Ok (eoi_token, s)
            end
          else Fail
  end.
(** src/preprocessor/macro_expander.c:274-285 (input_buffer_top). *)
Definition top (input : bool) (s : ibuf) : res (etok * ibuf) :=
  match ib s with
  | t :: _ => Ok (t, s)
  | [] => let* (t, s') := take input s in Ok (t, push s' t)
  end.
(** Assigning through the pointer input_buffer_top returned. *)
Definition replace_top (s : ibuf) (t : etok) : ibuf := {| ib := t :: tl (ib s); feed := feed s |}.

Fixpoint map_last {A} (f : A -> A) (l : list A) : list A :=
  match l with [] => [] | [x] => [f x] | x :: t => x :: map_last f t end.
Definition map_first {A} (f : A -> A) (l : list A) : list A :=
  match l with [] => [] | x :: t => f x :: t end.

(** src/preprocessor/macro_expander.c:288-319 (input_buffer_parse_argument):
    [acc] is the list built so far; the flag is the returned value. *)
Fixpoint parse_argument (n : nat) (ignore_comma input : bool) (depth : Z) (acc : list etok) (s : ibuf)
  : ex (list etok * bool * ibuf) :=
  match n with
  | O => None
  | S n' =>
      let! (t, s1) := Some (take input s) in
      let finish := fun (last : etok) (s : ibuf) =>
        let s' := if e_type last =? T_RPAR then push s last else s in
        ok (map_last (fun t => with_wsa t false) (map_first (fun t => with_ws t false) acc), e_type last =? T_RPAR, s') in
      if e_type t =? T_LPAR then parse_argument n' ignore_comma input (depth + 1) (acc ++ [t]) s1
      else if e_type t =? T_RPAR then
        if depth - 1 =? 0 then finish t s1
        else parse_argument n' ignore_comma input (depth - 1) (acc ++ [t]) s1
      else if negb ignore_comma && (e_type t =? T_COMMA) && (depth =? 1) then finish t s1
      else parse_argument n' ignore_comma input depth (acc ++ [t]) s1
  end.

(** src/preprocessor/macro_expander.c:97-102 (get_param) with
    token_list_index_of of src/preprocessor/token_list.c:13-18. *)
Fixpoint index_of (l : list mtoken) (s : list Z) (i : nat) : option nat :=
  match l with
  | [] => None
  | p :: t => if sv_cmp (k_str p) s then Some i else index_of t s (S i)
  end.
Definition get_param (d : define) (t : mtoken) : option nat :=
  if negb (d_func d) || negb (k_type t =? T_IDENT) then None else index_of (d_par d) (k_str t) 0.

Section Expand.
(** [rec] is expand_buffer(input, 0, NULL) with less fuel: the tokens it appends
    to the output buffer and the buffer it leaves. *)
Variable rec : bool -> ibuf -> ex (list etok * ibuf).

(** src/preprocessor/macro_expander.c:321-355 (expand_argument). *)
Definition push_all (s : ibuf) (l : list etok) : ibuf := {| ib := l ++ ib s; feed := feed s |}.
Definition expand_argument (origin : mtoken) (tl0 : list etok) (concat_with_prev concat stringify_ input : bool) (s : ibuf)
  : ex ibuf :=
  let! (l, s1) :=
    match concat_with_prev, rev tl0 with
    | true, last :: before =>
        let! (e, s') := Some (top input s) in
        let! g := Some (glue e last) in
        ok (rev before, replace_top s' g)
    | _, _ => ok (tl0, s)
    end in
  let again := negb (concat || stringify_) in
  let s2 := if again then push s1 eoi_token else s1 in
  let l1 := map_last (fun t => with_wsa t (e_wsa t || k_ws_after origin)) (map_first (fun t => with_ws t (e_ws t || k_ws origin)) l) in
  let s3 := push_all s2 l1 in
  if again then
    let! (out, s4) := rec input s3 in
    ok (push_all s4 out)
  else ok s3.

(** src/preprocessor/macro_expander.c:399-468: the loop over the definition,
    from its last token to its first: [r] is the part not yet visited, reversed. *)
Fixpoint body_loop (d : define) (args : list (list etok)) (vararg : list etok) (vararg_included : bool)
  (new_line : Z) (input : bool) (r : list mtoken) (cwp : bool) (s : ibuf) : ex ibuf :=
  match r with
  | [] => ok s
  | t :: rest =>
      let prev := match rest with [] => 0 | p :: _ => k_type p end in
      let concat := prev =? PP_HHASH in
      let str := prev =? PP_HASH in
      if k_type t =? PP_HHASH then Some Fail else
      if sv_string_cmp (k_str t) (chars "__VA_ARGS__") then
        let va_paste := concat && match rest with _ :: c :: _ => k_type c =? T_COMMA | _ => false end in
        if va_paste && negb vararg_included then
          body_loop d args vararg vararg_included new_line input (match rest with _ :: _ :: r' => r' | _ => rest end) cwp s
        else
          let! (cwp', s1) :=
            if str then
              let! x := Some (stringify vararg) in
              ok (cwp, push s {| e_type := T_STRING; e_str := x; e_ws := k_ws t; e_wsa := k_ws_after t; e_line := 0; e_hs := [] |})
            else if vararg_included then
              let! s1 := expand_argument t vararg cwp concat str input s in
              ok (match vararg with [] => cwp | _ => negb va_paste && concat end, s1)
            else ok (cwp, s) in
          body_loop d args vararg vararg_included new_line input
            (if concat || str then match rest with _ :: r' => r' | [] => rest end else rest) cwp' s1
      else
        let! (cwp', s1) :=
          match get_param d t with
          | Some idx =>
              let! a := match nth_error args idx with Some a => ok a | None => Some Undef end in
              if str then
                let! x := Some (stringify a) in
                ok (cwp, push s {| e_type := T_STRING; e_str := x; e_ws := k_ws t; e_wsa := k_ws_after t; e_line := 0; e_hs := [] |})
              else
                let! s1 := expand_argument t a cwp concat str input s in
                ok (match a with [] => cwp | _ => concat end, s1)
          | None =>
              let! (c1, s1) :=
                if cwp then
                  let! (e, s') := Some (top input s) in
                  let! g := Some (glue e (of_mtoken t)) in
                  ok (false, replace_top s' g)
                else if str then Some Fail
                else ok (cwp, push s (with_line (of_mtoken t) new_line)) in
              ok (if concat then true else c1, s1)
          end in
        body_loop d args vararg vararg_included new_line input
          (if concat || str then match rest with _ :: r' => r' | [] => rest end else rest) cwp' s1
  end.

(** src/preprocessor/macro_expander.c:370-377: the argument loop; [n] is what
    remains of n_args. *)
Fixpoint parse_arguments (fuel n : nat) (input : bool) (acc : list (list etok)) (finished : bool) (s : ibuf)
  : ex (list (list etok) * bool * ibuf) :=
  match n with
  | O => ok (acc, finished, s)
  | S n' =>
      let! (a, done, s1) := parse_argument fuel false input 1 [] s in
      if done && negb (Nat.eqb n' 0) then Some Fail
      else parse_arguments fuel n' input (acc ++ [a]) (finished || done) s1
  end.

(** src/preprocessor/macro_expander.c:357-485 (subs_buffer): [origin] is the
    macro name taken from the buffer, with its hide set. *)
Definition subs_buffer (fuel : nat) (origin : etok) (d : define) (input : bool) (s : ibuf) : ex ibuf :=
  let! (args, vararg, vi, wsa, hs0, s1) :=
    if d_func d then
      let! (lpar, s1) := Some (take input s) in
      if negb (e_type lpar =? T_LPAR) then Some Fail else
      let! (args, finished, s2) := parse_arguments fuel (length (d_par d)) input [] false s1 in
      let! (vararg, vi, s3) :=
        if d_vararg d && negb finished then
          let! (v, done, s3) := parse_argument fuel true input 1 [] s2 in
          if done then ok (v, true, s3) else Some Fail
        else ok ([], false, s2) in
      let! (rpar, s4) := Some (take input s3) in
      if negb (e_type rpar =? T_RPAR) then Some Fail else
      ok (args, vararg, vi, e_wsa rpar, string_set_intersection (e_hs origin) (e_hs rpar), s4)
    else ok ([], [], false, e_wsa origin, e_hs origin, s) in
  let hs := string_set_insert hs0 (d_name d) in
  let input_start := length (ib s1) in
  let! s2 := body_loop d args vararg vi (e_line origin) input (rev (d_def d)) false s1 in
  let k := (length (ib s2) - input_start)%nat in
  let added := map (fun t => with_hs t (string_set_union hs (e_hs t))) (firstn k (ib s2)) in
  let added1 := map_last (fun t => with_wsa t (e_wsa t || wsa)) added in
  let added2 := map_first (fun t => with_ws t (e_ws t || e_ws origin)) added1 in
  ok {| ib := added2 ++ skipn k (ib s2); feed := feed s2 |}.
End Expand.

(** src/preprocessor/macro_expander.c:494-519: whether the token is replaced:
    [inl] is the token to output, [inr] the macro to substitute. [lk] is
    define_map_get. The test for an opening parenthesis may read a token. *)
Definition classify (lk : list Z -> option define) (path : list Z) (input : bool) (t : etok) (s : ibuf)
  : res ((etok + define) * ibuf) :=
  if negb (e_type t =? T_IDENT) || string_set_contains (e_hs t) (e_str t) then Ok (inl t, s)
  else match builtin_macros path t with
       | Some t' => Ok (inl t', s)
       | None =>
           match lk (e_str t) with
           | None => Ok (inl t, s)
           | Some d =>
               if d_func d then
                 if input || negb (Nat.eqb (length (ib s)) 0) then
                   let* (nx, s1) := top input s in
                   if e_type nx =? T_LPAR then Ok (inr d, s1) else Ok (inl t, s1)
                 else Ok (inl t, s)
               else Ok (inr d, s)
           end
       end.

(** src/preprocessor/macro_expander.c:488-524 (expand_buffer) with
    return_output = 0: the tokens appended to the output buffer. *)
Fixpoint expand_buffer (fuel : nat) (lk : list Z -> option define) (path : list Z) (input : bool) (acc : list etok) (s : ibuf)
  : ex (list etok * ibuf) :=
  match fuel with
  | O => None
  | S n =>
      if negb (input || negb (Nat.eqb (length (ib s)) 0)) then ok (acc, s) else
      let! (t, s1) := Some (take input s) in
      if e_type t =? T_EOI then ok (acc, s1) else
      let! (c, s2) := Some (classify lk path input t s1) in
      match c with
      | inl t' => expand_buffer n lk path input (acc ++ [t']) s2
      | inr d =>
          let! s3 := subs_buffer (fun i s => expand_buffer n lk path i [] s) n t d input s2 in
          expand_buffer n lk path input acc s3
      end
  end.

(** src/preprocessor/macro_expander.c:488-531 (expander_next): expand_buffer with
    return_output = 1 and input = 1. *)
Fixpoint expander_next (fuel : nat) (lk : list Z -> option define) (path : list Z) (s : ibuf) : ex (etok * ibuf) :=
  match fuel with
  | O => None
  | S n =>
      let! (t, s1) := Some (take true s) in
      if e_type t =? T_EOI then ok (eoi_token, s1) else
      let! (c, s2) := Some (classify lk path true t s1) in
      match c with
      | inl t' => ok (t', s2)
      | inr d =>
          let! s3 := subs_buffer (fun i s => expand_buffer n lk path i [] s) n t d true s2 in
          expander_next n lk path s3
      end
  end.

(** src/preprocessor/macro_expander.c:533-550 (expand_token_list), called with
    the input buffer empty (the directive parser runs between tokens) or not:
    [s] is the buffer at the call. *)
Definition expand_token_list (fuel : nat) (lk : list Z -> option define) (path : list Z) (l : list etok) (s : ibuf)
  : ex (list etok * ibuf) :=
  expand_buffer fuel lk path false [] (push_all (push s eoi_token) l).

(** All tokens up to the end of the input, as the parser receives them. *)
Fixpoint expand_all (n fuel : nat) (lk : list Z -> option define) (path : list Z) (s : ibuf) : ex (list etok) :=
  match n with
  | O => None
  | S n' =>
      let! (t, s1) := expander_next fuel lk path s in
      if e_type t =? T_EOI then ok [] else
      let! r := expand_all n' fuel lk path s1 in ok (t :: r)
  end.
