(** The command line (src/arguments.c). Arguments are byte lists without the
    terminating zero. *)
From Coq Require Import String.
From Verif Require Import Base CharTypes.
Local Open Scope Z_scope.
Local Open Scope list_scope.

(** src/arguments.h:4-31 (struct arguments). [optlevel] keeps the text given to
    atoi; [None] is the 0 it starts with. *)
Record arguments := {
  flag_c : bool; flag_g : bool; flag_s : bool; flag_E : bool; flag_S : bool; flag_MD : bool;
  optlevel : option (list Z); outfile : option (list Z);
  operands : list (list Z); defines : list (list Z); undefines : list (list Z); includes : list (list Z);
  libraries : list (list Z); library_dirs : list (list Z); flags : list (list Z);
  mt_path : option (list Z); mf_path : option (list Z) }.
(** src/arguments.c:8-29 (struct arguments ret = { 0 }). *)
Definition no_arguments : arguments :=
  {| flag_c := false; flag_g := false; flag_s := false; flag_E := false; flag_S := false; flag_MD := false; optlevel := None; outfile := None;
     operands := []; defines := []; undefines := []; includes := []; libraries := []; library_dirs := []; flags := []; mt_path := None; mf_path := None |}.

(** src/arguments.c:31-43 (enum state). *)
Inductive state := S_OPERAND | S_DEFINE | S_UNDEFINE | S_INCLUDE | S_LIBRARY_DIR | S_LIBRARY | S_FLAG | S_OUTFILE | S_OPTLEVEL | S_MT | S_MF.

(** src/arguments.c:69, 90-94 and 118: the assignments to [ret]. *)
Definition set_c r := {| flag_c := true; flag_g := flag_g r; flag_s := flag_s r; flag_E := flag_E r; flag_S := flag_S r; flag_MD := flag_MD r; optlevel := optlevel r; outfile := outfile r; operands := operands r; defines := defines r; undefines := undefines r; includes := includes r; libraries := libraries r; library_dirs := library_dirs r; flags := flags r; mt_path := mt_path r; mf_path := mf_path r |}.
Definition set_g r := {| flag_c := flag_c r; flag_g := true; flag_s := flag_s r; flag_E := flag_E r; flag_S := flag_S r; flag_MD := flag_MD r; optlevel := optlevel r; outfile := outfile r; operands := operands r; defines := defines r; undefines := undefines r; includes := includes r; libraries := libraries r; library_dirs := library_dirs r; flags := flags r; mt_path := mt_path r; mf_path := mf_path r |}.
Definition set_s r := {| flag_c := flag_c r; flag_g := flag_g r; flag_s := true; flag_E := flag_E r; flag_S := flag_S r; flag_MD := flag_MD r; optlevel := optlevel r; outfile := outfile r; operands := operands r; defines := defines r; undefines := undefines r; includes := includes r; libraries := libraries r; library_dirs := library_dirs r; flags := flags r; mt_path := mt_path r; mf_path := mf_path r |}.
Definition set_E r := {| flag_c := flag_c r; flag_g := flag_g r; flag_s := flag_s r; flag_E := true; flag_S := flag_S r; flag_MD := flag_MD r; optlevel := optlevel r; outfile := outfile r; operands := operands r; defines := defines r; undefines := undefines r; includes := includes r; libraries := libraries r; library_dirs := library_dirs r; flags := flags r; mt_path := mt_path r; mf_path := mf_path r |}.
Definition set_S r := {| flag_c := flag_c r; flag_g := flag_g r; flag_s := flag_s r; flag_E := flag_E r; flag_S := true; flag_MD := flag_MD r; optlevel := optlevel r; outfile := outfile r; operands := operands r; defines := defines r; undefines := undefines r; includes := includes r; libraries := libraries r; library_dirs := library_dirs r; flags := flags r; mt_path := mt_path r; mf_path := mf_path r |}.
Definition set_MD r := {| flag_c := flag_c r; flag_g := flag_g r; flag_s := flag_s r; flag_E := flag_E r; flag_S := flag_S r; flag_MD := true; optlevel := optlevel r; outfile := outfile r; operands := operands r; defines := defines r; undefines := undefines r; includes := includes r; libraries := libraries r; library_dirs := library_dirs r; flags := flags r; mt_path := mt_path r; mf_path := mf_path r |}.
Definition add_operand a r := {| flag_c := flag_c r; flag_g := flag_g r; flag_s := flag_s r; flag_E := flag_E r; flag_S := flag_S r; flag_MD := flag_MD r; optlevel := optlevel r; outfile := outfile r; operands := operands r ++ [a]; defines := defines r; undefines := undefines r; includes := includes r; libraries := libraries r; library_dirs := library_dirs r; flags := flags r; mt_path := mt_path r; mf_path := mf_path r |}.
(** src/arguments.c:120-140: the branches that store an argument by the state. *)
Definition store (s : state) (a : list Z) (r : arguments) : arguments :=
  match s with
  | S_OPERAND => r
  | S_DEFINE => {| flag_c := flag_c r; flag_g := flag_g r; flag_s := flag_s r; flag_E := flag_E r; flag_S := flag_S r; flag_MD := flag_MD r; optlevel := optlevel r; outfile := outfile r; operands := operands r; defines := defines r ++ [a]; undefines := undefines r; includes := includes r; libraries := libraries r; library_dirs := library_dirs r; flags := flags r; mt_path := mt_path r; mf_path := mf_path r |}
  | S_UNDEFINE => {| flag_c := flag_c r; flag_g := flag_g r; flag_s := flag_s r; flag_E := flag_E r; flag_S := flag_S r; flag_MD := flag_MD r; optlevel := optlevel r; outfile := outfile r; operands := operands r; defines := defines r; undefines := undefines r ++ [a]; includes := includes r; libraries := libraries r; library_dirs := library_dirs r; flags := flags r; mt_path := mt_path r; mf_path := mf_path r |}
  | S_INCLUDE => {| flag_c := flag_c r; flag_g := flag_g r; flag_s := flag_s r; flag_E := flag_E r; flag_S := flag_S r; flag_MD := flag_MD r; optlevel := optlevel r; outfile := outfile r; operands := operands r; defines := defines r; undefines := undefines r; includes := includes r ++ [a]; libraries := libraries r; library_dirs := library_dirs r; flags := flags r; mt_path := mt_path r; mf_path := mf_path r |}
  | S_LIBRARY => {| flag_c := flag_c r; flag_g := flag_g r; flag_s := flag_s r; flag_E := flag_E r; flag_S := flag_S r; flag_MD := flag_MD r; optlevel := optlevel r; outfile := outfile r; operands := operands r; defines := defines r; undefines := undefines r; includes := includes r; libraries := libraries r ++ [a]; library_dirs := library_dirs r; flags := flags r; mt_path := mt_path r; mf_path := mf_path r |}
  | S_LIBRARY_DIR => {| flag_c := flag_c r; flag_g := flag_g r; flag_s := flag_s r; flag_E := flag_E r; flag_S := flag_S r; flag_MD := flag_MD r; optlevel := optlevel r; outfile := outfile r; operands := operands r; defines := defines r; undefines := undefines r; includes := includes r; libraries := libraries r; library_dirs := library_dirs r ++ [a]; flags := flags r; mt_path := mt_path r; mf_path := mf_path r |}
  | S_FLAG => {| flag_c := flag_c r; flag_g := flag_g r; flag_s := flag_s r; flag_E := flag_E r; flag_S := flag_S r; flag_MD := flag_MD r; optlevel := optlevel r; outfile := outfile r; operands := operands r; defines := defines r; undefines := undefines r; includes := includes r; libraries := libraries r; library_dirs := library_dirs r; flags := flags r ++ [a]; mt_path := mt_path r; mf_path := mf_path r |}
  | S_OUTFILE => {| flag_c := flag_c r; flag_g := flag_g r; flag_s := flag_s r; flag_E := flag_E r; flag_S := flag_S r; flag_MD := flag_MD r; optlevel := optlevel r; outfile := Some a; operands := operands r; defines := defines r; undefines := undefines r; includes := includes r; libraries := libraries r; library_dirs := library_dirs r; flags := flags r; mt_path := mt_path r; mf_path := mf_path r |}
  | S_OPTLEVEL => {| flag_c := flag_c r; flag_g := flag_g r; flag_s := flag_s r; flag_E := flag_E r; flag_S := flag_S r; flag_MD := flag_MD r; optlevel := Some a; outfile := outfile r; operands := operands r; defines := defines r; undefines := undefines r; includes := includes r; libraries := libraries r; library_dirs := library_dirs r; flags := flags r; mt_path := mt_path r; mf_path := mf_path r |}
  | S_MT => {| flag_c := flag_c r; flag_g := flag_g r; flag_s := flag_s r; flag_E := flag_E r; flag_S := flag_S r; flag_MD := flag_MD r; optlevel := optlevel r; outfile := outfile r; operands := operands r; defines := defines r; undefines := undefines r; includes := includes r; libraries := libraries r; library_dirs := library_dirs r; flags := flags r; mt_path := Some a; mf_path := mf_path r |}
  | S_MF => {| flag_c := flag_c r; flag_g := flag_g r; flag_s := flag_s r; flag_E := flag_E r; flag_S := flag_S r; flag_MD := flag_MD r; optlevel := optlevel r; outfile := outfile r; operands := operands r; defines := defines r; undefines := undefines r; includes := includes r; libraries := libraries r; library_dirs := library_dirs r; flags := flags r; mt_path := mt_path r; mf_path := Some a |}
  end.

(** src/arguments.c:67-72 and 88-106: what a letter does: the new result, the
    next state, [cont] and [ignore]. *)
Definition m_switch (c : Z) (r : arguments) : arguments * state * bool * bool :=
  if c =? 68 then (set_MD r, S_OPERAND, false, false)
  else if c =? 84 then (r, S_MT, true, false)
  else if c =? 70 then (r, S_MF, true, false)
  else (r, S_OPERAND, true, false).
Definition switch (c : Z) (r : arguments) : arguments * state * bool * bool :=
  if c =? 99 then (set_c r, S_OPERAND, false, false)
  else if c =? 103 then (set_g r, S_OPERAND, false, false)
  else if c =? 115 then (set_s r, S_OPERAND, false, false)
  else if c =? 69 then (set_E r, S_OPERAND, false, false)
  else if c =? 83 then (set_S r, S_OPERAND, false, false)
  else if c =? 87 then (r, S_OPERAND, false, true)
  else if c =? 111 then (r, S_OUTFILE, true, false)
  else if c =? 79 then (r, S_OPTLEVEL, true, false)
  else if c =? 68 then (r, S_DEFINE, true, false)
  else if c =? 85 then (r, S_UNDEFINE, true, false)
  else if c =? 73 then (r, S_INCLUDE, true, false)
  else if c =? 76 then (r, S_LIBRARY_DIR, true, false)
  else if c =? 108 then (r, S_LIBRARY, true, false)
  else if c =? 102 then (r, S_FLAG, true, false)
  else (r, S_OPERAND, true, false).
(** src/arguments.c:74-82 and 108-116: what follows the letter. The result is
    the next state, next_arg and the arguments. ERROR_NO_POS ends the compiler. *)
Definition after_letter (x : arguments * state * bool * bool) (rest : list Z) : res (state * option (list Z) * arguments) :=
  let '(r, next_state, cont, ignore) := x in
  match rest with
  | [] => Ok (next_state, None, r)
  | _ => if cont then Ok (next_state, Some rest, r) else if ignore then Ok (next_state, None, r) else Fail
  end.
(** src/arguments.c:58-142: one turn of the loop. For the argument [-] alone the
    code steps over the terminator and reads what lies behind it. NOTIMP ends
    the compiler. *)
Definition step (s : state) (arg : list Z) (r : arguments) : res (state * option (list Z) * arguments) :=
  match s with
  | S_OPERAND =>
      match arg with
      | [] => Ok (S_OPERAND, None, add_operand arg r)
      | a :: t =>
          if a =? 45 then
            match t with
            | [] => Undef
            | b :: u =>
                if b =? 77 then match u with [] => Fail | c :: rest => after_letter (m_switch c r) rest end
                else if (b =? 115) && (match u with c :: d :: _ => (c =? 116) && (d =? 100) | _ => false end) then Ok (S_OPERAND, None, r)
                else after_letter (switch b r) u
            end
          else Ok (S_OPERAND, None, add_operand arg r)
      end
  | _ => Ok (S_OPERAND, None, store s arg r)
  end.
(** src/arguments.c:45-143: the loop, with fuel; [None] is lack of fuel. *)
Fixpoint parse_loop (fuel : nat) (s : state) (next_arg : option (list Z)) (argv : list (list Z)) (r : arguments) : option (res arguments) :=
  match fuel with
  | O => None
  | S k =>
      match next_arg, argv with
      | Some arg, _ => match step s arg r with
                       | Ok (s', n', r') => parse_loop k s' n' argv r'
                       | Fail => Some Fail
                       | Undef => Some Undef
                       end
      | None, arg :: t => match step s arg r with
                          | Ok (s', n', r') => parse_loop k s' n' t r'
                          | Fail => Some Fail
                          | Undef => Some Undef
                          end
      | None, [] => Some (Ok r)
      end
  end.
(** Enough turns for every argument vector (C54_terminates). *)
Definition turns (argv : list (list Z)) : nat := S (fold_right (fun a n => (length a + 1 + n)%nat) 0%nat argv).
(** src/arguments.c:7-167 (arguments_parse); [argv] is without the name of the
    program. *)
Definition arguments_parse (argv : list (list Z)) : option (res arguments) := parse_loop (turns argv) S_OPERAND None argv no_arguments.
