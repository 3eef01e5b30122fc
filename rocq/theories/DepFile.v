(** The dependency file of -MD: src/preprocessor/directives.c:36-55, 74-82. *)
From Coq Require Import String.
From Verif Require Import Base CharTypes.
Local Open Scope Z_scope.
Local Open Scope list_scope.

(** src/preprocessor/directives.c:36-38: whether dependencies are recorded, and those
    recorded so far. *)
Record dep_state := { write_dependencies : bool; deps : list (list Z) }.
(** src/preprocessor/directives.c:36-38 before main. *)
Definition dep_start : dep_state := {| write_dependencies := false; deps := [] |}.
(** src/preprocessor/directives.c:40-42 (directiver_write_dependencies). *)
Definition directiver_write_dependencies (d : dep_state) : dep_state := {| write_dependencies := true; deps := deps d |}.
(** src/preprocessor/directives.c:81-82 in directiver_push_input: the path of the file
    opened; a file that #pragma once keeps out (78-79) has none. *)
Definition record_input (path : option (list Z)) (d : dep_state) : dep_state :=
  match path with
  | None => d
  | Some p => if write_dependencies d then {| write_dependencies := true; deps := deps d ++ [p] |} else d
  end.
(** src/preprocessor/directives.c:44-55 (directiver_finish_writing_dependencies): what
    is written to the file [mf]. [opened] tells whether fopen succeeds, which is not
    checked: fprintf to a null stream is undefined. *)
Definition directiver_finish_writing_dependencies (opened : bool) (mt : list Z) (d : dep_state) : res (list Z * dep_state) :=
  if opened then Ok (mt ++ chars ":" ++ flat_map (fun p => chars " " ++ p) (deps d) ++ [10], {| write_dependencies := true; deps := deps d |})
  else Undef.
(** src/preprocessor/directives.c:57-72 (directiver_reset): the flag stays. *)
Definition directiver_reset (d : dep_state) : dep_state := {| write_dependencies := write_dependencies d; deps := [] |}.
(** src/main.c:153-224 (compile_file) as far as dependencies go, with -MD: [inputs] are
    the files pushed while it is compiled, the source first. *)
Definition compile_deps (opened : bool) (mt : list Z) (inputs : list (option (list Z))) (d : dep_state) : res (list Z * dep_state) :=
  let d := directiver_write_dependencies d in
  let d := fold_left (fun d p => record_input p d) inputs d in
  let* (s, d) := directiver_finish_writing_dependencies opened mt d in
  Ok (s, directiver_reset d).
(** One run with -MD over several sources: for each the target and the files pushed. *)
Fixpoint compile_all_deps (l : list (list Z * list (option (list Z)))) (d : dep_state) : res (list (list Z)) :=
  match l with
  | [] => Ok []
  | (mt, inputs) :: r =>
      let* (s, d) := compile_deps true mt inputs d in
      let* ss := compile_all_deps r d in
      Ok (s :: ss)
  end.
