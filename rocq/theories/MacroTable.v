(** The macro table (src/preprocessor/macro_expander.c, sv_hash and sv_cmp of
    src/string_view.c) and #pragma push_macro / pop_macro
    (src/preprocessor/directives.c). Strings are byte lists. *)
From Verif Require Import Base Common.

(** The parts of struct token that definitions carry. *)
Record mtoken := { k_type : Z; k_str : list Z; k_ws : bool; k_ws_after : bool }.

(** src/preprocessor/macro_expander.h:7-14 (struct define) without the link. *)
Record define := { d_name : list Z; d_func : bool; d_vararg : bool; d_def : list mtoken; d_par : list mtoken }.

(** src/string_view.c:15-20 (sv_cmp). *)
Fixpoint sv_cmp (a b : list Z) : bool :=
  match a, b with
  | [], [] => true
  | x :: a', y :: b' => (x =? y) && sv_cmp a' b'
  | _, _ => false
  end.

(** src/string_view.c:39-46 (sv_hash), uint32_t arithmetic on plain (signed) char. *)
Definition sv_hash (s : list Z) : Z :=
  fold_left (fun h b => wrap 32 (wrap 32 (wrap 32 (Z.shiftl h 5) + h) + signed 8 b)) s 5381.

(** Each bucket is its chain, first element first. *)
Definition table := list (list define).
(** src/preprocessor/macro_expander.c:26-33 (define_map_init), MAP_SIZE 1024. *)
Definition table_init : table := repeat [] 1024.

(** src/preprocessor/macro_expander.c:35-48 (define_map_find): the bucket index. *)
Definition bucket_of (name : list Z) : nat := Z.to_nat (sv_hash name mod 1024).

Fixpoint chain_find (name : list Z) (l : list define) : option define :=
  match l with
  | [] => None
  | d :: t => if sv_cmp (d_name d) name then Some d else chain_find name t
  end.

(** src/preprocessor/macro_expander.c:68-70 (define_map_get). *)
Definition define_map_get (t : table) (name : list Z) : res (option define) :=
  match nth_error t (bucket_of name) with
  | None => Undef
  | Some c => Ok (chain_find name c)
  end.

(** src/preprocessor/macro_expander.c:53-56: whitespace at the ends of the
    replacement list is dropped; the first assignment is made before the second. *)
Definition clear_ws (t : mtoken) : mtoken := {| k_type := k_type t; k_str := k_str t; k_ws := false; k_ws_after := k_ws_after t |}.
Definition clear_ws_after (t : mtoken) : mtoken := {| k_type := k_type t; k_str := k_str t; k_ws := k_ws t; k_ws_after := false |}.
Definition clean_def (l : list mtoken) : list mtoken :=
  match l with
  | [] => []
  | x :: t =>
      let l1 := clear_ws x :: t in
      match nth_error l1 (length l1 - 1) with
      | Some y => set_nth l1 (length l1 - 1) (clear_ws_after y)
      | None => l1
      end
  end.
Definition clean (d : define) : define :=
  {| d_name := d_name d; d_func := d_func d; d_vararg := d_vararg d; d_def := clean_def (d_def d); d_par := d_par d |}.

(** src/preprocessor/macro_expander.c:50-66 (define_map_add): overwrite the
    matching element in place, or append at the end of the chain. *)
Fixpoint chain_add (d : define) (l : list define) : list define :=
  match l with
  | [] => [d]
  | x :: t => if sv_cmp (d_name x) (d_name d) then d :: t else x :: chain_add d t
  end.
Definition define_map_add (t : table) (d : define) : res table :=
  match nth_error t (bucket_of (d_name d)) with
  | None => Undef
  | Some c => Ok (set_nth t (bucket_of (d_name d)) (chain_add (clean d) c))
  end.

(** src/preprocessor/macro_expander.c:72-80 (define_map_remove). *)
Fixpoint chain_remove (name : list Z) (l : list define) : list define :=
  match l with
  | [] => []
  | x :: t => if sv_cmp (d_name x) name then t else x :: chain_remove name t
  end.
Definition define_map_remove (t : table) (name : list Z) : res table :=
  match nth_error t (bucket_of name) with
  | None => Undef
  | Some c => Ok (set_nth t (bucket_of name) (chain_remove name c))
  end.

(** src/preprocessor/directives.c:28-36 (macro_stacks): each stack lists its
    defines, bottom first. *)
Record mstate := { tab : table; stacks : list (list define) }.
Definition minit : mstate := {| tab := table_init; stacks := [] |}.

(** src/preprocessor/directives.c:407-413 and 426-432: index of the last
    non-empty stack whose bottom element has this name. *)
Definition stack_matches (name : list Z) (s : list define) : bool :=
  match s with [] => false | d :: _ => sv_cmp (d_name d) name end.
Fixpoint find_stack (name : list Z) (i : nat) (l : list (list define)) (found : option nat) : option nat :=
  match l with
  | [] => found
  | s :: t => find_stack name (S i) t (if stack_matches name s then Some i else found)
  end.

(** src/preprocessor/directives.c:406-423 (push_macro). *)
Definition push_macro (st : mstate) (name : list Z) : res mstate :=
  let '(idx, ss) :=
    match find_stack name 0 (stacks st) None with
    | Some i => (i, stacks st)
    | None => (length (stacks st), stacks st ++ [[]])
    end in
  let* cur := define_map_get (tab st) name in
  match cur with
  | None => Ok {| tab := tab st; stacks := ss |}
  | Some d =>
      match nth_error ss idx with
      | None => Undef
      | Some s => Ok {| tab := tab st; stacks := set_nth ss idx (s ++ [d]) |}
      end
  end.

(** REMOVE_ELEMENT, src/common.h:30. *)
Fixpoint remove_nth {A} (l : list A) (i : nat) : list A :=
  match l, i with
  | [], _ => []
  | _ :: t, O => t
  | x :: t, S j => x :: remove_nth t j
  end.

(** src/preprocessor/directives.c:425-441 (pop_macro). *)
Definition pop_macro (st : mstate) (name : list Z) : res mstate :=
  match find_stack name 0 (stacks st) None with
  | None => Ok st
  | Some i =>
      match nth_error (stacks st) i with
      | None => Undef
      | Some s =>
          match nth_error s (length s - 1) with
          | None => Undef
          | Some d =>
              let* t' := define_map_add (tab st) d in
              let s' := firstn (length s - 1) s in
              Ok {| tab := t';
                    stacks := match s' with [] => remove_nth (stacks st) i | _ => set_nth (stacks st) i s' end |}
          end
      end
  end.

(** Preprocessing directives that change the table: #define, #undef
    (src/preprocessor/directives.c:542-545) and the two pragmas. *)
Inductive macro_op :=
| OpDefine (d : define) | OpUndef (name : list Z) | OpPush (name : list Z) | OpPop (name : list Z).
Definition macro_step (st : mstate) (op : macro_op) : res mstate :=
  match op with
  | OpDefine d => let* t := define_map_add (tab st) d in Ok {| tab := t; stacks := stacks st |}
  | OpUndef n => let* t := define_map_remove (tab st) n in Ok {| tab := t; stacks := stacks st |}
  | OpPush n => push_macro st n
  | OpPop n => pop_macro st n
  end.
Fixpoint macro_run (st : mstate) (l : list macro_op) : res mstate :=
  match l with
  | [] => Ok st
  | op :: t => let* st' := macro_step st op in macro_run st' t
  end.
