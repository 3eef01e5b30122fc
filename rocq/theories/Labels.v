(** Assembly labels: interning of string literals and names, generated
    temporary labels and the text each label is printed as
    (src/codegen/rodata.c:16-83). *)
From Coq Require Import String.
From Verif Require Import Base CharTypes MacroTable.
Local Open Scope Z_scope.
Local Open Scope list_scope.

(** src/codegen/rodata.c:17-20 (enum entry_type). *)
Inductive entry_type := ENTRY_STR | ENTRY_LABEL_NAME.
Definition entry_type_eqb (a b : entry_type) : bool :=
  match a, b with ENTRY_STR, ENTRY_STR | ENTRY_LABEL_NAME, ENTRY_LABEL_NAME => true | _, _ => false end.
(** src/codegen/rodata.c:16-23 (struct entry). *)
Record entry := { e_type : entry_type; e_name : list Z; e_id : Z }.

(** The static variables of rodata.c:25-26 and of register_label
    (rodata.c:83). Simplification: the two counters are unbounded integers. *)
Record labels := { entries : list entry; tmp_label_idx : Z }.
Definition labels_init : labels := {| entries := []; tmp_label_idx := -2 |}.

(** src/codegen/rodata.c:29-34: the search loop. *)
Fixpoint entry_find (type : entry_type) (str : list Z) (l : list entry) : option Z :=
  match l with
  | [] => None
  | e :: t => if sv_cmp (e_name e) str && entry_type_eqb (e_type e) type then Some (e_id e) else entry_find type str t
  end.

(** src/codegen/rodata.c:28-44 (label_register). *)
Definition label_register (type : entry_type) (str : list Z) (s : labels) : Z * labels :=
  match entry_find type str (entries s) with
  | Some id => (id, s)
  | None =>
      let id := Z.of_nat (length (entries s)) in
      (id, {| entries := entries s ++ [{| e_type := type; e_name := str; e_id := id |}]; tmp_label_idx := tmp_label_idx s |})
  end.

(** src/codegen/rodata.c:46-48 (rodata_register), 78-80 (register_label_name). *)
Definition rodata_register := label_register ENTRY_STR.
Definition register_label_name := label_register ENTRY_LABEL_NAME.
(** src/codegen/rodata.c:82-85 (register_label). *)
Definition register_label (s : labels) : Z * labels :=
  (tmp_label_idx s, {| entries := entries s; tmp_label_idx := tmp_label_idx s - 1 |}).

(** printf's %d for a non-negative argument. *)
Fixpoint decimal_loop (fuel : nat) (n : Z) : list Z :=
  match fuel with
  | O => []
  | S k => (if n <? 10 then [] else decimal_loop k (n / 10)) ++ [48 + n mod 10]
  end.
Definition decimal (n : Z) : list Z := decimal_loop (S (Z.to_nat n)) n.

(** src/codegen/rodata.c:50-64 (rodata_get_label) with the 64-byte buffer all
    its callers pass; the text without its terminator. *)
Definition rodata_get_label (s : labels) (id : Z) : res (list Z) :=
  let* text :=
    if id <? 0 then Ok (chars ".L" ++ decimal (- id))
    else match nth_error (entries s) (Z.to_nat id) with
         | None => Undef
         | Some e =>
             match e_type e with
             | ENTRY_STR => Ok (chars ".Ls" ++ decimal id)
             | ENTRY_LABEL_NAME => Ok (e_name e)
             end
         end in
  if 64 <=? Z.of_nat (length text) then Fail else Ok text.

(** src/codegen/rodata.c:66-76 (rodata_codegen): the labelled strings emitted,
    in order. *)
Definition rodata_codegen (s : labels) : list (Z * list Z) :=
  flat_map (fun e => match e_type e with ENTRY_STR => [(e_id e, e_name e)] | ENTRY_LABEL_NAME => [] end) (entries s).

(** One registration, as the rest of the compiler can request it. *)
Inductive request := AString (str : list Z) | AName (name : list Z) | ATemporary.
Definition serve (r : request) (s : labels) : Z * labels :=
  match r with
  | AString str => rodata_register str s
  | AName name => register_label_name name s
  | ATemporary => register_label s
  end.
Fixpoint serve_all (l : list request) (s : labels) : list Z * labels :=
  match l with
  | [] => ([], s)
  | r :: t => let (id, s1) := serve r s in let (ids, s2) := serve_all t s1 in (id :: ids, s2)
  end.

(** src/parser/declaration.c:1346-1349: the label of a static local
    variable; [n] counts such variables. *)
Definition local_static_name (n : Z) (name : list Z) : list Z := chars ".LVAR" ++ decimal n ++ name.
