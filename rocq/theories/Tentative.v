(** Model of how objects with static storage duration are defined:
    src/parser/declaration.c:1204-1455 (parse_init_declarator for objects,
    generate_tentative_definitions) and src/codegen/rodata.c:87-106. *)
From Coq Require Import String.
From Verif Require Import Base CharTypes MacroTable Labels.
Local Open Scope Z_scope.
Local Open Scope list_scope.

(** The types of objects, as far as type_make_composite tells them apart:
    [TComplete] stands for any type that is not an array, types being compared
    by address; the element type is a number as well. *)
Inductive otype :=
| TComplete (t : Z)
| TArray (elem len : Z)
| TIncomplete (elem : Z).
Definition otype_eqb (a b : otype) : bool :=
  match a, b with
  | TComplete s, TComplete t => s =? t
  | TArray e n, TArray f k => (e =? f) && (n =? k)
  | TIncomplete e, TIncomplete f => e =? f
  | _, _ => false
  end.

(** src/types.c:435-464 (type_make_composite), object types. *)
Definition composite (a b : otype) : option otype :=
  if otype_eqb a b then Some a
  else match a, b with
       | TArray _ _, TIncomplete _ => Some a
       | TIncomplete _, TArray _ _ => Some b
       | _, _ => None
       end.

(** An initializer: what it is, and the number of array elements it gives. *)
Record initializer := { i_id : Z; i_length : Z }.
(** src/parser/declaration.c:942-950, 1141-1159: an array of unknown length
    is completed by its initializer. *)
Definition complete_by (t : otype) (i : initializer) : otype :=
  match t with TIncomplete e => TArray e (i_length i) | _ => t end.

(** One init-declarator of an object with its storage class specifier. *)
Inductive storage := NoClass | Static | Extern.
Record declaration := {
  d_name : list Z; d_storage : storage; d_type : otype; d_init : option initializer; d_align : Z }.
Definition is_static (d : declaration) : bool := match d_storage d with Static => true | _ => false end.
Definition is_extern (d : declaration) : bool := match d_storage d with Extern => true | _ => false end.

(** At file scope, or in a block (parameter external). *)
Inductive event := AtFile (d : declaration) | InBlock (d : declaration).

(** src/parser/symbols.h:22-46 (struct symbol_identifier). *)
Record symbol := { s_type : otype; s_global : bool; s_tentative : bool; s_defined : bool; s_align : Z }.
(** src/codegen/rodata.c:87-93 (struct static_var). *)
Record static_var := {
  v_label : list Z; v_type : otype; v_init : option initializer; v_global : bool; v_align : Z }.

(** The symbols of file scope (src/parser/symbols.c), potentially_tentative,
    static_vars and local_var. *)
Record state := { symbols : list (list Z * symbol); tentative : list (list Z); vars : list static_var; local_var : Z }.
Definition start : state := {| symbols := []; tentative := []; vars := []; local_var := 0 |}.

Fixpoint lookup (x : list Z) (l : list (list Z * symbol)) : option symbol :=
  match l with
  | [] => None
  | (y, s) :: l => if sv_cmp y x then Some s else lookup x l
  end.
(** Writing through the pointer to a symbol, which is added if it is new. *)
Definition set_symbol (x : list Z) (s : symbol) (l : list (list Z * symbol)) : list (list Z * symbol) := (x, s) :: l.

(** src/parser/declaration.c:1246-1367 at file scope. *)
Definition declare (d : declaration) (st : state) : res state :=
  let x := d_name d in
  let previous := lookup x (symbols st) in
  let prev_definition := match previous with Some s => s_defined s | None => false end in
  let* type :=
    match previous with
    | Some s => match composite (d_type d) (s_type s) with Some t => Ok t | None => Fail end
    | None => Ok (d_type d)
    end in
  let has_init := match d_init d with Some _ => true | None => false end in
  if is_extern d && has_init then Fail
  else
    let is_global := negb (is_static d) in
    let has_definition := negb (is_extern d) && has_init in
    let is_tentative := negb (is_extern d) && negb has_init in
    let flags :=
      match previous with
      | Some s =>
          if prev_definition
          then (s_global s, if negb is_tentative && has_definition then false else s_tentative s, s_defined s)
          else (is_global, is_tentative, has_definition)
      | None => (is_global, is_tentative, has_definition)
      end in
    let names := if is_tentative && negb prev_definition then tentative st ++ [x] else tentative st in
    let type := match d_init d with Some i => complete_by type i | None => type end in
    let symbol := {| s_type := type; s_global := fst (fst flags); s_tentative := snd (fst flags); s_defined := snd flags;
                     s_align := d_align d |} in
    let more :=
      if has_definition
      then [{| v_label := x; v_type := type; v_init := d_init d; v_global := is_global; v_align := d_align d |}] else [] in
    Ok {| symbols := set_symbol x symbol (symbols st); tentative := names; vars := vars st ++ more;
          local_var := local_var st |}.

(** src/parser/declaration.c:1348: the label of a static object of a block. *)
Definition local_label (n : Z) (x : list Z) : list Z := chars ".LVAR" ++ decimal n ++ x.

(** src/parser/declaration.c:1246-1398 in a block. The symbol is in the
    block's own scope: the symbols of file scope are not touched.
    Simplification: redeclarations within one block are not related to each
    other. *)
Definition declare_in_block (d : declaration) (st : state) : res state :=
  let has_init := match d_init d with Some _ => true | None => false end in
  if is_extern d && has_init then Fail
  else if negb (is_extern d) && is_static d then
    let type := match d_init d with Some i => complete_by (d_type d) i | None => d_type d end in
    Ok {| symbols := symbols st; tentative := tentative st;
          vars := vars st ++ [{| v_label := local_label (local_var st) (d_name d); v_type := type; v_init := d_init d;
                                 v_global := false; v_align := d_align d |}];
          local_var := local_var st + 1 |}
  else Ok st.

Definition step (e : event) (st : state) : res state :=
  match e with AtFile d => declare d st | InBlock d => declare_in_block d st end.
Fixpoint run (l : list event) (st : state) : res state :=
  match l with
  | [] => Ok st
  | e :: l => let* st := step e st in run l st
  end.

(** src/parser/declaration.c:1443-1455 (generate_tentative_definitions). *)
Fixpoint generate (names : list (list Z)) (syms : list (list Z * symbol)) (vs : list static_var) : list static_var :=
  match names with
  | [] => vs
  | x :: names =>
      match lookup x syms with
      | Some s =>
          if s_tentative s then
            let s' := {| s_type := s_type s; s_global := s_global s; s_tentative := false; s_defined := s_defined s;
                         s_align := s_align s |} in
            generate names (set_symbol x s' syms)
              (vs ++ [{| v_label := x; v_type := s_type s; v_init := None; v_global := s_global s; v_align := s_align s |}])
          else generate names syms vs
      | None => generate names syms vs
      end
  end.

(** src/parser/parser.c:89-96 (parse_into_ir): the objects registered for
    one translation unit. *)
Definition translation_unit (l : list event) : res (list static_var) :=
  let* st := run l start in Ok (generate (tentative st) (symbols st) (vars st)).
