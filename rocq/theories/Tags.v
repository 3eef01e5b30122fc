(** Model of struct, union and enum specifiers (src/parser/declaration.c:274-340
    (parse_enum), 342-512 (parse_struct)) and of the scopes around them, as far as tags
    are concerned: which type a specifier denotes and which members it gives a type.

    Simplifications: the symbol table is a stack of scopes (C25 proves that it behaves as
    one); of the list of members or enumerators only the specifiers in it are kept, in
    their order, so a member is the type its specifier denotes; a specifier without a tag
    gets a new type and no entry (its invented tag cannot be written); attributes,
    packing and layout (Layout.v) are left out. *)
From Verif Require Import Base.
Local Open Scope Z_scope.
Local Open Scope list_scope.

Inductive kind := KStruct | KUnion | KEnum.
Definition kind_eqb (a b : kind) : bool :=
  match a, b with KStruct, KStruct | KUnion, KUnion | KEnum, KEnum => true | _, _ => false end.
Definition name := list Z.
Definition name_eqb (a b : name) : bool := if list_eq_dec Z.eq_dec a b then true else false.

(** struct tag, and struct tag { ... } with or without tag. *)
Inductive spec := Mention (k : kind) (n : name) | Define (k : kind) (tag : option name) (body : specs)
with specs := Nil | Cons (s : spec) (r : specs).

(** The type of a specifier: int for enumerations (declaration.c:323, 337). *)
Inductive den := DInt | DTag (k : kind) (id : nat).
Definition den_of (k : kind) (id : nat) : den := match k with KEnum => DInt | _ => DTag k id end.

(** struct symbol_struct of each scope, innermost first; the number of the next
    struct_data or enum_data (src/types.c: register_struct, register_enum); the members of
    complete types. *)
Definition scope := list (name * (kind * nat)).
Record state := { scopes : list scope; next : nat; members : nat -> option (list den) }.

Fixpoint find_tag (n : name) (s : scope) : option (kind * nat) :=
  match s with [] => None | (m, e) :: r => if name_eqb m n then Some e else find_tag n r end.
(** src/parser/symbols.c:219-227 (symbols_get_struct, symbols_get_struct_in_current_scope). *)
Definition get_here (n : name) (st : state) : option (kind * nat) := match scopes st with [] => None | s :: _ => find_tag n s end.
Fixpoint get_in (n : name) (l : list scope) : option (kind * nat) :=
  match l with [] => None | s :: r => match find_tag n s with Some e => Some e | None => get_in n r end end.
Definition get (n : name) (st : state) : option (kind * nat) := get_in n (scopes st).

(** symbols.c:215-217 (symbols_add_struct) followed by register_struct or register_enum. *)
Definition add (n : name) (k : kind) (st : state) : nat * state :=
  (next st, {| scopes := match scopes st with [] => [] | s :: r => ((n, (k, next st)) :: s) :: r end;
               next := S (next st); members := members st |}).
Definition set_members (id : nat) (ms : list den) (st : state) : state :=
  {| scopes := scopes st; next := next st; members := fun i => if Nat.eqb i id then Some ms else members st i |}.
(** The data is written; is_complete is set for struct and union only
    (declaration.c:319-321, 463-473). *)
Definition complete (k : kind) (id : nat) (ms : list den) (st : state) : state :=
  match k with KEnum => st | _ => set_members id ms st end.

Fixpoint spec_type (sp : spec) (st : state) : res (den * state) :=
  match sp with
  | Mention k n =>
      (** declaration.c:326-339, 485-509 *)
      match get n st with
      | None => let (id, st1) := add n k st in Ok (den_of k id, st1)
      | Some (k', id) => if kind_eqb k' k then Ok (den_of k id, st) else Fail
      end
  | Define k tag body =>
      (** declaration.c:292-325, 363-483 *)
      let* (ms, st1) := specs_types body st in
      match tag with
      | None => Ok (den_of k (next st1), complete k (next st1) ms {| scopes := scopes st1; next := S (next st1); members := members st1 |})
      | Some n =>
          match get_here n st1 with
          | Some (k', id) =>
              if negb (kind_eqb k' k) then Fail
              else match members st1 id with Some _ => Fail | None => Ok (den_of k id, complete k id ms st1) end
          | None => let (id, st2) := add n k st1 in Ok (den_of k id, complete k id ms st2)
          end
      end
  end
with specs_types (l : specs) (st : state) : res (list den * state) :=
  match l with
  | Nil => Ok ([], st)
  | Cons s r => let* (d, st1) := spec_type s st in let* (ds, st2) := specs_types r st1 in Ok (d :: ds, st2)
  end.

(** What a program does with tags: blocks, declarations with declarators, and
    declarations that consist of a tag only, which are treated alike. *)
Inductive item := Open | Close | Declare (s : spec) | Alone (k : kind) (n : name).
Definition item_run (i : item) (st : state) : res (list den * state) :=
  match i with
  | Open => Ok ([], {| scopes := [] :: scopes st; next := next st; members := members st |})
  | Close => match scopes st with
             | _ :: (_ :: _) as r => Ok ([], {| scopes := tl (scopes st); next := next st; members := members st |})
             | _ => Undef
             end
  | Declare s => let* (d, st1) := spec_type s st in Ok ([d], st1)
  | Alone k n => let* (d, st1) := spec_type (Mention k n) st in Ok ([d], st1)
  end.
Fixpoint items_run (l : list item) (st : state) : res (list den * state) :=
  match l with
  | [] => Ok ([], st)
  | i :: r => let* (a, st1) := item_run i st in let* (b, st2) := items_run r st1 in Ok (a ++ b, st2)
  end.
Definition start : state := {| scopes := [[]]; next := 0; members := fun _ => None |}.
