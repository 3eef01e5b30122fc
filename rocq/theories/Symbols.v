(** The symbol table of the parser (src/parser/symbols.c). An index into the table is a
    [nat], a negative one is [None]. The payload of an entry (identifier_data,
    struct_data, typedef_data) is an abstract value. Growing the array (ADD_ELEMENT) is
    appending to the list. *)
From Verif Require Import Base Types MacroTable.

(** src/parser/symbols.c:12-19 (struct entry_id). *)
Inductive kind := ENTRY_TYPEDEF | ENTRY_STRUCT | ENTRY_IDENTIFIER.
Definition kind_number (k : kind) : Z := match k with ENTRY_TYPEDEF => 0 | ENTRY_STRUCT => 1 | ENTRY_IDENTIFIER => 2 end.
Definition entry_id := (kind * list Z)%type.
(** src/parser/symbols.c:21-31 (struct table_entry). *)
Record entry := { id : entry_id; data : Z; block : nat; link : option nat }.
(** src/parser/symbols.c:33-43: the static variables. *)
Record symtab := { heads : list (option nat); entries : list entry; current_block : nat }.

(** src/parser/symbols.c:45-47 (hash_entry), modulo hash_table.size. *)
Definition bucket (i : entry_id) : nat := Z.to_nat (Z.lxor (hash32 (kind_number (fst i))) (sv_hash (snd i)) mod 1024).
(** src/parser/symbols.c:49-51 (compare_entry). *)
Definition compare_entry (a b : entry_id) : bool := (kind_number (fst a) =? kind_number (fst b)) && sv_cmp (snd a) (snd b).

(** src/parser/symbols.c:53-55 (symbols_push_scope). *)
Definition push_scope (st : symtab) : symtab := {| heads := heads st; entries := entries st; current_block := S (current_block st) |}.
(** src/parser/symbols.c:57-70 (symbols_pop_scope): [n] is i + 1. Leaving the outermost
    scope makes current_block negative, which is outside of the model. *)
Fixpoint pop_loop (n : nat) (es : list entry) (hd : list (option nat)) (cb : nat) : res (nat * list (option nat)) :=
  match n with
  | O => Ok (O, hd)
  | S i => match nth_error es i with
           | None => Undef
           | Some e => if (block e <=? cb)%nat then Ok (n, hd) else pop_loop i es (set_nth hd (bucket (id e)) (link e)) cb
           end
  end.
Definition pop_scope (st : symtab) : res symtab :=
  match current_block st with
  | O => Undef
  | S cb => let* (n, hd) := pop_loop (length (entries st)) (entries st) (heads st) cb in
            Ok {| heads := hd; entries := firstn n (entries st); current_block := cb |}
  end.

(** src/parser/symbols.c:72-86 (get_entry). Fuel bounds the walk along a chain. *)
Fixpoint walk (fuel : nat) (i : entry_id) (global : bool) (es : list entry) (cur : option nat) : res (option nat) :=
  match cur with
  | None => Ok None
  | Some q =>
      match fuel with
      | O => Undef
      | S f => match nth_error es q with
               | None => Undef
               | Some e => if compare_entry (id e) i && negb (global && negb (Nat.eqb (block e) 0)) then Ok (Some q) else walk f i global es (link e)
               end
      end
  end.
Definition get_entry (st : symtab) (i : entry_id) (global : bool) : res (option (nat * entry)) :=
  match nth_error (heads st) (bucket i) with
  | None => Undef
  | Some h => let* r := walk (length (entries st)) i global (entries st) h in
              match r with
              | None => Ok None
              | Some q => match nth_error (entries st) q with Some e => Ok (Some (q, e)) | None => Undef end
              end
  end.

(** src/parser/symbols.c:92-109: the loop moving entries; [n] is i + 1. *)
Definition with_link (e : entry) (l : option nat) : entry := {| id := id e; data := data e; block := block e; link := l |}.
Definition with_data (e : entry) (d : Z) : entry := {| id := id e; data := d; block := block e; link := link e |}.
Fixpoint shift_loop (n : nat) (b : nat) (es : list entry) (hd : list (option nat)) : res (nat * list entry * list (option nat)) :=
  match n with
  | O => Ok (O, es, hd)
  | S i =>
      match nth_error es i with
      | None => Undef
      | Some e =>
          if (b <? block e)%nat then
            match nth_error hd (bucket (id e)) with
            | None => Undef
            | Some h =>
                let hd1 := match h with Some j => if Nat.eqb j i then set_nth hd (bucket (id e)) (Some (S j)) else hd | None => hd end in
                let* l :=
                  match link e with
                  | None => Ok None
                  | Some j => match nth_error es j with
                              | None => Undef
                              | Some t => Ok (Some (if (b <? block t)%nat then S j else j))
                              end
                  end in
                shift_loop i b (set_nth (set_nth es i (with_link e l)) n (with_link e l)) hd1
            end
          else Ok (n, es, hd)
      end
  end.
(** src/parser/symbols.c:112-117: where the link to be changed is kept. *)
Inductive place := InHead | InEntry (q : nat).
Fixpoint find_link (fuel : nat) (p : nat) (es : list entry) (at_ : place) (v : option nat) : res (place * option nat) :=
  match v with
  | Some q =>
      if (p <? q)%nat then
        match fuel with
        | O => Undef
        | S f => match nth_error es q with None => Undef | Some e => find_link f p es (InEntry q) (link e) end
        end
      else Ok (at_, v)
  | None => Ok (at_, v)
  end.
(** src/parser/symbols.c:88-129 (add_entry_with_block). *)
Definition blank_entry : entry := {| id := (ENTRY_TYPEDEF, []); data := 0; block := 0; link := None |}.
Definition add_entry_with_block (st : symtab) (i : entry_id) (d : Z) (b : nat) : res symtab :=
  let* (p, es, hd) := shift_loop (length (entries st)) b (entries st ++ [blank_entry]) (heads st) in
  match nth_error hd (bucket i) with
  | None => Undef
  | Some h =>
      let* (at_, v) := find_link (length es) p es InHead h in
      let es1 := set_nth es p {| id := i; data := d; block := b; link := v |} in
      match at_ with
      | InHead => Ok {| heads := set_nth hd (bucket i) (Some p); entries := es1; current_block := current_block st |}
      | InEntry q => match nth_error es1 q with
                     | None => Undef
                     | Some e => Ok {| heads := hd; entries := set_nth es1 q (with_link e (Some p)); current_block := current_block st |}
                     end
      end
  end.
(** src/parser/symbols.c:131-146 (add_entry). *)
Definition add_entry (st : symtab) (i : entry_id) (d : Z) : res symtab :=
  match nth_error (heads st) (bucket i) with
  | None => Undef
  | Some h => Ok {| heads := set_nth (heads st) (bucket i) (Some (length (entries st)));
                    entries := entries st ++ [{| id := i; data := d; block := current_block st; link := h |}];
                    current_block := current_block st |}
  end.
(** src/parser/symbols.c:149-156 (symbols_add). *)
Definition symbols_add (st : symtab) (i : entry_id) (d : Z) : res symtab :=
  let* r := get_entry st i false in
  match r with
  | Some (_, e) => if Nat.eqb (block e) (current_block st) then Fail else add_entry st i d
  | None => add_entry st i d
  end.
Definition set_data (st : symtab) (q : nat) (e : entry) (d : Z) : symtab :=
  {| heads := heads st; entries := set_nth (entries st) q (with_data e d); current_block := current_block st |}.
(** src/parser/symbols.c:230-238 (symbols_add_typedef) and the assignment to data_type
    by its callers (src/parser/declaration.c:1256, src/abi/sysv.c:545). *)
Definition symbols_add_typedef (st : symtab) (name : list Z) (d : Z) : res symtab :=
  let* r := get_entry st (ENTRY_TYPEDEF, name) false in
  match r with
  | Some (q, e) => if Nat.eqb (block e) (current_block st) then Ok (set_data st q e d) else add_entry st (ENTRY_TYPEDEF, name) d
  | None => add_entry st (ENTRY_TYPEDEF, name) d
  end.
(** src/parser/symbols.c:169-177 (symbols_add_identifier): an anonymous identifier is
    not entered. *)
Definition symbols_add_identifier (st : symtab) (name : list Z) (d : Z) : res symtab :=
  match name with [] => Ok st | _ => symbols_add st (ENTRY_IDENTIFIER, name) d end.
(** src/parser/symbols.c:189-198 (symbols_add_identifier_global). *)
Definition symbols_add_identifier_global (st : symtab) (name : list Z) (d : Z) : res symtab :=
  let* r := get_entry st (ENTRY_IDENTIFIER, name) true in
  match r with
  | Some (_, e) => if Nat.eqb (block e) (current_block st) then Fail else add_entry_with_block st (ENTRY_IDENTIFIER, name) d 0
  | None => add_entry_with_block st (ENTRY_IDENTIFIER, name) d 0
  end.
(** src/parser/function_parser.c:502-513 (parse_function): the symbol of a function
    definition. *)
Definition define_function (st : symtab) (name : list Z) (d : Z) : res symtab :=
  let* r := get_entry st (ENTRY_IDENTIFIER, name) true in
  match r with
  | Some (q, e) => Ok (set_data st q e d)
  | None => symbols_add_identifier_global st name d
  end.

(** src/parser/symbols.c:158-166, 179-187, 200-203, 214-228, 240-243: the queries. *)
Definition symbols_get (st : symtab) (i : entry_id) : res (option Z) :=
  let* r := get_entry st i false in Ok (match r with Some (_, e) => Some (data e) | None => None end).
Definition symbols_get_in_current_scope (st : symtab) (i : entry_id) : res (option Z) :=
  let* r := get_entry st i false in
  Ok (match r with Some (_, e) => if Nat.eqb (block e) (current_block st) then Some (data e) else None | None => None end).
Definition symbols_get_identifier_global (st : symtab) (name : list Z) : res (option Z) :=
  let* r := get_entry st (ENTRY_IDENTIFIER, name) true in Ok (match r with Some (_, e) => Some (data e) | None => None end).

(** src/parser/symbols.c:246-251 (symbols_init). *)
Definition symbols_init : symtab := {| heads := repeat None 1024; entries := []; current_block := 0 |}.

(** Calls of the interface. *)
Inductive call :=
| Enter | Leave
| AddIdentifier (name : list Z) (d : Z) | AddStruct (name : list Z) (d : Z) | AddTypedef (name : list Z) (d : Z)
| DefineFunction (name : list Z) (d : Z)
| Get (k : kind) (name : list Z) | GetHere (k : kind) (name : list Z) | GetGlobal (name : list Z).
(** The state after a call and what it returns. *)
Definition symbols_call (st : symtab) (c : call) : res (symtab * option Z) :=
  match c with
  | Enter => Ok (push_scope st, None)
  | Leave => let* st' := pop_scope st in Ok (st', None)
  | AddIdentifier n d => let* st' := symbols_add_identifier st n d in Ok (st', None)
  | AddStruct n d => let* st' := symbols_add st (ENTRY_STRUCT, n) d in Ok (st', None)
  | AddTypedef n d => let* st' := symbols_add_typedef st n d in Ok (st', None)
  | DefineFunction n d => let* st' := define_function st n d in Ok (st', None)
  | Get k n => let* r := symbols_get st (k, n) in Ok (st, r)
  | GetHere k n => let* r := symbols_get_in_current_scope st (k, n) in Ok (st, r)
  | GetGlobal n => let* r := symbols_get_identifier_global st n in Ok (st, r)
  end.
Fixpoint symbols_run (st : symtab) (l : list call) : res (list (option Z)) :=
  match l with
  | [] => Ok []
  | c :: r => let* (st', o) := symbols_call st c in let* os := symbols_run st' r in Ok (o :: os)
  end.
