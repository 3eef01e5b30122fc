(** Model of enumerator lists: src/parser/declaration.c:235-270 (parse_enumerator) and the
    loop of 274-298 (parse_enum), src/arch/x64.c:299-306 (constant_increment).

    Simplifications: an [=] and the expression after it are one token, the expression
    being given as a tree; expressions are built from integer constants, identifiers,
    unary and binary operators, casts and ?: (as which the parser builds !, && and ||,
    src/parser/expression.c:544-548, 822-837); the only identifiers are enumeration
    constants; of the scopes only the current one and all the others are told apart. *)
From Verif Require Import Base Arch ConstConv ConstFold ArithConv CExprSpec CExpr.
Local Open Scope Z_scope.
Local Open Scope list_scope.

Definition name := list Z.
Definition name_eqb (a b : name) : bool := if list_eq_dec Z.eq_dec a b then true else false.
(** struct constant of a simple type: its type and bits. *)
Definition constant := (simple_type * Z)%type.
Inductive init :=
| ILit (t : simple_type) (v : Z)
| IName (n : name)
| IBin (op : operator_type) (a b : init)
| IUn (op : unary_operator_type) (a : init)
| ICast (t : simple_type) (a : init)
| ICond (c a b : init).
Inductive etok := EName (n : name) | EIs (e : init) | EComma | EEnd.

Record scope := { here : list (name * constant); outside : list (name * constant) }.
Fixpoint find_in (n : name) (l : list (name * constant)) : option constant :=
  match l with [] => None | (k, c) :: r => if name_eqb k n then Some c else find_in n r end.
Definition lookup (n : name) (s : scope) : option constant :=
  match find_in n (here s) with Some c => Some c | None => find_in n (outside s) end.
(** src/parser/symbols.c:145-176 (symbols_add, symbols_add_identifier). *)
Definition add_constant (n : name) (c : constant) (s : scope) : res scope :=
  match find_in n (here s) with
  | Some _ => Fail
  | None => Ok {| here := (n, c) :: here s; outside := outside s |}
  end.

(** src/parser/expression.c:616-620 for names, 404-470 (expr_new) for operators,
    233-272 (cast_conditional), 1014-1032 and 1099-1116 (constant_is_zero) for ?:. A
    ?: that is not folded makes the whole expression no constant, and is refused at
    once here. *)
Fixpoint tree (m : abi) (s : scope) (e : init) : res texpr :=
  match e with
  | ILit t v => Ok (TConst t (wrap 64 v))
  | IName n => match lookup n s with Some (t, b) => Ok (TConst t b) | None => Fail end
  | IBin op a b =>
      let* a := tree m s a in
      let* b := tree m s b in
      let* a := promote m a in
      let* b := promote m b in
      let* r := fix_binary_operator m op a b in
      fold_constant m (TBin op (fst r) (snd r))
  | IUn op a => let* a := tree m s a in let* a := promote m a in fold_constant m (TUn op a)
  | ICast t a => let* a := tree m s a in expression_cast m a t
  | ICond c a b =>
      let* c := tree m s c in
      let* a := tree m s a in
      let* b := tree m s b in
      let* c := promote m c in
      let* a := promote m a in
      let* b := promote m b in
      let* r := if st_eqb (type_of a) (type_of b) then Ok (a, b) else convert_arithmetic m a b in
      match c, r with
      | TConst _ x, (TConst ta ba, TConst tb bb) => Ok (if x =? 0 then TConst tb bb else TConst ta ba)
      | _, _ => Fail
      end
  end.
(** src/parser/expression.c:1095-1097 (expression_to_constant), declaration.c:243-252. *)
Definition initial (m : abi) (s : scope) (e : init) : res constant :=
  let* t := tree m s e in match t with TConst t b => Ok (t, b) | _ => Fail end.
(** src/arch/x64.c:299-306; the increment of the largest int64_t is undefined. *)
Definition constant_increment (c : constant) : res constant :=
  let (t, b) := c in
  if negb (st_is_integer t) then Fail else
  let* s := is_signed t in
  if negb s then Fail else
  let* v := i64 (int_d b + 1) in Ok (t, wrap 64 v).

(** declaration.c:253-258 *)
Definition implicit (first : bool) (prev : constant) : res constant :=
  if first then Ok (ST_INT, wrap 64 0) else constant_increment prev.

(** parse_enumerator, called while it returns 1 (declaration.c:292-296). *)
Fixpoint enumerators (m : abi) (first : bool) (prev : constant) (s : scope) (toks : list etok) : res (scope * list etok) :=
  match toks with
  | EName n :: EIs e :: r =>
      let* val := initial m s e in
      let* s1 := add_constant n val s in
      match r with EComma :: r2 => enumerators m false val s1 r2 | _ => Ok (s1, r) end
  | EName n :: r =>
      let* val := implicit first prev in
      let* s1 := add_constant n val s in
      match r with EComma :: r2 => enumerators m false val s1 r2 | _ => Ok (s1, r) end
  | _ => Ok (s, toks)
  end.
(** The list and its closing brace. *)
Definition enum_list (m : abi) (s : scope) (toks : list etok) : res (scope * list etok) :=
  let* (s1, r) := enumerators m true (ST_INT, 0) s toks in
  match r with EEnd :: r2 => Ok (s1, r2) | _ => Fail end.
