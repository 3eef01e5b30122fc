(** Model of repeated declarations of one identifier at file scope
    (src/parser/declaration.c:1209-1345 (parse_init_declarator),
    src/parser/function_parser.c:499-517 (parse_function)): the type in force after them,
    and which function definitions are exported. type_make_composite is
    [ExprType.composite]. Simplification: initializers and storage of objects are C53's. *)
From Verif Require Import Base Arch ExprType.
Local Open Scope list_scope.

(** A declaration with its type and whether it says static; a function definition. *)
Inductive decl := Declared (t : ty) (static : bool) | Defined (t : ty) (static : bool).
(** declaration.c:1260-1276; a definition is not compared with what came before
    (function_parser.c:502-513), and is exported unless it says static
    (declaration.c:1240). *)
Definition declare_one (prev : option ty) (d : decl) : res (ty * list bool) :=
  match d with
  | Declared t _ =>
      match prev with
      | None => Ok (t, [])
      | Some p => match composite t p with Some c => Ok (c, []) | None => Fail end
      end
  | Defined t s => Ok (t, [negb s])
  end.
Fixpoint declare_from (prev : option ty) (ds : list decl) : res (option ty * list bool) :=
  match ds with
  | [] => Ok (prev, [])
  | d :: r => let* (t, e) := declare_one prev d in let* (u, e') := declare_from (Some t) r in Ok (u, e ++ e')
  end.
Definition declarations (ds : list decl) : res (option ty * list bool) := declare_from None ds.
