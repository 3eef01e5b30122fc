(** Model of the parsing of declarations: src/parser/declaration.c:213-233
    (parse_specifiers), 514-541 (ast_get_parameters), 600-912 (ast_to_type,
    parse_parameter_list, parse_function_parameters, parse_declarator),
    1187-1203 (parse_type_name), 1210-1242 (parse_init_declarator, up to the
    type of the name) and 1393-1434 (parse_declaration), with
    src/types.c:144-169 and 216-230.

    Simplifications: a token [TSize] stands for the tokens of an expression in
    an array declarator that does not start with a star; [TType] stands for the
    keywords of an arithmetic type or for a struct, union or enum specifier (how
    keywords combine is in Specifiers.v), a second one is refused; the typedef
    names in scope are given by [tdef] and stay the same while declarators are
    parsed; _Alignas and initializers are left out; types carry is_const only,
    since the compiler keeps no other qualifier. *)
From Verif Require Import Base Fuel.
Local Open Scope Z_scope.
Local Open Scope list_scope.

(** src/types.h:72-90. [Basic _ 0] is void. [Runtime None] is [*]. *)
Inductive len := Unknown | Fixed (n : Z) | Runtime (e : option Z).
Inductive ty :=
| Basic (const : bool) (n : Z)
| Pointer (const : bool) (t : ty)
| Array (const : bool) (l : len) (t : ty)
| Func (const : bool) (r : ty) (ps : list ty) (variadic : bool).

Inductive qual := QConst | QRestrict | QVolatile | QAtomic.
(** A size: an integer constant expression with its value, and whether its type
    is signed, or another expression. *)
Inductive size := Const (sg : bool) (n : Z) | Dyn (e : Z).

Inductive tok :=
| TName (s : list Z) | TLpar | TRpar | TLbrack | TRbrack | TStar | TComma | TEllipsis
| TSemi | TLbrace | TStatic | TStorage (n : Z) | TVoid | TType (n : Z)
| TQual (q : qual) | TSize (e : size).

(** struct type_qualifiers: const_n, and the sum of the other counts. *)
Record tq := { const_n : nat; other_n : nat }.
Definition no_tq : tq := {| const_n := 0; other_n := 0 |}.
Definition count (q : qual) (t : tq) : tq :=
  match q with
  | QConst => {| const_n := S (const_n t); other_n := other_n t |}
  | _ => {| const_n := const_n t; other_n := S (other_n t) |}
  end.
(** src/parser/declaration.c:600-605. *)
Definition null_tq (t : tq) : bool := (Nat.eqb (const_n t) 0 && Nat.eqb (other_n t) 0)%bool.

(** src/types.c:165-169. *)
Definition make_const (t : ty) : ty :=
  match t with
  | Basic _ n => Basic true n
  | Pointer _ t => Pointer true t
  | Array _ l t => Array true l t
  | Func _ r ps v => Func true r ps v
  end.
(** src/parser/declaration.c:608-612. *)
Definition apply_tq (t : ty) (q : tq) : ty := if Nat.eqb (const_n q) 1 then make_const t else t.
(** src/types.c:216-230. *)
Definition adjust_parameter (t : ty) : ty :=
  match t with
  | Array c _ e => if c then make_const (Pointer false e) else Pointer false e
  | Func _ _ _ _ => Pointer false t
  | _ => t
  end.

(** struct type_ast, src/parser/declaration.c:44-91; a parameter is its name,
    empty when abstract, and its type. *)
Inductive akind := AEmpty | AStar | AExpr (e : size).
Inductive ast :=
| Term (s : list Z)
| APointer (q : tq) (parent : ast)
| AArray (k : akind) (q : tq) (parent : ast)
| AFunction (ps : list (list Z * ty)) (vararg : bool) (parent : ast).

(** src/parser/declaration.c:646-688: the length. *)
Definition array_length (k : akind) : res len :=
  match k with
  | AEmpty => Ok Unknown
  | AStar => Ok (Runtime None)
  | AExpr (Const sg n) => if (sg && (n <=? 0))%bool then Fail else Ok (Fixed (wrap 64 n))
  | AExpr (Dyn e) => Ok (Runtime (Some e))
  end.

(** src/parser/declaration.c:614-705 (ast_to_type): the type and the name. *)
Fixpoint to_type (allow : bool) (t : ty) (a : ast) : res (ty * list Z) :=
  match a with
  | Term s => Ok (t, s)
  | APointer q p => to_type allow (apply_tq (Pointer false t) q) p
  | AFunction ps v p => to_type allow (Func false t (map snd ps) v) p
  | AArray k q p =>
      let* l := array_length k in
      if allow then to_type allow (apply_tq (Array false l t) q) p
      else if null_tq q then to_type allow (Array false l t) p
      else Fail
  end.
(** src/parser/declaration.c:619-620: no declarator. *)
Definition to_type_opt (allow : bool) (t : ty) (a : option ast) : res (ty * list Z) :=
  match a with Some a => to_type allow t a | None => Ok (t, []) end.

(** src/parser/declaration.c:514-541. *)
Fixpoint get_parameters (a : ast) : res (list (list Z * ty)) :=
  match a with
  | Term _ => Fail
  | APointer _ p | AArray _ _ p => get_parameters p
  | AFunction ps _ (Term _) => Ok ps
  | AFunction _ _ p => get_parameters p
  end.

(** parse_specifiers(NULL, NULL, &tq, NULL, NULL), src/parser/declaration.c:213-233. *)
Fixpoint qualifiers (q : tq) (toks : list tok) : tq * list tok :=
  match toks with
  | TQual x :: ts => qualifiers (count x q) ts
  | _ => (q, toks)
  end.

(** TACCEPT(T_KSTATIC). *)
Definition accept_static (toks : list tok) : bool * list tok :=
  match toks with TStatic :: ts => (true, ts) | _ => (false, toks) end.

(** src/parser/declaration.c:866-899: an array declarator after its bracket. *)
Definition array_suffix (toks : list tok) : res (akind * tq * list tok) :=
  let (s1, toks) := accept_static toks in
  let (q, toks) := qualifiers no_tq toks in
  let (s2, toks) := accept_static toks in
  match toks with
  | TRbrack :: ts => if (s1 || s2)%bool then Fail else Ok (AEmpty, q, ts)
  | TStar :: TRbrack :: ts => Ok (AStar, q, ts)
  | TSize e :: TRbrack :: ts => Ok (AExpr e, q, ts)
  | _ => Fail
  end.

Section Names.
(** The typedef names in scope (symbols_get_typedef). *)
Variable tdef : list Z -> option ty.

(** parse_specifiers with all five results: src/parser/declaration.c:98-233.
    [t] is the type found so far, [got] is got_ts. The result says whether a
    specifier was there at all. *)
Fixpoint specifiers (matched got : bool) (t : option ty) (q : tq) (toks : list tok)
  : res (bool * option ty * tq * list tok) :=
  match toks with
  | TVoid :: ts =>
      match t with None => specifiers true true (Some (Basic false 0)) q ts | Some _ => Fail end
  | TType n :: ts =>
      match t with None => specifiers true true (Some (Basic false n)) q ts | Some _ => Fail end
  | TName s :: ts =>
      if got then Ok (matched, t, q, toks)
      else match tdef s with
           | Some d => specifiers true true (Some d) q ts
           | None => Ok (matched, t, q, toks)
           end
  | TStatic :: ts | TStorage _ :: ts => specifiers true got t q ts
  | TQual QAtomic :: _ => Fail
  | TQual x :: ts => specifiers true got t (count x q) ts
  | _ => Ok (matched, t, q, toks)
  end.

(** src/parser/declaration.c:560-598 and 615-617: the type of the specifiers. *)
Definition base (t : option ty) (q : tq) : res ty :=
  match t with Some t => Ok (apply_tq t q) | None => Fail end.

Definition starts_typedef (toks : list tok) : bool :=
  match toks with
  | TName s :: _ => match tdef s with Some _ => true | None => false end
  | _ => false
  end.

(** has_symbols: [None] is a null pointer, [Some None] a zero, [Some (Some l)] a
    one, with the scope of the parameters [l] left open. *)
Definition symbols := option (option (list (list Z))).
(** src/parser/declaration.c:799-802. *)
Definition keep (h : symbols) (ps : list (list Z * ty)) : symbols :=
  match h with Some None => Some (Some (map fst ps)) | _ => h end.

(** src/parser/declaration.c:761-771: the end of a parameter list. *)
Definition list_end (toks : list tok) : ex (list (list Z * ty) * bool * list tok) :=
  match toks with
  | TEllipsis :: TRpar :: ts => ok ([], true, ts)
  | TRpar :: ts => ok ([], false, ts)
  | _ => Some Fail
  end.

(** src/parser/declaration.c:812-911 (parse_declarator), its loop (862-908),
    777-810 (parse_function_parameters) and 722-775 (parse_parameter_list). *)
Fixpoint declarator (fuel : nat) (h : symbols) (toks : list tok) {struct fuel}
  : ex (option ast * symbols * list tok) :=
  match fuel with
  | O => None
  | S f =>
      match toks with
      | TName s :: ts => suffixes f (Term s) h ts
      | TLpar :: ts =>
          let! r := if starts_typedef ts then ok (None, h, ts) else declarator f h ts in
          let '(o, h', ts') := r in
          match o with
          | None =>
              let! r := function_parameters f (Term []) h' ts' in
              let '(a, h'', ts'') := r in
              suffixes f a h'' ts''
          | Some a =>
              match ts' with
              | TRpar :: ts'' => suffixes f a h' ts''
              | _ => Some Fail
              end
          end
      | TStar :: ts =>
          let (q, ts') := qualifiers no_tq ts in
          let! r := declarator f h ts' in
          let '(o, h', ts'') := r in
          suffixes f (APointer q (match o with Some a => a | None => Term [] end)) h' ts''
      | TLbrack :: _ => suffixes f (Term []) h toks
      | _ => ok (None, h, toks)
      end
  end
with suffixes (fuel : nat) (a : ast) (h : symbols) (toks : list tok) {struct fuel}
  : ex (option ast * symbols * list tok) :=
  match fuel with
  | O => None
  | S f =>
      match toks with
      | TLbrack :: ts =>
          match array_suffix ts with
          | Ok (k, q, ts') => suffixes f (AArray k q a) h ts'
          | Fail => Some Fail
          | Undef => Some Undef
          end
      | TLpar :: ts =>
          let! r := function_parameters f a h ts in
          let '(a', h', ts') := r in
          suffixes f a' h' ts'
      | _ => ok (Some a, h, toks)
      end
  end
with function_parameters (fuel : nat) (a : ast) (h : symbols) (toks : list tok) {struct fuel}
  : ex (ast * symbols * list tok) :=
  match fuel with
  | O => None
  | S f =>
      match toks with
      | TRpar :: ts => ok (AFunction [] true a, h, ts)
      | TVoid :: TRpar :: ts => ok (AFunction [] false a, h, ts)
      | _ =>
          let! r := parameter_list f toks in
          let '(ps, v, ts) := r in
          ok (AFunction ps v a, keep h ps, ts)
      end
  end
with parameter_list (fuel : nat) (toks : list tok) {struct fuel}
  : ex (list (list Z * ty) * bool * list tok) :=
  match fuel with
  | O => None
  | S f =>
      match specifiers false false None no_tq toks with
      | Ok (false, _, _, ts) => list_end ts
      | Ok (true, t, q, ts) =>
          let! r := declarator f None ts in
          let '(o, _, ts') := r in
          let! (pt, name) := Some (let* b := base t q in to_type_opt true b o) in
          let p := (name, adjust_parameter pt) in
          match ts' with
          | TRpar :: ts'' => ok ([p], false, ts'')
          | TComma :: ts'' =>
              let! r := parameter_list f ts'' in
              let '(ps, v, rest) := r in
              ok (p :: ps, v, rest)
          | _ => Some Fail
          end
      | Fail => Some Fail
      | Undef => Some Undef
      end
  end.

(** src/parser/declaration.c:1187-1203 (parse_type_name). *)
Definition type_name (fuel : nat) (toks : list tok) : ex (option ty * list tok) :=
  match specifiers false false None no_tq toks with
  | Ok (false, _, _, ts) => ok (None, ts)
  | Ok (true, t, q, ts) =>
      let! r := declarator fuel None ts in
      let '(o, _, ts') := r in
      let! (t', name) := Some (let* b := base t q in to_type_opt false b o) in
      match name with [] => ok (Some t', ts') | _ => Some Fail end
  | Fail => Some Fail
  | Undef => Some Undef
  end.

(** What a declaration does: it gives names their types, in order, and may end
    with the definition of a function: its parameters, and the names of the
    parameters that the body sees. *)
Record definition := { f_params : list (list Z * ty); f_visible : list (list Z) }.

(** src/parser/declaration.c:1210-1242 (parse_init_declarator) in the loop of
    1425-1428: the comma is taken when it is there. *)
Fixpoint init_declarators (fuel : nat) (b : res ty) (toks : list tok) {struct fuel}
  : ex (list (list Z * ty) * option definition * list tok) :=
  match fuel with
  | O => None
  | S f =>
      let! r := declarator f (Some None) toks in
      let '(o, h, ts) := r in
      match o with
      | None =>
          match ts with TSemi :: ts' => ok ([], None, ts') | _ => Some Fail end
      | Some a =>
          let! (t, name) := Some (let* b := b in to_type false b a) in
          match name with
          | [] => Some Fail
          | _ =>
              match ts with
              | TLbrace :: _ =>
                  let! ps := Some (get_parameters a) in
                  ok ([(name, t)],
                      Some {| f_params := ps;
                              f_visible := match h with Some (Some l) => l | _ => [] end |}, ts)
              | _ =>
                  let! r := init_declarators f b
                              match ts with TComma :: ts' => ts' | _ => ts end in
                  let '(l, d, rest) := r in
                  ok ((name, t) :: l, d, rest)
              end
          end
      end
  end.

(** src/parser/declaration.c:1393-1434 (parse_declaration); [None] when no
    declaration is there. _Static_assert is left out. *)
Definition declaration (fuel : nat) (toks : list tok)
  : ex (option (list (list Z * ty) * option definition) * list tok) :=
  match specifiers false false None no_tq toks with
  | Ok (false, _, _, ts) => ok (None, ts)
  | Ok (true, t, q, ts) =>
      let! r := init_declarators fuel (base t q) ts in
      let '(l, d, rest) := r in
      ok (Some (l, d), rest)
  | Fail => Some Fail
  | Undef => Some Undef
  end.
End Names.
