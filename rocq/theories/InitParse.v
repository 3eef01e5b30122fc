(** Model of the parsing of initializers: src/parser/declaration.c:912-1177,
    with src/types.c:186-213 (type_search_member), 301-313 (type_select) and
    375-379 (type_is_aggregate).

    Simplifications: a token [TExpr] stands for the tokens of one assignment
    expression that is not a string literal; array designators are not
    truncated to int; types are complete, apart from arrays of unknown length,
    and do not depend on run time values; a leaf of the result holds the
    expression, the type it is converted to is that of its place. *)
From Coq Require Import String.
From Verif Require Import Base Fuel.
Local Open Scope Z_scope.
Local Open Scope list_scope.

(** The element types that string literals care for, and the others
    (src/types.h:9-25, enum simple_type, and pointers). *)
Inductive kind := KChar | KSchar | KUchar | KInt | KUshort | KUint | KOther (n : Z).
Definition kind_eqb (a b : kind) : bool :=
  match a, b with
  | KChar, KChar | KSchar, KSchar | KUchar, KUchar | KInt, KInt | KUshort, KUshort | KUint, KUint => true
  | KOther n, KOther m => n =? m
  | _, _ => false
  end.

(** Types (src/types.h:72-117). [tag] identifies the struct_data, [const] is
    is_const; members have a name (empty when unnamed) and a type. *)
Inductive ty :=
| Scalar (k : kind)
| Array (n : nat) (e : ty)
| Open (e : ty)
| Record (union : bool) (tag : Z) (const : bool) (fs : list (list Z * ty)).

(** An expression: which one it is, the struct or union type it has if it has
    one (with is_const), its value if it is an integer constant. *)
Record expr := { e_id : Z; e_record : option (Z * bool); e_const : option nat }.

(** Kinds of string literals (T_STRING, T_STRING_WCHAR, T_STRING_CHAR16 and
    T_STRING_CHAR32). *)
Inductive skind := SPlain | SWide | S16 | S32.

Inductive tok :=
| TLbrace | TRbrace | TLbrack | TRbrack | TDot | TAssign | TComma | TSemi
| TIdent (name : list Z)
| TExpr (e : expr)
| TStr (k : skind) (s : list Z). (* the characters, with the final zero *)

(** What a leaf holds: INIT_EXPRESSION with an expression or a pointer to a
    string literal, or INIT_STRING. *)
Inductive value := VExpr (e : expr) | VPtr (s : list Z) | VStr (s : list Z).
(** src/parser/declaration.h:9-26 (struct initializer). *)
Inductive init := IEmpty | IBrace (l : list init) | ILeaf (v : value).

Fixpoint name_eqb (a b : list Z) : bool :=
  match a, b with
  | [], [] => true
  | x :: a, y :: b => (x =? y) && name_eqb a b
  | _, _ => false
  end.

(** src/types.c:186-213 (type_search_member): the indices from the outermost
    member to the innermost, the order in which declaration.c:1019-1022 takes
    them from the stack. *)
Fixpoint search (t : ty) (name : list Z) {struct t} : option (list nat) :=
  match t with
  | Record _ _ _ fs =>
      (fix go (l : list (list Z * ty)) (i : nat) : option (list nat) :=
         match l with
         | [] => None
         | (n, ft) :: l =>
             if name_eqb n name then Some [i]
             else match n with
                  | [] => match search ft name with Some p => Some (i :: p) | None => go l (S i) end
                  | _ => go l (S i)
                  end
         end) fs O
  | _ => None
  end.

(** src/types.c:301-313 (type_select): the fields are an array, read without
    a check. *)
Definition select (t : ty) (k : nat) : res ty :=
  match t with
  | Record _ _ _ fs => match nth_error fs k with Some f => Ok (snd f) | None => Undef end
  | Array _ e | Open e => Ok e
  | Scalar _ => Fail
  end.
Fixpoint selects (t : ty) (p : list nat) : res ty :=
  match p with
  | [] => Ok t
  | k :: p => let* t := select t k in selects t p
  end.

(** src/types.c:375-379 and src/arch/x64.c:130-133. *)
Definition is_aggregate (t : ty) : bool := match t with Scalar _ => false | _ => true end.
Definition is_scalar (t : ty) : bool := match t with Scalar _ => true | _ => false end.

(** src/parser/declaration.c:912-919 (initializer_add_entry): the list with
    room for the entry. *)
Definition add_entry (i : init) (k : nat) : res (list init) :=
  match i with
  | IBrace l => Ok (l ++ repeat IEmpty (S k - length l))
  | _ => Fail (* assertion *)
  end.
Definition entry (l : list init) (k : nat) : init := nth k l IEmpty.

(** The pointer comparison [expr->data_type != *type] (types are interned,
    src/types.c:10-72). An expression that is not a struct or union has
    another type than any aggregate. *)
Definition same_type (v : value) (t : ty) : bool :=
  match v, t with
  | VExpr e, Record _ tag const _ =>
      match e_record e with Some (tag', const') => (tag =? tag') && Bool.eqb const const' | None => false end
  | _, _ => false
  end.

(** parse_assignment_expression, as far as it matters. *)
Definition parse_assignment (l : list tok) : option value * list tok :=
  match l with
  | TExpr e :: l => (Some (VExpr e), l)
  | TStr _ s :: l => (Some (VPtr s), l)
  | _ => (None, l)
  end.

Section Wide.
Variable wide : kind. (* abi_info.wchar_type *)

(** src/parser/declaration.c:958-965 (match_string): CHAR16_TYPE is unsigned
    short, CHAR32_TYPE unsigned int (src/types.h). *)
Definition string_kind (sk : skind) (k : kind) : bool :=
  match sk with
  | SPlain => kind_eqb k KChar || kind_eqb k KUchar || kind_eqb k KSchar
  | SWide => kind_eqb k wide
  | S16 => kind_eqb k KUshort
  | S32 => kind_eqb k KUint
  end.

(** src/parser/declaration.c:926-956 (match_specific_string): type, and tokens
    after the string, when it matches. *)
Definition match_string (t : ty) (sk : skind) (s : list Z) (l : list tok) : option (ty * list tok) :=
  let after := match l with TLbrace :: _ :: _ :: l => l | _ :: l => l | [] => [] end in
  match t with
  | Array n (Scalar k) => if string_kind sk k then Some (t, after) else None
  | Open (Scalar k) => if string_kind sk k then Some (Array (length s) (Scalar k), after) else None
  | _ => None
  end.

Definition starts_designator (l : list tok) : bool :=
  match l with TLbrack :: _ | TDot :: _ => true | _ => false end.
Definition starts_rbrace (l : list tok) : bool := match l with TRbrace :: _ => true | _ => false end.
Definition starts_lbrace (l : list tok) : bool := match l with TLbrace :: _ => true | _ => false end.

(** src/parser/declaration.c:1000-1027: the designators before an [=]. *)
Fixpoint designators (cur : ty) (l : list tok) : res (list nat * list tok) :=
  match l with
  | TLbrack :: TExpr e :: TRbrack :: l =>
      match e_const e with
      | Some k => let* t := select cur k in let* (ds, l) := designators t l in Ok (k :: ds, l)
      | None => Fail
      end
  | TLbrack :: _ => Fail
  | TDot :: TIdent name :: l =>
      match search cur name with
      | Some p => let* t := selects cur p in let* (ds, l) := designators t l in Ok (p ++ ds, l)
      | None => Fail
      end
  | TDot :: _ => Fail
  | _ => Ok ([], l)
  end.

Definition lift {A} (r : res A) : ex A := Some r.

(** src/parser/declaration.c:975-989: -1 is None. *)
Definition max_members (t : ty) : res (option nat) :=
  match t with
  | Array n _ => Ok (Some n)
  | Open _ => Ok None
  | Record union _ _ fs => Ok (Some (if union then 1%nat else length fs))
  | Scalar _ => Fail
  end.

(** What lines 1110-1133 find at the start of an initializer. *)
Inductive head := HExpr (v : value) | HStr (sk : skind) (s : list Z) | HBrace | HNull.
Definition read_head (t : ty) (e : option value) (l : list tok) : ex (head * list tok) :=
  match e with
  | Some v => ok (HExpr v, l)
  | None =>
      if is_scalar t then
        match l with
        | TLbrace :: l =>
            match parse_assignment l with
            | (Some v, TRbrace :: l) => ok (HExpr v, l)
            | _ => lift Fail
            end
        | _ => match parse_assignment l with (Some v, l) => ok (HExpr v, l) | _ => lift Fail end
        end
      else
        match l with
        | TLbrace :: TStr sk s :: TRbrace :: _ => ok (HStr sk s, l)
        | TStr sk s :: _ => ok (HStr sk s, l)
        | TLbrace :: _ => ok (HBrace, l)
        | _ => match parse_assignment l with (Some v, l) => ok (HExpr v, l) | (None, l) => ok (HNull, l) end
        end
  end.

(** Lines 1159-1176: an array of unknown length gets one. *)
Definition complete (t : ty) (i : init) : res ty :=
  match t with
  | Open e => match i with IBrace l => Ok (Array (length l) e) | _ => Fail end
  | _ => Ok t
  end.

(** [initializer] is parse_initializer_recursive (1077-1177), [brace] is
    parse_brace_initializer (970-1069) and [items] its loop. Both give the
    initializer and the tokens left, the first also the type. *)
Fixpoint initializer (fuel : nat) (t : ty) (i : init) (e : option value) (inside : bool) (indices : list nat) (l : list tok)
  : ex (ty * init * list tok) :=
  match fuel with
  | O => None
  | S fuel =>
      match indices with
      | k :: indices =>
          let! sel := lift (select t k) in
          let i := match i with IEmpty => IBrace [] | _ => i end in
          let! es := lift (add_entry i k) in
          let! r := initializer fuel sel (entry es k) e inside indices l in
          let '(_, c, l) := r in
          let i := IBrace (set_nth es k c) in
          match l with
          | TComma :: l =>
              if starts_rbrace l then ok (t, i, l)
              else let! (i, l) := brace fuel t i (S k) true e l in ok (t, i, l)
          | _ => ok (t, i, l)
          end
      | [] =>
          let! (h, l) := read_head t e l in
          let elide := is_aggregate t && inside && negb (starts_lbrace l) in
          match h with
          | HNull => lift (if elide then Undef else Fail) (* expr->data_type of NULL *)
          | HExpr v =>
              if elide && negb (same_type v t) then
                let! (i, l) := brace fuel t i O true (Some v) l in ok (t, i, l)
              else if is_aggregate t && negb (same_type v t) then
                let! r := initializer fuel t i (Some v) true [] l in
                let '(t, i, l) := r in
                let! t := lift (complete t i) in ok (t, i, l)
              else let! t := lift (complete t (ILeaf v)) in ok (t, ILeaf v, l)
          | HStr sk s =>
              match match_string t sk s l with
              | Some (t, l) => let! t := lift (complete t (ILeaf (VStr s))) in ok (t, ILeaf (VStr s), l)
              | None =>
                  let! (i, l) := if starts_lbrace l then brace fuel t i O false None l
                                 else brace fuel t i O true None l in
                  let! t := lift (complete t i) in ok (t, i, l)
              end
          | HBrace =>
              let! (i, l) := brace fuel t i O false None l in
              let! t := lift (complete t i) in ok (t, i, l)
          end
      end
  end
with brace (fuel : nat) (t : ty) (i : init) (idx : nat) (inside : bool) (e : option value) (l : list tok)
  : ex (init * list tok) :=
  match fuel with
  | O => None
  | S fuel =>
      let i := match i with IEmpty => IBrace [] | _ => i end in
      let! l := match inside, l with
                | true, _ => ok l
                | false, TLbrace :: l => ok l
                | false, _ => lift Fail
                end in
      let! mx := lift (max_members t) in
      if inside && match mx with Some n => (n <=? idx)%nat | None => false end then ok (i, l)
      else items fuel t i idx inside mx e l
  end
with items (fuel : nat) (t : ty) (i : init) (idx : nat) (inside : bool) (mx : option nat) (e : option value) (l : list tok)
  : ex (init * list tok) :=
  match fuel with
  | O => None
  | S fuel =>
      if inside && starts_designator l then ok (i, l)
      else
        let! (ds, l) := lift (designators t l) in
        let! l := match ds, l with
                  | [], _ => ok l
                  | _, TAssign :: l => ok l
                  | _, _ => lift Fail
                  end in
        let idx := match ds with [] => idx | d :: _ => d end in
        let! ct := lift (select t idx) in
        let! es := lift (add_entry i idx) in
        let! r := initializer fuel ct (entry es idx) e (match ds with [] => true | _ => false end) (tl ds) l in
        let '(_, c, l) := r in
        let i := IBrace (set_nth es idx c) in
        if starts_designator l then items fuel t i idx inside mx None l
        else
          let idx := S idx in
          let finish := fun l => if inside then ok (i, l)
                                 else match l with TRbrace :: l => ok (i, l) | _ => lift Fail end in
          if inside && match mx with Some n => (idx =? n)%nat | None => false end then finish l
          else match l with
               | TComma :: l => if starts_rbrace l then finish l else items fuel t i idx inside mx None l
               | _ => finish l
               end
  end.

(** src/parser/declaration.c:1179-1183 (parse_initializer). *)
Definition parse_initializer (fuel : nat) (t : ty) (l : list tok) : ex (ty * init * list tok) :=
  initializer fuel t IEmpty None false [] l.
End Wide.
