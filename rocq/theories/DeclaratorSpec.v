(** What declarations mean in C, written from ISO/IEC 9899:2011 6.7.6 and 6.7.7:
    the grammar of declarators, how a declarator is spelled, and the type it
    gives. Shares with the model the tokens and the types only. *)
From Verif Require Import Base Declarator.
Local Open Scope Z_scope.
Local Open Scope list_scope.

(** Where an array declarator has the keyword static. *)
Inductive static := NoStatic | First | Last.
(** The size between the brackets: nothing, a star, an expression, an expression
    that starts with a star. *)
Inductive asize := NoSize | Star | Size (e : size) | Deref (e : size).
(** One specifier of a parameter or declaration. *)
Inductive spec := IVoid | IType (n : Z) | ITypedef (s : list Z) | IQual (q : qual) | IStorage (n : Z).

(** 6.7.6 and 6.7.7, declarators and abstract declarators: pointers in front of a
    direct declarator, which is a name, nothing, or a declarator in parentheses,
    followed by arrays and parameter lists. A parameter list is empty, says void,
    directly or with a name for it, or has parameters. *)
Inductive decl :=
| DPointer (q : list qual) (d : decl)
| DDirect (c : core) (l : sufs)
with core := CNone | CName (s : list Z) | CParen (d : decl)
with sufs := SNil | SArray (s : static) (q : list qual) (n : asize) (l : sufs) | SFunction (p : params) (l : sufs)
with params := PNone | PVoid | PVoidName (s : list Z) | PList (l : plist) (dots : bool)
with plist := POne (s : list spec) (d : decl) | PMore (s : list spec) (d : decl) (l : plist).

(** ** Spelling *)
Definition print_quals (q : list qual) : list tok := map TQual q.
Definition print_spec (s : spec) : tok :=
  match s with
  | IVoid => TVoid | IType n => TType n | ITypedef s => TName s | IQual q => TQual q | IStorage n => TStorage n
  end.
Definition print_size (n : asize) : list tok :=
  match n with NoSize => [] | Star => [TStar] | Size e => [TSize e] | Deref e => [TStar; TSize e] end.
Definition print_array (s : static) (q : list qual) (n : asize) : list tok :=
  match s with First => [TStatic] | _ => [] end ++ print_quals q ++
  match s with Last => [TStatic] | _ => [] end ++ print_size n.

Fixpoint print_d (d : decl) : list tok :=
  match d with
  | DPointer q d => TStar :: print_quals q ++ print_d d
  | DDirect c l => print_c c ++ print_s l
  end
with print_c (c : core) : list tok :=
  match c with
  | CNone => []
  | CName s => [TName s]
  | CParen d => TLpar :: print_d d ++ [TRpar]
  end
with print_s (l : sufs) : list tok :=
  match l with
  | SNil => []
  | SArray s q n l => TLbrack :: print_array s q n ++ TRbrack :: print_s l
  | SFunction p l => TLpar :: print_p p ++ TRpar :: print_s l
  end
with print_p (p : params) : list tok :=
  match p with
  | PNone => []
  | PVoid => [TVoid]
  | PVoidName s => [TName s]
  | PList l dots => print_l l ++ (if dots then [TComma; TEllipsis] else [])
  end
with print_l (l : plist) : list tok :=
  match l with
  | POne s d => map print_spec s ++ print_d d
  | PMore s d l => map print_spec s ++ print_d d ++ TComma :: print_l l
  end.

(** ** Meaning *)
Definition has_const (q : list qual) : bool :=
  existsb (fun q => match q with QConst => true | _ => false end) q.
(** 6.7.3p9: a qualified array type is an array of qualified elements. *)
Fixpoint qualify (t : ty) : ty :=
  match t with
  | Basic _ n => Basic true n
  | Pointer _ t => Pointer true t
  | Array c l t => Array c l (qualify t)
  | Func _ r ps v => t
  end.
Definition length_of (n : asize) : len :=
  match n with
  | NoSize => Unknown
  | Star => Runtime None
  | Size (Const _ n) => Fixed n
  | Size (Dyn e) => Runtime (Some e)
  | Deref (Const _ n) => Runtime (Some n)
  | Deref (Dyn e) => Runtime (Some e)
  end.
(** 6.7.6.3p7-8: parameters of array type become pointers, qualified as the
    brackets say, parameters of function type become pointers to them. *)
Definition adjusted (t : ty) : ty :=
  match t with
  | Array c _ e => Pointer c e
  | Func _ _ _ _ => Pointer false t
  | _ => t
  end.

Fixpoint name_d (d : decl) : list Z :=
  match d with DPointer _ d => name_d d | DDirect c _ => name_c c end
with name_c (c : core) : list Z :=
  match c with CNone => [] | CName s => s | CParen d => name_d d end.

Section Names.
Variable tdef : list Z -> option ty.

Definition spec_quals (s : list spec) : list qual :=
  flat_map (fun i => match i with IQual q => [q] | _ => [] end) s.
Definition spec_types (s : list spec) : list (option ty) :=
  flat_map (fun i => match i with
                     | IVoid => [Some (Basic false 0)]
                     | IType n => [Some (Basic false n)]
                     | ITypedef s => [tdef s]
                     | _ => []
                     end) s.
(** The type that specifiers name; they are to name exactly one. *)
Definition spec_type (s : list spec) : ty :=
  match spec_types s with
  | [Some t] => if has_const (spec_quals s) then qualify t else t
  | _ => Basic false 0
  end.

(** 6.7.6: the type that the declarator gives to its name when the specifiers
    name the type [t]. *)
Fixpoint type_d (t : ty) (d : decl) : ty :=
  match d with
  | DPointer q d => type_d (Pointer (has_const q) t) d
  | DDirect c l => type_c (type_s t l) c
  end
with type_c (t : ty) (c : core) : ty :=
  match c with CParen d => type_d t d | _ => t end
with type_s (t : ty) (l : sufs) : ty :=
  match l with
  | SNil => t
  | SArray _ q n l => Array (has_const q) (length_of n) (type_s t l)
  | SFunction p l =>
      match p with
      | PNone => Func false (type_s t l) [] true
      | PVoid | PVoidName _ => Func false (type_s t l) [] false
      | PList ps dots => Func false (type_s t l) (map snd (params_l ps)) dots
      end
  end
with params_l (l : plist) : list (list Z * ty) :=
  match l with
  | POne s d => [(name_d d, adjusted (type_d (spec_type s) d))]
  | PMore s d l => (name_d d, adjusted (type_d (spec_type s) d)) :: params_l l
  end.
Definition params_of (p : params) : list (list Z * ty) :=
  match p with PList l _ => params_l l | _ => [] end.

(** The derivation next to the name: [Some (Some p)] if it is a parameter list,
    so that the declarator declares a function with these parameters. *)
Definition or_else {A} (a b : option A) : option A := match a with Some _ => a | None => b end.
Fixpoint near_d (d : decl) : option (option params) :=
  match d with
  | DPointer _ d => or_else (near_d d) (Some None)
  | DDirect c l =>
      or_else (near_c c)
        match l with
        | SNil => None
        | SArray _ _ _ _ => Some None
        | SFunction p _ => Some (Some p)
        end
  end
with near_c (c : core) : option (option params) :=
  match c with CParen d => near_d d | _ => None end.

(** Whether the declarator has a parameter list that declares parameters. *)
Fixpoint lists_s (l : sufs) : bool :=
  match l with
  | SNil => false
  | SArray _ _ _ l => lists_s l
  | SFunction (PList _ _) _ => true
  | SFunction _ l => lists_s l
  end.
Fixpoint lists_d (d : decl) : bool :=
  match d with DPointer _ d => lists_d d | DDirect c l => (lists_c c || lists_s l)%bool end
with lists_c (c : core) : bool :=
  match c with CParen d => lists_d d | _ => false end.

(** ** Which declarators C allows *)
(** Specifiers: one type, and the compiler is not asked for _Atomic. *)
Definition good_spec (s : list spec) : Prop :=
  (exists t, spec_types s = [Some t]) /\ ~ In QAtomic (spec_quals s).
(** A size that is a constant is positive and fits size_t; static needs a size. *)
Definition good_array (s : static) (n : asize) : Prop :=
  match n with
  | Size (Const _ n) | Deref (Const _ n) => 0 < n < 2 ^ 64
  | Size (Dyn _) | Deref (Dyn _) => True
  | NoSize | Star => s = NoStatic
  end.

(** 6.7.6.3p10: this is not a parameter, it says that there are none. *)
Definition lone_void (l : plist) : Prop :=
  match l with
  | POne s (DDirect CNone SNil) => exists c, spec_type s = Basic c 0
  | _ => False
  end.

(** [param] says whether qualifiers and static may be between the brackets:
    6.7.6.2p1 allows them in parameters only. *)
Fixpoint good_d (param : bool) (d : decl) : Prop :=
  match d with
  | DPointer _ d => good_d param d
  | DDirect c l => good_c param c /\ good_s param l
  end
with good_c (param : bool) (c : core) : Prop :=
  match c with
  | CNone => True
  | CName s => s <> []
  | CParen d => d <> DDirect CNone SNil /\ good_d param d
  end
with good_s (param : bool) (l : sufs) : Prop :=
  match l with
  | SNil => True
  | SArray s q n l => good_array s n /\ (param = false -> s = NoStatic /\ q = []) /\ good_s param l
  | SFunction p l => good_p p /\ good_s param l
  end
with good_p (p : params) : Prop :=
  match p with
  | PNone | PVoid => True
  | PVoidName s => tdef s = Some (Basic false 0)
  | PList l dots => good_l l /\ (dots = false -> ~ lone_void l)
  end
with good_l (l : plist) : Prop :=
  match l with
  | POne s d => good_spec s /\ good_d true d
  | PMore s d l => good_spec s /\ good_d true d /\ good_l l
  end.

(** ** What the compiler handles of it *)
(** const at most once in a list of qualifiers, and not with the name of an array
    type. *)
Definition consts (q : list qual) : nat :=
  List.length (filter (fun q => match q with QConst => true | _ => false end) q).
Definition plain_spec (s : list spec) : Prop :=
  (consts (spec_quals s) <= 1)%nat /\
  (has_const (spec_quals s) = true -> forall t, spec_types s = [Some t] -> match t with Array _ _ _ | Func _ _ _ _ => False | _ => True end).
Definition plain_size (n : asize) : Prop := match n with Deref _ => False | _ => True end.
(** A parenthesis that is followed by a typedef name starts a parameter list: in
    parameters and type names this is the rule of 6.7.6.3p11. *)
Definition typedef_first (toks : list tok) : Prop :=
  match toks with TName s :: _ => tdef s <> None | _ => False end.
Fixpoint plain_d (d : decl) : Prop :=
  match d with
  | DPointer q d => (consts q <= 1)%nat /\ plain_d d
  | DDirect c l => plain_c c /\ plain_s l
  end
with plain_c (c : core) : Prop :=
  match c with
  | CParen d => ~ typedef_first (print_d d) /\ plain_d d
  | _ => True
  end
with plain_s (l : sufs) : Prop :=
  match l with
  | SNil => True
  | SArray s q n l => plain_size n /\ (consts q <= 1)%nat /\ plain_s l
  | SFunction p l => plain_p p /\ plain_s l
  end
with plain_p (p : params) : Prop :=
  match p with PList l _ => plain_l l | PVoidName _ => False | _ => True end
with plain_l (l : plist) : Prop :=
  match l with
  | POne s d => plain_spec s /\ plain_d d
  | PMore s d l => plain_spec s /\ plain_d d /\ plain_l l
  end.
End Names.

(** What may follow a declarator: a comma, a closing parenthesis, a semicolon, a
    brace. *)
Definition follows (rest : list tok) : Prop :=
  match rest with TComma :: _ | TRpar :: _ | TSemi :: _ | TLbrace :: _ => True | _ => False end.

(** The declarators of one declaration. *)
Fixpoint print_ds (ds : list decl) : list tok :=
  match ds with
  | [] => []
  | [d] => print_d d
  | d :: ds => print_d d ++ TComma :: print_ds ds
  end.
