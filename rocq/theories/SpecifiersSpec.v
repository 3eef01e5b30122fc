(** Specification of type specifiers: the table of C11 6.7.2p2. Each entry is a
    multiset of keywords (order does not matter) and the type it denotes. *)
From Coq Require Import Permutation.
From Verif Require Import Base Arch Specifiers.

Definition c11_specifiers : list (list keyword * simple_type) :=
  [ ([KVOID], ST_VOID);
    ([KCHAR], ST_CHAR);
    ([KSIGNED; KCHAR], ST_SCHAR);
    ([KUNSIGNED; KCHAR], ST_UCHAR);
    ([KSHORT], ST_SHORT); ([KSIGNED; KSHORT], ST_SHORT); ([KSHORT; KINT], ST_SHORT); ([KSIGNED; KSHORT; KINT], ST_SHORT);
    ([KUNSIGNED; KSHORT], ST_USHORT); ([KUNSIGNED; KSHORT; KINT], ST_USHORT);
    ([KINT], ST_INT); ([KSIGNED], ST_INT); ([KSIGNED; KINT], ST_INT);
    ([KUNSIGNED], ST_UINT); ([KUNSIGNED; KINT], ST_UINT);
    ([KLONG], ST_LONG); ([KSIGNED; KLONG], ST_LONG); ([KLONG; KINT], ST_LONG); ([KSIGNED; KLONG; KINT], ST_LONG);
    ([KUNSIGNED; KLONG], ST_ULONG); ([KUNSIGNED; KLONG; KINT], ST_ULONG);
    ([KLONG; KLONG], ST_LLONG); ([KSIGNED; KLONG; KLONG], ST_LLONG); ([KLONG; KLONG; KINT], ST_LLONG);
    ([KSIGNED; KLONG; KLONG; KINT], ST_LLONG);
    ([KUNSIGNED; KLONG; KLONG], ST_ULLONG); ([KUNSIGNED; KLONG; KLONG; KINT], ST_ULLONG);
    ([KFLOAT], ST_FLOAT); ([KDOUBLE], ST_DOUBLE); ([KLONG; KDOUBLE], ST_LDOUBLE);
    ([KBOOL], ST_BOOL);
    ([KFLOAT; KCOMPLEX], ST_FLOAT_COMPLEX); ([KDOUBLE; KCOMPLEX], ST_DOUBLE_COMPLEX);
    ([KLONG; KDOUBLE; KCOMPLEX], ST_LDOUBLE_COMPLEX) ].

(** The keywords [ks], in whatever order they were written, denote [t]. *)
Definition denotes (ks : list keyword) (t : simple_type) : Prop :=
  exists entry, In (entry, t) c11_specifiers /\ Permutation ks entry.

(** Type keywords and counted specifiers of a token list, in order. *)
Fixpoint keywords (l : list stok) : list keyword :=
  match l with
  | Tok_kw k :: t => k :: keywords t
  | _ :: t => keywords t
  | [] => []
  end.
Fixpoint others (l : list stok) : list other :=
  match l with
  | Tok_other o :: t => o :: others t
  | _ :: t => others t
  | [] => []
  end.
Definition is_spec_tok (t : stok) : Prop :=
  match t with Tok_kw _ | Tok_other _ => True | _ => False end.
(** What follows the specifiers does not itself start with one. *)
Definition not_spec_head (l : list stok) : Prop :=
  match l with [] => True | Tok_rest _ :: _ => True | _ => False end.
