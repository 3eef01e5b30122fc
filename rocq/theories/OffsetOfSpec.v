(** What offsetof means, without the search, the folding or the machine integers:
    6.5.2.3 and 7.19 of the C standard. *)
From Verif Require Import Base Arch.
From Verif Require Import OffsetOf.

Local Open Scope Z_scope.
Local Open Scope list_scope.

(** The number of bytes of an object. *)
Fixpoint bytes (t : ty) : Z :=
  match t with
  | Scalar s => s
  | Pointer => 8
  | Array n t' => n * bytes t'
  | Flexible _ => 0
  | Agg s _ => s
  end.

(** The structure has a member x that is no bit-field, at this offset and of this
    type: one of its own, or one of an unnamed structure or union in it. *)
Inductive has_member : members -> Z -> Z -> ty -> Prop :=
| own x t off rest : has_member (Cons (Some x) t off (-1) rest) x off t
| unnamed s inner off rest x o t :
    has_member inner x o t -> has_member (Cons None (Agg s inner) off (-1) rest) x (off + o) t
| next name t' off' bits rest x o t :
    has_member rest x o t -> has_member (Cons name t' off' bits rest) x o t.

(** Following the designators from an object of the first type leads to a part of
    it that many bytes from its start, of the last type. *)
Inductive designates : ty -> list designator -> Z -> ty -> Prop :=
| whole t : designates t [] 0 t
| member s ms x o t ds o' t' :
    has_member ms x o t -> designates t ds o' t' -> designates (Agg s ms) (Dot x :: ds) (o + o') t'
| element n t st i ds o' t' :
    designates t ds o' t' -> designates (Array n t) (Index st i :: ds) (i * bytes t + o') t'
| flexible t st i ds o' t' :
    designates t ds o' t' -> designates (Flexible t) (Index st i :: ds) (i * bytes t + o') t'.

(** The names that can follow a dot. *)
Fixpoint names (ms : members) : list Z :=
  match ms with
  | Nil => []
  | Cons (Some x) _ _ _ rest => x :: names rest
  | Cons None (Agg _ inner) _ _ rest => names inner ++ names rest
  | Cons None _ _ _ rest => names rest
  end.

(** A type that can be declared: names are distinct, offsets and sizes are not
    negative, arrays are of complete types and smaller than 2 GiB, and unnamed
    structures are no bit-fields. *)
Definition complete (t : ty) : Prop := match t with Flexible _ => False | _ => True end.
Fixpoint wf (t : ty) : Prop :=
  match t with
  | Scalar s => 0 <= s
  | Pointer => True
  | Array n t' => 0 <= n /\ n * bytes t' < 2 ^ 31 /\ complete t' /\ wf t'
  | Flexible t' => complete t' /\ wf t'
  | Agg s ms => 0 <= s /\ NoDup (names ms) /\ wf_members ms
  end
with wf_members (ms : members) : Prop :=
  match ms with
  | Nil => True
  | Cons name t off bits rest =>
      0 <= off /\ wf t /\ (match name, t with None, Agg _ _ => bits = -1 | _, _ => True end) /\ wf_members rest
  end.

(** Every index is a constant that integer promotion makes an int, and is not
    negative. *)
Definition promotes_to_int (st : simple_type) : Prop :=
  In st [ST_BOOL; ST_CHAR; ST_SCHAR; ST_UCHAR; ST_SHORT; ST_USHORT; ST_INT].
Definition plain_index (d : designator) : Prop :=
  match d with Dot _ => True | Index st i => promotes_to_int st /\ 0 <= i end.
