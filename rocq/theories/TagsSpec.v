(** C11 6.2.1p7, 6.7.2.3: the type a tag denotes. Types are numbered in the order in
    which the program declares them. *)
From Verif Require Import Base Tags.
Local Open Scope list_scope.

(** A scope: the tags declared in it. [contents] of a type: its members, once the
    member list has been read to its end. *)
Definition names := name -> option (kind * nat).
Record world := { inner : names; outer : list names; count : nat; contents : nat -> option (list den) }.
Definition with_name (n : name) (e : kind * nat) (s : names) : names := fun m => if list_eq_dec Z.eq_dec n m then Some e else s m.
Definition with_contents (i : nat) (ms : list den) (c : nat -> option (list den)) : nat -> option (list den) :=
  fun j => if Nat.eq_dec i j then Some ms else c j.
Fixpoint seen (n : name) (l : list names) : option (kind * nat) :=
  match l with [] => None | s :: r => match s n with Some e => Some e | None => seen n r end end.
Definition visible (n : name) (w : world) : option (kind * nat) := seen n (inner w :: outer w).
(** A new type with a tag, in the innermost scope. *)
Definition declare (n : name) (k : kind) (w : world) : world :=
  {| inner := with_name n (k, count w) (inner w); outer := outer w; count := S (count w); contents := contents w |}.
Definition another (w : world) : world := {| inner := inner w; outer := outer w; count := S (count w); contents := contents w |}.
Definition fill (i : nat) (ms : list den) (w : world) : world :=
  {| inner := inner w; outer := outer w; count := count w; contents := with_contents i ms (contents w) |}.

(** The tag occurs in the specifier. *)
Fixpoint mentions (n : name) (s : spec) : Prop :=
  match s with
  | Mention _ m => m = n
  | Define _ t b => t = Some n \/ mentions_all n b
  end
with mentions_all (n : name) (l : specs) : Prop :=
  match l with Nil => False | Cons s r => mentions n s \/ mentions_all n r end.

(** The rules. With [strict], two uses are left out that the compiler gets wrong:
    defining a tag in an inner scope while an outer one is visible and the tag occurs in
    its own member list, and declaring such a tag alone. *)
Section Rules.
Variable strict : Prop.
Inductive denotes : world -> spec -> den -> world -> Prop :=
(** 6.7.2.3p9: a visible tag denotes its type. *)
| d_visible w k n i : visible n w = Some (k, i) -> denotes w (Mention k n) (den_of k i) w
(** p8: otherwise a new incomplete type is declared; not for enumerations. *)
| d_new w k n : visible n w = None -> k <> KEnum -> denotes w (Mention k n) (den_of k (count w)) (declare n k w)
(** p5, 6.2.1p7: a definition declares its tag in the innermost scope, before its
    member list, or completes the type the tag already denotes there. *)
| d_define w k n b ms w1 : inner w n = None ->
    (strict -> seen n (outer w) <> None -> ~ mentions_all n b) ->
    denote (declare n k w) b ms w1 -> contents w1 (count w) = None ->
    denotes w (Define k (Some n) b) (den_of k (count w)) (fill (count w) ms w1)
| d_complete w k n b i ms w1 : inner w n = Some (k, i) -> contents w i = None ->
    denote w b ms w1 -> contents w1 i = None ->
    denotes w (Define k (Some n) b) (den_of k i) (fill i ms w1)
(** p6: without a tag, a new type. *)
| d_anonymous w k b ms w1 : denote (another w) b ms w1 -> denotes w (Define k None b) (den_of k (count w)) (fill (count w) ms w1)
with denote : world -> specs -> list den -> world -> Prop :=
| d_nil w : denote w Nil [] w
| d_cons w s r d ds w1 w2 : denotes w s d w1 -> denote w1 r ds w2 -> denote w (Cons s r) (d :: ds) w2.

(** Programs. *)
Inductive means : world -> list item -> list den -> world -> Prop :=
| m_nil w : means w [] [] w
| m_open w r ds w' : means {| inner := fun _ => None; outer := inner w :: outer w; count := count w; contents := contents w |} r ds w' ->
    means w (Open :: r) ds w'
| m_close w s o r ds w' : outer w = s :: o -> means {| inner := s; outer := o; count := count w; contents := contents w |} r ds w' ->
    means w (Close :: r) ds w'
| m_declare w s r d ds w1 w' : denotes w s d w1 -> means w1 r ds w' -> means w (Declare s :: r) (d :: ds) w'
(** p7: a tag alone refers to the innermost scope only. *)
| m_alone_here w k n i r ds w' : k <> KEnum -> inner w n = Some (k, i) -> means w r ds w' -> means w (Alone k n :: r) (den_of k i :: ds) w'
| m_alone_new w k n r ds w' : k <> KEnum -> inner w n = None -> (strict -> seen n (outer w) = None) ->
    means (declare n k w) r ds w' -> means w (Alone k n :: r) (den_of k (count w) :: ds) w'.
End Rules.
Definition nothing : world := {| inner := fun _ => None; outer := []; count := 0; contents := fun _ => None |}.

(** Two numberings of types agree: [same k a b] pairs the numbers of one type. *)
Definition one_to_one (same : kind -> nat -> nat -> Prop) : Prop :=
  (forall k k' a b b', same k a b -> same k' a b' -> k = k' /\ b = b') /\ (forall k k' a a' b, same k a b -> same k' a' b -> k = k' /\ a = a').
Inductive same_den (same : kind -> nat -> nat -> Prop) : den -> den -> Prop :=
| sd_int : same_den same DInt DInt
| sd_tag k a b : same k a b -> same_den same (DTag k a) (DTag k b).
Definition same_members (same : kind -> nat -> nat -> Prop) (x y : option (list den)) : Prop :=
  match x, y with None, None => True | Some a, Some b => Forall2 (same_den same) a b | _, _ => False end.
