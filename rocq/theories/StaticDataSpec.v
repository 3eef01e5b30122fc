(** The image an initializer describes: which bits of the object hold which
    value, and where addresses are. *)
From Verif Require Import Base StaticData.

(** Bits [start], ..., [start] + [width] - 1 of the object are the low bits of
    [value]. *)
Record item := { i_start : Z; i_width : Z; i_value : Z }.
Definition covers (it : item) (k : Z) : Prop := i_start it <= k < i_start it + i_width it.
(** The 8 bytes at [p_offset] are the address of [p_label] plus [p_add]. *)
Record pointer := { p_offset : Z; p_label : list Z; p_add : Z }.

Section Entries.
Context {A : Type} (f : initializer -> itype -> option (Z * Z) -> Z -> list A).
(** The members or elements named by a brace-enclosed list, in order, each at
    its place in the object. *)
Fixpoint over_entries (t : itype) (off : Z) (l : list initializer) (k : nat) : list A :=
  match l with
  | [] => []
  | e :: l =>
      match child t k with
      | Ok (o, b, ct) => f e ct b (off + o) ++ over_entries t off l (S k)
      | _ => []
      end
  end.
End Entries.

Fixpoint characters (str : list Z) (off : Z) : list item :=
  match str with
  | [] => []
  | c :: str => {| i_start := 8 * off; i_width := 8; i_value := c |} :: characters str (off + 1)
  end.
(** What a value of [size] bytes at [off] occupies, or its bit-field. *)
Definition scalar_item (size value : Z) (bits : option (Z * Z)) (off : Z) : item :=
  match bits with
  | None => {| i_start := 8 * off; i_width := 8 * size; i_value := value |}
  | Some (bo, bs) => {| i_start := 8 * off + bo; i_width := bs; i_value := value |}
  end.

Fixpoint items (i : initializer) (t : itype) (bits : option (Z * Z)) (off : Z) : list item :=
  match i with
  | IString str => characters str off
  | IConstant size value => [scalar_item size value bits off]
  | ICompound i => items i t None off
  | IBrace l => over_entries items t off l 0
  | _ => []
  end.
Fixpoint pointers (i : initializer) (t : itype) (bits : option (Z * Z)) (off : Z) : list pointer :=
  match i with
  | IAddress label add => [{| p_offset := off; p_label := label; p_add := add |}]
  | ICompound i => pointers i t None off
  | IBrace l => over_entries pointers t off l 0
  | _ => []
  end.

(** The bits a member of this type has. *)
Definition region (t : itype) (bits : option (Z * Z)) (off : Z) : Z * Z :=
  match bits with None => (8 * off, 8 * isize t) | Some (bo, bs) => (8 * off + bo, bs) end.
Definition apart (a b : Z * Z) : Prop := fst a + snd a <= fst b \/ fst b + snd b <= fst a.

(** A laid out type: members lie within their struct. *)
Fixpoint laid_out (t : itype) : Prop :=
  match t with
  | IScalar s => s = 1 \/ s = 2 \/ s = 4 \/ s = 8
  | IArray n e => laid_out e
  | IStruct size fields =>
      0 <= size /\
      (fix all l := match l with
                    | [] => True
                    | (o, b, ft) :: l =>
                        0 <= o /\ o + isize ft <= size /\ laid_out ft /\
                        match b with
                        | None => True
                        | Some (bo, bs) => (exists s, ft = IScalar s) /\ 0 <= bo /\ 0 < bs /\ bo + bs <= 8 * isize ft
                        end /\ all l
                    end) fields
  end.

(** An initializer for an object of the type: what the constraints of C
    (6.7.9) leave, with the conversions made. Of the members that overlap, as
    those of a union do, at most one has an initializer. *)
Definition is_none (i : initializer) : Prop := i = INone.
Fixpoint fits (i : initializer) (t : itype) (bits : option (Z * Z)) {struct i} : Prop :=
  match i with
  | INone => True
  | IString str => bits = None /\ Z.of_nat (length str) <= isize t
  | IConstant size value => t = IScalar size /\ 0 <= value < 2 ^ 64
  | IAddress _ _ => t = IScalar 8 /\ bits = None
  | ICompound i => bits = None /\ fits i t None
  | INotConstant => False
  | IBrace l =>
      bits = None /\
      (length l <= match t with IScalar _ => 0 | IArray n _ => n | IStruct _ f => length f end)%nat /\
      (fix all l k := match l with
                      | [] => True
                      | e :: l => (exists o b ct, child t k = Ok (o, b, ct) /\ fits e ct b) /\ all l (S k)
                      end) l O /\
      (forall j k a b oa ba ta ob bb tb, j <> k ->
         nth_error l j = Some a -> nth_error l k = Some b -> a <> INone -> b <> INone ->
         child t j = Ok (oa, ba, ta) -> child t k = Ok (ob, bb, tb) ->
         apart (region ta ba oa) (region tb bb ob))
  end.

(** Bit [k] of a sequence of bytes. *)
Definition bit (l : list Z) (k : Z) : bool := Z.testbit (nth (Z.to_nat (k / 8)) l 0) (k mod 8).
