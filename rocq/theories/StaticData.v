(** Model of the emission of objects with static storage duration:
    src/codegen/rodata.c:108-159 and 252-326, src/arch/x64.c:617-645
    (constant_to_buffer), src/assembler/assembler.c:93-106 and 252-311 (writing
    an object file).

    Simplifications: offsets and sizes are unbounded; compound literals whose
    address is taken (codegen_pre_initializer) are not covered: they are
    objects of their own, emitted before the label. *)
From Coq Require Import String.
From Verif Require Import Base CharTypes Bytes Common Object.
Local Open Scope Z_scope.
Local Open Scope list_scope.

(** The types, laid out: the members of a struct or union are given with
    offset, bit-field (bit_offset and bitfield, when there is one) and type
    (src/types.h, struct field). *)
Inductive itype :=
| IScalar (size : Z)
| IArray (n : nat) (elem : itype)
| IStruct (size : Z) (fields : list (Z * option (Z * Z) * itype)).
(** calculate_size. *)
Fixpoint isize (t : itype) : Z :=
  match t with
  | IScalar s => s
  | IArray n e => Z.of_nat n * isize e
  | IStruct s _ => s
  end.

(** src/parser/declaration.h:9-26 (struct initializer). An expression is a
    constant (its size and constant_to_u64), the address of a label with an
    offset, a compound literal, or neither (expression_to_constant gave
    NULL). *)
Inductive initializer :=
| INone
| IString (str : list Z)
| IConstant (size value : Z)
| IAddress (label : list Z) (offset : Z)
| ICompound (init : initializer)
| INotConstant
| IBrace (entries : list initializer).

(** src/types.c:301-334 (type_select, type_get_offsets): offset, bit-field and
    type of the k-th child. *)
Definition child (t : itype) (k : nat) : res (Z * option (Z * Z) * itype) :=
  match t with
  | IStruct _ fields => match nth_error fields k with Some f => Ok f | None => Undef end
  | IArray _ e => Ok (isize e * Z.of_nat k, None, e)
  | IScalar _ => Fail
  end.

(** src/arch/x64.c:617-645 (constant_to_buffer). The buffer is read and
    written through uint16_t, uint32_t and uint64_t pointers on a
    little-endian host; gen_mask takes unsigned chars. *)
Definition width_of (size : Z) : res width :=
  if size =? 1 then Ok W1 else if size =? 2 then Ok W2 else if size =? 4 then Ok W4 else if size =? 8 then Ok W8 else Fail.
Definition constant_to_buffer (buffer : list Z) (pos : nat) (size value : Z) (bits : option (Z * Z)) : res (list Z) :=
  let* w := width_of size in
  let* value :=
    match bits with
    | None => Ok value
    | Some (bit_offset, bit_size) =>
        let* mask := gen_mask (wrap 8 (64 - bit_size - bit_offset)) (wrap 8 bit_offset) in
        let value := wrap 64 (Z.shiftl value bit_offset) in
        let* prev_value := read_field w buffer pos in
        Ok (Z.lor (Z.land prev_value mask) (Z.land value (wrap 64 (Z.lnot mask))))
    end in
  write_field w buffer pos value.

(** The arrays buffer, and is_label with labels and label_offsets. *)
Record image := { buffer : list Z; marks : list (option (list Z * Z)) }.
Fixpoint put_string (str : list Z) (buffer : list Z) (pos : nat) : res (list Z) :=
  match str with
  | [] => Ok buffer
  | c :: str => let* buffer := put buffer pos c in put_string str buffer (S pos)
  end.

(** src/codegen/rodata.c:108-159 (codegen_initializer_recursive). *)
Fixpoint put_initializer (i : initializer) (t : itype) (bits : option (Z * Z)) (off : Z) (im : image) {struct i} : res image :=
  match i with
  | INone => Ok im
  | IString str => let* b := put_string str (buffer im) (Z.to_nat off) in Ok {| buffer := b; marks := marks im |}
  | IConstant size value =>
      let* b := constant_to_buffer (buffer im) (Z.to_nat off) size value bits in Ok {| buffer := b; marks := marks im |}
  | IAddress label offset =>
      if (Z.to_nat off <? length (marks im))%nat
      then Ok {| buffer := buffer im; marks := set_nth (marks im) (Z.to_nat off) (Some (label, offset)) |} else Undef
  | ICompound i => put_initializer i t None off im
  | INotConstant => Ok im
  | IBrace entries =>
      (fix each (l : list initializer) (k : nat) (im : image) : res image :=
         match l with
         | [] => Ok im
         | e :: l =>
             let* c := child t k in
             let '(o, b, ct) := c in
             let* im := put_initializer e ct b (off + o) im in
             each l (S k) im
         end) entries O im
  end.

(** src/codegen/rodata.c:284-288: how_long. *)
Fixpoint how_long (n : nat) (m : list (option (list Z * Z))) : nat :=
  match n, m with
  | S n, None :: m => S (how_long n m)
  | _, _ => O
  end.
(** An 8-byte load from the buffer. *)
Definition quad (l : list Z) : Z := fold_right (fun b acc => b + 256 * acc) 0 (firstn 8 l).

(** src/codegen/rodata.c:275-296 with asm_quad and asm_byte
    (src/assembler/assembler.c:252-295): the loop over the positions that are
    left; [fuel] is their number. *)
Fixpoint emit (fuel : nat) (b : list Z) (m : list (option (list Z * Z))) : list request :=
  match fuel with
  | O => []
  | S fuel =>
      match b, m with
      | x :: b', Some (label, offset) :: _ =>
          Relocate label 0 offset RELOCATE_64 :: WriteQuad 0 :: emit fuel (skipn 8 b) (skipn 8 m)
      | x :: b', None :: m' =>
          if (how_long 8 m =? 8)%nat then WriteQuad (quad b) :: emit fuel (skipn 8 b) (skipn 8 m)
          else WriteByte x :: emit fuel b' m'
      | _, _ => []
      end
  end.

(** src/codegen/rodata.c:252-302 (codegen_initializer). *)
Definition codegen_initializer (t : itype) (i : initializer) : res (list request) :=
  let n := Z.to_nat (isize t) in
  let* im := put_initializer i t None 0 {| buffer := repeat 0 n; marks := repeat None n |} in
  Ok (emit n (buffer im) (marks im)).

(** src/codegen/rodata.c:304-326 (codegen_static_var); [alignment] is that of
    the object, from _Alignas or from the type. *)
Definition codegen_static_var (label : list Z) (t : itype) (i : initializer) (global : bool) (alignment : Z)
  : res (list request) :=
  let* content := match i with INone => Ok [WriteZero (isize t)] | _ => codegen_initializer t i end in
  Ok ([Section_ (chars ".data"); Align alignment; Define label global] ++ content ++ [Section_ (chars ".text")]).
