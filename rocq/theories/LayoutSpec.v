(** Specification of struct and union layout (C11 6.7.2.1p14-18 with natural or
    packed alignments). *)
From Verif Require Import Base Common Arch Layout.

(** Size and alignment of a member; the alignment is limited by the packing
    value when that is not 0. *)
Definition packed_align (packing a : Z) : Z := if packing =? 0 then a else Z.min a packing.

Definition least_multiple (a lo r : Z) : Prop :=
  lo <= r /\ (a | r) /\ forall k, lo <= k -> (a | k) -> r <= k.

(** Members given as (size, alignment), placed one after the other starting at
    [e]; the last argument is the end of the last member. *)
Inductive laid_out (packing : Z) : Z -> list (Z * Z) -> list Z -> Z -> Prop :=
| laid_nil e : laid_out packing e [] [] e
| laid_cons e s a ms o os e' :
    least_multiple (packed_align packing a) e o ->
    laid_out packing (o + s) ms os e' ->
    laid_out packing e ((s, a) :: ms) (o :: os) e'.

Definition max_align (packing : Z) (ms : list (Z * Z)) : Z :=
  fold_right (fun sa m => Z.max (packed_align packing (snd sa)) m) 1 ms.
Definition max_size (ms : list (Z * Z)) : Z := fold_right (fun sa m => Z.max (fst sa) m) 0 ms.

(** Size and alignment of C types under an ABI. The last member of a struct may
    be a flexible array, which contributes no size. *)
Fixpoint has_type (m : abi) (t : ctype) (s a : Z) : Prop :=
  match t with
  | TSimple st => s = sizeof_simple m st /\ a = s /\ 0 < s
  | TStruct s' a' => s = s' /\ a = a' /\ 0 < a /\ 0 <= s /\ (a | s)
  | TPointer => s = 8 /\ a = 8
  | TArray n t' => exists s', has_type m t' s' a /\ s = n * s' /\ 0 <= n /\ n * s' <= INT_MAX
  | _ => False
  end.
Fixpoint members (m : abi) (fs : list field) (ms : list (Z * Z)) : Prop :=
  match fs, ms with
  | [], [] => True
  | f :: fs', (s, a) :: ms' =>
      (has_type m (f_type f) s a \/
       (fs' = [] /\ f_bitfield f = -1 /\ s = 0 /\ exists t s', f_type f = TIncompleteArray t /\ has_type m t s' a)) /\
      members m fs' ms'
  | _, _ => False
  end.

(** Enough room for the layout to be computed in C's int. *)
Definition room (ms : list (Z * Z)) : Z := fold_right (fun sa n => fst sa + snd sa + n) 0 ms.
Definition fits_int (ms : list (Z * Z)) : Prop := 2 * room ms + 1 <= INT_MAX.

Definition no_bitfields (fs : list field) : Prop := Forall (fun f => f_bitfield f = -1) fs.

(** Bits used by a placed member: start and end, counted from the struct's start. *)
Definition bit_start (p : placed) : Z := 8 * p_offset p + p_bit_offset p.
Definition bit_end (size : Z) (p : placed) : Z :=
  if p_bitfield p =? -1 then bit_start p + 8 * size else bit_start p + p_bitfield p.

(** Bit-fields have a positive width at most that of their type, and no bit-field's
    type is smaller than that of an earlier bit-field. *)
Fixpoint bitfields_grow (s : Z) (fs : list field) (ms : list (Z * Z)) : Prop :=
  match fs, ms with
  | f :: fs', (sz, _) :: ms' =>
      if f_bitfield f =? -1 then bitfields_grow s fs' ms'
      else 0 < f_bitfield f <= 8 * sz /\ s <= sz /\ bitfields_grow sz fs' ms'
  | _, _ => True
  end.
