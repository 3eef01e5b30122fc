(** C13: bit-field layout. *)
From Verif Require Import Base Common Arch Layout LayoutSpec LayoutProofs BitLayoutProofs.

(** Structs mixing ordinary members and bit-fields of positive width, in which no
    bit-field has a smaller declared type than an earlier one: the bits of
    distinct members are disjoint (in declaration order), and each bit-field
    lies inside a unit of its declared type, inside the struct. *)
Theorem C13_bitfield_layout_partial :
  forall m packing fs ms,
  0 <= packing -> members m fs ms -> bitfields_grow 0 fs ms -> fits_int ms ->
  exists L, calculate_offsets m false packing fs = Ok L /\
    map (fun p => (p_type p, p_bitfield p)) (l_fields L) = map (fun f => (f_type f, f_bitfield f)) fs /\
    l_alignment L = max_align packing ms /\
    (forall i j p q s a, (i < j)%nat -> nth_error (l_fields L) i = Some p -> nth_error (l_fields L) j = Some q ->
       nth_error ms i = Some (s, a) -> bit_end s p <= bit_start q) /\
    (forall i p s a, nth_error (l_fields L) i = Some p -> nth_error ms i = Some (s, a) ->
       0 <= p_offset p /\ p_offset p + s <= l_size L /\
       (p_bitfield p <> -1 -> 0 <= p_bit_offset p /\ p_bit_offset p + p_bitfield p <= 8 * s) /\
       (p_bitfield p = -1 -> p_bit_offset p = 0)).
Proof. exact bitfield_layout. Qed.
Print Assumptions C13_bitfield_layout_partial.

(** Missing: a bit-field of a smaller type placed in an earlier, larger unit moves
    the current offset back. struct { int a:20; char b:4; char c; }: c is placed
    at byte 1, on top of a's bits 8..15. *)
Theorem C13_smaller_type_refuted :
  exists fs L p q, calculate_offsets SYSV false 0 fs = Ok L /\
    Forall (fun f => f_bitfield f <> 0) fs /\
    nth_error (l_fields L) 0 = Some p /\ nth_error (l_fields L) 2 = Some q /\
    bit_start p < bit_end 1 q /\ bit_start q < bit_end 4 p.
Proof.
  exists [{| f_type := TSimple ST_INT; f_bitfield := 20 |}; {| f_type := TSimple ST_CHAR; f_bitfield := 4 |};
          {| f_type := TSimple ST_CHAR; f_bitfield := -1 |}].
  eexists; eexists; eexists. split; [vm_compute; reflexivity|].
  split; [repeat (apply Forall_cons; [cbn; lia|]); apply Forall_nil|].
  split; [reflexivity|]. split; [reflexivity|]. vm_compute. auto.
Qed.
Print Assumptions C13_smaller_type_refuted.

(** Missing: a zero-width bit-field does not end the run. In struct { long x;
    char a:4; char :0; char b:6; char c; } bits of b and c overlap. *)
Theorem C13_zero_width_refuted :
  exists fs L p q, calculate_offsets SYSV false 0 fs = Ok L /\
    Forall (fun f => f_bitfield f = -1 \/ f_type f = TSimple ST_CHAR) fs /\
    nth_error (l_fields L) 3 = Some p /\ nth_error (l_fields L) 4 = Some q /\
    bit_start p < bit_end 1 q /\ bit_start q < bit_end 1 p.
Proof.
  exists [{| f_type := TSimple ST_LONG; f_bitfield := -1 |}; {| f_type := TSimple ST_CHAR; f_bitfield := 4 |};
          {| f_type := TSimple ST_CHAR; f_bitfield := 0 |}; {| f_type := TSimple ST_CHAR; f_bitfield := 6 |};
          {| f_type := TSimple ST_CHAR; f_bitfield := -1 |}].
  eexists; eexists; eexists. split; [vm_compute; reflexivity|].
  split; [repeat (apply Forall_cons; [cbn; auto|]); apply Forall_nil|].
  split; [reflexivity|]. split; [reflexivity|]. vm_compute. auto.
Qed.
Print Assumptions C13_zero_width_refuted.

(** struct { short h; char a:3; char b:6; unsigned c:9; unsigned d:30; char e; } *)
Definition C13_fields : list field :=
  [{| f_type := TSimple ST_SHORT; f_bitfield := -1 |}; {| f_type := TSimple ST_CHAR; f_bitfield := 3 |};
   {| f_type := TSimple ST_CHAR; f_bitfield := 6 |}; {| f_type := TSimple ST_UINT; f_bitfield := 9 |};
   {| f_type := TSimple ST_UINT; f_bitfield := 30 |}; {| f_type := TSimple ST_CHAR; f_bitfield := -1 |}].
Definition C13_members : list (Z * Z) := [(2, 2); (1, 1); (1, 1); (4, 4); (4, 4); (1, 1)].
Example C13_nontrivial :
  members SYSV C13_fields C13_members /\ bitfields_grow 0 C13_fields C13_members /\ fits_int C13_members /\
  (exists L, calculate_offsets SYSV false 0 C13_fields = Ok L /\
     map (fun p => (p_offset p, p_bit_offset p)) (l_fields L) = [(0, 0); (2, 0); (3, 0); (3, 6); (8, 0); (12, 0)]
     /\ l_size L = 16).
Proof.
  split; [|split; [|split]].
  - cbn. repeat split; left; repeat split; lia.
  - cbn. lia.
  - unfold fits_int, INT_MAX. cbn. lia.
  - eexists. split; [vm_compute; reflexivity|]. vm_compute. auto.
Qed.
