(** C03: bit-field store/load code (src/ir/ir.c:313-342). *)
From Verif Require Import Base Common BitFields BitFieldsSpec BitFieldsProofs.

(** Storing [v] into bits [off, off+len) of a unit of [fs] bytes replaces
    exactly those bits, and loading the field yields [v] mod 2^len, sign- or
    zero-extended to the unit. *)
Theorem C03_bitfield_store_load : forall fs unit v off len sgn,
  0 < fs <= 8 -> 0 <= off -> 0 < len -> off + len <= 8 * fs ->
  0 <= unit < 2 ^ (8 * fs) -> 0 <= v < 2 ^ 64 ->
  exists unit', set_bits fs unit v off len = Ok unit'
    /\ 0 <= unit' < 2 ^ (8 * fs)
    /\ replaces_bits unit unit' v off len
    /\ get_bits fs unit' off len sgn = (field_value sgn len v) mod 2 ^ (8 * fs).
Proof. exact C03_store_load. Qed.
Print Assumptions C03_bitfield_store_load.

(** Any other, disjoint, field of the same unit reads the same as before. *)
Theorem C03_bitfield_frame : forall fs unit v off len off2 len2 sgn unit',
  0 < fs <= 8 -> 0 <= off -> 0 < len -> off + len <= 8 * fs ->
  0 <= off2 -> 0 < len2 -> off2 + len2 <= 8 * fs ->
  (off + len <= off2 \/ off2 + len2 <= off) ->
  0 <= unit < 2 ^ (8 * fs) -> 0 <= v < 2 ^ 64 ->
  set_bits fs unit v off len = Ok unit' ->
  get_bits fs unit' off2 len2 sgn = get_bits fs unit off2 len2 sgn.
Proof. exact C03_frame. Qed.
Print Assumptions C03_bitfield_frame.

(** unit 0xdeadbeef, store -3 into bits [5,12): reads back -3 signed, 125 unsigned. *)
Example C03_example :
  (let v := (2 ^ 64 - 3) in
   match set_bits 4 3735928559 v 5 7 with
   | Ok u => (get_bits 4 u 5 7 true, get_bits 4 u 5 7 false, get_bits 4 u 12 20 false)
   | _ => (0, 0, 0)
   end) = (2 ^ 32 - 3, 125, Z.shiftr 3735928559 12).
Proof. vm_compute. reflexivity. Qed.
