(** C14: union layout. *)
From Verif Require Import Base Common Arch Layout LayoutSpec LayoutProofs.

(** Unions of any members (bit-fields of non-zero width included): all members at
    offset 0, size the least multiple of the alignment that covers the largest. *)
Theorem C14_union_layout :
  forall m packing fs ms,
  0 <= packing -> members m fs ms -> Forall (fun f => f_bitfield f <> 0) fs -> fits_int ms ->
  exists L, calculate_offsets m true packing fs = Ok L /\
    map p_type (l_fields L) = map f_type fs /\
    Forall (fun p => p_offset p = 0 /\ p_bit_offset p = 0) (l_fields L) /\
    l_alignment L = max_align packing ms /\
    least_multiple (l_alignment L) (max_size ms) (l_size L) /\
    (forall i s a, nth_error ms i = Some (s, a) -> s <= l_size L).
Proof.
  intros m packing fs ms HP HM HN HI. destruct (union_layout m packing fs ms HP HM HN HI) as (size & E & LS).
  eexists. split; [exact E|]. cbn [l_fields l_alignment l_size]. rewrite map_map. split; [auto|]. split.
  - apply Forall_forall. intros p Hp. apply in_map_iff in Hp. destruct Hp as (f & <- & _). split; reflexivity.
  - split; auto. split; auto. intros i s a Hi. pose proof (max_size_ge _ _ _ _ Hi). destruct LS as (LS & _). lia.
Qed.
Print Assumptions C14_union_layout.

Theorem C14_alignment :
  forall m packing fs ms L i s a,
  packing = 0 \/ pow2 packing -> members m fs ms -> Forall (fun f => f_bitfield f <> 0) fs -> fits_int ms ->
  Forall (fun sa => pow2 (snd sa)) ms ->
  calculate_offsets m true packing fs = Ok L -> nth_error ms i = Some (s, a) ->
  (packed_align packing a | l_alignment L) /\ (l_alignment L | l_size L).
Proof.
  intros m packing fs ms L i s a HP HM HN HI HA E A2.
  assert (HP' : 0 <= packing).
  { destruct HP as [->|(j & Hj & ->)]; [lia|]. apply Z.pow_nonneg. lia. }
  destruct (C14_union_layout m packing fs ms HP' HM HN HI) as (L' & E' & _ & _ & EA & LS & _).
  assert (L' = L) by congruence. subst L'. split.
  - rewrite EA. eapply max_align_multiple; eauto.
  - apply LS.
Qed.
Print Assumptions C14_alignment.

(** union { char c[5]; int i; short b:3; } *)
Definition C14_fields : list field :=
  [{| f_type := TArray 5 (TSimple ST_CHAR); f_bitfield := -1 |}; {| f_type := TSimple ST_INT; f_bitfield := -1 |};
   {| f_type := TSimple ST_SHORT; f_bitfield := 3 |}].
Example C14_nontrivial :
  members SYSV C14_fields [(5, 1); (4, 4); (2, 2)] /\ fits_int [(5, 1); (4, 4); (2, 2)] /\
  (exists L, calculate_offsets SYSV true 0 C14_fields = Ok L /\ l_size L = 8 /\ l_alignment L = 4).
Proof.
  split; [|split].
  - cbn. repeat split; left; try (repeat split; lia). exists 1. unfold INT_MAX. repeat split; lia.
  - unfold fits_int, INT_MAX. cbn. lia.
  - eexists. split; [vm_compute; reflexivity|]. vm_compute. auto.
Qed.
