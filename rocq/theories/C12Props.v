(** C12: struct layout. *)
From Verif Require Import Base Common Arch Layout LayoutSpec LayoutProofs.

(** A struct without bit-fields whose members have the sizes and alignments [ms]:
    each member sits at the least suitably aligned offset after the previous
    one, and the size is the least multiple of the struct's alignment. *)
Theorem C12_struct_layout :
  forall m packing fs ms,
  0 <= packing -> members m fs ms -> no_bitfields fs -> fits_int ms ->
  exists L e, calculate_offsets m false packing fs = Ok L /\
    map p_type (l_fields L) = map f_type fs /\
    Forall (fun p => p_bit_offset p = 0) (l_fields L) /\
    laid_out packing 0 ms (map p_offset (l_fields L)) e /\
    l_alignment L = max_align packing ms /\
    least_multiple (l_alignment L) e (l_size L).
Proof.
  intros m packing fs ms HP HM HN HI.
  destruct (struct_layout m packing fs ms HP HM HN HI) as (os & e & size & E & LL & LO & LS).
  eexists; exists e. split; [exact E|]. cbn [l_fields l_alignment l_size].
  assert (H1 : map p_type (map place0 (combine fs os)) = map f_type fs).
  { clear -LL. revert os LL. induction fs as [|f fs IH]; intros [|o os] LL; try discriminate; auto.
    cbn in *. f_equal. auto. }
  assert (H2 : map p_offset (map place0 (combine fs os)) = os).
  { clear -LL. revert os LL. induction fs as [|f fs IH]; intros [|o os] LL; try discriminate; auto.
    cbn in *. f_equal. auto. }
  rewrite H1, H2. repeat split; auto; try apply LS.
  apply Forall_forall. intros p Hp. apply in_map_iff in Hp. destruct Hp as (x & <- & _). reflexivity.
Qed.
Print Assumptions C12_struct_layout.

(** Consequence: members never overlap and lie inside the struct. *)
Theorem C12_members_disjoint :
  forall m packing fs ms L,
  0 <= packing -> members m fs ms -> no_bitfields fs -> fits_int ms ->
  calculate_offsets m false packing fs = Ok L ->
  (forall i j p q s a, (i < j)%nat -> nth_error (l_fields L) i = Some p -> nth_error (l_fields L) j = Some q ->
     nth_error ms i = Some (s, a) -> p_offset p + s <= p_offset q) /\
  (forall i p s a, nth_error (l_fields L) i = Some p -> nth_error ms i = Some (s, a) ->
     0 <= p_offset p /\ p_offset p + s <= l_size L /\ (packed_align packing a | p_offset p)).
Proof.
  intros m packing fs ms L HP HM HN HI E.
  destruct (C12_struct_layout m packing fs ms HP HM HN HI) as (L' & e & E' & _ & _ & LO & _ & LS).
  assert (L' = L) by congruence. subst L'. pose proof (members_sizes _ _ _ HM) as HS.
  destruct (laid_out_bounds _ _ _ _ _ HS LO) as (_ & B). destruct LS as (LS & _). split.
  - intros i j p q s a Hij A1 A2 A3. apply (laid_out_disjoint _ _ _ _ _ HS LO i j _ s a); auto using map_nth_error.
  - intros i p s a A1 A2. destruct (B i (p_offset p) s a) as (B1 & B2 & B3); auto using map_nth_error. repeat split; auto; lia.
Qed.
Print Assumptions C12_members_disjoint.

(** With power-of-two alignments the struct's alignment is a multiple of every
    member's, and the size is a multiple of it, so members of array elements are
    aligned as well. *)
Theorem C12_alignment_of_elements :
  forall m packing fs ms L i p s a k,
  packing = 0 \/ pow2 packing -> members m fs ms -> no_bitfields fs -> fits_int ms ->
  Forall (fun sa => pow2 (snd sa)) ms ->
  calculate_offsets m false packing fs = Ok L ->
  nth_error (l_fields L) i = Some p -> nth_error ms i = Some (s, a) ->
  (packed_align packing a | k * l_size L + p_offset p).
Proof.
  intros m packing fs ms L i p s a k HP HM HN HI HA E A1 A2.
  assert (HP' : 0 <= packing).
  { destruct HP as [->|(j & Hj & ->)]; [lia|]. apply Z.pow_nonneg. lia. }
  destruct (C12_struct_layout m packing fs ms HP' HM HN HI) as (L' & e & E' & _ & _ & LO & EA & LS).
  assert (L' = L) by congruence. subst L'.
  destruct (C12_members_disjoint m packing fs ms L HP' HM HN HI E) as (_ & B).
  destruct (B i p s a A1 A2) as (_ & _ & B3).
  apply Z.divide_add_r; auto. apply Z.divide_mul_r.
  destruct LS as (_ & LS & _). rewrite EA in LS. eapply Z.divide_trans; [|exact LS].
  eapply max_align_multiple; eauto.
Qed.
Print Assumptions C12_alignment_of_elements.

(** Not covered by [members]: _Complex members have size and alignment 0 in the
    compiler's tables, and laying one out divides by zero. *)
Theorem C12_complex_member_refuted :
  exists fs, no_bitfields fs /\ fs = [{| f_type := TSimple ST_FLOAT_COMPLEX; f_bitfield := -1 |}] /\
    forall m, calculate_offsets m false 0 fs = Undef.
Proof. eexists. split; [|split; [reflexivity|intros []; reflexivity]]. constructor; auto. Qed.
Print Assumptions C12_complex_member_refuted.

(** struct { char c; long l; short s[3]; struct {12 bytes, align 4} t; int f[]; } *)
Definition C12_fields : list field :=
  map (fun t => {| f_type := t; f_bitfield := -1 |})
    [TSimple ST_CHAR; TSimple ST_LONG; TArray 3 (TSimple ST_SHORT); TStruct 12 4; TIncompleteArray (TSimple ST_INT)].
Definition C12_members : list (Z * Z) := [(1, 1); (8, 8); (6, 2); (12, 4); (0, 4)].
Example C12_nontrivial :
  members SYSV C12_fields C12_members /\ no_bitfields C12_fields /\ fits_int C12_members /\
  Forall (fun sa => pow2 (snd sa)) C12_members /\
  (exists L, calculate_offsets SYSV false 0 C12_fields = Ok L /\ map p_offset (l_fields L) = [0; 8; 16; 24; 36]
     /\ l_size L = 40 /\ l_alignment L = 8) /\
  (exists L, calculate_offsets SYSV false 2 C12_fields = Ok L /\ map p_offset (l_fields L) = [0; 2; 10; 16; 28]
     /\ l_size L = 28 /\ l_alignment L = 2).
Proof.
  split; [|split; [|split; [|split; [|split]]]].
  - cbn. unfold INT_MAX. repeat split; try (left; repeat split; lia).
    + left. exists 2. repeat split; lia.
    + left. repeat split; try lia. exists 3; lia.
    + right. repeat split. exists (TSimple ST_INT), 4. repeat split.
  - repeat constructor.
  - unfold fits_int, INT_MAX. cbn. lia.
  - repeat (apply Forall_cons; [cbn [snd]|]); [exists 0|exists 3|exists 1|exists 2|exists 2|apply Forall_nil]; (split; [lia|reflexivity]).
  - eexists. split; [vm_compute; reflexivity|]. vm_compute. auto.
  - eexists. split; [vm_compute; reflexivity|]. vm_compute. auto.
Qed.
