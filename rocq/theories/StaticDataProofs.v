(** Proofs about the images of static objects (StaticData.v): building the
    buffer. *)
From Verif Require Import Base Bytes BytesSpec BytesProofs Common BitFieldsProofs StaticData StaticDataSpec.
Ltac Zify.zify_post_hook ::= idtac.

Lemma initializer_ind' (P : initializer -> Prop) :
  P INone -> (forall s, P (IString s)) -> (forall n v, P (IConstant n v)) -> (forall l o, P (IAddress l o)) ->
  (forall i, P i -> P (ICompound i)) -> P INotConstant -> (forall l, Forall P l -> P (IBrace l)) -> forall i, P i.
Proof.
  intros H1 H2 H3 H4 H5 H6 H7.
  fix IH 1. intros [| s | n v | l o | i | | l]; [exact H1|apply H2|apply H3|apply H4|apply H5, IH|exact H6|].
  apply H7. induction l as [|e l IL]; constructor; [apply IH|exact IL].
Qed.

(** ** Bits of byte sequences *)

Lemma div8 k : 0 <= k -> 0 <= k / 8 /\ k = 8 * (k / 8) + k mod 8 /\ 0 <= k mod 8 < 8.
Proof.
  intros K. pose proof (Z.div_mod k 8 ltac:(lia)). pose proof (Z.mod_pos_bound k 8 ltac:(lia)).
  pose proof (Z.div_pos k 8 K ltac:(lia)). lia.
Qed.
Lemma bit_app a b k : 0 <= k ->
  bit (a ++ b) k = if k <? 8 * Z.of_nat (length a) then bit a k else bit b (k - 8 * Z.of_nat (length a)).
Proof.
  intros K. destruct (div8 k K) as (D & E & M). unfold bit.
  destruct (Z.ltb_spec k (8 * Z.of_nat (length a))) as [L|L].
  - rewrite app_nth1 by lia. reflexivity.
  - rewrite app_nth2 by lia.
    replace (k - 8 * Z.of_nat (length a)) with (k + (- Z.of_nat (length a)) * 8) by ring.
    rewrite Z.div_add, Z.mod_add by lia. do 2 f_equal. lia.
Qed.
Lemma bit_firstn l n k : 0 <= k < 8 * Z.of_nat n -> bit (firstn n l) k = bit l k.
Proof.
  intros K. destruct (div8 k ltac:(lia)) as (D & E & M). unfold bit. f_equal.
  assert (L : (Z.to_nat (k / 8) < n)%nat) by lia.
  clear -L. revert l L. generalize (Z.to_nat (k / 8)) as j. induction n as [|n IH]; intros j l L; [lia|].
  destruct l as [|x l]; [rewrite firstn_nil; reflexivity|]. destruct j; [reflexivity|]. cbn. apply IH. lia.
Qed.
Lemma bit_skipn l n k : 0 <= k -> bit (skipn n l) k = bit l (k + 8 * Z.of_nat n).
Proof.
  intros K. unfold bit. replace (k + 8 * Z.of_nat n) with (k + Z.of_nat n * 8) by ring.
  rewrite Z.div_add, Z.mod_add by lia. f_equal.
  replace (Z.to_nat (k / 8 + Z.of_nat n)) with (n + Z.to_nat (k / 8))%nat.
  2: { pose proof (Z.div_pos k 8 K ltac:(lia)). lia. }
  generalize (Z.to_nat (k / 8)) as j. clear. revert l. induction n as [|n IH]; intros l j; [reflexivity|].
  destruct l as [|x l]; cbn [skipn Nat.add nth]; [destruct j; reflexivity|apply IH].
Qed.
Lemma bit_splice buf pos ds k : (pos + length ds <= length buf)%nat -> 0 <= k ->
  bit (splice buf pos ds) k =
  if (8 * Z.of_nat pos <=? k) && (k <? 8 * (Z.of_nat pos + Z.of_nat (length ds)))
  then bit ds (k - 8 * Z.of_nat pos) else bit buf k.
Proof.
  intros L K. unfold splice. rewrite bit_app by lia. rewrite firstn_length, Nat.min_l by lia.
  destruct (Z.ltb_spec k (8 * Z.of_nat pos)) as [A|A], (Z.leb_spec (8 * Z.of_nat pos) k) as [B|B]; try lia; cbn [andb].
  - apply bit_firstn. lia.
  - rewrite bit_app by lia.
    destruct (Z.ltb_spec (k - 8 * Z.of_nat pos) (8 * Z.of_nat (length ds))) as [C|C],
             (Z.ltb_spec k (8 * (Z.of_nat pos + Z.of_nat (length ds)))) as [D|D]; try lia.
    + reflexivity.
    + rewrite bit_skipn by lia. f_equal. lia.
Qed.
Lemma testbit_mod256 v j : 0 <= j < 8 -> Z.testbit (v mod 256) j = Z.testbit v j.
Proof. intros J. change 256 with (2 ^ 8). apply Z.mod_pow2_bits_low. lia. Qed.
Lemma bit_digits n : forall v k, 0 <= k < 8 * Z.of_nat n -> bit (le_digits n v) k = Z.testbit v k.
Proof.
  induction n as [|n IH]; intros v k K; [lia|]. cbn [le_digits].
  change (v mod 256 :: le_digits n (v / 256)) with ([v mod 256] ++ le_digits n (v / 256)).
  rewrite bit_app by lia. change (Z.of_nat (length [v mod 256])) with 1.
  destruct (Z.ltb_spec k (8 * 1)) as [L|L].
  - unfold bit. rewrite (Z.div_small _ 8), (Z.mod_small _ 8) by lia. cbn [Z.to_nat nth]. apply testbit_mod256. lia.
  - rewrite IH by lia. change 256 with (2 ^ 8). rewrite <- Z.shiftr_div_pow2, Z.shiftr_spec by lia. f_equal. lia.
Qed.
Lemma le_value_bits l k : bytes_ok l -> 0 <= k < 8 * Z.of_nat (length l) -> Z.testbit (le_value l) k = bit l k.
Proof.
  intros O K. rewrite <- (le_digits_value l O) at 2. symmetry. apply bit_digits. lia.
Qed.
Lemma bit_window l pos n k : 0 <= k < 8 * Z.of_nat n -> bit (window l pos n) k = bit l (k + 8 * Z.of_nat pos).
Proof. intros K. unfold window. rewrite bit_firstn by lia. apply bit_skipn. lia. Qed.
Lemma bit_out l k : 8 * Z.of_nat (length l) <= k -> bit l k = false.
Proof.
  intros K. destruct (div8 k ltac:(lia)) as (D & E & M). unfold bit. rewrite nth_overflow by lia. apply Z.testbit_0_l.
Qed.
Lemma bit_repeat n k : bit (repeat 0 n) k = false.
Proof.
  unfold bit. replace (nth (Z.to_nat (k / 8)) (repeat 0 n) 0) with 0; [apply Z.testbit_0_l|].
  generalize (Z.to_nat (k / 8)). clear k. induction n; intros [|j]; cbn; auto.
Qed.
Lemma bytes_by_bits a b : bytes_ok a -> bytes_ok b -> length a = length b ->
  (forall k, 0 <= k < 8 * Z.of_nat (length a) -> bit a k = bit b k) -> a = b.
Proof.
  intros A B L H. rewrite <- (le_digits_value a A), <- (le_digits_value b B), L. f_equal.
  apply Z.bits_inj'. intros k K. destruct (Z_lt_le_dec k (8 * Z.of_nat (length a))) as [C|C].
  - rewrite !le_value_bits by (assumption || lia). apply H. lia.
  - pose proof (le_value_bound a A) as BA. pose proof (le_value_bound b B) as BB.
    assert (P : 256 ^ Z.of_nat (length a) = 2 ^ (8 * Z.of_nat (length a))) by (change 256 with (2 ^ 8); rewrite <- Z.pow_mul_r by lia; reflexivity).
    rewrite <- L, P in BB. rewrite P in BA.
    rewrite (testbit_high _ (8 * Z.of_nat (length a)) k BA), (testbit_high _ (8 * Z.of_nat (length a)) k BB) by lia.
    reflexivity.
Qed.

(** ** What a sequence of items makes of a bit *)

Definition coversb (it : item) (k : Z) : bool := (i_start it <=? k) && (k <? i_start it + i_width it).
Lemma coversb_spec it k : coversb it k = true <-> covers it k.
Proof. unfold coversb, covers. rewrite andb_true_iff, Z.leb_le, Z.ltb_lt. reflexivity. Qed.
Definition bit_after (its : list item) (k : Z) (prev : bool) : bool :=
  fold_left (fun acc it => if coversb it k then Z.testbit (i_value it) (k - i_start it) else acc) its prev.
Definition mark_after (ps : list pointer) (p : nat) (prev : option (list Z * Z)) : option (list Z * Z) :=
  fold_left (fun acc q => if Nat.eqb (Z.to_nat (p_offset q)) p then Some (p_label q, p_add q) else acc) ps prev.
Lemma bit_after_app a b k prev : bit_after (a ++ b) k prev = bit_after b k (bit_after a k prev).
Proof. apply fold_left_app. Qed.
Lemma mark_after_app a b p prev : mark_after (a ++ b) p prev = mark_after b p (mark_after a p prev).
Proof. apply fold_left_app. Qed.

(** ** constant_to_buffer *)

Definition bits_fit (t : itype) (bits : option (Z * Z)) : Prop :=
  match bits with
  | None => True
  | Some (bo, bs) => (exists s, t = IScalar s) /\ 0 <= bo /\ 0 < bs /\ bo + bs <= 8 * isize t
  end.

Lemma constant_ok buf pos size value bits :
  laid_out (IScalar size) -> bits_fit (IScalar size) bits -> 0 <= value < 2 ^ 64 ->
  bytes_ok buf -> Z.of_nat pos + size <= Z.of_nat (length buf) ->
  exists buf', constant_to_buffer buf pos size value bits = Ok buf' /\ length buf' = length buf /\ bytes_ok buf' /\
    forall k, 0 <= k -> bit buf' k = bit_after [scalar_item size value bits (Z.of_nat pos)] k (bit buf k).
Proof.
  intros LO BF V BO LE.
  assert (exists w, width_of size = Ok w /\ Z.of_nat (wbytes w) = size) as (w & W & WS).
  { cbn in LO. unfold width_of. destruct LO as [-> | [-> | [-> | ->]]]; cbn; eauto. }
  assert (IN : (pos + wbytes w <= length buf)%nat) by lia.
  unfold constant_to_buffer. rewrite W. cbn [bind].
  assert (SZ : size <= 8) by (cbn in LO; lia).
  destruct bits as [(bo, bs)|]; cbn [bits_fit isize] in BF.
  - destruct BF as (_ & B0 & B1 & B2).
    assert (W1 : wrap 8 (64 - bs - bo) = 64 - bs - bo) by (unfold wrap; apply Z.mod_small; change (2 ^ 8) with 256; lia).
    assert (W2 : wrap 8 bo = bo) by (unfold wrap; apply Z.mod_small; change (2 ^ 8) with 256; lia).
    rewrite W1, W2.
    destruct (gen_mask_ok (64 - bs - bo) bo ltac:(lia) ltac:(lia)) as (mask & M). rewrite M. cbn [bind].
    rewrite (read_field_value w buf pos BO IN). cbn [bind]. rewrite (write_field_splice w buf pos _ IN).
    eexists. split; [reflexivity|].
    split; [apply splice_length; rewrite le_digits_length; exact IN|].
    split; [apply splice_bytes_ok; [exact BO|apply le_digits_ok]|].
    intros k K. rewrite bit_splice by (rewrite ?le_digits_length; (exact IN || exact K)).
    rewrite le_digits_length, WS. unfold bit_after. cbn [fold_left scalar_item]. unfold coversb. cbn [i_start i_width i_value].
    destruct ((8 * Z.of_nat pos <=? k) && (k <? 8 * (Z.of_nat pos + size))) eqn:C.
    + apply andb_true_iff in C. rewrite Z.leb_le, Z.ltb_lt in C. destruct C as (C1 & C2).
      rewrite bit_digits by lia. set (j := k - 8 * Z.of_nat pos) in *.
      rewrite Z.lor_spec, !Z.land_spec, testbit_wrap, Z.shiftl_spec, testbit_wrap, Z.lnot_spec by (unfold j; lia).
      rewrite (gen_mask_bits (64 - bs - bo) bo j mask ltac:(lia) ltac:(lia) ltac:(unfold j; lia) M).
      replace (64 - (64 - bs - bo)) with (bs + bo) by ring.
      destruct (Z.ltb_spec j 64); [|unfold j in *; lia]. cbn [andb].
      assert (PV : Z.testbit (le_value (window buf pos (wbytes w))) j = bit buf k).
      { rewrite le_value_bits.
        - rewrite bit_window by lia. f_equal. unfold j. lia.
        - apply window_ok, BO.
        - rewrite window_length by exact IN. lia. }
      rewrite PV.
      destruct (Z.leb_spec bo j), (Z.leb_spec (8 * Z.of_nat pos + bo) k); try (unfold j in *; lia);
        destruct (Z.ltb_spec j (bs + bo)), (Z.ltb_spec k (8 * Z.of_nat pos + bo + bs)); try (unfold j in *; lia); cbn [andb negb].
      * rewrite andb_false_r, andb_true_r. cbn [orb]. f_equal. unfold j. lia.
      * rewrite andb_true_r, andb_false_r, orb_false_r. reflexivity.
      * rewrite andb_true_r, andb_false_r, orb_false_r. reflexivity.
    + destruct ((8 * Z.of_nat pos + bo <=? k) && (k <? 8 * Z.of_nat pos + bo + bs)) eqn:D; [|reflexivity]. exfalso.
      apply andb_true_iff in D. rewrite Z.leb_le, Z.ltb_lt in D.
      apply andb_false_iff in C. rewrite Z.leb_gt, Z.ltb_ge in C. lia.
  - cbn [bind]. rewrite (write_field_splice w buf pos _ IN).
    eexists. split; [reflexivity|].
    split; [apply splice_length; rewrite le_digits_length; exact IN|].
    split; [apply splice_bytes_ok; [exact BO|apply le_digits_ok]|].
    intros k K. rewrite bit_splice by (rewrite ?le_digits_length; (exact IN || exact K)).
    rewrite le_digits_length, WS. unfold bit_after. cbn [fold_left scalar_item]. unfold coversb. cbn [i_start i_width i_value].
    replace (8 * Z.of_nat pos + 8 * size) with (8 * (Z.of_nat pos + size)) by ring.
    destruct ((8 * Z.of_nat pos <=? k) && (k <? 8 * (Z.of_nat pos + size))) eqn:C; [|reflexivity].
    apply andb_true_iff in C. rewrite Z.leb_le, Z.ltb_lt in C. apply bit_digits. lia.
Qed.

Lemma string_ok str : forall buf pos, bytes_ok buf -> (pos + length str <= length buf)%nat ->
  exists buf', put_string str buf pos = Ok buf' /\ length buf' = length buf /\ bytes_ok buf' /\
    forall k, 0 <= k -> bit buf' k = bit_after (characters str (Z.of_nat pos)) k (bit buf k).
Proof.
  induction str as [|c str IH]; intros buf pos BO L.
  - exists buf. repeat (split; [reflexivity || exact BO|]). reflexivity.
  - cbn [put_string length] in *. rewrite put_splice by lia. cbn [bind].
    assert (SL : length (splice buf pos [c mod 256]) = length buf) by (apply splice_length; cbn; lia).
    destruct (IH (splice buf pos [c mod 256]) (S pos)) as (b' & E & L' & O' & B').
    { apply splice_bytes_ok; [exact BO|]. constructor; [apply Z.mod_pos_bound; lia|constructor]. }
    { rewrite SL. lia. }
    exists b'. split; [exact E|]. split; [congruence|]. split; [exact O'|].
    intros k K. rewrite B' by exact K. cbn [characters].
    replace (Z.of_nat (S pos)) with (Z.of_nat pos + 1) by lia.
    change (?a :: ?l) with ([a] ++ l) at 2. rewrite bit_after_app. f_equal.
    unfold bit_after. cbn [fold_left]. unfold coversb. cbn [i_start i_width i_value].
    rewrite bit_splice by (cbn; lia). cbn [length]. replace (8 * (Z.of_nat pos + Z.of_nat 1)) with (8 * Z.of_nat pos + 8) by lia.
    destruct ((8 * Z.of_nat pos <=? k) && (k <? 8 * Z.of_nat pos + 8)) eqn:C; [|reflexivity].
    apply andb_true_iff in C. rewrite Z.leb_le, Z.ltb_lt in C.
    unfold bit. rewrite (Z.div_small _ 8), (Z.mod_small _ 8) by lia. cbn [Z.to_nat nth]. apply testbit_mod256. lia.
Qed.

(** ** Types *)

Lemma isize_nonneg t : laid_out t -> 0 <= isize t.
Proof.
  induction t as [s|n e IH|s f]; cbn; intros L; [lia| |lia].
  specialize (IH L). nia.
Qed.
Definition field_ok (size : Z) (f : Z * option (Z * Z) * itype) : Prop :=
  let '(o, b, ft) := f in 0 <= o /\ o + isize ft <= size /\ laid_out ft /\ bits_fit ft b.
Lemma laid_out_fields size fields : laid_out (IStruct size fields) -> 0 <= size /\ Forall (field_ok size) fields.
Proof.
  cbn [laid_out]. intros (S0 & A). split; [exact S0|].
  induction fields as [|((o, b), ft) l IH]; constructor.
  - destruct A as (A1 & A2 & A3 & A4 & _). unfold field_ok, bits_fit. auto.
  - apply IH. apply A.
Qed.
Lemma child_ok t k o b ct :
  laid_out t -> (k < match t with IScalar _ => 0 | IArray n _ => n | IStruct _ f => length f end)%nat ->
  child t k = Ok (o, b, ct) ->
  0 <= o /\ o + isize ct <= isize t /\ laid_out ct /\ bits_fit ct b.
Proof.
  intros L K C. destruct t as [s|n e|s f]; cbn [child isize] in *; [discriminate| |].
  - injection C as <- <- <-. cbn in L. pose proof (isize_nonneg e L). split; [nia|]. split; [nia|]. split; [exact L|exact I].
  - destruct (nth_error f k) as [x|] eqn:E; [|discriminate]. injection C as ->.
    apply laid_out_fields in L. destruct L as (_ & L). rewrite Forall_forall in L.
    apply (L _ (nth_error_In _ _ E)).
Qed.

Fixpoint entries_fit (t : itype) (l : list initializer) (k : nat) : Prop :=
  match l with
  | [] => True
  | e :: l => (exists o b ct, child t k = Ok (o, b, ct) /\ fits e ct b) /\ entries_fit t l (S k)
  end.
Definition places (t : itype) : nat := match t with IScalar _ => 0 | IArray n _ => n | IStruct _ f => length f end.
Definition entries_apart (t : itype) (l : list initializer) (k0 : nat) : Prop :=
  forall j k a b oa ba ta ob bb tb, j <> k ->
    nth_error l j = Some a -> nth_error l k = Some b -> a <> INone -> b <> INone ->
    child t (k0 + j) = Ok (oa, ba, ta) -> child t (k0 + k) = Ok (ob, bb, tb) ->
    apart (region ta ba oa) (region tb bb ob).
Lemma fits_brace l t bits : fits (IBrace l) t bits ->
  bits = None /\ (length l <= places t)%nat /\ entries_fit t l 0 /\ entries_apart t l 0.
Proof.
  cbn [fits]. intros (B & L & F & A). split; [exact B|]. split; [exact L|]. split; [|exact A].
  clear -F. revert F. generalize O at 1 2. induction l as [|e l IH]; intros k F; [exact I|].
  destruct F as (F1 & F2). split; [exact F1|]. apply IH. exact F2.
Qed.
Lemma entries_apart_tail t e l k0 : entries_apart t (e :: l) k0 -> entries_apart t l (S k0).
Proof.
  intros A j k a b oa ba ta ob bb tb N E1 E2 N1 N2 C1 C2.
  apply (A (S j) (S k) a b oa ba ta ob bb tb ltac:(lia) E1 E2 N1 N2).
  - rewrite <- plus_n_Sm. exact C1.
  - rewrite <- plus_n_Sm. exact C2.
Qed.

Fixpoint put_entries (t : itype) (off : Z) (l : list initializer) (k : nat) (im : image) : res image :=
  match l with
  | [] => Ok im
  | e :: l =>
      let* c := child t k in
      let '(o, b, ct) := c in
      let* im := put_initializer e ct b (off + o) im in
      put_entries t off l (S k) im
  end.
Lemma put_brace l t bits off im : put_initializer (IBrace l) t bits off im = put_entries t off l 0 im.
Proof.
  cbn [put_initializer]. generalize O. revert im.
  induction l as [|e l IH]; intros im k; [reflexivity|]. cbn [put_entries].
  destruct (child t k) as [((o, b), ct)| |]; cbn [bind]; try reflexivity.
  destruct (put_initializer e ct b (off + o) im) as [im'| |]; cbn [bind]; try reflexivity. apply IH.
Qed.

(** ** What the initializer makes of the image *)

Record image_ok (im : image) : Prop := { im_bytes : bytes_ok (buffer im); im_len : length (marks im) = length (buffer im) }.
Definition put_result (im im' : image) (its : list item) (ps : list pointer) : Prop :=
  image_ok im' /\ length (buffer im') = length (buffer im) /\
  (forall k, 0 <= k -> bit (buffer im') k = bit_after its k (bit (buffer im) k)) /\
  (forall p, (p < length (buffer im))%nat -> nth p (marks im') None = mark_after ps p (nth p (marks im) None)).

Definition put_ok (i : initializer) : Prop := forall t bits off im,
  laid_out t -> bits_fit t bits -> fits i t bits -> image_ok im -> 0 <= off -> off + isize t <= Z.of_nat (length (buffer im)) ->
  exists im', put_initializer i t bits off im = Ok im' /\ put_result im im' (items i t bits off) (pointers i t bits off).

Lemma put_entries_ok t off l : laid_out t -> 0 <= off -> Forall put_ok l -> forall k im,
  (k + length l <= places t)%nat -> entries_fit t l k -> image_ok im -> off + isize t <= Z.of_nat (length (buffer im)) ->
  exists im', put_entries t off l k im = Ok im' /\
    put_result im im' (over_entries items t off l k) (over_entries pointers t off l k).
Proof.
  intros LO O0 FA. induction FA as [|e l PE _ IH]; intros k im LE EF IM SZ.
  - exists im. split; [reflexivity|]. split; [exact IM|]. split; [reflexivity|]. split; reflexivity.
  - cbn [put_entries over_entries length] in *. destruct EF as ((o & b & ct & C & F) & EF).
    destruct (child_ok t k o b ct LO ltac:(unfold places in LE; lia) C) as (C1 & C2 & C3 & C4).
    rewrite C. cbn [bind].
    destruct (PE ct b (off + o) im C3 C4 F IM ltac:(lia) ltac:(lia)) as (im1 & E1 & (I1 & L1 & B1 & M1)).
    rewrite E1. cbn [bind].
    destruct (IH (S k) im1 ltac:(lia) EF I1 ltac:(lia)) as (im2 & E2 & (I2 & L2 & B2 & M2)).
    exists im2. split; [exact E2|]. split; [exact I2|]. split; [congruence|]. split.
    + intros q Q. rewrite B2, B1 by exact Q. rewrite bit_after_app. reflexivity.
    + intros p P. rewrite M2 by lia. rewrite M1 by exact P. rewrite mark_after_app. reflexivity.
Qed.

Lemma nth_set_nth {A} (l : list A) i x d p : (p < length l)%nat ->
  nth p (set_nth l i x) d = if Nat.eqb i p then x else nth p l d.
Proof.
  intros P. destruct (Nat.eqb_spec i p) as [->|N].
  - apply nth_error_nth. apply nth_error_set_nth_eq. exact P.
  - destruct (nth_error l p) as [y|] eqn:E; [|apply nth_error_None in E; lia].
    rewrite (nth_error_nth _ _ _ E). apply nth_error_nth. rewrite nth_error_set_nth_neq by congruence. exact E.
Qed.

Lemma put_initializer_ok : forall i, put_ok i.
Proof.
  apply initializer_ind'.
  - intros t bits off im LO BF F IM O0 SZ. exists im. split; [reflexivity|]. split; [exact IM|]. split; [reflexivity|]. split; reflexivity.
  - intros s t bits off im LO BF (-> & F) IM O0 SZ.
    destruct (string_ok s (buffer im) (Z.to_nat off) (im_bytes im IM) ltac:(lia)) as (b' & E & L & O & B).
    cbn [put_initializer items pointers]. rewrite E. cbn [bind]. eexists. split; [reflexivity|].
    split; [constructor; [exact O|cbn; rewrite L; apply (im_len im IM)]|]. split; [exact L|].
    rewrite Z2Nat.id in B by exact O0. split; [exact B|reflexivity].
  - intros n v t bits off im LO BF (-> & V) IM O0 SZ.
    destruct (constant_ok (buffer im) (Z.to_nat off) n v bits LO BF V (im_bytes im IM) ltac:(cbn [isize] in SZ; lia)) as (b' & E & L & O & B).
    cbn [put_initializer items pointers]. rewrite E. cbn [bind]. eexists. split; [reflexivity|].
    split; [constructor; [exact O|cbn; rewrite L; apply (im_len im IM)]|]. split; [exact L|].
    rewrite Z2Nat.id in B by exact O0. split; [exact B|reflexivity].
  - intros l o t bits off im LO BF (-> & ->) IM O0 SZ. cbn [isize] in SZ. pose proof (im_len im IM) as ML.
    cbn [put_initializer items pointers].
    destruct (Nat.ltb_spec (Z.to_nat off) (length (marks im))); [|lia].
    eexists. split; [reflexivity|]. split; [constructor; [apply (im_bytes im IM)|cbn; rewrite set_nth_length; exact ML]|].
    split; [reflexivity|]. split; [reflexivity|].
    intros p P. cbn [marks mark_after fold_left p_offset p_label p_add]. apply nth_set_nth. lia.
  - intros i IH t bits off im LO BF (-> & F) IM O0 SZ. cbn [put_initializer items pointers]. apply IH; assumption.
  - intros t bits off im LO BF F. destruct F.
  - intros l FA t bits off im LO BF F IM O0 SZ. destruct (fits_brace l t bits F) as (-> & L & EF & _).
    rewrite put_brace. apply put_entries_ok; assumption.
Qed.

(** ** Items and pointers are where their member is, and apart *)

Definition item_region (it : item) : Z * Z := (i_start it, i_width it).
Definition pointer_region (p : pointer) : Z * Z := (8 * p_offset p, 64).
Definition inside (a b : Z * Z) : Prop := fst b <= fst a /\ fst a + snd a <= fst b + snd b /\ 0 <= snd a.
Lemma inside_trans a b c : inside a b -> inside b c -> inside a c.
Proof. unfold inside. lia. Qed.
Lemma apart_inside a b a' b' : apart a b -> inside a' a -> inside b' b -> apart a' b'.
Proof. unfold apart, inside. lia. Qed.
Lemma apart_sym a b : apart a b -> apart b a.
Proof. unfold apart. lia. Qed.
Lemma region_inside t o b ct off : laid_out ct -> bits_fit ct b -> 0 <= o -> o + isize ct <= isize t ->
  inside (region ct b (off + o)) (region t None off).
Proof.
  intros L BF O0 SZ. pose proof (isize_nonneg ct L). unfold inside, region, bits_fit in *. destruct b as [(bo, bs)|]; cbn [fst snd]; lia.
Qed.
Lemma region_shift t b off o : region t b (off + o) = (8 * off + fst (region t b o), snd (region t b o)).
Proof. unfold region. destruct b as [(bo, bs)|]; cbn [fst snd]; f_equal; ring. Qed.

Section Placed.
Context {A : Type} (f : initializer -> itype -> option (Z * Z) -> Z -> list A) (reg : A -> Z * Z).
Hypothesis f_none : forall t b off, f INone t b off = [].
Lemma in_over_entries t off l : forall k x, In x (over_entries f t off l k) ->
  exists j e o b ct, nth_error l j = Some e /\ e <> INone /\ child t (k + j) = Ok (o, b, ct) /\ In x (f e ct b (off + o)).
Proof.
  induction l as [|e l IH]; intros k x X; [contradiction|]. cbn [over_entries] in X.
  destruct (child t k) as [((o, b), ct)| |] eqn:C; try contradiction.
  apply in_app_or in X. destruct X as [X|X].
  - exists O, e, o, b, ct. split; [reflexivity|]. split; [intros ->; rewrite f_none in X; contradiction|].
    split; [rewrite Nat.add_0_r; exact C|exact X].
  - destruct (IH (S k) x X) as (j & e' & o' & b' & ct' & H1 & H2 & H3 & H4).
    exists (S j), e', o', b', ct'. split; [exact H1|]. split; [exact H2|]. split; [|exact H4].
    rewrite <- plus_n_Sm. exact H3.
Qed.
End Placed.

Lemma entries_fit_nth t l : forall k j e, entries_fit t l k -> nth_error l j = Some e ->
  exists o b ct, child t (k + j) = Ok (o, b, ct) /\ fits e ct b.
Proof.
  induction l as [|x l IH]; intros k j e EF E; [destruct j; discriminate|]. destruct EF as (EF1 & EF2).
  destruct j as [|j]; [injection E as ->; rewrite Nat.add_0_r; exact EF1|].
  rewrite <- plus_n_Sm. apply (IH (S k) j e EF2 E).
Qed.

Lemma characters_inside str : forall off it, In it (characters str off) ->
  8 * off <= i_start it /\ i_start it + 8 <= 8 * (off + Z.of_nat (length str)) /\ i_width it = 8.
Proof.
  induction str as [|c s IH]; intros off it I; [contradiction|]. cbn [characters length] in *. destruct I as [<-|I].
  - cbn [i_start i_width]. lia.
  - specialize (IH (off + 1) it I). lia.
Qed.

Definition located (i : initializer) : Prop := forall t bits off, laid_out t -> bits_fit t bits -> fits i t bits ->
  (forall x, In x (items i t bits off) -> inside (item_region x) (region t bits off)) /\
  (forall x, In x (pointers i t bits off) -> inside (pointer_region x) (region t bits off)).

Lemma located_all : forall i, located i.
Proof.
  apply initializer_ind'.
  - intros t bits off LO BF F. split; contradiction.
  - intros s t bits off LO BF (-> & F). split; [|contradiction]. cbn [items]. intros x X.
    apply characters_inside in X. unfold inside, item_region, region. cbn [fst snd]. lia.
  - intros n v t bits off LO BF (-> & V). split; [|contradiction]. intros x [<-|[]].
    cbn in LO. unfold inside, item_region, region, scalar_item, bits_fit in *. destruct bits as [(bo, bs)|]; cbn [fst snd i_start i_width isize] in *; lia.
  - intros l o t bits off LO BF (-> & ->). split; [contradiction|]. intros x [<-|[]].
    unfold inside, pointer_region, region. cbn [fst snd p_offset isize]. lia.
  - intros i IH t bits off LO BF (-> & F). apply IH; assumption.
  - intros t bits off LO BF F. destruct F.
  - intros l FA t bits off LO BF F. destruct (fits_brace l t bits F) as (-> & L & EF & _).
    rewrite Forall_forall in FA. cbn [items pointers].
    split; intros x X.
    + apply in_over_entries in X; [|reflexivity]. destruct X as (j & e & o & b & ct & H1 & H2 & H3 & H4).
      destruct (entries_fit_nth t l O j e EF H1) as (o' & b' & ct' & C & FE). rewrite C in H3. injection H3 as -> -> ->.
      assert (J : (j < length l)%nat) by (apply nth_error_Some; congruence).
      destruct (child_ok t (0 + j) o b ct LO ltac:(unfold places in L; cbn [Nat.add]; lia) C) as (C1 & C2 & C3 & C4).
      apply (inside_trans _ (region ct b (off + o))); [|apply region_inside; assumption].
      apply (FA e (nth_error_In _ _ H1) ct b (off + o) C3 C4 FE). exact H4.
    + apply in_over_entries in X; [|reflexivity]. destruct X as (j & e & o & b & ct & H1 & H2 & H3 & H4).
      destruct (entries_fit_nth t l O j e EF H1) as (o' & b' & ct' & C & FE). rewrite C in H3. injection H3 as -> -> ->.
      assert (J : (j < length l)%nat) by (apply nth_error_Some; congruence).
      destruct (child_ok t (0 + j) o b ct LO ltac:(unfold places in L; cbn [Nat.add]; lia) C) as (C1 & C2 & C3 & C4).
      apply (inside_trans _ (region ct b (off + o))); [|apply region_inside; assumption].
      apply (FA e (nth_error_In _ _ H1) ct b (off + o) C3 C4 FE). exact H4.
Qed.

(** Pairwise, in the order of a list. *)
Lemma pairs_app {A} (R : A -> A -> Prop) a b : ForallOrdPairs R a -> ForallOrdPairs R b ->
  (forall x y, In x a -> In y b -> R x y) -> ForallOrdPairs R (a ++ b).
Proof.
  intros PA PB C. induction PA as [|x l H P IH]; cbn; [exact PB|]. constructor.
  - apply Forall_app. split; [exact H|]. apply Forall_forall. intros y Y. apply C; [left; reflexivity|exact Y].
  - apply IH. intros u w U W. apply C; [right; exact U|exact W].
Qed.

Section Pairs.
Context {A : Type} (f : initializer -> itype -> option (Z * Z) -> Z -> list A) (reg : A -> Z * Z).
Hypothesis f_none : forall t b off, f INone t b off = [].
Hypothesis f_inside : forall i t bits off, laid_out t -> bits_fit t bits -> fits i t bits ->
  forall x, In x (f i t bits off) -> inside (reg x) (region t bits off).
Lemma pairs_over_entries t off l : laid_out t ->
  Forall (fun e => forall t bits off, laid_out t -> bits_fit t bits -> fits e t bits ->
            ForallOrdPairs (fun x y => apart (reg x) (reg y)) (f e t bits off)) l ->
  forall k, (k + length l <= places t)%nat -> entries_fit t l k -> entries_apart t l k ->
  ForallOrdPairs (fun x y => apart (reg x) (reg y)) (over_entries f t off l k).
Proof.
  intros LO FA. induction FA as [|e l PE _ IH]; intros k LE EF EA; [constructor|].
  cbn [over_entries length] in *. pose proof EF as ((o & b & ct & C & F) & EF2). rewrite C.
  destruct (child_ok t k o b ct LO ltac:(unfold places in LE; lia) C) as (C1 & C2 & C3 & C4).
  apply pairs_app.
  - apply PE; assumption.
  - apply IH; [lia|exact EF2|exact (entries_apart_tail t e l k EA)].
  - intros x y X Y. apply (in_over_entries f f_none) in Y. destruct Y as (j & e' & o' & b' & ct' & H1 & H2 & H3 & H4).
    destruct (entries_fit_nth t l (S k) j e' EF2 H1) as (o2 & b2 & ct2 & C' & FE). rewrite C' in H3. injection H3 as -> -> ->.
    assert (J : (j < length l)%nat) by (apply nth_error_Some; congruence).
    destruct (child_ok t (S k + j) o' b' ct' LO ltac:(unfold places in LE; lia) C') as (C1' & C2' & C3' & C4').
    apply (apart_inside (region ct b (off + o)) (region ct' b' (off + o'))).
    + rewrite !region_shift. cut (apart (region ct b o) (region ct' b' o')); [unfold apart; cbn [fst snd]; lia|].
      apply (EA O (S j) e e' o b ct o' b' ct'); [lia|reflexivity|exact H1| |exact H2|rewrite Nat.add_0_r; exact C|rewrite <- plus_n_Sm; exact C'].
      intros ->. rewrite f_none in X. contradiction.
    + apply (f_inside e ct b (off + o) C3 C4 F x X).
    + apply (f_inside e' ct' b' (off + o') C3' C4' FE y H4).
Qed.
End Pairs.

Lemma items_none t b off : items INone t b off = []. Proof. reflexivity. Qed.
Lemma pointers_none t b off : pointers INone t b off = []. Proof. reflexivity. Qed.
Lemma items_inside i t bits off : laid_out t -> bits_fit t bits -> fits i t bits ->
  forall x, In x (items i t bits off) -> inside (item_region x) (region t bits off).
Proof. intros L B F. apply (located_all i t bits off L B F). Qed.
Lemma pointers_inside i t bits off : laid_out t -> bits_fit t bits -> fits i t bits ->
  forall x, In x (pointers i t bits off) -> inside (pointer_region x) (region t bits off).
Proof. intros L B F. apply (located_all i t bits off L B F). Qed.

Lemma characters_apart str : forall off, ForallOrdPairs (fun x y => apart (item_region x) (item_region y)) (characters str off).
Proof.
  induction str as [|c s IH]; intros off; cbn [characters]; constructor; [|apply IH].
  apply Forall_forall. intros y Y. apply characters_inside in Y. unfold apart, item_region. cbn [fst snd i_start i_width]. lia.
Qed.
Lemma items_apart : forall i t bits off, laid_out t -> bits_fit t bits -> fits i t bits ->
  ForallOrdPairs (fun x y => apart (item_region x) (item_region y)) (items i t bits off).
Proof.
  apply (initializer_ind' (fun i => forall t bits off, laid_out t -> bits_fit t bits -> fits i t bits ->
  ForallOrdPairs (fun x y => apart (item_region x) (item_region y)) (items i t bits off))).
  - intros; constructor.
  - intros; apply characters_apart.
  - intros; repeat constructor.
  - intros; constructor.
  - intros i IH t bits off LO BF (-> & F). cbn [items]. apply IH; assumption.
  - intros; constructor.
  - intros l FA t bits off LO BF F. destruct (fits_brace l t bits F) as (-> & L & EF & EA).
    cbn [items]. apply pairs_over_entries; try assumption; [reflexivity|exact items_inside].
Qed.
Lemma pointers_apart : forall i t bits off, laid_out t -> bits_fit t bits -> fits i t bits ->
  ForallOrdPairs (fun x y => apart (pointer_region x) (pointer_region y)) (pointers i t bits off).
Proof.
  apply (initializer_ind' (fun i => forall t bits off, laid_out t -> bits_fit t bits -> fits i t bits ->
  ForallOrdPairs (fun x y => apart (pointer_region x) (pointer_region y)) (pointers i t bits off))).
  - intros; constructor.
  - intros; constructor.
  - intros; constructor.
  - intros; repeat constructor.
  - intros i IH t bits off LO BF (-> & F). cbn [pointers]. apply IH; assumption.
  - intros; constructor.
  - intros l FA t bits off LO BF F. destruct (fits_brace l t bits F) as (-> & L & EF & EA).
    cbn [pointers]. apply pairs_over_entries; try assumption; [reflexivity|exact pointers_inside].
Qed.
Lemma items_pointers_apart : forall i t bits off, laid_out t -> bits_fit t bits -> fits i t bits ->
  forall x y, In x (items i t bits off) -> In y (pointers i t bits off) -> apart (item_region x) (pointer_region y).
Proof.
  apply (initializer_ind' (fun i => forall t bits off, laid_out t -> bits_fit t bits -> fits i t bits ->
  forall x y, In x (items i t bits off) -> In y (pointers i t bits off) -> apart (item_region x) (pointer_region y))).
  - intros; contradiction.
  - intros; contradiction.
  - intros; contradiction.
  - intros; contradiction.
  - intros i IH t bits off LO BF (-> & F). cbn [pointers items]. apply IH; assumption.
  - intros; contradiction.
  - intros l FA t bits off LO BF F x y X Y. destruct (fits_brace l t bits F) as (-> & L & EF & EA).
    cbn [items pointers] in *. rewrite Forall_forall in FA.
    apply in_over_entries in X; [|reflexivity]. destruct X as (j & e & o & b & ct & H1 & H2 & H3 & H4).
    apply in_over_entries in Y; [|reflexivity]. destruct Y as (j' & e' & o' & b' & ct' & H1' & H2' & H3' & H4').
    destruct (entries_fit_nth t l O j e EF H1) as (o2 & b2 & ct2 & C & FE). rewrite C in H3. injection H3 as -> -> ->.
    destruct (entries_fit_nth t l O j' e' EF H1') as (o2 & b2 & ct2 & C' & FE'). rewrite C' in H3'. injection H3' as -> -> ->.
    assert (J : (j < length l)%nat) by (apply nth_error_Some; congruence).
    assert (J' : (j' < length l)%nat) by (apply nth_error_Some; congruence).
    destruct (child_ok t (0 + j) o b ct LO ltac:(unfold places in L; cbn [Nat.add]; lia) C) as (C1 & C2 & C3 & C4).
    destruct (child_ok t (0 + j') o' b' ct' LO ltac:(unfold places in L; cbn [Nat.add]; lia) C') as (C1' & C2' & C3' & C4').
    destruct (Nat.eq_dec j j') as [<-|N].
    + rewrite H1 in H1'. injection H1' as <-. rewrite C in C'. injection C' as <- <- <-.
      apply (FA e (nth_error_In _ _ H1) ct b (off + o) C3 C4 FE x y H4 H4').
    + apply (apart_inside (region ct b (off + o)) (region ct' b' (off + o'))).
      * rewrite !region_shift. cut (apart (region ct b o) (region ct' b' o')); [unfold apart; cbn [fst snd]; lia|].
        apply (EA j j' e e' o b ct o' b' ct' N H1 H1' H2 H2' C C').
      * apply (items_inside e ct b (off + o) C3 C4 FE x H4).
      * apply (pointers_inside e' ct' b' (off + o') C3' C4' FE' y H4').
Qed.

(** ** The final image *)

Lemma bit_after_uncovered its k prev : (forall it, In it its -> ~ covers it k) -> bit_after its k prev = prev.
Proof.
  revert prev. induction its as [|it its IH]; intros prev U; [reflexivity|]. unfold bit_after. cbn [fold_left].
  destruct (coversb it k) eqn:C; [apply coversb_spec in C; destruct (U it (or_introl eq_refl) C)|].
  apply IH. intros x X. apply U. right. exact X.
Qed.
Lemma bit_after_covered its k prev it : ForallOrdPairs (fun x y => apart (item_region x) (item_region y)) its ->
  In it its -> covers it k -> bit_after its k prev = Z.testbit (i_value it) (k - i_start it).
Proof.
  intros P. revert prev. induction P as [|x l H P IH]; intros prev I C; [contradiction|].
  destruct I as [->|I].
  - unfold bit_after. cbn [fold_left]. apply coversb_spec in C. rewrite C. apply coversb_spec in C.
    apply bit_after_uncovered. intros y Y D. rewrite Forall_forall in H. specialize (H y Y).
    unfold apart, item_region, covers in *. cbn [fst snd] in *. lia.
  - apply IH; assumption.
Qed.
Lemma mark_after_none ps p prev : (forall q, In q ps -> Z.to_nat (p_offset q) <> p) -> mark_after ps p prev = prev.
Proof.
  revert prev. induction ps as [|q ps IH]; intros prev U; [reflexivity|]. unfold mark_after. cbn [fold_left].
  destruct (Nat.eqb_spec (Z.to_nat (p_offset q)) p) as [E|_]; [destruct (U q (or_introl eq_refl) E)|].
  apply IH. intros x X. apply U. right. exact X.
Qed.
Lemma mark_after_some ps q prev : ForallOrdPairs (fun x y => apart (pointer_region x) (pointer_region y)) ps ->
  (forall x, In x ps -> 0 <= p_offset x) -> In q ps -> mark_after ps (Z.to_nat (p_offset q)) prev = Some (p_label q, p_add q).
Proof.
  intros P. revert prev. induction P as [|x l H P IH]; intros prev O0 I; [contradiction|].
  destruct I as [->|I].
  - unfold mark_after. cbn [fold_left]. rewrite Nat.eqb_refl.
    apply mark_after_none. intros y Y D. rewrite Forall_forall in H. specialize (H y Y).
    pose proof (O0 q (or_introl eq_refl)). pose proof (O0 y (or_intror Y)).
    unfold apart, pointer_region in *. cbn [fst snd] in *. lia.
  - apply IH; [|exact I]. intros y Y. apply O0. right. exact Y.
Qed.
