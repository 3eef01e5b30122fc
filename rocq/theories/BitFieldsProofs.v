From Verif Require Import Base Common BitFields BitFieldsSpec.

Lemma testbit_wrap w v i : 0 <= w -> 0 <= i ->
  Z.testbit (wrap w v) i = (i <? w) && Z.testbit v i.
Proof.
  intros. unfold wrap. destruct (Z.ltb_spec i w).
  - rewrite Z.mod_pow2_bits_low by lia. auto.
  - rewrite Z.mod_pow2_bits_high by lia. auto.
Qed.

Lemma testbit_high v n i : 0 <= v < 2 ^ n -> n <= i -> 0 <= n -> Z.testbit v i = false.
Proof.
  intros. rewrite <- (Z.mod_small v (2 ^ n)) by lia.
  apply Z.mod_pow2_bits_high; lia.
Qed.

Lemma testbit_ones64 i : 0 <= i -> Z.testbit (2 ^ 64 - 1) i = (i <? 64).
Proof.
  intros. change (2 ^ 64 - 1) with (Z.ones 64).
  destruct (Z.ltb_spec i 64).
  - rewrite Z.ones_spec_low by lia; auto.
  - rewrite Z.ones_spec_high by lia; auto.
Qed.

Lemma gen_mask_bits l r i m : 0 <= l < 64 -> 0 <= r < 64 -> 0 <= i ->
  gen_mask l r = Ok m ->
  Z.testbit m i = (i <? 64) && negb ((r <=? i) && (i <? 64 - l)).
Proof.
  intros Hl Hr Hi E. unfold gen_mask in E.
  destruct (Z.leb_spec 64 l), (Z.leb_spec 64 r); try lia. cbn [orb] in E.
  injection E as <-.
  rewrite testbit_wrap by lia. f_equal.
  rewrite Z.lnot_spec by lia. f_equal.
  rewrite Z.shiftr_spec by lia.
  rewrite testbit_wrap by lia.
  rewrite Z.shiftl_spec by lia.
  replace (i + l - l) with i by lia.
  rewrite testbit_wrap by lia.
  rewrite Z.shiftl_spec by lia.
  destruct (Z.leb_spec r i).
  - rewrite Z.shiftr_spec by lia. rewrite testbit_ones64 by lia.
    replace (i - r + r) with i by lia. lia.
  - rewrite (Z.testbit_neg_r _ (i - r)) by lia. lia.
Qed.

Lemma gen_mask_ok l r : 0 <= l < 64 -> 0 <= r < 64 -> exists m, gen_mask l r = Ok m.
Proof.
  intros. unfold gen_mask. destruct (Z.leb_spec 64 l), (Z.leb_spec 64 r); try lia.
  cbn [orb]. eauto.
Qed.

Lemma signed_testbit w v i : 0 < w -> 0 <= i ->
  Z.testbit (signed w v) i = Z.testbit v (Z.min i (w - 1)).
Proof.
  intros Hw Hi. unfold signed. cbv zeta.
  assert (P : 2 ^ w = 2 * 2 ^ (w - 1)) by (rewrite <- Z.pow_succ_r by lia; f_equal; lia).
  assert (0 < 2 ^ (w - 1)) by (apply Z.pow_pos_nonneg; lia).
  pose proof (Z.mod_pos_bound v (2 ^ w) ltac:(lia)) as B.
  assert (T : Z.testbit v (w - 1) = negb (v mod 2 ^ w <? 2 ^ (w - 1))).
  { rewrite <- (Z.mod_pow2_bits_low v w (w - 1)) by lia.
    rewrite Z.testbit_odd, Z.shiftr_div_pow2 by lia.
    destruct (Z.ltb_spec (v mod 2 ^ w) (2 ^ (w - 1))).
    - rewrite Z.div_small by lia. auto.
    - replace (v mod 2 ^ w / 2 ^ (w - 1)) with 1; auto.
      apply Z.div_unique with (r := v mod 2 ^ w - 2 ^ (w - 1)); lia. }
  destruct (Z.ltb_spec (v mod 2 ^ w) (2 ^ (w - 1))); cbn [negb] in T.
  - destruct (Z.lt_ge_cases i w).
    + rewrite Z.mod_pow2_bits_low by lia. f_equal; lia.
    + rewrite Z.mod_pow2_bits_high by lia. rewrite Z.min_r by lia. auto.
  - replace (v mod 2 ^ w - 2 ^ w) with (Z.lnot (2 ^ w - 1 - v mod 2 ^ w)) by (unfold Z.lnot; lia).
    rewrite Z.lnot_spec by lia.
    replace (2 ^ w - 1 - v mod 2 ^ w) with ((Z.lnot v) mod 2 ^ w).
    2:{ replace (Z.lnot v) with (-1 - v) by (unfold Z.lnot; lia).
        symmetry; apply Z.mod_unique with (q := - (v / 2 ^ w) - 1); [lia|].
        pose proof (Z.div_mod v (2 ^ w)). lia. }
    destruct (Z.lt_ge_cases i w).
    + rewrite Z.mod_pow2_bits_low, Z.lnot_spec, negb_involutive by lia. f_equal; lia.
    + rewrite Z.mod_pow2_bits_high by lia. rewrite Z.min_r by lia. auto.
Qed.

Lemma set_bits_spec fs field value off len :
  0 < fs <= 8 -> 0 <= off -> 0 < len -> off + len <= 8 * fs ->
  0 <= field < 2 ^ (8 * fs) -> 0 <= value < 2 ^ 64 ->
  exists r, set_bits fs field value off len = Ok r /\ 0 <= r < 2 ^ (8 * fs)
    /\ replaces_bits field r value off len.
Proof.
  intros. unfold set_bits.
  assert (E1 : wrap 8 (64 - off - len) = 64 - off - len) by (unfold wrap; apply Z.mod_small; change (2^8) with 256; lia).
  assert (E2 : wrap 8 off = off) by (unfold wrap; apply Z.mod_small; change (2^8) with 256; lia).
  rewrite E1, E2.
  destruct (gen_mask_ok (64 - off - len) off) as (m & Em); try lia.
  rewrite Em. cbn [bind]. eexists; split; [reflexivity|]. split.
  { unfold ev_cast_zero, wrap. apply Z.mod_pos_bound. apply Z.pow_pos_nonneg; lia. }
  intros i Hi.
  unfold ev_cast_zero at 1. rewrite testbit_wrap by lia.
  unfold ev_or64, ev_and64. rewrite Z.lor_spec, !Z.land_spec.
  unfold ev_not64. rewrite testbit_wrap, Z.lnot_spec by lia.
  unfold ev_shl64. rewrite testbit_wrap by lia.
  rewrite (Z.mod_small off 64) by lia. rewrite Z.shiftl_spec by lia.
  unfold ev_cast_zero. rewrite (testbit_wrap (8 * 8) field) by lia.
  rewrite (gen_mask_bits (64 - off - len) off i m ltac:(lia) ltac:(lia) Hi Em).
  replace (64 - (64 - off - len)) with (off + len) by lia.
  destruct (Z.leb_spec off i).
  - rewrite (testbit_wrap (8*8) value) by lia.
    destruct (Z.ltb_spec i (off + len)); cbn [andb orb negb].
    + replace (i <? 8 * fs) with true by lia. replace (i <? 64) with true by lia.
      replace (i - off <? 8 * 8) with true by lia. cbn [andb orb negb]. apply orb_false_r.
    + destruct (Z.ltb_spec i (8 * fs)).
      * replace (i <? 64) with true by lia. replace (i <? 8 * 8) with true by lia. cbn [andb orb negb]. auto.
      * cbn [andb]. symmetry. apply (testbit_high field (8 * fs)); lia.
  - rewrite (Z.testbit_neg_r _ (i - off)) by lia. cbn [andb].
    replace (i <? 8 * fs) with true by lia. replace (i <? 64) with true by lia.
    replace (i <? 8 * 8) with true by lia. cbn [andb orb negb]. auto.
Qed.

Lemma get_bits_spec fs field off len sgn :
  0 < fs <= 8 -> 0 <= off -> 0 < len -> off + len <= 8 * fs ->
  0 <= field < 2 ^ (8 * fs) ->
  get_bits fs field off len sgn = (field_value sgn len (Z.shiftr field off)) mod 2 ^ (8 * fs).
Proof.
  intros. unfold get_bits.
  change (ev_cast_zero ?x fs) with (wrap (8 * fs) x).
  match goal with |- wrap _ ?x = ?y mod _ => change (y mod 2 ^ (8 * fs)) with (wrap (8 * fs) y) end.
  apply Z.bits_inj'. intros i Hi. rewrite !testbit_wrap by lia.
  destruct (Z.ltb_spec i (8 * fs)) as [Hlt|]; cbn [andb]; auto.
  assert (F : forall j, 0 <= j -> Z.testbit (ev_shl64 (ev_cast_zero field 8) (64 - off - len)) j
      = (j <? 64) && Z.testbit field (j - (64 - off - len))).
  { intros. unfold ev_shl64. rewrite testbit_wrap by lia. f_equal.
    rewrite (Z.mod_small (64 - off - len)) by lia. rewrite Z.shiftl_spec by lia.
    destruct (Z.lt_ge_cases (j - (64 - off - len)) 0).
    - rewrite !Z.testbit_neg_r; auto.
    - unfold ev_cast_zero. rewrite testbit_wrap by lia.
      destruct (Z.ltb_spec (j - (64 - off - len)) (8 * 8)); auto.
      symmetry; apply (testbit_high field (8 * fs)); lia. }
  destruct sgn; cbn [field_value].
  - unfold ev_sar64. rewrite testbit_wrap by lia.
    rewrite (Z.mod_small (64 - len)) by lia. rewrite Z.shiftr_spec by lia.
    rewrite signed_testbit by lia.
    rewrite F by lia. rewrite signed_testbit by lia. rewrite Z.shiftr_spec by lia.
    replace (i <? 64) with true by lia.
    replace (Z.min (i + (64 - len)) (64 - 1) <? 64) with true by lia. cbn [andb].
    f_equal. lia.
  - unfold ev_shr64. rewrite (Z.mod_small (64 - len)) by lia. rewrite Z.shiftr_spec by lia.
    rewrite F by lia.
    change (Z.shiftr field off mod 2 ^ len) with (wrap len (Z.shiftr field off)).
    rewrite testbit_wrap, Z.shiftr_spec by lia.
    replace (i + (64 - len) <? 64) with (i <? len) by lia. do 2 f_equal. lia.
Qed.

Lemma signed_ext w a b : 0 < w -> (forall i, 0 <= i < w -> Z.testbit a i = Z.testbit b i) -> signed w a = signed w b.
Proof.
  intros Hw H. apply Z.bits_inj'. intros i Hi. rewrite !signed_testbit by lia. apply H. lia.
Qed.

Lemma mod_ext w a b : 0 <= w -> (forall i, 0 <= i < w -> Z.testbit a i = Z.testbit b i) -> a mod 2 ^ w = b mod 2 ^ w.
Proof.
  intros Hw H. change (wrap w a = wrap w b). apply Z.bits_inj'. intros i Hi. rewrite !testbit_wrap by lia.
  destruct (Z.ltb_spec i w); auto. cbn [andb]. apply H; lia.
Qed.

Lemma field_value_ext sgn w a b : 0 < w -> (forall i, 0 <= i < w -> Z.testbit a i = Z.testbit b i) ->
  field_value sgn w a = field_value sgn w b.
Proof. intros. destruct sgn; cbn; [apply signed_ext|apply mod_ext]; auto; lia. Qed.

Lemma C03_store_load : forall fs unit v off len sgn,
  0 < fs <= 8 -> 0 <= off -> 0 < len -> off + len <= 8 * fs ->
  0 <= unit < 2 ^ (8 * fs) -> 0 <= v < 2 ^ 64 ->
  exists unit', set_bits fs unit v off len = Ok unit'
    /\ 0 <= unit' < 2 ^ (8 * fs)
    /\ replaces_bits unit unit' v off len
    /\ get_bits fs unit' off len sgn = (field_value sgn len v) mod 2 ^ (8 * fs).
Proof.
  intros. destruct (set_bits_spec fs unit v off len) as (r & E & B & R); auto.
  exists r. split; [auto|split; [auto|split; [auto|]]].
  rewrite get_bits_spec by auto. f_equal. apply field_value_ext; auto.
  intros. rewrite Z.shiftr_spec by lia. rewrite R by lia.
  replace ((off <=? i + off) && (i + off <? off + len)) with true by lia. f_equal; lia.
Qed.

Lemma C03_frame : forall fs unit v off len off2 len2 sgn unit',
  0 < fs <= 8 -> 0 <= off -> 0 < len -> off + len <= 8 * fs ->
  0 <= off2 -> 0 < len2 -> off2 + len2 <= 8 * fs ->
  (off + len <= off2 \/ off2 + len2 <= off) ->
  0 <= unit < 2 ^ (8 * fs) -> 0 <= v < 2 ^ 64 ->
  set_bits fs unit v off len = Ok unit' ->
  get_bits fs unit' off2 len2 sgn = get_bits fs unit off2 len2 sgn.
Proof.
  intros. destruct (set_bits_spec fs unit v off len) as (r & E & B & R); auto.
  rewrite E in H9; injection H9 as <-.
  rewrite !get_bits_spec by auto. f_equal. apply field_value_ext; auto.
  intros. rewrite !Z.shiftr_spec by lia. rewrite R by lia.
  replace ((off <=? i + off2) && (i + off2 <? off + len)) with false by lia. auto.
Qed.
