From Verif Require Import Base Arch CTypesSpec ConstConv.
Ltac Zify.zify_post_hook ::= Z.div_mod_to_equations.

Definition wide_type (t : simple_type) : Prop := integer_type t /\ t <> ST_BOOL.

Lemma int_cases t : integer_type t -> st_is_integer t = true /\ is_signed t = Ok (spec_signed t).
Proof. unfold integer_type. cbn. intros H. repeat (destruct H as [<-|H]; [auto|]). contradiction. Qed.
Lemma width_cases m t : wide_type t -> 8 <= spec_width m t <= 64 /\ sizeof_simple m t * 8 = spec_width m t.
Proof.
  unfold wide_type, integer_type. cbn. intros [H N].
  repeat (destruct H as [<-|H]; [try contradiction; destruct m; cbn; lia|]). contradiction.
Qed.
Lemma get_range_spec m t : wide_type t ->
  get_range m t (-1) = Ok (if spec_signed t then (spec_width m t - 1, spec_width m t - 1) else (-1, spec_width m t)).
Proof.
  intros W. unfold get_range. rewrite Z.eqb_refl. destruct (int_cases t (proj1 W)) as [_ ->]. cbn [bind].
  destruct (width_cases m t W) as [_ ->]. reflexivity.
Qed.
Lemma pow_bound k : 0 <= k <= 63 -> 0 < 2 ^ k /\ 2 ^ k <= 9223372036854775808.
Proof.
  intros. split; [apply Z.pow_pos_nonneg; lia|]. change 9223372036854775808 with (2 ^ 63). apply Z.pow_le_mono_r; lia.
Qed.
Lemma pow_succ_m1 k : 1 <= k -> 2 ^ k = 2 * 2 ^ (k - 1).
Proof. intros. rewrite <- Z.pow_succ_r by lia. f_equal. lia. Qed.
Lemma range_max_spec k : 1 <= k <= 64 -> range_max_of k = Ok (2 ^ k - 1).
Proof.
  intros. unfold range_max_of. rewrite (proj2 (Z.eqb_neq k (-1))) by lia.
  rewrite (proj2 (Z.ltb_ge (k - 1) 0)), (proj2 (Z.leb_gt 64 (k - 1))) by lia. cbn [orb].
  rewrite Z.shiftl_mul_pow2 by lia. rewrite Z.mul_1_l.
  destruct (pow_bound (k - 1) ltac:(lia)) as [P1 P2]. rewrite (pow_succ_m1 k) by lia.
  set (p := 2 ^ (k - 1)) in *. clearbody p. unfold wrap. change (2 ^ 64) with 18446744073709551616.
  rewrite (Z.mod_small p) by lia. rewrite (Z.mod_small (p - 1)) by lia. rewrite Z.mod_small by lia. f_equal. lia.
Qed.
Lemma range_min_spec k : 0 <= k <= 63 -> range_min_of k = Ok (2 ^ k).
Proof.
  intros. unfold range_min_of. rewrite (proj2 (Z.eqb_neq k (-1))) by lia.
  rewrite (proj2 (Z.ltb_ge k 0)), (proj2 (Z.leb_gt 64 k)) by lia. cbn [orb].
  rewrite Z.shiftl_mul_pow2 by lia. rewrite Z.mul_1_l.
  destruct (pow_bound k ltac:(lia)). unfold wrap. change (2 ^ 64) with 18446744073709551616.
  rewrite Z.mod_small by lia. reflexivity.
Qed.
Lemma land_ones_minus x k : 0 <= k -> Z.land x (2 ^ k - 1) = x mod 2 ^ k.
Proof. intros. rewrite <- Z.land_ones by lia. f_equal. rewrite Z.ones_equiv. lia. Qed.

Lemma pow_w_le w : 0 <= w <= 64 -> 0 < 2 ^ w <= 18446744073709551616.
Proof. intros. split; [apply Z.pow_pos_nonneg; lia|]. change 18446744073709551616 with (2 ^ 64). apply Z.pow_le_mono_r; lia. Qed.

Lemma conv_ui_spec w x : 1 <= w <= 64 ->
  conv_ui x (2 ^ (w - 1)) (2 ^ (w - 1) - 1) = wrap 64 (signed w x).
Proof.
  intros W. unfold conv_ui, signed, wrap.
  destruct (pow_bound (w - 1) ltac:(lia)) as [P1 P2].
  pose proof (pow_succ_m1 w ltac:(lia)) as E.
  replace (2 ^ (w - 1) + (2 ^ (w - 1) - 1)) with (2 ^ w - 1) by lia.
  pose proof (pow_w_le w ltac:(lia)) as Pw.
  assert (M : (2 ^ w - 1) mod 2 ^ 64 = 2 ^ w - 1) by (apply Z.mod_small; change (2 ^ 64) with 18446744073709551616; lia).
  rewrite M, land_ones_minus by lia.
  assert (B : 0 <= x mod 2 ^ w < 2 ^ w) by (apply Z.mod_pos_bound; lia).
  set (y := x mod 2 ^ w) in *. set (p := 2 ^ (w - 1)) in *. set (q := 2 ^ w) in *. clearbody y p q. clear M.
  change (2 ^ 64) with 18446744073709551616.
  destruct (Z.ltb_spec (p - 1) y).
  - destruct (Z.ltb_spec y p); [lia|].
    rewrite (Z.mod_small (p + 1)), (Z.mod_small (y - (p - 1))) by lia.
    rewrite (Z.mod_small (p + 1 - _)) by lia. f_equal. lia.
  - destruct (Z.ltb_spec y p); [|lia]. rewrite Z.mod_small by lia. reflexivity.
Qed.

Lemma signed_wrap_le w x : 1 <= w <= 64 -> signed w (wrap 64 x) = signed w x.
Proof.
  intros. unfold signed, wrap.
  replace (2 ^ 64) with (2 ^ w * 2 ^ (64 - w)) by (rewrite <- Z.pow_add_r by lia; f_equal; lia).
  rewrite Z.rem_mul_r by (apply Z.pow_nonzero || apply Z.pow_pos_nonneg; lia).
  replace ((x mod 2 ^ w + 2 ^ w * ((x / 2 ^ w) mod 2 ^ (64 - w))) mod 2 ^ w) with (x mod 2 ^ w); auto.
  rewrite Z.mul_comm, Z.mod_add by (apply Z.pow_nonzero; lia). rewrite Z.mod_mod by (apply Z.pow_nonzero; lia). auto.
Qed.
Lemma mod_wrap_le w x : 1 <= w <= 64 -> wrap 64 x mod 2 ^ w = x mod 2 ^ w.
Proof.
  intros. unfold wrap.
  replace (2 ^ 64) with (2 ^ w * 2 ^ (64 - w)) by (rewrite <- Z.pow_add_r by lia; f_equal; lia).
  rewrite Z.rem_mul_r by (apply Z.pow_nonzero || apply Z.pow_pos_nonneg; lia).
  rewrite Z.mul_comm, Z.mod_add by (apply Z.pow_nonzero; lia). rewrite Z.mod_mod by (apply Z.pow_nonzero; lia). auto.
Qed.

(** The value of an integer reduced into type t. *)
Definition reduce (m : abi) (t : simple_type) (v : Z) : Z :=
  if spec_signed t then signed (spec_width m t) v else v mod 2 ^ spec_width m t.

Lemma conv_ii_spec w x : 1 <= w <= 64 -> conv_ii x (2 ^ (w - 1)) (2 ^ (w - 1) - 1) = wrap 64 (signed w x).
Proof.
  intros W. unfold conv_ii, conv_iu.
  replace (2 ^ (w - 1) - 1 + 2 ^ (w - 1)) with (2 ^ w - 1) by (rewrite (pow_succ_m1 w) by lia; lia).
  pose proof (pow_w_le w ltac:(lia)) as Pw.
  assert (M : wrap 64 (2 ^ w - 1) = 2 ^ w - 1) by (unfold wrap; apply Z.mod_small; change (2 ^ 64) with 18446744073709551616; lia).
  rewrite M, land_ones_minus by lia. rewrite conv_ui_spec by auto. f_equal.
  unfold signed. unfold wrap. rewrite Z.mod_mod by lia. reflexivity.
Qed.

Lemma normalize_spec m t bits : wide_type t -> constant_normalize m t bits = Ok (wrap 64 (reduce m t bits)).
Proof.
  intros W. destruct (int_cases t (proj1 W)) as [I S]. destruct (width_cases m t W) as [B _].
  unfold constant_normalize, reduce. rewrite I. cbn [negb]. rewrite get_range_spec by auto. cbn [bind].
  destruct (spec_signed t); cbn [fst snd].
  - rewrite range_min_spec, range_max_spec by lia. cbn [bind]. rewrite S. cbn [bind]. rewrite conv_ii_spec by lia. reflexivity.
  - change (range_min_of (-1)) with (Ok 0). rewrite range_max_spec by lia. cbn [bind]. rewrite S. cbn [bind].
    unfold conv_uu. rewrite land_ones_minus by lia. f_equal. unfold wrap.
    pose proof (pow_w_le (spec_width m t) ltac:(lia)). symmetry. apply Z.mod_small.
    assert (0 <= bits mod 2 ^ spec_width m t < 2 ^ spec_width m t) by (apply Z.mod_pos_bound; lia).
    change (2 ^ 64) with 18446744073709551616. lia.
Qed.

Lemma cast_reduce m from to v : integer_type from -> wide_type to -> from <> to ->
  simple_cast m from (wrap 64 v) to = Ok (wrap 64 (reduce m to v)).
Proof.
  intros F W N. destruct (int_cases from F) as [If Sf]. destruct (int_cases to (proj1 W)) as [It St].
  destruct (width_cases m to W) as [B _]. unfold simple_cast.
  destruct (st_eqb_spec to ST_VOID) as [->|]; [discriminate It|].
  destruct (st_eqb_spec to from); [congruence|]. cbn [orb]. rewrite If, It. cbn [andb].
  rewrite get_range_spec by auto. cbn [bind]. unfold reduce.
  assert (U : conv_uu (wrap 64 v) (2 ^ spec_width m to - 1) = wrap 64 (v mod 2 ^ spec_width m to)).
  { unfold conv_uu. rewrite land_ones_minus, mod_wrap_le by lia. unfold wrap. symmetry. apply Z.mod_small.
    pose proof (pow_w_le (spec_width m to) ltac:(lia)).
    assert (0 <= v mod 2 ^ spec_width m to < 2 ^ spec_width m to) by (apply Z.mod_pos_bound; lia).
    change (2 ^ 64) with 18446744073709551616. lia. }
  destruct (spec_signed to); cbn [fst snd].
  - rewrite range_min_spec, range_max_spec by lia. cbn [bind]. rewrite Sf, St. cbn [bind].
    destruct (spec_signed from); cbn [andb negb].
    + rewrite conv_ii_spec, signed_wrap_le by lia. reflexivity.
    + rewrite conv_ui_spec, signed_wrap_le by lia. reflexivity.
  - change (range_min_of (-1)) with (Ok 0). rewrite range_max_spec by lia. cbn [bind]. rewrite Sf, St. cbn [bind].
    destruct (spec_signed from); cbn [andb negb]; [exact (f_equal Ok U)|exact (f_equal Ok U)].
Qed.

Lemma reduce_range m t v : wide_type t -> representable m t (reduce m t v) /\ (reduce m t v) mod 2 ^ spec_width m t = v mod 2 ^ spec_width m t.
Proof.
  intros W. destruct (width_cases m t W) as [B _]. unfold representable, spec_min, spec_max, reduce.
  destruct (spec_signed t).
  - pose proof (signed_range (spec_width m t) v ltac:(lia)). pose proof (signed_cong (spec_width m t) v ltac:(lia)). split; [lia|auto].
  - assert (0 <= v mod 2 ^ spec_width m t < 2 ^ spec_width m t) by (apply Z.mod_pos_bound, Z.pow_pos_nonneg; lia).
    split; [lia|]. apply Z.mod_mod. apply Z.pow_nonzero; lia.
Qed.

Lemma value_of_rep m t v : integer_type t -> representable m t v -> constant_value t (wrap 64 v) = Ok v.
Proof.
  intros I R. destruct (int_cases t I) as [_ S]. unfold constant_value. rewrite S. cbn [bind]. unfold int_d.
  unfold representable, spec_min, spec_max in R.
  assert (W : 1 <= spec_width m t <= 64).
  { revert I. unfold integer_type. cbn. intros H. repeat (destruct H as [<-|H]; [destruct m; cbn; lia|]). contradiction. }
  destruct (spec_signed t).
  - rewrite signed_wrap_le by lia. f_equal. apply signed_id; [lia|].
    pose proof (pow_bound (spec_width m t - 1) ltac:(lia)). change (2 ^ (64 - 1)) with 9223372036854775808. lia.
  - f_equal. unfold wrap. apply Z.mod_small. pose proof (pow_w_le (spec_width m t) ltac:(lia)).
    change (2 ^ 64) with 18446744073709551616. lia.
Qed.

Lemma cast_spec m from to v : integer_type from -> wide_type to -> representable m from v ->
  exists bits v', simple_cast m from (wrap 64 v) to = Ok bits /\ constant_value to bits = Ok v' /\
    representable m to v' /\ v' mod 2 ^ spec_width m to = v mod 2 ^ spec_width m to.
Proof.
  intros F W R. destruct (st_eqb_spec from to) as [->|N].
  - exists (wrap 64 v), v. split; [|split; [apply (value_of_rep m); auto|auto]].
    unfold simple_cast. destruct (st_eqb_spec to to); [|contradiction]. rewrite orb_true_r. auto.
  - exists (wrap 64 (reduce m to v)), (reduce m to v). destruct (reduce_range m to v W) as [R1 R2].
    split; [apply cast_reduce; auto|]. split; [apply (value_of_rep m); auto; apply W|auto].
Qed.
