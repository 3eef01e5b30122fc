From Verif Require Import Base Bytes BytesSpec.
Ltac Zify.zify_post_hook ::= Z.div_mod_to_equations.

(** little-endian digits of a value *)
Fixpoint le_digits (n : nat) (v : Z) : list Z :=
  match n with O => [] | S k => v mod 256 :: le_digits k (v / 256) end.

Lemma le_digits_length n v : length (le_digits n v) = n.
Proof. revert v; induction n; simpl; auto. Qed.

Lemma le_digits_ok n v : bytes_ok (le_digits n v).
Proof.
  revert v; induction n; simpl; intros; constructor; auto.
  - apply Z.mod_pos_bound; lia.
  - apply IHn.
Qed.

Lemma le_value_digits n v : le_value (le_digits n v) = v mod 256 ^ Z.of_nat n.
Proof.
  revert v; induction n; intros.
  - change (256 ^ Z.of_nat 0) with 1. rewrite Z.mod_1_r; auto.
  - cbn [le_digits le_value]. rewrite IHn.
    rewrite Nat2Z.inj_succ, Z.pow_succ_r by lia.
    rewrite Z.rem_mul_r by (try lia; apply Z.pow_pos_nonneg; lia). lia.
Qed.

Lemma le_digits_value l : bytes_ok l -> le_digits (length l) (le_value l) = l.
Proof.
  induction 1; cbn [le_digits le_value length]; auto.
  unfold is_byte in H.
  f_equal.
  - lia.
  - replace ((x + 256 * le_value l) / 256) with (le_value l) by lia. auto.
Qed.

Lemma le_value_bound l : bytes_ok l -> 0 <= le_value l < 256 ^ Z.of_nat (length l).
Proof.
  induction 1; cbn [le_value length].
  - change (256 ^ Z.of_nat (@length Z [])) with 1; simpl; lia.
  - rewrite Nat2Z.inj_succ, Z.pow_succ_r by lia. unfold is_byte in H. lia.
Qed.

Lemma le_value_app a b : le_value (a ++ b) = le_value a + 256 ^ Z.of_nat (length a) * le_value b.
Proof.
  induction a; cbn [le_value length app].
  - change (256 ^ Z.of_nat (@length Z [])) with 1; simpl; lia.
  - rewrite IHa, Nat2Z.inj_succ, Z.pow_succ_r by lia. lia.
Qed.

Lemma le_digits_app a b v :
  le_digits (a + b) v = le_digits a v ++ le_digits b (v / 256 ^ Z.of_nat a).
Proof.
  revert v; induction a; intros.
  - change (256 ^ Z.of_nat 0) with 1. rewrite Z.div_1_r; auto.
  - cbn [Nat.add le_digits app]. f_equal. rewrite IHa. do 2 f_equal.
    rewrite Nat2Z.inj_succ, Z.pow_succ_r by lia.
    rewrite Z.div_div by (try lia; apply Z.pow_pos_nonneg; lia). auto.
Qed.

Lemma le_digits_mod n v m : (Z.of_nat n <= m) -> le_digits n (v mod 256 ^ m) = le_digits n v.
Proof.
  revert v m; induction n; intros; cbn [le_digits]; auto.
  replace m with (Z.succ (m - 1)) by lia.
  rewrite Z.pow_succ_r by lia.
  rewrite Z.rem_mul_r by (try lia; apply Z.pow_pos_nonneg; lia).
  f_equal.
  - pose proof (Z.pow_pos_nonneg 256 (m-1)). lia.
  - rewrite <- (IHn (v/256) (m - 1)) by lia. f_equal.
    rewrite Z.mul_comm, Z.div_add by lia.
    rewrite Z.div_small by lia. lia.
Qed.

(** replacing the window at [pos] *)
Definition splice (buf : list Z) (pos : nat) (l : list Z) : list Z :=
  firstn pos buf ++ l ++ skipn (pos + length l) buf.

Lemma put_splice buf pos v :
  (pos < length buf)%nat -> put buf pos v = Ok (splice buf pos [v mod 256]).
Proof.
  intros H. unfold put. destruct (Nat.ltb_spec pos (length buf)); [|lia].
  f_equal. unfold splice. simpl length.
  clear H0. revert buf H; induction pos; destruct buf; simpl; intros; try lia; auto.
  f_equal. rewrite IHpos by lia. reflexivity.
Qed.

Lemma splice_length buf pos l :
  (pos + length l <= length buf)%nat -> length (splice buf pos l) = length buf.
Proof.
  intros. unfold splice. rewrite !app_length, firstn_length, skipn_length. lia.
Qed.

Lemma skipn_skipn_add {A} (a b : nat) (l : list A) : skipn a (skipn b l) = skipn (a + b) l.
Proof.
  revert l; induction b; intros; simpl.
  - rewrite Nat.add_0_r; auto.
  - rewrite Nat.add_succ_r. destruct l; simpl; auto. destruct a; auto.
Qed.

Lemma splice_splice buf pos l1 l2 :
  (pos + length l1 + length l2 <= length buf)%nat ->
  splice (splice buf pos l1) (pos + length l1) l2 = splice buf pos (l1 ++ l2).
Proof.
  intros H. unfold splice. rewrite !app_length.
  assert (E : firstn (pos + length l1) (firstn pos buf ++ l1 ++ skipn (pos + length l1) buf)
     = firstn pos buf ++ l1).
  { rewrite app_assoc, firstn_app.
    rewrite firstn_all2 by (rewrite app_length, firstn_length; lia).
    rewrite app_length, firstn_length.
    replace (pos + length l1 - (Init.Nat.min pos (length buf) + length l1))%nat with O by lia.
    simpl. apply app_nil_r. }
  rewrite E, <- !app_assoc. do 3 f_equal.
  rewrite app_assoc, skipn_app.
  rewrite skipn_all2 by (rewrite app_length, firstn_length; lia).
  rewrite app_length, firstn_length, skipn_skipn_add. simpl. f_equal. lia.
Qed.

Lemma write_field_splice w buf pos v :
  (pos + wbytes w <= length buf)%nat ->
  write_field w buf pos v = Ok (splice buf pos (le_digits (wbytes w) v)).
Proof.
  assert (W16 : forall buf pos v, (pos + 2 <= length buf)%nat ->
     write_16 buf pos v = Ok (splice buf pos (le_digits 2 v))).
  { intros. unfold write_16. rewrite put_splice by lia. cbn [bind].
    rewrite put_splice by (rewrite splice_length; simpl; lia).
    f_equal. rewrite Z.shiftr_div_pow2 by lia.
    change (2 ^ 8) with 256.
    apply (splice_splice buf0 pos0 [v0 mod 256] [v0 / 256 mod 256]). simpl; lia. }
  assert (W32 : forall buf pos v, (pos + 4 <= length buf)%nat ->
     write_32 buf pos v = Ok (splice buf pos (le_digits 4 v))).
  { intros. unfold write_32. rewrite W16 by lia. cbn [bind].
    rewrite W16 by (rewrite splice_length; rewrite ?le_digits_length; lia).
    f_equal. rewrite (le_digits_app 2 2). rewrite Z.shiftr_div_pow2 by lia.
    rewrite <- (splice_splice buf0 pos0 (le_digits 2 v0)) by (rewrite !le_digits_length; lia).
    rewrite !le_digits_length. reflexivity. }
  intros H. destruct w; cbn [wbytes write_field] in *.
  - unfold write_8. rewrite put_splice by lia. reflexivity.
  - apply W16; lia.
  - apply W32; lia.
  - unfold write_64. rewrite W32 by lia. cbn [bind].
    rewrite W32 by (rewrite splice_length; rewrite ?le_digits_length; lia).
    f_equal. rewrite (le_digits_app 4 4). rewrite Z.shiftr_div_pow2 by lia.
    rewrite <- (splice_splice buf pos (le_digits 4 v)) by (rewrite !le_digits_length; lia).
    rewrite !le_digits_length. reflexivity.
Qed.

Lemma lor_shiftl_add a b n : 0 <= n -> 0 <= a < 2 ^ n -> 0 <= b -> Z.lor a (Z.shiftl b n) = a + b * 2 ^ n.
Proof.
  intros.
  rewrite <- Z.shiftl_mul_pow2 by lia.
  rewrite <- Z.lxor_lor.
  - rewrite <- Z.add_nocarry_lxor; auto.
    apply Z.bits_inj'. intros k Hk. rewrite Z.land_spec, Z.bits_0.
    destruct (Z.lt_ge_cases k n).
    + rewrite Z.shiftl_spec_low by lia. apply andb_false_r.
    + replace (Z.testbit a k) with false; auto.
      symmetry. destruct (Z.eq_dec a 0) as [->|]. apply Z.bits_0.
      apply Z.bits_above_log2; try lia.
      assert (Z.log2 a < n) by (apply Z.log2_lt_pow2; lia). lia.
  - apply Z.bits_inj'. intros k Hk. rewrite Z.land_spec, Z.bits_0.
    destruct (Z.lt_ge_cases k n).
    + rewrite Z.shiftl_spec_low by lia. apply andb_false_r.
    + replace (Z.testbit a k) with false; auto.
      symmetry. destruct (Z.eq_dec a 0) as [->|]. apply Z.bits_0.
      apply Z.bits_above_log2; try lia.
      assert (Z.log2 a < n) by (apply Z.log2_lt_pow2; lia). lia.
Qed.

Lemma window_length buf pos n : (pos + n <= length buf)%nat -> length (window buf pos n) = n.
Proof. intros. unfold window. rewrite firstn_length, skipn_length. lia. Qed.

Lemma window_ok buf pos n : bytes_ok buf -> bytes_ok (window buf pos n).
Proof.
  intros. unfold window, bytes_ok. apply Forall_forall. intros x Hx.
  unfold bytes_ok in H. rewrite Forall_forall in H. apply H.

  assert (In x (skipn pos buf)).
  { rewrite <- (firstn_skipn n (skipn pos buf)). apply in_or_app; auto. }
  rewrite <- (firstn_skipn pos buf). apply in_or_app; auto.
Qed.

Lemma window_app buf pos a b :
  window buf pos (a + b) = window buf pos a ++ window buf (pos + a) b.
Proof.
  unfold window. rewrite (Nat.add_comm pos a), <- skipn_skipn_add.
  generalize (skipn pos buf) as l. clear. induction a; intros; simpl; auto.
  destruct l; simpl. destruct b; auto. f_equal. apply IHa.
Qed.

Lemma get_window buf pos : (pos < length buf)%nat -> exists b, get buf pos = Ok b /\ window buf pos 1 = [b].
Proof.
  intros. destruct (get_ok buf pos H) as (b & E & N). exists b; split; auto.
  unfold window. apply nth_error_split in N. destruct N as (l1 & l2 & -> & <-).
  rewrite skipn_app, skipn_all, Nat.sub_diag. reflexivity.
Qed.

Lemma read_field_value w buf pos :
  bytes_ok buf -> (pos + wbytes w <= length buf)%nat ->
  read_field w buf pos = Ok (le_value (window buf pos (wbytes w))).
Proof.
  intros OK.
  assert (R8 : forall pos, (pos < length buf)%nat -> read_8 buf pos = Ok (le_value (window buf pos 1))).
  { intros. destruct (get_window buf pos0 H) as (b & E & W). unfold read_8. rewrite E, W.
    cbn [le_value]. f_equal; lia. }
  assert (R16 : forall pos, (pos + 2 <= length buf)%nat -> read_16 buf pos = Ok (le_value (window buf pos 2))).
  { intros. unfold read_16. rewrite !R8 by lia. cbn [bind]. f_equal.
    pose proof (le_value_bound _ (window_ok buf pos0 1 OK)).
    pose proof (le_value_bound _ (window_ok buf (pos0+1) 1 OK)).
    rewrite window_length in H0, H1 by lia.
    rewrite lor_shiftl_add by (try lia; auto).
    change (window buf pos0 2) with (window buf pos0 (1 + 1)); rewrite (window_app buf pos0 1 1), le_value_app, window_length by lia.
    unfold wrap. change (256 ^ Z.of_nat 1) with 256 in *. change (2 ^ 8) with 256. change (2 ^ 16) with 65536.
    lia. }
  assert (R32 : forall pos, (pos + 4 <= length buf)%nat -> read_32 buf pos = Ok (le_value (window buf pos 4))).
  { intros. unfold read_32. rewrite !R16 by lia. cbn [bind]. f_equal.
    pose proof (le_value_bound _ (window_ok buf pos0 2 OK)).
    pose proof (le_value_bound _ (window_ok buf (pos0+2) 2 OK)).
    rewrite window_length in H0, H1 by lia.
    change (256 ^ Z.of_nat 2) with 65536 in *.
    assert (E : wrap 32 (Z.shiftl (le_value (window buf (pos0 + 2) 2)) 16)
          = Z.shiftl (le_value (window buf (pos0 + 2) 2)) 16).
    { unfold wrap. apply Z.mod_small. rewrite Z.shiftl_mul_pow2 by lia. lia. }
    rewrite E.
    rewrite lor_shiftl_add by (try lia; auto).
    change (window buf pos0 4) with (window buf pos0 (2 + 2)); rewrite (window_app buf pos0 2 2), le_value_app, window_length by lia.
    unfold wrap. change (256 ^ Z.of_nat 2) with 65536 in *. change (2 ^ 16) with 65536. change (2 ^ 32) with 4294967296.
    lia. }
  intros. destruct w; cbn [wbytes read_field] in *.
  - apply R8; lia.
  - apply R16; lia.
  - apply R32; lia.
  - unfold read_64. rewrite !R32 by lia. cbn [bind]. f_equal.
    pose proof (le_value_bound _ (window_ok buf pos 4 OK)).
    pose proof (le_value_bound _ (window_ok buf (pos+4) 4 OK)).
    rewrite window_length in H0, H1 by lia.
    change (256 ^ Z.of_nat 4) with 4294967296 in *.
    assert (E : wrap 64 (Z.shiftl (le_value (window buf (pos + 4) 4)) 32)
          = Z.shiftl (le_value (window buf (pos + 4) 4)) 32).
    { unfold wrap. apply Z.mod_small. rewrite Z.shiftl_mul_pow2 by lia. lia. }
    rewrite E.
    rewrite lor_shiftl_add by (try lia; auto).
    change (window buf pos 8) with (window buf pos (4 + 4)); rewrite (window_app buf pos 4 4), le_value_app, window_length by lia.
    unfold wrap. change (256 ^ Z.of_nat 4) with 4294967296 in *. change (2 ^ 32) with 4294967296.
    change (2 ^ 64) with (4294967296 * 4294967296).
    lia.
Qed.

Lemma window_splice buf pos l :
  (pos + length l <= length buf)%nat -> window (splice buf pos l) pos (length l) = l.
Proof.
  intros. unfold window, splice.
  rewrite skipn_app. rewrite skipn_all2 by (rewrite firstn_length; lia).
  rewrite firstn_length. replace (pos - Init.Nat.min pos (length buf))%nat with O by lia.
  simpl. rewrite firstn_app, Nat.sub_diag, firstn_all. simpl. apply app_nil_r.
Qed.

Lemma nth_error_firstn_lt {A} (l : list A) n i : (i < n)%nat -> nth_error (firstn n l) i = nth_error l i.
Proof. revert n i; induction l; destruct n, i; simpl; intros; auto; try lia. apply IHl; lia. Qed.

Lemma nth_error_skipn_add {A} (l : list A) n i : nth_error (skipn n l) i = nth_error l (n + i).
Proof. revert l; induction n; destruct l; simpl; auto. destruct i; auto. Qed.

Lemma splice_outside buf pos l i :
  (pos + length l <= length buf)%nat -> (i < pos \/ pos + length l <= i)%nat ->
  nth_error (splice buf pos l) i = nth_error buf i.
Proof.
  intros H [Hi|Hi]; unfold splice.
  - rewrite nth_error_app1 by (rewrite firstn_length; lia).
    apply nth_error_firstn_lt; auto.
  - rewrite app_assoc, nth_error_app2 by (rewrite app_length, firstn_length; lia).
    rewrite nth_error_skipn_add. f_equal. rewrite app_length, !firstn_length. lia.
Qed.

Lemma splice_bytes_ok buf pos l : bytes_ok buf -> bytes_ok l -> bytes_ok (splice buf pos l).
Proof.
  intros. unfold splice, bytes_ok. apply Forall_app; split; [|apply Forall_app; split]; auto.
  - rewrite <- (firstn_skipn pos buf) in H. apply Forall_app in H. apply H.
  - rewrite <- (firstn_skipn (pos + length l) buf) in H. apply Forall_app in H. apply H.
Qed.

Lemma splice_window buf pos n :
  (pos + n <= length buf)%nat -> splice buf pos (window buf pos n) = buf.
Proof.
  intros. unfold splice. rewrite window_length by lia. unfold window.
  rewrite (Nat.add_comm pos n), <- skipn_skipn_add.
  rewrite (firstn_skipn n), firstn_skipn. auto.
Qed.

Lemma file_write_field_digits w f v :
  file_write_field w f v = f ++ le_digits (wbytes w) v.
Proof.
  assert (W16 : forall f v, file_write_word f v = f ++ le_digits 2 v).
  { intros. unfold file_write_word, file_write_byte. rewrite <- app_assoc. f_equal.
    cbn [app le_digits]. rewrite Z.shiftr_div_pow2 by lia. unfold wrap.
    change (2 ^ 16) with 65536. change (2 ^ 8) with 256.
    assert (v0 mod 65536 / 256 mod 256 = v0 / 256 mod 256) by lia.
    assert (v0 mod 65536 mod 256 = v0 mod 256) by lia. congruence. }
  assert (W32 : forall f v, file_write_long f v = f ++ le_digits 4 v).
  { intros. unfold file_write_long. rewrite !W16, <- app_assoc. f_equal.
    unfold wrap. change (2 ^ 32) with (256 ^ 4).
    rewrite le_digits_mod by lia. rewrite (le_digits_app 2 2). f_equal.
    rewrite Z.shiftr_div_pow2 by lia. change (256 ^ Z.of_nat 2) with (2 ^ 16).
    rewrite <- (le_digits_mod 2 (v0 / 2 ^ 16) 2) by lia.
    rewrite <- (le_digits_mod 2 (v0 mod 256 ^ 4 / 2 ^ 16) 2) by lia. f_equal.
    change (2 ^ 16) with 65536. change (256 ^ 2) with 65536. change (256 ^ 4) with 4294967296. lia. }
  destruct w; cbn [file_write_field wbytes].
  - reflexivity.
  - apply W16.
  - apply W32.
  - unfold file_write_quad. rewrite !W32, <- app_assoc. f_equal.
    unfold wrap. change (2 ^ 64) with (256 ^ 8).
    rewrite le_digits_mod by lia. rewrite (le_digits_app 4 4). f_equal.
    rewrite Z.shiftr_div_pow2 by lia. change (256 ^ Z.of_nat 4) with (2 ^ 32).
    rewrite <- (le_digits_mod 4 (v / 2 ^ 32) 4) by lia.
    rewrite <- (le_digits_mod 4 (v mod 256 ^ 8 / 2 ^ 32) 4) by lia. f_equal.
    change (256 ^ 8) with (2 ^ 32 * 2 ^ 32). change (256 ^ 4) with (2 ^ 32).
    change (2 ^ 32) with 4294967296. lia.
Qed.

Lemma C01_write_read : forall w buf pos v,
  bytes_ok buf -> (pos + wbytes w <= length buf)%nat ->
  exists buf', write_field w buf pos v = Ok buf'
    /\ length buf' = length buf
    /\ bytes_ok buf'
    /\ le_value (window buf' pos (wbytes w)) = v mod 256 ^ Z.of_nat (wbytes w)
    /\ read_field w buf' pos = Ok (v mod 256 ^ Z.of_nat (wbytes w))
    /\ (forall i, (i < pos \/ pos + wbytes w <= i)%nat -> nth_error buf' i = nth_error buf i).
Proof.
  intros w buf pos v OK H. rewrite write_field_splice by auto.
  eexists; split; [reflexivity|].
  assert (L := le_digits_length (wbytes w) v).
  assert (OK' : bytes_ok (splice buf pos (le_digits (wbytes w) v)))
    by (apply splice_bytes_ok; auto using le_digits_ok).
  assert (W : window (splice buf pos (le_digits (wbytes w) v)) pos (wbytes w) = le_digits (wbytes w) v).
  { rewrite <- L at 2. apply window_splice. lia. }
  split; [apply splice_length; lia|]. split; auto. split; [rewrite W; apply le_value_digits|]. split.
  - rewrite read_field_value; auto.
    + rewrite W, le_value_digits; auto.
    + rewrite splice_length; lia.
  - intros. apply splice_outside; rewrite ?L; auto.
Qed.

Lemma C01_read_write : forall w buf pos,
  bytes_ok buf -> (pos + wbytes w <= length buf)%nat ->
  exists v, read_field w buf pos = Ok v /\ write_field w buf pos v = Ok buf.
Proof.
  intros. rewrite read_field_value by auto. eexists; split; [reflexivity|].
  rewrite write_field_splice by auto. f_equal.
  rewrite <- (window_length buf pos (wbytes w)) at 1 by auto.
  rewrite le_digits_value by (apply window_ok; auto).
  apply splice_window; auto.
Qed.

Lemma C01_file : forall w f v,
  exists l, file_write_field w f v = f ++ l /\ length l = wbytes w /\ bytes_ok l
            /\ le_value l = v mod 256 ^ Z.of_nat (wbytes w).
Proof.
  intros. exists (le_digits (wbytes w) v). rewrite file_write_field_digits.
  rewrite le_digits_length, le_value_digits. auto using le_digits_ok.
Qed.
