From Verif Require Import Base Utf8 Utf8Spec.
Ltac Zify.zify_post_hook ::= Z.div_mod_to_equations.

(** Facts about single bytes, checked for all of them. *)
Definition all_bytes : list Z := map Z.of_nat (seq 0 256).
Lemma all_bytes_in b : 0 <= b < 256 -> In b all_bytes.
Proof.
  intros. unfold all_bytes. apply in_map_iff. exists (Z.to_nat b). split; [lia|].
  apply in_seq. lia.
Qed.
Lemma byte_forall (P : Z -> bool) : forallb P all_bytes = true -> forall b, 0 <= b < 256 -> P b = true.
Proof. intros H b Hb. rewrite forallb_forall in H. apply H, all_bytes_in; auto. Qed.

Lemma lor_land_mod a b c : to_char (Z.lor a (Z.land b c)) = Z.lor (to_char a) (Z.land (to_char b) (to_char c)).
Proof.
  unfold to_char. change 256 with (2 ^ 8). apply Z.bits_inj'. intros i Hi.
  rewrite Z.lor_spec, Z.land_spec.
  destruct (Z.lt_ge_cases i 8).
  - rewrite !Z.mod_pow2_bits_low by lia. rewrite Z.lor_spec, Z.land_spec. auto.
  - rewrite !Z.mod_pow2_bits_high by lia. auto.
Qed.

(** Lead/continuation byte computations, for all bytes. *)
Lemma cont_byte v : to_char (Z.lor 128 (Z.land v (byte_not 192))) = 128 + v mod 64.
Proof.
  rewrite lor_land_mod.
  assert (H : forall b, 0 <= b < 256 -> (Z.lor (to_char 128) (Z.land b (to_char (byte_not 192))) =? 128 + b mod 64) = true).
  { apply (byte_forall (fun b => Z.lor (to_char 128) (Z.land b (to_char (byte_not 192))) =? 128 + b mod 64)).
    vm_compute. reflexivity. }
  specialize (H (to_char v)). unfold to_char in *.
  apply Z.eqb_eq in H; [|lia]. rewrite H. lia.
Qed.

Lemma lead2 v : 0 <= v < 32 -> to_char (Z.lor 192 (Z.land v (byte_not 224))) = 192 + v.
Proof.
  intros. rewrite lor_land_mod.
  assert (G : forall b, 0 <= b < 256 -> (negb (b <? 32) || (Z.lor (to_char 192) (Z.land (to_char b) (to_char (byte_not 224))) =? 192 + b)) = true).
  { apply (byte_forall (fun b => negb (b <? 32) || (Z.lor (to_char 192) (Z.land (to_char b) (to_char (byte_not 224))) =? 192 + b))).
    vm_compute. reflexivity. }
  specialize (G v ltac:(lia)). lia.
Qed.
Lemma lead3 v : 0 <= v < 16 -> to_char (Z.lor 224 (Z.land v (byte_not 240))) = 224 + v.
Proof.
  intros. rewrite lor_land_mod.
  assert (G : forall b, 0 <= b < 256 -> (negb (b <? 16) || (Z.lor (to_char 224) (Z.land (to_char b) (to_char (byte_not 240))) =? 224 + b)) = true).
  { apply (byte_forall (fun b => negb (b <? 16) || (Z.lor (to_char 224) (Z.land (to_char b) (to_char (byte_not 240))) =? 224 + b))).
    vm_compute. reflexivity. }
  specialize (G v ltac:(lia)). lia.
Qed.
Lemma lead4 v : 0 <= v < 8 -> to_char (Z.lor 240 (Z.land v (byte_not 248))) = 240 + v.
Proof.
  intros. rewrite lor_land_mod.
  assert (G : forall b, 0 <= b < 256 -> (negb (b <? 8) || (Z.lor (to_char 240) (Z.land (to_char b) (to_char (byte_not 248))) =? 240 + b)) = true).
  { apply (byte_forall (fun b => negb (b <? 8) || (Z.lor (to_char 240) (Z.land (to_char b) (to_char (byte_not 248))) =? 240 + b))).
    vm_compute. reflexivity. }
  specialize (G v ltac:(lia)). lia.
Qed.

Lemma encode_spec cp : 0 <= cp <= max_code_point ->
  exists e, utf8_encode cp = Ok e /\ e = utf8_bytes cp ++ repeat 0 (4 - length (utf8_bytes cp)).
Proof.
  unfold max_code_point. intros. unfold utf8_encode, utf8_bytes.
  change (6 * 0) with 0. change (6 * 1) with 6. change (6 * 2) with 12. change (6 * 3) with 18.
  rewrite !Z.shiftr_0_r. rewrite !Z.shiftr_div_pow2 by lia.
  change (2 ^ 6) with 64. change (2 ^ 12) with 4096. change (2 ^ 18) with 262144.
  rewrite !cont_byte.
  destruct (Z.leb_spec cp 127).
  - replace (cp <? 128) with true by lia. eexists; split; [reflexivity|].
    cbn. unfold to_char. change 255 with (Z.ones 8). rewrite Z.land_ones by lia.
    f_equal. change (2 ^ 8) with 256. lia.
  - replace (cp <? 128) with false by lia.
    destruct (Z.leb_spec cp 2047).
    + replace (cp <? 2048) with true by lia. rewrite lead2 by lia. eexists; split; reflexivity.
    + replace (cp <? 2048) with false by lia.
      destruct (Z.leb_spec cp 65535).
      * replace (cp <? 65536) with true by lia. rewrite lead3 by lia. eexists; split; reflexivity.
      * replace (cp <? 65536) with false by lia.
        replace (cp <=? 1114111) with true by lia. rewrite lead4 by lia. eexists; split; reflexivity.
Qed.

(** One fact per lemma: each is checked for all bytes. *)
Ltac by_bytes P := match goal with |- forall b, 0 <= b < 256 -> _ => idtac end;
  intros b Hb; pose proof (byte_forall P ltac:(vm_compute; reflexivity) b Hb) as G; cbv beta in G.
Lemma top128 : forall b, 0 <= b < 256 -> (Z.land b 128 =? 0) = (b <? 128).
Proof. by_bytes (fun b => Bool.eqb (Z.land b 128 =? 0) (b <? 128)). apply Bool.eqb_prop, G. Qed.
Lemma top192 : forall b, 0 <= b < 256 -> (Z.land b 224 =? 192) = ((192 <=? b) && (b <? 224)).
Proof. by_bytes (fun b => Bool.eqb (Z.land b 224 =? 192) ((192 <=? b) && (b <? 224))). apply Bool.eqb_prop, G. Qed.
Lemma top224 : forall b, 0 <= b < 256 -> (Z.land b 240 =? 224) = ((224 <=? b) && (b <? 240)).
Proof. by_bytes (fun b => Bool.eqb (Z.land b 240 =? 224) ((224 <=? b) && (b <? 240))). apply Bool.eqb_prop, G. Qed.
Lemma top240 : forall b, 0 <= b < 256 -> (Z.land b 248 =? 240) = ((240 <=? b) && (b <? 248)).
Proof. by_bytes (fun b => Bool.eqb (Z.land b 248 =? 240) ((240 <=? b) && (b <? 248))). apply Bool.eqb_prop, G. Qed.
Lemma land_1 : forall b, 0 <= b < 256 -> b < 128 -> Z.land b (byte_not 128) = b.
Proof. by_bytes (fun b => negb (b <? 128) || (Z.land b (byte_not 128) =? b)). intros. destruct (Z.ltb_spec b 128); [|lia]. apply Z.eqb_eq, G. Qed.
Lemma land_2 : forall b, 0 <= b < 256 -> 192 <= b < 256 -> Z.land b (byte_not 224) = (b - 192) mod 32.
Proof. by_bytes (fun b => negb (192 <=? b) || (Z.land b (byte_not 224) =? (b - 192) mod 32)). intros. destruct (Z.leb_spec 192 b); [|lia]. apply Z.eqb_eq, G. Qed.
Lemma land_4 : forall b, 0 <= b < 256 -> 240 <= b < 256 -> Z.land b (byte_not 248) = (b - 240) mod 8.
Proof. by_bytes (fun b => negb (240 <=? b) || (Z.land b (byte_not 248) =? (b - 240) mod 8)). intros. destruct (Z.leb_spec 240 b); [|lia]. apply Z.eqb_eq, G. Qed.
Lemma land_c0 : forall b, 0 <= b < 256 -> Z.land b (byte_not 192) = b mod 64.
Proof. by_bytes (fun b => Z.land b (byte_not 192) =? b mod 64). apply Z.eqb_eq, G. Qed.

Lemma lor_add a b n : 0 <= n -> 0 <= b < 2 ^ n -> Z.lor (a * 2 ^ n) b = a * 2 ^ n + b.
Proof.
  intros. rewrite <- Z.shiftl_mul_pow2 by lia.
  assert (L : Z.land (Z.shiftl a n) b = 0).
  { apply Z.bits_inj'. intros k Hk. rewrite Z.land_spec, Z.bits_0.
    destruct (Z.lt_ge_cases k n).
    - rewrite Z.shiftl_spec_low by lia; auto.
    - rewrite <- (Z.mod_small b (2 ^ n)) by lia.
      rewrite Z.mod_pow2_bits_high by lia. apply andb_false_r. }
  rewrite <- Z.lxor_lor by auto. rewrite <- Z.add_nocarry_lxor; auto.
Qed.

Lemma land_c b : 128 <= b < 192 -> Z.land b (byte_not 192) = b - 128.
Proof. intros. rewrite land_c0 by lia. lia. Qed.

Lemma bool_t b (P : Prop) : Bool.reflect P b -> P -> b = true.
Proof. intros [] ?; auto; contradiction. Qed.
Lemma range_t a b c : a <= b < c -> (a <=? b) && (b <? c) = true.
Proof. intros. apply andb_true_intro; split; [apply Z.leb_le|apply Z.ltb_lt]; lia. Qed.
Lemma range_f a b c : b < a \/ c <= b -> (a <=? b) && (b <? c) = false.
Proof. intros [H|H]; [apply Z.leb_gt in H; rewrite H; auto|apply Z.ltb_ge in H; rewrite H; apply andb_false_r]. Qed.

Lemma decode_spec cp rest : 0 <= cp <= max_code_point ->
  utf8_decode (utf8_bytes cp ++ rest) = Ok (cp, length (utf8_bytes cp)).
Proof.
  unfold max_code_point. intros. unfold utf8_decode, utf8_bytes.
  change (6 * 0) with 0. change (6 * 1) with 6. change (6 * 2) with 12. change (6 * 3) with 18.
  destruct (Z.ltb_spec cp 128); [|destruct (Z.ltb_spec cp 2048); [|destruct (Z.ltb_spec cp 65536)]];
    unfold get; cbn [app nth_error bind length].
  - rewrite top128, (proj2 (Z.ltb_lt _ _)) by lia.
    rewrite Z.shiftl_0_r, land_1 by lia. auto.
  - rewrite top128, (proj2 (Z.ltb_ge _ _)) by lia.
    rewrite top192, range_t by lia. rewrite land_2 by lia.
    replace ((192 + cp / 64 - 192) mod 32) with (cp / 64) by lia.
    rewrite land_c by lia. rewrite Z.shiftl_0_r, Z.shiftl_mul_pow2 by lia.
    rewrite lor_add by (change (2 ^ 6) with 64; lia).
    change (2 ^ 6) with 64. do 2 f_equal. lia.
  - rewrite top128, (proj2 (Z.ltb_ge _ _)) by lia.
    rewrite top192, range_f by lia. rewrite top224, range_t by lia.
    rewrite land_2 by lia.
    replace ((224 + cp / 4096 - 192) mod 32) with (cp / 4096) by lia.
    rewrite !land_c by lia. rewrite Z.shiftl_0_r, !Z.shiftl_mul_pow2 by lia.
    rewrite (lor_add (cp / 4096)) by (change (2 ^ 6) with 64; change (2 ^ 12) with 4096; lia).
    replace (cp / 4096 * 2 ^ 12 + (128 + (cp / 64) mod 64 - 128) * 2 ^ 6) with ((cp / 4096 * 64 + (cp / 64) mod 64) * 2 ^ 6)
      by (change (2 ^ 6) with 64; change (2 ^ 12) with 4096; lia).
    rewrite lor_add by (change (2 ^ 6) with 64; lia).
    change (2 ^ 6) with 64. do 2 f_equal. lia.
  - rewrite top128, (proj2 (Z.ltb_ge _ _)) by lia.
    rewrite top192, range_f by lia. rewrite top224, range_f by lia. rewrite top240, range_t by lia.
    rewrite land_4 by lia.
    replace ((240 + cp / 262144 - 240) mod 8) with (cp / 262144) by lia.
    rewrite !land_c by lia. rewrite Z.shiftl_0_r, !Z.shiftl_mul_pow2 by lia.
    rewrite (lor_add (cp / 262144)) by (change (2 ^ 18) with 262144; change (2 ^ 12) with 4096; lia).
    replace (cp / 262144 * 2 ^ 18 + (128 + (cp / 4096) mod 64 - 128) * 2 ^ 12)
      with ((cp / 262144 * 64 + (cp / 4096) mod 64) * 2 ^ 12)
      by (change (2 ^ 18) with 262144; change (2 ^ 12) with 4096; lia).
    rewrite (lor_add (_ + _)) by (change (2 ^ 6) with 64; change (2 ^ 12) with 4096; lia).
    replace ((cp / 262144 * 64 + (cp / 4096) mod 64) * 2 ^ 12 + (128 + (cp / 64) mod 64 - 128) * 2 ^ 6)
      with (((cp / 262144 * 64 + (cp / 4096) mod 64) * 64 + (cp / 64) mod 64) * 2 ^ 6)
      by (change (2 ^ 6) with 64; change (2 ^ 12) with 4096; lia).
    rewrite lor_add by (change (2 ^ 6) with 64; lia).
    change (2 ^ 6) with 64. do 2 f_equal. lia.
Qed.

Lemma length_spec cp : 0 <= cp <= max_code_point ->
  exists b t, utf8_bytes cp = b :: t /\ utf8_code_point_length b = Ok (length (utf8_bytes cp)).
Proof.
  unfold max_code_point. intros. unfold utf8_bytes, utf8_code_point_length.
  destruct (Z.ltb_spec cp 128); [|destruct (Z.ltb_spec cp 2048); [|destruct (Z.ltb_spec cp 65536)]];
    do 2 eexists; (split; [reflexivity|]).
  - rewrite top128, (proj2 (Z.ltb_lt _ _)) by lia. auto.
  - rewrite top128, (proj2 (Z.ltb_ge _ _)) by lia.
    rewrite top192, range_t by lia. auto.
  - rewrite top128, (proj2 (Z.ltb_ge _ _)) by lia.
    rewrite top192, range_f by lia. rewrite top224, range_t by lia. auto.
  - rewrite top128, (proj2 (Z.ltb_ge _ _)) by lia.
    rewrite top192, range_f by lia. rewrite top224, range_f by lia. rewrite top240, range_t by lia. auto.
Qed.

Lemma prefix_inj a b ra rb : 0 <= a <= max_code_point -> 0 <= b <= max_code_point ->
  utf8_bytes a ++ ra = utf8_bytes b ++ rb -> a = b.
Proof.
  intros Ha Hb E. pose proof (decode_spec a ra Ha) as D. rewrite E, decode_spec in D by auto.
  congruence.
Qed.
