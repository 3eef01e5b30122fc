(** C04: UTF-8 (src/utf8.c). *)
From Verif Require Import Base Utf8 Utf8Spec Utf8Proofs.

(** The encoder produces the RFC 3629 bytes, padded with NULs to 4. *)
Theorem C04_encode_is_utf8 : forall cp, 0 <= cp <= max_code_point ->
  exists e, utf8_encode cp = Ok e /\ e = utf8_bytes cp ++ repeat 0 (4 - length (utf8_bytes cp)).
Proof. exact encode_spec. Qed.
Print Assumptions C04_encode_is_utf8.

(** Decoding the encoding gives the code point back and consumes exactly the
    encoded bytes, whatever follows. *)
Theorem C04_decode_encode : forall cp rest, 0 <= cp <= max_code_point ->
  utf8_decode (utf8_bytes cp ++ rest) = Ok (cp, length (utf8_bytes cp)).
Proof. exact decode_spec. Qed.
Print Assumptions C04_decode_encode.

(** The lead byte tells the length. *)
Theorem C04_code_point_length : forall cp, 0 <= cp <= max_code_point ->
  exists b t, utf8_bytes cp = b :: t /\ utf8_code_point_length b = Ok (length (utf8_bytes cp)).
Proof. exact length_spec. Qed.
Print Assumptions C04_code_point_length.

(** No encoding is a prefix of (or equal to) another one's. *)
Theorem C04_prefix_free : forall a b ra rb, 0 <= a <= max_code_point -> 0 <= b <= max_code_point ->
  utf8_bytes a ++ ra = utf8_bytes b ++ rb -> a = b.
Proof. exact prefix_inj. Qed.
Print Assumptions C04_prefix_free.

(** code points above U+10FFFF are refused, not mis-encoded *)
Theorem C04_too_large_refused : forall cp, max_code_point < cp -> utf8_encode cp = Fail.
Proof.
  unfold max_code_point. intros. unfold utf8_encode.
  replace (cp <=? 127) with false by lia. replace (cp <=? 2047) with false by lia.
  replace (cp <=? 65535) with false by lia. replace (cp <=? 1114111) with false by lia. reflexivity.
Qed.
Print Assumptions C04_too_large_refused.

(** U+20AC and U+1F600 *)
Example C04_example : utf8_encode 8364 = Ok [226;130;172;0] /\ utf8_encode 128512 = Ok [240;159;152;128]
  /\ utf8_decode [240;159;152;128;65] = Ok (128512, 4%nat) /\ 0 <= 128512 <= max_code_point.
Proof. vm_compute. repeat split; congruence. Qed.
