(** C09: integer promotions and usual arithmetic conversions. *)
From Verif Require Import Base Arch CTypesSpec ArithConv ArithConvSpec.

Ltac types H := cbn in H; repeat (destruct H as [H|H]; [subst|]); try contradiction.

(** System V data model: all pairs. *)
Theorem C09_common_type_sysv :
  forall a b, arithmetic_type a -> arithmetic_type b -> common_type SYSV a b = Ok (spec_common SYSV a b).
Proof.
  intros a b [Ha|Ha] [Hb|Hb]; types Ha; types Hb; vm_compute; reflexivity.
Qed.
Print Assumptions C09_common_type_sysv.

Theorem C09_promotion_sysv :
  forall a, arithmetic_type a -> do_integer_promotion SYSV a (-1) = Ok (spec_promote SYSV a).
Proof. intros a [Ha|Ha]; types Ha; vm_compute; reflexivity. Qed.
Print Assumptions C09_promotion_sysv.

(** Microsoft data model: all pairs without long. *)
Theorem C09_common_type_ms_partial :
  forall a b, arithmetic_type a -> arithmetic_type b -> a <> ST_LONG -> b <> ST_LONG ->
  common_type MICROSOFT a b = Ok (spec_common MICROSOFT a b).
Proof.
  intros a b [Ha|Ha] [Hb|Hb] Na Nb; types Ha; types Hb; try congruence; vm_compute; reflexivity.
Qed.
Print Assumptions C09_common_type_ms_partial.

(** Missing: under the Microsoft data model long has int's size and is promoted
    to int, so long + int has type int instead of long. *)
Theorem C09_ms_long_refuted :
  exists a b, arithmetic_type a /\ arithmetic_type b /\
  common_type MICROSOFT a b <> Ok (spec_common MICROSOFT a b).
Proof. exists ST_LONG, ST_INT. split; [left; cbn; intuition|split; [left; cbn; intuition|vm_compute; discriminate]]. Qed.
Print Assumptions C09_ms_long_refuted.

(** Bit-fields: an unsigned int bit-field narrower than int promotes to int, one
    as wide as int keeps its type (6.3.1.1p2). *)
Theorem C09_bitfield_promotion :
  forall m w, 0 < w -> w <= 32 ->
  do_integer_promotion m ST_UINT w = Ok (if w <? 32 then ST_INT else ST_UINT) /\
  do_integer_promotion m ST_INT w = Ok ST_INT.
Proof.
  intros m w H1 H2. unfold do_integer_promotion, is_contained_in, get_range.
  cbn [st_is_integer is_signed bind sizeof_simple fst snd].
  rewrite (proj2 (Z.eqb_neq w (-1))) by lia. rewrite Z.eqb_refl. cbn [fst snd]. change (4 * 8 - 1) with 31.
  change (-1 <=? 31) with true. cbn [andb].
  split.
  - destruct (Z.leb_spec w 31), (Z.ltb_spec w 32); auto; lia.
  - rewrite (proj2 (Z.leb_le (w - 1) 31)) by lia. reflexivity.
Qed.
Print Assumptions C09_bitfield_promotion.

(** Default argument promotions (6.5.2.2p6). *)
Theorem C09_default_argument_promotion :
  forall a, arithmetic_type a ->
  do_default_argument_promotion SYSV a (-1) = Ok (if st_eqb a ST_FLOAT then ST_DOUBLE else spec_promote SYSV a).
Proof. intros a [Ha|Ha]; types Ha; vm_compute; reflexivity. Qed.
Print Assumptions C09_default_argument_promotion.

Example C09_nontrivial : spec_common SYSV ST_UINT ST_LONG = ST_LONG /\ spec_common MICROSOFT ST_UINT ST_LONG = ST_ULONG
  /\ spec_common SYSV ST_ULONG ST_LLONG = ST_ULLONG /\ spec_common SYSV ST_CHAR ST_BOOL = ST_INT.
Proof. repeat split. Qed.
