(** C08: integer conversions of constants. [wrap 64 v] is the 64-bit pattern
    that stores the value v. *)
From Verif Require Import Base Arch CTypesSpec ConstConv ConstConvProofs.

(** Converting any representable value of any integer type to any integer type
    other than _Bool gives the representable value congruent to it modulo 2^width. *)
Theorem C08_constant_conversion_partial :
  forall m from to v, integer_type from -> integer_type to -> to <> ST_BOOL -> representable m from v ->
  exists bits v', simple_cast m from (wrap 64 v) to = Ok bits /\ constant_value to bits = Ok v' /\
    representable m to v' /\ v' mod 2 ^ spec_width m to = v mod 2 ^ spec_width m to.
Proof. intros m from to v F T N R. apply cast_spec; auto. split; auto. Qed.
Print Assumptions C08_constant_conversion_partial.

(** That value is the only one. *)
Theorem C08_conversion_unique :
  forall m t a b, integer_type t -> representable m t a -> representable m t b ->
  a mod 2 ^ spec_width m t = b mod 2 ^ spec_width m t -> a = b.
Proof.
  intros m t a b I Ra Rb E.
  assert (W : 1 <= spec_width m t <= 64).
  { revert I. unfold integer_type. cbn. intros H. repeat (destruct H as [<-|H]; [destruct m; cbn; lia|]). contradiction. }
  unfold representable, spec_min, spec_max in *.
  assert (P : 0 < 2 ^ spec_width m t) by (apply Z.pow_pos_nonneg; lia).
  assert (D : (a - b) mod 2 ^ spec_width m t = 0) by (rewrite Zminus_mod, E, Z.sub_diag; apply Z.mod_0_l; lia).
  apply Z.mod_divide in D; [|lia]. destruct D as [k D].
  pose proof (pow_succ_m1 (spec_width m t) ltac:(lia)).
  destruct (spec_signed t); assert (k = 0) by nia; lia.
Qed.
Print Assumptions C08_conversion_unique.

(** Missing: _Bool. C11 6.3.1.2 requires 1 for every nonzero value. *)
Theorem C08_bool_refuted :
  exists m from v bits, integer_type from /\ representable m from v /\ v <> 0 /\
  simple_cast m from (wrap 64 v) ST_BOOL = Ok bits /\ constant_value ST_BOOL bits <> Ok 1.
Proof.
  exists SYSV, ST_INT, 256, 0. repeat split; try discriminate; try (cbn; intuition; fail); vm_compute; discriminate.
Qed.
Print Assumptions C08_bool_refuted.
Theorem C08_bool_partial :
  forall m from v, integer_type from -> v = 0 \/ v = 1 ->
  exists bits, simple_cast m from (wrap 64 v) ST_BOOL = Ok bits /\ constant_value ST_BOOL bits = Ok v.
Proof.
  intros m from v I H. exists v. revert I. unfold integer_type. cbn. intros I.
  destruct H as [->| ->]; repeat (destruct I as [<-|I]; [split; reflexivity|]); contradiction.
Qed.
Print Assumptions C08_bool_partial.

Example C08_nontrivial :
  representable SYSV ST_LLONG (-129) /\
  simple_cast SYSV ST_LLONG (wrap 64 (-129)) ST_SCHAR = Ok 127 /\
  simple_cast SYSV ST_UINT 4294967295 ST_INT = Ok (wrap 64 (-1)).
Proof. repeat split; try (vm_compute; discriminate); reflexivity. Qed.
