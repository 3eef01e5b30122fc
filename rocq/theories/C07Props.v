(** C07: value and type of integer literals. *)
From Coq Require Import String.
From Verif Require Import Base CharTypes Arch CTypesSpec IntLit IntLitSpec IntLitProofs.
Local Ltac digits := repeat (apply Forall_cons; [cbn; intuition|]); apply Forall_nil.

(** For both data models, every decimal, octal, hexadecimal (and binary) digit
    string whose value fits 64 bits and every standard suffix: the literal is an
    integer constant with that value and the first type of the C11 table that
    holds it; it is rejected when the table has no such type. *)
Theorem C07_integer_literal :
  forall m r text digits suffix u,
  literal r text digits -> In (suffix, u) suffixes -> digits_value r digits < 2 ^ 64 ->
  constant_from_string m (text ++ suffix) =
    match literal_type m r u (digits_value r digits) with
    | Some t => Ok (Some (t, digits_value r digits))
    | None => Fail
    end.
Proof. exact literal_spec. Qed.
Print Assumptions C07_integer_literal.

Example C07_nontrivial :
  literal Hex (chars "0xffffffff") (chars "ffffffff") /\ In (chars "uLL", (true, 2%nat)) suffixes
  /\ digits_value Hex (chars "ffffffff") = 4294967295
  /\ literal_type SYSV Hex (false, 0%nat) 4294967295 = Some ST_UINT
  /\ literal_type SYSV Dec (false, 0%nat) 4294967295 = Some ST_LONG
  /\ literal_type MICROSOFT Dec (false, 0%nat) 4294967295 = Some ST_LLONG.
Proof.
  repeat split; try reflexivity.
  - apply lit_hex; [cbn; auto|discriminate|]. digits.
  - cbn. intuition.
Qed.

(** A literal cut short by a character that is neither a digit of its base nor a suffix
    letter, such as the 8 of 08 or the g of 0xg, is never taken for an integer constant. *)
Theorem C07_bad_digit_refused : forall m r text digits c rest,
  literal r text digits -> ~ In c (digit_chars r) -> ~ In c (chars "uUlL") -> (text = [48] -> ~ In c (chars "xXbB")) ->
  forall t v, constant_from_string m (text ++ c :: rest) <> Ok (Some (t, v)).
Proof. exact bad_digit_spec. Qed.
Print Assumptions C07_bad_digit_refused.
Example C07_bad_digit_nontrivial : literal Oct (chars "017") (chars "017") /\ ~ In 56 (digit_chars Oct) /\ ~ In 56 (chars "uUlL") /\ (chars "017" = [48] -> ~ In 56 (chars "xXbB")).
Proof. split; [apply lit_oct; digits|]. split; [cbn; intuition lia|]. split; [cbn; intuition lia|discriminate]. Qed.

(** C58: a literal too large for every type. The code reduces its value modulo
    2^64 instead of rejecting it. *)
Theorem C58_too_large_literal_refuted :
  exists m r text digits, literal r text digits /\
  literal_type m r (false, 0%nat) (digits_value r digits) = None /\
  exists t v, constant_from_string m text = Ok (Some (t, v)) /\ v <> digits_value r digits.
Proof.
  exists SYSV, Hex, (chars "0x10000000000000001"), (chars "10000000000000001").
  split; [apply lit_hex; [cbn; auto|discriminate|digits]|].
  split; [reflexivity|]. exists ST_INT, 1. split; [reflexivity|]. intro H. vm_compute in H. discriminate.
Qed.
Print Assumptions C58_too_large_literal_refuted.

(** The decimal literals between 2^63 and 2^64 - 1 have no type in the table for
    unsuffixed decimals; those are rejected. *)
Theorem C58_too_large_literal_partial :
  forall m r text digits suffix u,
  literal r text digits -> In (suffix, u) suffixes -> digits_value r digits < 2 ^ 64 ->
  literal_type m r u (digits_value r digits) = None ->
  constant_from_string m (text ++ suffix) = Fail.
Proof. intros m r text digits suffix u L S V N. rewrite (literal_spec m r text digits suffix u L S V), N. reflexivity. Qed.
Print Assumptions C58_too_large_literal_partial.
Example C58_nontrivial : literal Dec (chars "9223372036854775808") (chars "9223372036854775808")
  /\ literal_type SYSV Dec (false, 0%nat) (digits_value Dec (chars "9223372036854775808")) = None.
Proof. split; [|reflexivity]. apply lit_dec; [cbn; intuition|digits]. Qed.
