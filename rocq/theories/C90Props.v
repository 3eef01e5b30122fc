(** C90: constant conditions. *)
From Verif Require Import Base Arch CTypesSpec ArithConvSpec CondFold CondFoldSpec.
Ltac Zify.zify_post_hook ::= idtac.
Local Open Scope Z_scope.

Lemma significand_0 e f u : 0 <= e -> 0 <= f -> significand e f u = 0 <-> u mod 2 ^ (f + e) = 0.
Proof.
  intros E F. unfold significand. rewrite Z.pow_add_r by lia.
  pose proof (Z.pow_pos_nonneg 2 e ltac:(lia) E). pose proof (Z.pow_pos_nonneg 2 f ltac:(lia) F).
  rewrite Z.rem_mul_r by lia.
  pose proof (Z.mod_pos_bound u (2 ^ f) ltac:(lia)). pose proof (Z.mod_pos_bound (u / 2 ^ f) (2 ^ e) ltac:(lia)).
  destruct (Z.eqb_spec ((u / 2 ^ f) mod 2 ^ e) 0) as [->|N]; nia.
Qed.
Lemma low_31 u : (u mod 2 ^ 32) mod 2 ^ 31 = u mod 2 ^ 31.
Proof.
  change (2 ^ 32) with (2 ^ 31 * 2). rewrite Z.rem_mul_r by lia.
  rewrite (Z.mul_comm (2 ^ 31)), Z.mod_add by lia. apply Z.mod_mod. lia.
Qed.

Lemma low_63 u : u mod 2 ^ 63 = 0 -> u mod 2 ^ 31 = 0.
Proof.
  intros S. apply Z.mod_divide in S; [|lia]. destruct S as [k S]. rewrite S. change (2 ^ 63) with (2 ^ 32 * 2 ^ 31).
  rewrite Z.mul_assoc. apply Z.mod_mul. lia.
Qed.
Lemma zero_inv c : compares_equal_to_0 c ->
  match data_type c with
  | Arithmetic ST_DOUBLE => significand 11 52 (union c) = 0
  | Arithmetic ST_FLOAT => significand 8 23 (union c) = 0
  | _ => union c = 0
  end.
Proof. intros [t I| |u S|u S]; cbn [data_type union]; auto. destruct t; reflexivity. Qed.

(** The constants for which the test is right: all integers and pointers, all doubles
    but those other than 0 whose low 31 bits are 0, all floats but the zeros beside
    which the union has bits set other than its highest. *)
Definition tested (c : constant) : Prop :=
  match data_type c with
  | Arithmetic ST_DOUBLE => 0 <= union c < 2 ^ 64 /\ (union c mod 2 ^ 63 = 0 \/ union c mod 2 ^ 31 <> 0)
  | Arithmetic ST_FLOAT => 0 <= union c < 2 ^ 64 /\ (union c mod 2 ^ 63 = 0 \/ union c mod 2 ^ 31 <> 0)
  | Arithmetic t => integer_type t
  | PointerTo => True
  end.

Lemma zero_test c : tested c -> if constant_is_zero c then compares_equal_to_0 c else ~ compares_equal_to_0 c.
Proof.
  destruct c as [[t|] u]; unfold tested, constant_is_zero; cbn [data_type union].
  2:{ intros _. destruct (Z.eqb_spec u 0) as [->|N]; [constructor|]. intros K. exact (N (zero_inv _ K)). }
  assert (INT : integer_type t -> t <> ST_FLOAT -> t <> ST_DOUBLE ->
    if u =? 0 then compares_equal_to_0 {| data_type := Arithmetic t; union := u |}
    else ~ compares_equal_to_0 {| data_type := Arithmetic t; union := u |}).
  { intros I NF ND. destruct (Z.eqb_spec u 0) as [->|N]; [constructor; exact I|]. intros K. apply zero_inv in K. cbn [data_type union] in K. destruct t; congruence. }
  destruct t; intros H;
    try (apply INT; [exact H|discriminate|discriminate]);
    try (exfalso; unfold integer_type in H; cbn in H; intuition discriminate).
  - clear INT. destruct H as [R N]. unfold double_d_is_0. destruct (Z.eqb_spec (u mod 2 ^ 63) 0) as [L|L].
    + apply zero_float. apply significand_0; [lia|lia|]. change (23 + 8) with 31. exact (low_63 u L).
    + intros S. apply zero_inv in S. cbn [data_type union] in S.
      apply (significand_0 8 23 u) in S; [|lia|lia]. change (23 + 8) with 31 in S. tauto.
  - clear INT. destruct H as [R N]. unfold float_d_is_0. rewrite low_31. destruct (Z.eqb_spec (u mod 2 ^ 31) 0) as [L|L].
    + destruct N as [N|N]; [|contradiction]. apply zero_double. apply significand_0; [lia|lia|exact N].
    + intros S. apply zero_inv in S. cbn [data_type union] in S.
      apply (significand_0 11 52 u) in S; [|lia|lia]. change (52 + 11) with 63 in S. exact (L (low_63 u S)).
Qed.

(** Of ?: the second operand if the first is not 0, otherwise the third; !, && and ||
    yield 1 or 0 of type int. Missing: the constants for which it is false, which are all
    the other floats and doubles (below). *)
Theorem constant_conditions_partial : forall c, tested c ->
  (forall a b, (compares_equal_to_0 c -> fold_conditional c a b = b) /\ (~ compares_equal_to_0 c -> fold_conditional c a b = a)) /\
  truth (compares_equal_to_0 c) (fold_not c) /\
  (forall d, tested d ->
    truth (~ compares_equal_to_0 c /\ ~ compares_equal_to_0 d) (fold_and c d) /\
    truth (~ compares_equal_to_0 c \/ ~ compares_equal_to_0 d) (fold_or c d)).
Proof.
  intros c T. pose proof (zero_test c T) as Z. unfold fold_not, fold_and, fold_or, fold_conditional.
  split; [|split].
  - intros a b. destruct (constant_is_zero c); split; intros K; auto; contradiction.
  - destruct (constant_is_zero c); [apply is_true|apply is_false]; exact Z.
  - intros d U. pose proof (zero_test d U) as Z'. destruct (constant_is_zero c), (constant_is_zero d);
      (split; [(apply is_true; tauto) || (apply is_false; tauto)|(apply is_true; tauto) || (apply is_false; tauto)]).
Qed.
Print Assumptions constant_conditions_partial.

(** A double other than 0 whose low 31 bits are 0 counts as false. *)
Theorem double_condition_refuted : forall u a b, 0 <= u < 2 ^ 64 -> u mod 2 ^ 63 <> 0 -> u mod 2 ^ 31 = 0 ->
  let c := {| data_type := Arithmetic ST_DOUBLE; union := u |} in
  ~ compares_equal_to_0 c /\ fold_conditional c a b = b.
Proof.
  intros u a b R N L c. split.
  - intros S. apply zero_inv in S. cbn [c data_type union] in S.
    apply significand_0 in S; [|lia|lia]. exact (N S).
  - unfold fold_conditional, constant_is_zero, c, float_d_is_0. cbn [data_type union]. rewrite low_31, L. reflexivity.
Qed.
Print Assumptions double_condition_refuted.

(** A float 0 counts as true if the union has bits set other than its highest: -0.0f, and
    a double that becomes 0 when it is converted to float, whose high half stays there
    (src/arch/x64.c:551). *)
Theorem float_condition_refuted : forall u a b, 0 <= u < 2 ^ 64 -> u mod 2 ^ 63 <> 0 -> u mod 2 ^ 31 = 0 ->
  let c := {| data_type := Arithmetic ST_FLOAT; union := u |} in
  compares_equal_to_0 c /\ fold_conditional c a b = a.
Proof.
  intros u a b R N L c. split.
  - apply zero_float. apply significand_0; [lia|lia|exact L].
  - unfold fold_conditional, constant_is_zero, c, double_d_is_0. cbn [data_type union]. rewrite (proj2 (Z.eqb_neq _ _) N). reflexivity.
Qed.
Print Assumptions float_condition_refuted.

(** -0.0f and (float)1e-300. *)
Example float_zeros : forall u, In u [2 ^ 31; 0x01A56E1F00000000] ->
  fold_conditional {| data_type := Arithmetic ST_FLOAT; union := u |} (int_constant 2) (int_constant 3) = int_constant 2.
Proof. intros u [<-|[<-|[]]]; apply float_condition_refuted; try lia; try discriminate; reflexivity. Qed.

(** 0.1 ? 2 : 3 is 2, but 1.0 ? 2 : 3 is 3; 0.5f and -1 are true, and 0.1 && 0.0 is 0. *)
Definition dbl (u : Z) : constant := {| data_type := Arithmetic ST_DOUBLE; union := u |}.
Definition tenth : constant := dbl 0x3FB999999999999A.
Example tenth_is_tested : tested tenth /\ tested (dbl 0) /\ tested {| data_type := Arithmetic ST_FLOAT; union := 0x3F000000 |} /\
  tested {| data_type := Arithmetic ST_LONG; union := 2 ^ 64 - 1 |}.
Proof. cbn. repeat split; try tauto; try discriminate; try (left; reflexivity); right; discriminate. Qed.
Example tenth_is_true : fold_conditional tenth (int_constant 2) (int_constant 3) = int_constant 2.
Proof.
  destruct (constant_conditions_partial tenth (proj1 tenth_is_tested)) as [H _]. apply H.
  intros K. apply zero_inv in K. vm_compute in K. discriminate.
Qed.
Example conjunction : fold_and tenth (dbl 0) = int_constant 0.
Proof. reflexivity. Qed.
Example one_is_false : fold_conditional (dbl 0x3FF0000000000000) (int_constant 2) (int_constant 3) = int_constant 3.
Proof. apply double_condition_refuted; [lia|discriminate|reflexivity]. Qed.
