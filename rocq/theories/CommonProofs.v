From Verif Require Import Base Common.
Ltac Zify.zify_post_hook ::= Z.div_mod_to_equations.

Lemma round_up_eq num div : 0 <= num -> 0 < div -> div <= INT_MAX -> num + div - 1 <= INT_MAX ->
  exists r, round_up_to_nearest num div = Ok r /\ num <= r /\ r < num + div /\ (div | r).
Proof.
  intros. unfold round_up_to_nearest, int_ok, INT_MIN, INT_MAX in *.
  replace (div =? 0) with false by lia. replace (div =? -1) with false by lia. cbn [andb].
  rewrite Z.rem_mod_nonneg by lia.
  pose proof (Z.mod_pos_bound num div ltac:(lia)).
  pose proof (Z.div_mod num div ltac:(lia)).
  destruct (Z.eqb_spec (num mod div) 0).
  - exists num. repeat split; try lia. apply Z.mod_divide; lia.
  - replace ((-2147483648 <=? div - num mod div) && (div - num mod div <=? 2147483647)) with true by lia.
    replace ((-2147483648 <=? num + (div - num mod div)) && (num + (div - num mod div) <=? 2147483647)) with true by lia.
    cbn [andb]. eexists; split; [reflexivity|]. repeat split; try lia.
    exists (num / div + 1). lia.
Qed.

Lemma least_unique num div r : 0 < div -> num <= r -> r < num + div -> (div | r) ->
  forall k, num <= k -> (div | k) -> r <= k.
Proof. intros. destruct H2 as (a & ->), H4 as (b & ->).
  assert (a * div < (b + 1) * div) by lia. assert (a < b + 1) by (apply (Z.mul_lt_mono_pos_r div); auto).
  apply Z.mul_le_mono_nonneg_r; lia. Qed.

Lemma C02_least : forall num div,
  0 <= num -> 0 < div <= INT_MAX -> num + div - 1 <= INT_MAX ->
  exists r, round_up_to_nearest num div = Ok r
    /\ num <= r /\ (div | r)
    /\ (forall k, num <= k -> (div | k) -> r <= k).
Proof.
  intros. destruct (round_up_eq num div) as (r & E & A & B & C); try lia.
  exists r. repeat split; auto. eapply least_unique; eauto; lia.
Qed.

Lemma C02_exact : forall num div k, 0 <= num -> 0 < div <= INT_MAX -> num <= k <= INT_MAX -> (div | k) ->
  exists r, round_up_to_nearest num div = Ok r
    /\ num <= r /\ (div | r) /\ (forall k, num <= k -> (div | k) -> r <= k).
Proof.
  intros num div k Hn Hd Hk Hdk.
  unfold round_up_to_nearest, int_ok, INT_MIN, INT_MAX in *.
  replace (div =? 0) with false by lia. replace (div =? -1) with false by lia. cbn [andb].
  rewrite Z.rem_mod_nonneg by lia.
  pose proof (Z.mod_pos_bound num div ltac:(lia)).
  pose proof (Z.div_mod num div ltac:(lia)).
  destruct (Z.eqb_spec (num mod div) 0).
  - exists num. repeat split; try lia. apply Z.mod_divide; lia.
  - set (v := num + (div - num mod div)).
    assert (D : (div | v)) by (exists (num / div + 1); unfold v; lia).
    assert (L : forall k, num <= k -> (div | k) -> v <= k)
      by (apply least_unique; auto; unfold v; lia).
    pose proof (L k ltac:(lia) Hdk).
    replace ((-2147483648 <=? div - num mod div) && (div - num mod div <=? 2147483647)) with true by lia.
    replace ((-2147483648 <=? v) && (v <=? 2147483647)) with true by (unfold v in *; lia).
    cbn [andb]. exists v. repeat split; auto. unfold v; lia.
Qed.
