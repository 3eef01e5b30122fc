(** C02: round_up_to_nearest (src/common.c:44-49). *)
From Verif Require Import Base Common CommonProofs.

(** Whenever some multiple of [div] that is at least [num] is representable as
    an int, the result is the least such multiple. *)
Theorem C02_round_up_least_multiple : forall num div k,
  0 <= num -> 0 < div <= INT_MAX -> num <= k <= INT_MAX -> (div | k) ->
  exists r, round_up_to_nearest num div = Ok r
    /\ num <= r /\ (div | r) /\ (forall k, num <= k -> (div | k) -> r <= k).
Proof. exact C02_exact. Qed.
Print Assumptions C02_round_up_least_multiple.

Example C02_example : round_up_to_nearest 13 8 = Ok 16 /\ round_up_to_nearest 16 8 = Ok 16
  /\ 0 <= 13 /\ 0 < 8 <= INT_MAX /\ 13 <= 16 <= INT_MAX /\ (8 | 16).
Proof. unfold INT_MAX. repeat split; try lia; try reflexivity. exists 2; lia. Qed.
