(** C19: #if expressions. *)
From Verif Require Import Base Tokens Fuel Precedence PPExpr PPExprSpec PPExprProofs PPExprSound.

(** The directive's group is selected exactly when the expression's C value is not
    0, for every derivable expression that avoids the four departures of
    [within]. Fuel is only the recursion bound of the model: every large enough
    value gives the same answer. *)
Theorem C19_value_partial :
  forall e v, derivable e -> within e -> value e = Value v ->
  exists N, forall n, (N <= n)%nat -> if_condition n (spell e) = Some (Ok (negb (v =? 0))).
Proof.
  intros e v D W E. pose proof (evaluated e D W) as M. unfold means in M. rewrite E in M. destruct M as [_ R].
  destruct (reads_whole true e _ 0 T_EOI [] R (accepts_0 e) (prec_zero T_EOI e eq_refl) ltac:(discriminate)) as [N H].
  exists N. intros n Hn. unfold if_condition. rewrite (evaluate_mono N n _ _ _ _ Hn H). reflexivity.
Qed.
Print Assumptions C19_value_partial.

(** The computed type and value themselves. *)
Theorem C19_type_and_value_partial :
  forall e v, derivable e -> within e -> value e = Value v ->
  exists N, forall n, (N <= n)%nat ->
    evaluate n 0 true (spell e ++ [KOp T_EOI]) = Some (Ok ({| sg := stype e; vl := v |}, [KOp T_EOI])).
Proof.
  intros e v D W E. pose proof (evaluated e D W) as M. unfold means in M. rewrite E in M. destruct M as [_ R].
  destruct (reads_whole true e _ 0 T_EOI [] R (accepts_0 e) (prec_zero T_EOI e eq_refl) ltac:(discriminate)) as [N H].
  exists N. intros n Hn. exact (evaluate_mono N n _ _ _ _ Hn H).
Qed.
Print Assumptions C19_type_and_value_partial.

(** An evaluated division by zero or unrepresentable quotient is diagnosed. *)
Theorem C19_violation_diagnosed :
  forall e, derivable e -> within e -> value e = Violation ->
  exists N, forall n, (N <= n)%nat -> if_condition n (spell e) = Some Fail.
Proof.
  intros e D W E. pose proof (evaluated e D W) as M. unfold means in M. rewrite E in M.
  destruct (M 0 T_EOI [] (accepts_0 e) (prec_zero T_EOI e eq_refl)) as [N H].
  exists N. intros n Hn. unfold if_condition. rewrite (evaluate_mono N n _ _ _ _ Hn H). reflexivity.
Qed.
Print Assumptions C19_violation_diagnosed.

(** An operand that is not evaluated never causes a diagnostic, whatever it would
    compute: here for the right operands of && and || and for both branches of the
    conditional operator. *)
Theorem C19_unevaluated_silent :
  forall c x e, derivable c -> within c -> value c = Value x -> derivable e -> no_compl e ->
  exists N, forall n, (N <= n)%nat ->
    (x = 0 -> if_condition n (spell (PBin BLand (PParen c) (PParen e))) = Some (Ok false)) /\
    (x <> 0 -> if_condition n (spell (PBin BLor (PParen c) (PParen e))) = Some (Ok true)) /\
    if_condition n (spell (PCond (PParen c) (if x =? 0 then PParen e else PIdent) (if x =? 0 then PIdent else PParen e))) = Some (Ok false).
Proof.
  intros c x e D W E De Ne. pose proof (evaluated c D W) as M. unfold means in M. rewrite E in M. destruct M as [_ R].
  apply reads_paren in R. destruct (skipped e De Ne) as (w & _ & Re). apply reads_paren in Re.
  assert (Done : forall e' v, reads true e' v -> exists N, forall n, (N <= n)%nat -> if_condition n (spell e') = Some (Ok (negb (result_is_zero v)))).
  { intros e' v R'. destruct (reads_whole true e' _ 0 T_EOI [] R' (accepts_0 e') (prec_zero T_EOI e' eq_refl) ltac:(discriminate)) as [N H].
    exists N. intros n Hn. unfold if_condition. rewrite (evaluate_mono N n _ _ _ _ Hn H). reflexivity. }
  assert (I0 : forall b, reads b PIdent (result_signed 0)) by (intros b p ty l r _ _ I; apply Ev_atom_ident; exact I).
  assert (L : 4 <= level (PParen c) /\ 3 <= level (PParen e)) by (cbn [level]; lia).
  assert (R3 : exists N, forall n, (N <= n)%nat -> if_condition n (spell (PCond (PParen c) (if x =? 0 then PParen e else PIdent) (if x =? 0 then PIdent else PParen e))) = Some (Ok false)).
  { destruct (x =? 0) eqn:Ex.
    - destruct (Done _ _ (reads_cond true (PParen c) (PParen e) PIdent _ w (result_signed 0) ltac:(cbn [level]; lia) ltac:(cbn [level]; lia) R
                  ltac:(unfold result_is_zero; cbn [vl res_of]; rewrite Ex; exact Re) (I0 _))) as [N H].
      exists N. intros n Hn. rewrite (H n Hn). unfold result_is_zero at 2. cbn [vl res_of]. rewrite Ex. reflexivity.
    - destruct (Done _ _ (reads_cond true (PParen c) PIdent (PParen e) _ (result_signed 0) w ltac:(cbn [level]; lia) ltac:(cbn [level]; lia) R (I0 _)
                  ltac:(unfold result_is_zero; cbn [vl res_of]; rewrite Ex; exact Re))) as [N H].
      exists N. intros n Hn. rewrite (H n Hn). unfold result_is_zero at 2. cbn [vl res_of]. rewrite Ex. reflexivity. }
  destruct R3 as [N3 H3].
  destruct (Z.eq_dec x 0) as [Ex|Nx].
  - assert (Rb : reads (if Bool.eqb (negb (result_is_zero (res_of (stype c) x))) true then true else false) (PParen e) w)
      by (unfold result_is_zero; cbn [vl res_of]; rewrite Ex; exact Re).
    destruct (Done _ _ (reads_logic true true (PParen c) (PParen e) _ w ltac:(cbn; lia) ltac:(cbn; lia) R Rb)) as [N H].
    exists (N + N3)%nat. intros n Hn. split; [|split; [congruence|apply H3; lia]]. intros _. change BLand with (logop true).
    rewrite (H n) by lia. unfold result_is_zero at 2. cbn [vl res_of]. rewrite Ex. reflexivity.
  - assert (Ex : (x =? 0) = false) by lia.
    assert (Rb : reads (if Bool.eqb (negb (result_is_zero (res_of (stype c) x))) false then true else false) (PParen e) w)
      by (unfold result_is_zero; cbn [vl res_of]; rewrite Ex; exact Re).
    destruct (Done _ _ (reads_logic true false (PParen c) (PParen e) _ w ltac:(cbn; lia) ltac:(cbn; lia) R Rb)) as [N H].
    exists (N + N3)%nat. intros n Hn. split; [congruence|split; [|apply H3; lia]]. intros _. change BLor with (logop false).
    rewrite (H n) by lia. unfold result_is_zero at 2. cbn [vl res_of]. rewrite Ex. reflexivity.
Qed.
Print Assumptions C19_unevaluated_silent.

(** Whatever the tokens on the line are, evaluation ends. *)
Theorem C19_terminates :
  forall l, exists r, forall n, (2 * length l + 3 <= n)%nat -> if_condition n l = Some r.
Proof.
  intros l. destruct (proj1 (fuel_enough (2 * length l + 3)) 0 true (l ++ [KOp T_EOI])) as (r & E & _).
  { rewrite app_length. cbn [length]. lia. }
  exists (match r with Ok (x, _) => Ok (negb (result_is_zero x)) | Fail => Fail | Undef => Undef end).
  intros n Hn. unfold if_condition. rewrite (evaluate_mono _ n _ _ _ _ Hn E). destruct r as [[x o]| |]; reflexivity.
Qed.
Print Assumptions C19_terminates.

(** A line that does not begin with an expression is rejected. *)
Theorem C19_malformed_rejected_partial :
  forall l n b, plain_tokens false l -> if_condition n l = Some (Ok b) ->
  exists e rest, derivable e /\ map zero_ident l = spell e ++ rest.
Proof.
  intros l n b P H. unfold if_condition in H. apply exbind_ok in H. destruct H as ([r out] & H & _).
  eapply accepted_line; eauto.
Qed.
Print Assumptions C19_malformed_rejected_partial.

(** Departures from C11. *)
Theorem C19_complement_refuted :
  exists e v, derivable e /\ value e = Value v /\ if_condition 20 (spell e) = Some Fail.
Proof. exists (PUn UCompl (PNum true 0)), (-1). repeat split; cbn; lia. Qed.
Print Assumptions C19_complement_refuted.
Theorem C19_shift_refuted :
  (* -1 >> 1u < 0 is true, the directive says false *)
  exists e, derivable e /\ value e = Value 1 /\ if_condition 20 (spell e) = Some (Ok false).
Proof.
  exists (PBin BLt (PBin BShr (PUn UMinus (PNum true 1)) (PNum false 1)) (PNum true 0)). repeat split; cbn; lia.
Qed.
Print Assumptions C19_shift_refuted.
Theorem C19_conditional_type_refuted :
  (* (1 ? -1 : 0u) > 0 is true, the directive says false *)
  exists e, derivable e /\ value e = Value 1 /\ if_condition 20 (spell e) = Some (Ok false).
Proof.
  exists (PBin BGt (PParen (PCond (PNum true 1) (PUn UMinus (PNum true 1)) (PNum false 0))) (PNum true 0)). repeat split; cbn; lia.
Qed.
Print Assumptions C19_conditional_type_refuted.
Theorem C19_not_type_refuted :
  (* !0u - 2 < 0 is true, the directive says false *)
  exists e, derivable e /\ value e = Value 1 /\ if_condition 20 (spell e) = Some (Ok false).
Proof.
  exists (PBin BLt (PBin BSub (PUn UNot (PNum false 0)) (PNum true 2)) (PNum true 0)). repeat split; cbn; lia.
Qed.
Print Assumptions C19_not_type_refuted.
(** Tokens after the expression are ignored (#if 1 2), and an operand that is not
    evaluated may contain any operator (#if 0 && (1 [ 2)). *)
Theorem C19_trailing_tokens_refuted :
  (forall e, derivable e -> spell e <> [KNum true 1; KNum true 2]) /\ if_condition 20 [KNum true 1; KNum true 2] = Some (Ok true).
Proof.
  split; [|reflexivity]. intros e D H. assert (L : forall e t l, spell e = t :: l -> l = [] \/ exists a u b, l = a ++ KOp u :: b \/ t = KOp u).
  { clear. induction e; cbn [spell]; intros t l H; try (injection H as <- <-; auto).
    - right. exists [], T_LPAR, []. auto.
    - right. exists [], (untok op), []. auto.
    - right. destruct (spell e1) as [|h r] eqn:E; cbn [app] in H; injection H as <- <-.
      + exists [], (bintok op), []. auto.
      + exists r, (bintok op), (spell e2). auto.
    - right. destruct (spell e1) as [|h r] eqn:E; cbn [app] in H; injection H as <- <-.
      + exists [], T_QUEST, []. auto.
      + exists r, T_QUEST, (spell e2 ++ KOp T_COLON :: spell e3). auto. }
  destruct (L _ _ _ H) as [K|(a & u & b & [K|K])]; try discriminate.
  destruct a as [|x [|y a]]; discriminate.
Qed.
Print Assumptions C19_trailing_tokens_refuted.
Theorem C19_skipped_operators_refuted :
  (forall e, ~ In (KOp T_LBRACK) (spell e)) /\
  if_condition 20 [KNum true 0; KOp T_AND; KOp T_LPAR; KNum true 1; KOp T_LBRACK; KNum true 2; KOp T_RPAR] = Some (Ok false).
Proof.
  split; [|reflexivity]. induction e; cbn [spell]; rewrite ?in_app_iff; cbn [In]; rewrite ?in_app_iff; cbn [In]; try intuition discriminate.
  - destruct op; intuition discriminate.
  - destruct op; intuition discriminate.
Qed.
Print Assumptions C19_skipped_operators_refuted.

(** 1 + 2 * 3 == 7 && (0u - 1 > 0 ? 1 : 1 / 0). *)
Definition C19_example : pexp :=
  PBin BLand
    (PBin BEq (PBin BAdd (PNum true 1) (PBin BMul (PNum true 2) (PNum true 3))) (PNum true 7))
    (PParen (PCond (PBin BGt (PBin BSub (PNum false 0) (PNum true 1)) (PNum true 0)) (PNum true 1) (PBin BDiv (PNum true 1) (PNum true 0)))).
Example C19_example_ok : derivable C19_example /\ within C19_example /\ value C19_example = Value 1 /\
  if_condition 60 (spell C19_example) = Some (Ok true).
Proof. repeat split; cbn; try lia; intros [H|H]; discriminate. Qed.
Example C19_violation_ok : exists e, derivable e /\ within e /\ value e = Violation.
Proof. exists (PBin BMod PIdent (PParen (PBin BSub (PNum true 1) (PNum true 1)))).
  repeat split; cbn; try lia; intros [H|H]; discriminate. Qed.
Example C19_plain_ok : plain_tokens false [KOp T_LPAR; KIdent; KOp T_ADD; KNum false 3; KOp T_RPAR; KNum true 2].
Proof.
  cbn. unfold operator. intuition (try lia; try discriminate).
  - left. right. right. right. right. right. exists BAdd. reflexivity.
Qed.
