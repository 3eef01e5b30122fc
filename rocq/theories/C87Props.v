(** C87: _Static_assert accepts what is true and refuses what is false. *)
From Verif Require Import Base Arch CTypesSpec ArithConv ArithConvSpec ConstConv ConstConvProofs
  ConstFold ConstFoldSpec ConstFoldProofs C08Props C09Props C30Props CExprSpec CExpr CExprElab Enum EnumSpec EnumProofs StaticAssert.
Ltac Zify.zify_post_hook ::= idtac.
Local Open Scope Z_scope.
Local Open Scope list_scope.

(** _Static_assert(e, "...");, or without the message. *)
Definition assertion (e : init) (message : bool) : list stok :=
  [SAssert; SLeft; SExpr e] ++ (if message then [SComma; SString] else []) ++ [SRight; SSemicolon].

Lemma common_int t : integer_type t -> spec_common SYSV ST_INT t = spec_promote SYSV t.
Proof. intros J. repeat (destruct J as [<-|J]; [reflexivity|]). destruct J. Qed.

Lemma equal_zero t v : integer_type t -> representable SYSV t v ->
  c_operator SYSV OP_EQUAL ST_INT t 0 v = Some (if v =? 0 then 1 else 0).
Proof.
  intros J R. unfold c_operator. cbv zeta. unfold working_type. cbn [is_shift]. rewrite (common_int t J).
  destruct (promoted_value t v J R) as [-> _].
  destruct (promote_facts t J) as (A & _). unfold c_binop, math_binop.
  assert (Z0 : convert SYSV (spec_promote SYSV t) 0 = 0)
    by (clear - J; repeat (destruct J as [<-|J]; [reflexivity|]); destruct J).
  rewrite Z0, (Z.eqb_sym 0 v).
  destruct (v =? 0); clear - J; repeat (destruct J as [<-|J]; [reflexivity|]); destruct J.
Qed.

Lemma folded s declared env e v : holds s declared env -> i_ok True env e -> i_value env e = Some v ->
  initial SYSV s (IBin OP_EQUAL (ILit ST_INT 0) e) = Ok (ST_INT, if v =? 0 then 1 else 0).
Proof.
  intros H O E.
  destruct (tree_const s declared env e H v O E) as [_ R].
  assert (O' : i_ok True env (IBin OP_EQUAL (ILit ST_INT 0) e)).
  { cbn [i_ok]. split; [|exact O]. split; [exact int_int|]. vm_compute. split; discriminate. }
  assert (E' : i_value env (IBin OP_EQUAL (ILit ST_INT 0) e) = Some (if v =? 0 then 1 else 0)).
  { cbn [i_value i_type]. rewrite E. apply equal_zero; [|exact R]. exact (i_type_int _ _ _ O). }
  destruct (tree_const s declared env _ H _ O' E') as [T _].
  unfold initial. rewrite T. cbn [bind i_type c_result_type]. destruct (v =? 0); reflexivity.
Qed.

(** Every integer constant expression without conversions to _Bool and whose unevaluated operands have values, in every
    scope: accepted exactly if its value is not 0. Missing: floating expressions
    and expressions of other forms. *)
Theorem static_assertions_partial : forall s declared env e v message rest,
  holds s declared env -> i_ok True env e -> i_value env e = Some v ->
  (v <> 0 -> static_assert SYSV s (assertion e message ++ rest) = Ok rest) /\
  (v = 0 -> static_assert SYSV s (assertion e message ++ rest) = Fail).
Proof.
  intros s declared env e v message rest H O E. pose proof (folded s declared env e v H O E) as F.
  unfold assertion. cbn [app]. unfold static_assert. cbn [expect is_tok bind]. rewrite F. cbn [bind].
  change (negb (st_eqb ST_INT ST_INT)) with false. cbn iota.
  split; intros V.
  - rewrite (proj2 (Z.eqb_neq v 0) V). destruct message; reflexivity.
  - subst v. destruct message; reflexivity.
Qed.
Print Assumptions static_assertions_partial.

(** Whatever the expression, an assertion that lacks a parenthesis or the
    semicolon, or whose message is no string, is refused or ends the compiler
    before it: it is never accepted. *)
Theorem accepted_assertions : forall s toks rest, static_assert SYSV s toks = Ok rest ->
  exists e message, toks = assertion e message ++ rest.
Proof.
  intros s toks rest H. unfold static_assert in H.
  assert (X : forall a l r, expect a l = Ok r -> is_tok a a = true -> exists b, l = b :: r /\ is_tok a b = true).
  { intros a [|b l] r; cbn [expect]; [discriminate|]. destruct (is_tok a b) eqn:T; [|discriminate].
    intros K _. injection K as ->. exists b. auto. }
  destruct (expect SAssert toks) as [t1| |] eqn:E1; cbn [bind] in H; try discriminate.
  destruct (expect SLeft t1) as [t2| |] eqn:E2; cbn [bind] in H; try discriminate.
  destruct (X _ _ _ E1 eq_refl) as (b1 & -> & B1). destruct b1; try discriminate B1.
  destruct (X _ _ _ E2 eq_refl) as (b2 & -> & B2). destruct b2; try discriminate B2.
  destruct t2 as [|[| |e| | | | |] t3]; try discriminate.
  destruct (initial SYSV s (IBin OP_EQUAL (ILit ST_INT 0) e)) as [[t bits]| |]; cbn [bind] in H; try discriminate.
  destruct (negb (st_eqb t ST_INT)); [discriminate|].
  assert (Y : forall l, (let* toks := expect SRight l in expect SSemicolon toks) = Ok rest -> l = SRight :: SSemicolon :: rest).
  { intros l K. destruct (expect SRight l) as [l1| |] eqn:E3; cbn [bind] in K; try discriminate.
    destruct (X _ _ _ E3 eq_refl) as (b3 & -> & B3). destruct b3; try discriminate B3.
    destruct (X _ _ _ K eq_refl) as (b4 & -> & B4). destruct b4; try discriminate B4. reflexivity. }
  assert (P : (exists t4, t3 = SComma :: SString :: t4 /\ (let* toks := expect SRight t4 in expect SSemicolon toks) = Ok rest)
              \/ (let* toks := expect SRight t3 in expect SSemicolon toks) = Ok rest).
  { destruct t3 as [|[| |e'| | | | |] t4]; cbn [bind] in H;
      try (destruct (negb (bits =? 0)); [discriminate|right; exact H]).
    destruct t4 as [|[| |e'| | | | |] t5]; cbn [bind] in H; try discriminate.
    destruct (negb (bits =? 0)); [discriminate|]. left. exists t5. auto. }
  destruct P as [(t4 & -> & K)|K]; rewrite (Y _ K); exists e; [exists true|exists false]; reflexivity.
Qed.
Print Assumptions accepted_assertions.

(** enum { A = 3 }; _Static_assert(A * 4u == 12 && ..., "") in the forms modelled. *)
Definition A : name := [65].
Definition in_scope : scope := {| here := [(A, (ST_INT, 3))]; outside := [] |}.
Definition env_A : values := fun n => if list_eq_dec Z.eq_dec A n then Some 3 else None.
Lemma holds_A : holds in_scope [A] env_A.
Proof.
  split; [|split].
  - intros n. cbn [here in_scope find_in In]. unfold name_eqb. destruct (list_eq_dec Z.eq_dec A n) as [->|N].
    + split; [left; reflexivity|discriminate].
    + split; [intros K; destruct (K eq_refl)|intros [K|[]]; contradiction].
  - intros n. unfold lookup, env_A. cbn [here outside in_scope find_in]. unfold name_eqb.
    destruct (list_eq_dec Z.eq_dec A n); reflexivity.
  - intros n v. unfold env_A. destruct (list_eq_dec Z.eq_dec A n); [|discriminate]. intros K. injection K as <-.
    vm_compute. split; discriminate.
Qed.
Definition twelve : init := IBin OP_EQUAL (IBin OP_MUL (IName A) (ILit ST_UINT 4)) (ILit ST_INT 12).
Definition minus_three : init := IBin OP_ADD (IUn UOP_NEG (IName A)) (ILit ST_LONG 3).
Example true_assertion : static_assert SYSV in_scope (assertion twelve true ++ [SOther 1]) = Ok [SOther 1].
Proof.
  apply (proj1 (static_assertions_partial in_scope [A] env_A twelve 1 true [SOther 1] holds_A
    ltac:(cbn; repeat split; try tauto; vm_compute; discriminate) ltac:(vm_compute; reflexivity))). lia.
Qed.
Example false_assertion : static_assert SYSV in_scope (assertion minus_three false ++ [SOther 1]) = Fail.
Proof.
  apply (proj2 (static_assertions_partial in_scope [A] env_A minus_three 0 false [SOther 1] holds_A
    ltac:(cbn; repeat split; try tauto; vm_compute; discriminate) ltac:(vm_compute; reflexivity))). reflexivity.
Qed.

(** Conversions to _Bool keep the low byte of the value (C08): an assertion that
    (_Bool)256 is refused, and one that (_Bool)2 - 1 is accepted. *)
Theorem static_assertion_bool_refuted : forall s declared env message rest, holds s declared env ->
  (exists e v, i_ok False env e /\ i_value env e = Some v /\ v <> 0 /\
     static_assert SYSV s (assertion e message ++ rest) = Fail) /\
  (exists e, i_ok False env e /\ i_value env e = Some 0 /\
     static_assert SYSV s (assertion e message ++ rest) = Ok rest).
Proof.
  intros s declared env message rest _. split.
  - exists (ICast ST_BOOL (ILit ST_INT 256)), 1. split; [|split; [|split; [lia|]]].
    + cbn. repeat split; try tauto; vm_compute; discriminate.
    + reflexivity.
    + destruct message; vm_compute; reflexivity.
  - exists (IBin OP_SUB (ICast ST_BOOL (ILit ST_INT 2)) (ILit ST_INT 1)). split; [|split].
    + cbn. repeat split; try tauto; vm_compute; discriminate.
    + reflexivity.
    + destruct message; vm_compute; reflexivity.
Qed.
Print Assumptions static_assertion_bool_refuted.

(** An operand of ?: that is not evaluated need not have a value (6.6p3), but all
    three are folded: an assertion that 1 ? k : 1 / 0 is refused, and for
    1 ? k : 1 % 0 the compiler itself divides by 0, for every k other than 0. *)
Theorem unevaluated_operand_refuted : forall s declared env k message rest,
  holds s declared env -> representable SYSV ST_INT k -> k <> 0 ->
  (exists e, i_ok False env e /\ i_value env e = Some k /\ static_assert SYSV s (assertion e message ++ rest) = Fail) /\
  (exists e, i_ok False env e /\ i_value env e = Some k /\ static_assert SYSV s (assertion e message ++ rest) = Undef).
Proof.
  intros s declared env k message rest _ R N.
  assert (K : convert SYSV ST_INT k = k) by (apply convert_id; [exact int_int|exact R]).
  assert (O : forall op, i_ok False env (ICond (ILit ST_INT 1) (ILit ST_INT k) (IBin op (ILit ST_INT 1) (ILit ST_INT 0)))).
  { intros op. pose proof int_int. cbn [i_ok].
    assert (L : forall x, (0 <=? x) && (x <=? 1) = true -> representable SYSV ST_INT x)
      by (intros x X; change (-2147483648 <= x <= 2147483647); lia).
    repeat split; auto; try apply R; try (apply L; reflexivity); contradiction. }
  split; [exists (ICond (ILit ST_INT 1) (ILit ST_INT k) (IBin OP_DIV (ILit ST_INT 1) (ILit ST_INT 0)))
         |exists (ICond (ILit ST_INT 1) (ILit ST_INT k) (IBin OP_MOD (ILit ST_INT 1) (ILit ST_INT 0)))];
    (split; [apply O|split; [change (Some (convert SYSV ST_INT k) = Some k); f_equal; exact K|reflexivity]]).
Qed.
Print Assumptions unevaluated_operand_refuted.

(** !(A == 4) && (A < 4 ? 7 : -1L) == 7, and its negation. *)
Definition i_not (e : init) : init := ICond e (ILit ST_INT 0) (ILit ST_INT 1).
Definition i_and (a b : init) : init := ICond a (ICond b (ILit ST_INT 1) (ILit ST_INT 0)) (ILit ST_INT 0).
Definition both : init :=
  i_and (i_not (IBin OP_EQUAL (IName A) (ILit ST_INT 4)))
        (IBin OP_EQUAL (ICond (IBin OP_LESS (IName A) (ILit ST_INT 4)) (ILit ST_INT 7) (IUn UOP_NEG (ILit ST_LONG 1))) (ILit ST_INT 7)).
Example true_conjunction : static_assert SYSV in_scope (assertion both true ++ [SOther 1]) = Ok [SOther 1].
Proof.
  apply (proj1 (static_assertions_partial in_scope [A] env_A both 1 true [SOther 1] holds_A
    ltac:(cbn; repeat split; try tauto; vm_compute; discriminate) ltac:(vm_compute; reflexivity))). lia.
Qed.
Example false_negation : static_assert SYSV in_scope (assertion (i_not both) true ++ [SOther 1]) = Fail.
Proof.
  apply (proj2 (static_assertions_partial in_scope [A] env_A (i_not both) 0 true [SOther 1] holds_A
    ltac:(cbn; repeat split; try tauto; vm_compute; discriminate) ltac:(vm_compute; reflexivity))). reflexivity.
Qed.
