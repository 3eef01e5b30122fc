(** Parsing ends for every list of tokens. *)
From Verif Require Import Base Tokens Fuel Precedence ConstFold Pratt PrattSpec PrattProofs PrattSound.

Lemma tl_length {A} (l : list A) : (length (tl l) <= length l)%nat.
Proof. destruct l; cbn; lia. Qed.
Lemma tl_short (l : list tok) : head_type l <> T_EOI -> (length (tl l) < length l)%nat.
Proof. destruct l; cbn; [congruence|lia]. Qed.
Lemma expect_length ty l r : expect ty l = Some (Ok r) -> (length r <= length l)%nat.
Proof. unfold expect. destruct (_ =? _); [|discriminate]. intros H. injection H as <-. apply tl_length. Qed.
Definition shrinks (n : nat) : Prop :=
  (forall p l e r, parse_pratt n p l = Some (Ok (e, r)) -> (length r <= length l)%nat) /\
  (forall l e r, parse_prefix n l = Some (Ok (e, r)) -> (length r <= length l)%nat) /\
  (forall p e l e' r, parse_pratt_with_lhs n p e l = Some (Ok (e', r)) -> (length r <= length l)%nat) /\
  (forall pos l es r, parse_call_parameters n pos l = Some (Ok (es, r)) -> (length r <= length l)%nat).
Lemma operand_shape x e r : operand x = Some (Ok (e, r)) -> r = snd x.
Proof. intros H. apply operand_ok in H. now subst. Qed.
Lemma deref_shape x e r : deref x = Some (Ok (e, r)) -> r = snd x.
Proof. intros H. apply deref_ok in H. now subst. Qed.
Ltac inv_step :=
  match goal with
  | H : exbind _ _ = Some (Ok _) |- _ => inv_ex H
  | x : (_ * _)%type |- _ => destruct x
  | H : operand _ = Some (Ok (_, _)) |- _ => apply operand_shape in H; cbn [snd] in H; subst
  | H : deref _ = Some (Ok (_, _)) |- _ => apply deref_shape in H; cbn [snd] in H; subst
  | H : expect _ _ = Some (Ok _) |- _ => apply expect_length in H
  | H : ok _ = Some (Ok _) |- _ => injection H; clear H; intros; subst
  | H : Some (Ok _) = Some (Ok _) |- _ => injection H; clear H; intros; subst
  | H : Some _ = Some (Ok _) |- _ => discriminate H
  | H : (if ?b then _ else _) = Some (Ok _) |- _ => destruct b
  end.
Lemma shrink n : shrinks n.
Proof.
  induction n as [|n (I1 & I2 & I3 & I4)]; [repeat split; intros; discriminate|]. split; [|split; [|split]].
  - intros p l e r H. cbn [parse_pratt] in H. inv_ex H. destruct x as [[lhs|] l1].
    + apply I2 in E. apply I3 in H. lia.
    + injection H as <- <-. now apply I2 in E.
  - intros l e r H. cbn [parse_prefix] in H. assert (B := tl_length l). assert (B2 := tl_length (tl l)). assert (B3 := tl_length (tl (tl l))).
    repeat inv_step; repeat match goal with H : parse_pratt _ _ _ = _ |- _ => apply I1 in H end; try lia.
    destruct l; [injection H; intros; subst; lia|]. destruct (is_one_of _ leaf_types); injection H; intros; subst; cbn in *; lia.
  - intros p e l e' r H. cbn [parse_pratt_with_lhs] in H. assert (B := tl_length l).
    destruct (_ <? _); [|injection H; intros; subst; lia]. destruct (op_of _).
    + repeat inv_step. apply I1 in E0. apply I3 in H. lia.
    + repeat match goal with
      | H : (if ?b then _ else _) = Some (Ok _) |- _ => destruct b; [repeat inv_step|]
      end; repeat match goal with H : parse_pratt _ _ _ = _ |- _ => apply I1 in H | H : parse_pratt_with_lhs _ _ _ _ = _ |- _ => apply I3 in H
          | H : parse_call_parameters _ _ _ = _ |- _ => apply I4 in H end; cbn [snd] in *; try lia.
      all: try (destruct (tl l) eqn:Et; [discriminate|]; apply I3 in H; cbn in *; lia).
      injection H; intros; subst; lia.
  - intros pos l es r H. cbn [parse_call_parameters] in H. destruct (Nat.ltb _ _); [|discriminate]. assert (B := tl_length l).
    destruct (_ =? _); [injection H; intros; subst; lia|]. inv_ex H.
    assert (length x <= length l)%nat by (destruct (Nat.eqb pos 0); [injection E as <-; lia|now apply expect_length in E]). clear E.
    repeat inv_step. apply I1 in E. apply I4 in E1. lia.
Qed.
Lemma prefix_short n l e r : parse_prefix n l = Some (Ok (Some e, r)) -> (length r < length l)%nat.
Proof.
  intros H. destruct (proj1 (proj2 (sound n)) l e r H) as (u & k & -> & D & _). destruct (proj1 (starts _) _ _ _ D) as [Ne _].
  destruct u; [congruence|]. cbn. rewrite app_length. lia.
Qed.
Definition enough (n : nat) : Prop :=
  (forall p l, (4 * length l + 2 < n)%nat -> parse_pratt n p l <> None) /\
  (forall l, (4 * length l + 1 < n)%nat -> parse_prefix n l <> None) /\
  (forall p e l, (4 * length l + 1 < n)%nat -> parse_pratt_with_lhs n p e l <> None) /\
  (forall pos l, (4 * length l + 3 < n)%nat -> parse_call_parameters n pos l <> None).
Lemma exbind_total {A B} (x : ex A) (k : A -> ex B) : x <> None -> (forall a, x = Some (Ok a) -> k a <> None) -> exbind x k <> None.
Proof. destruct x as [[a| |]|]; cbn; intros H K; try congruence. apply K. reflexivity. Qed.
Lemma operand_total x : operand x <> None. Proof. destruct x as [[]]; discriminate. Qed.
Lemma deref_total x : deref x <> None. Proof. destruct x as [[]]; discriminate. Qed.
Lemma expect_total ty l : expect ty l <> None. Proof. unfold expect. destruct (_ =? _); discriminate. Qed.
Lemma precedence_eoi l : 0 < precedence_get (head_type l) true -> head_type l <> T_EOI.
Proof. intros H E. rewrite E in H. cbn in H. lia. Qed.
Ltac total I1 I2 I3 I4 S1 S3 S4 :=
  repeat match goal with
  | |- ok _ <> None => discriminate
  | |- Some _ <> None => discriminate
  | |- operand _ <> None => apply operand_total
  | |- deref _ <> None => apply deref_total
  | |- expect _ _ <> None => apply expect_total
  | |- (if ?b then _ else _) <> None => destruct b
  | |- exbind _ _ <> None => apply exbind_total; [|intros ? ?]
  | x : (_ * _)%type |- _ => destruct x
  | H : exbind _ _ = Some (Ok _) |- _ => inv_ex H
  | H : parse_pratt _ _ _ = Some (Ok (_, _)) |- _ => apply S1 in H
  | H : parse_call_parameters _ _ _ = Some (Ok (_, _)) |- _ => apply S4 in H
  | H : expect _ _ = Some (Ok _) |- _ => apply expect_length in H
  | H : operand _ = Some (Ok (_, _)) |- _ => apply operand_shape in H; cbn [snd] in H; subst
  | H : deref _ = Some (Ok (_, _)) |- _ => apply deref_shape in H; cbn [snd] in H; subst
  | |- parse_pratt _ _ _ <> None => apply I1; lia
  | |- parse_pratt_with_lhs _ _ _ _ <> None => apply I3; lia
  | |- parse_call_parameters _ _ _ <> None => apply I4; lia
  end.
Theorem total n : enough n.
Proof.
  induction n as [|n (I1 & I2 & I3 & I4)]; [repeat split; intros; lia|]. destruct (shrink n) as (S1 & S2 & S3 & S4). split; [|split; [|split]].
  - intros p l L. cbn [parse_pratt]. apply exbind_total; [apply I2; lia|]. intros [[e|] r] E; [|discriminate]. apply prefix_short in E. apply I3. lia.
  - intros l L. cbn [parse_prefix]. destruct l as [|t l]; [cbn; discriminate|]. cbn [tl length] in *.
    assert (B := tl_length l). assert (B2 := tl_length (tl l)).
    total I1 I2 I3 I4 S1 S3 S4.
  - intros p e l L. cbn [parse_pratt_with_lhs]. destruct l as [|t l].
    + cbn [head_type tl]. destruct (_ <? _); cbn; discriminate.
    + cbn [tl length] in *. destruct (_ <? _); [|discriminate]. destruct (op_of _); [total I1 I2 I3 I4 S1 S3 S4|].
      total I1 I2 I3 I4 S1 S3 S4; destruct l; try discriminate; cbn [length] in *; apply I3; lia.
  - intros pos l L. cbn [parse_call_parameters]. destruct (Nat.ltb _ _); [|discriminate]. destruct (_ =? _); [discriminate|].
    apply exbind_total; [destruct (Nat.eqb pos 0); [discriminate|apply expect_total]|]. intros x E.
    assert (length x <= length l)%nat by (destruct (Nat.eqb pos 0); [injection E as <-; lia|now apply expect_length in E]). clear E.
    apply exbind_total; [apply I1; lia|]. intros [[e|] r] E; [|discriminate]. cbn [operand].
    destruct (proj1 (sound n) 1 x e r ltac:(lia) E) as (u & -> & D & _). destruct (proj1 (starts _) _ _ _ D) as [Ne _].
    assert (length r < length (u ++ r))%nat by (destruct u; [congruence|cbn; rewrite app_length; lia]).
    apply exbind_total; [discriminate|]. intros [e1 r1] E1. injection E1 as <- <-. apply exbind_total; [apply I4; lia|]. intros [es r3] _. discriminate.
Qed.
