(** C89: the sizes of a variable-length array type are evaluated once, where it is
    declared, and its size stays what it was there. *)
From Verif Require Import Base Vla VlaSpec VlaProofs.
Local Open Scope Z_scope.
Local Open Scope list_scope.

(** Declarations that follow in the same function, each with the values its size
    expressions have there. *)
Inductive later : state -> state -> Prop :=
| at_once st : later st st
| declared st now t st1 ev st2 : declare false now t st = Ok (st1, ev) -> later st1 st2 -> later st st2.

Lemma evaluated_no_star now : forall t st r, evaluate now t st = Ok r -> no_star t.
Proof.
  apply (ty_mut (fun t => forall st r, evaluate now t st = Ok r -> no_star t)
                (fun l => forall st r, evaluate_all now l st = Ok r -> no_stars l));
    cbn [evaluate evaluate_all no_star no_stars]; intros; auto; try (eapply H; eassumption).
  - destruct (evaluate now t st) as [[s e]| |] eqn:E; cbn [bind] in H0; try discriminate.
    destruct length; [|discriminate]. split; [discriminate|]. exact (H _ _ E).
  - destruct (evaluate now t st) as [[s e]| |] eqn:E; cbn [bind] in H1; try discriminate.
    destruct (evaluate_all now rest s) as [[s' e']| |] eqn:F; cbn [bind] in H1; try discriminate.
    split; [exact (H _ _ E)|exact (H0 _ _ F)].
Qed.

Lemma later_keeps st st' : later st st' -> forall i v, length_var i st = Some v -> length_var i st' = Some v.
Proof.
  induction 1 as [|st now t st1 ev st2 D L IH]; intros i v E; [exact E|]. apply IH.
  cbn [declare] in D. destruct (evaluate_good now t (evaluated_no_star _ _ _ _ D) st) as (s & e & Q & G & _).
  rewrite D in Q. injection Q as <- <-. rewrite (G i), E. reflexivity.
Qed.

(** At block scope: each size expression of the type is evaluated exactly once;
    after any further declarations, sizeof is the product of the values they had
    at the declaration, and mentioning the type again (as a typedef name) evaluates
    nothing. Missing: file scope and the size [*]. *)
Theorem vla_sizes_partial : forall now st t, no_star t -> (forall i, In i (expressions t) -> length_var i st = None) ->
  exists st1 ev, declare false now t st = Ok (st1, ev) /\
    NoDup ev /\ (forall i, In i ev <-> In i (expressions t)) /\
    forall st2, later st1 st2 ->
      (object_type t -> type_sizeof t st2 = Ok (bytes now t mod 2 ^ 64)) /\
      (forall now', exists st3, declare false now' t st2 = Ok (st3, [])).
Proof.
  intros now st t N F. destruct (evaluate_good now t N st) as (s & e & E & G & ND & I).
  exists s, e. split; [exact E|]. split; [exact ND|].
  assert (J : forall i, In i e <-> In i (expressions t)).
  { intros i. rewrite I. split; [tauto|]. intros K. split; [exact K|exact (F i K)]. }
  split; [exact J|]. intros st2 L.
  assert (V : forall i, In i (expressions t) -> length_var i st2 = Some (wrap 64 (now i))).
  { intros i K. apply (later_keeps _ _ L). rewrite (G i), (F i K).
    destruct (in_dec Nat.eq_dec i e) as [_|Q]; [reflexivity|]. destruct Q. apply J. exact K. }
  split.
  - intros O. exact (sizeof_bytes now st2 t O V).
  - intros now'. destruct (evaluate_good now' t N st2) as (s' & e' & E' & _ & _ & I').
    exists s'. cbn [declare]. rewrite E'. do 2 f_equal. destruct e' as [|x e']; [reflexivity|].
    destruct (proj1 (I' x) (or_introl eq_refl)) as [K1 K2]. rewrite (V x K1) in K2. discriminate.
Qed.
Print Assumptions vla_sizes_partial.

(** char a[n * 2][5][m]; with other values of the expressions later. *)
Definition char_a : ty := Vla (Some 0%nat) (Array 5 (Vla (Some 1%nat) (Plain 1))).
Definition at_first (i : nat) : Z := match i with O => 14 | _ => 3 end.
Definition at_last (i : nat) : Z := 100.
Example vla_example : exists st1 st2, declare false at_first char_a [] = Ok (st1, [1; 0]%nat) /\
  declare false at_last (Array 3 (Pointer (Vla (Some 2%nat) (Plain 4)))) st1 = Ok (st2, [2%nat]) /\
  type_sizeof char_a st2 = Ok 210 /\ object_type char_a /\ no_star char_a.
Proof.
  do 2 eexists. split; [reflexivity|]. split; [reflexivity|]. split; [vm_compute; reflexivity|].
  cbn. repeat split; try lia; discriminate.
Qed.

(** The test for global declarations is the wrong way round: no type is refused at
    file scope, whatever size expressions it has. *)
Theorem file_scope_vla_refuted : forall now t, expressions t <> [] -> declare true now t [] = Ok ([], []).
Proof. intros now t _. cbn [declare]. rewrite nothing_evaluated. reflexivity. Qed.
Print Assumptions file_scope_vla_refuted.
Example file_scope_example : expressions char_a <> []. Proof. discriminate. Qed.

(** void f(int n, int a[][star]); at block scope, where star is the size [*], is a
    null pointer read by the compiler. *)
Theorem star_size_refuted : forall now st, declare false now
    (Function (TCons (Plain 0) (TCons (Plain 4) (TCons (Pointer (Vla None (Plain 4))) TNil)))) st = Undef.
Proof. reflexivity. Qed.
Print Assumptions star_size_refuted.
