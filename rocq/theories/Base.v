(** Shared vocabulary of the model: outcomes, byte buffers, machine words.

    Nothing here models a particular function of /repo; it fixes how C
    executions are represented:
    - [Ok a]   : the C code finishes normally with result [a];
    - [Fail]   : the C code leaves through one of its diagnostic exits
                 (ERROR, ICE, NOTIMP, assert: src/common.c:196-234);
    - [Undef]  : the C code would execute undefined behaviour (out-of-bounds
                 access, over-wide shift, division by zero, ...). *)
From Coq Require Export ZArith List Lia Bool.
From Coq Require Export ZifyBool ZifyNat.
Export ListNotations.
Open Scope Z_scope.

Inductive res (A : Type) : Type :=
| Ok (a : A)
| Fail
| Undef.
Arguments Ok {A} a.
Arguments Fail {A}.
Arguments Undef {A}.

Definition bind {A B} (x : res A) (f : A -> res B) : res B :=
  match x with Ok a => f a | Fail => Fail | Undef => Undef end.
Notation "'let*' x ':=' e 'in' k" := (bind e (fun x => k))
  (at level 200, x pattern, right associativity).

(** Unsigned wrap-around to [w] bits, and the two's complement reading of a
    [w]-bit word. *)
Definition wrap (w v : Z) : Z := v mod 2 ^ w.
Definition signed (w v : Z) : Z :=
  let u := v mod 2 ^ w in if u <? 2 ^ (w - 1) then u else u - 2 ^ w.

Definition is_byte (b : Z) : Prop := 0 <= b < 256.
Definition bytes_ok (l : list Z) : Prop := Forall is_byte l.

(** [set_nth l i x]: list update, identity when out of range. *)
Fixpoint set_nth {A} (l : list A) (i : nat) (x : A) : list A :=
  match l, i with
  | [], _ => []
  | _ :: t, O => x :: t
  | h :: t, S j => h :: set_nth t j x
  end.

Lemma set_nth_length {A} (l : list A) i x : length (set_nth l i x) = length l.
Proof. revert i; induction l; destruct i; simpl; auto. Qed.

Lemma nth_error_set_nth_eq {A} (l : list A) i x :
  (i < length l)%nat -> nth_error (set_nth l i x) i = Some x.
Proof. revert i; induction l; destruct i; simpl; intros; auto; try lia. apply IHl; lia. Qed.

Lemma nth_error_set_nth_neq {A} (l : list A) i j x :
  i <> j -> nth_error (set_nth l i x) j = nth_error l j.
Proof.
  revert i j; induction l; destruct i, j; simpl; intros; auto; try lia.
Qed.

Lemma set_nth_oob {A} (l : list A) i x : (length l <= i)%nat -> set_nth l i x = l.
Proof. revert i; induction l; destruct i; simpl; intros; auto; try lia. f_equal; apply IHl; lia. Qed.

Lemma set_nth_same {A} (l : list A) i x : nth_error l i = Some x -> set_nth l i x = l.
Proof.
  revert i; induction l; destruct i; simpl; intros; try discriminate; auto.
  - congruence.
  - f_equal; auto.
Qed.

Lemma Forall_set_nth {A} (P : A -> Prop) l i x :
  Forall P l -> P x -> Forall P (set_nth l i x).
Proof.
  intros H; revert i; induction H; destruct i; simpl; intros; constructor; auto.
Qed.

Lemma nth_error_ext {A} (l l' : list A) :
  (forall i, nth_error l i = nth_error l' i) -> l = l'.
Proof.
  revert l'; induction l; destruct l'; intros H; auto.
  - specialize (H O); discriminate.
  - specialize (H O); discriminate.
  - f_equal. specialize (H O); simpl in H; congruence.
    apply IHl; intros i; apply (H (S i)).
Qed.

(** Buffer access as the C code does it: out-of-range is [Undef]. *)
Definition get (buf : list Z) (i : nat) : res Z :=
  match nth_error buf i with Some b => Ok b | None => Undef end.
Definition put (buf : list Z) (i : nat) (v : Z) : res (list Z) :=
  if (i <? length buf)%nat then Ok (set_nth buf i (v mod 256)) else Undef.

Lemma get_ok buf i : (i < length buf)%nat -> exists b, get buf i = Ok b /\ nth_error buf i = Some b.
Proof.
  intros H. unfold get. destruct (nth_error buf i) eqn:E; eauto.
  apply nth_error_None in E; lia.
Qed.

Lemma signed_range w v : 0 < w -> - 2 ^ (w - 1) <= signed w v < 2 ^ (w - 1).
Proof.
  intros Hw. unfold signed.
  assert (2 ^ w = 2 * 2 ^ (w - 1)) by (rewrite <- Z.pow_succ_r by lia; f_equal; lia).
  assert (0 < 2 ^ (w-1)) by (apply Z.pow_pos_nonneg; lia).
  pose proof (Z.mod_pos_bound v (2 ^ w) ltac:(lia)).
  cbv zeta. destruct (Z.ltb_spec (v mod 2 ^ w) (2 ^ (w - 1))); lia.
Qed.

Lemma signed_cong w v : 0 < w -> (signed w v) mod 2 ^ w = v mod 2 ^ w.
Proof.
  intros Hw. unfold signed. cbv zeta.
  assert (0 < 2 ^ w) by (apply Z.pow_pos_nonneg; lia).
  destruct (_ <? _).
  - apply Z.mod_mod; lia.
  - replace (v mod 2 ^ w - 2 ^ w) with (v mod 2 ^ w + (-1) * 2 ^ w) by lia.
    rewrite Z.mod_add by lia. apply Z.mod_mod; lia.
Qed.

Lemma signed_id w v : 0 < w -> - 2 ^ (w - 1) <= v < 2 ^ (w - 1) -> signed w v = v.
Proof.
  intros Hw H. unfold signed. cbv zeta.
  assert (2 ^ w = 2 * 2 ^ (w - 1)) by (rewrite <- Z.pow_succ_r by lia; f_equal; lia).
  assert (0 < 2 ^ (w-1)) by (apply Z.pow_pos_nonneg; lia).
  destruct (Z.lt_ge_cases v 0).
  - assert (E : v mod 2 ^ w = v + 2 ^ w).
    { rewrite <- (Z.mod_add v 1 (2 ^ w)) by lia. rewrite Z.mul_1_l. apply Z.mod_small; lia. }
    rewrite E. destruct (Z.ltb_spec (v + 2 ^ w) (2 ^ (w - 1))); lia.
  - rewrite (Z.mod_small v) by lia. destruct (Z.ltb_spec v (2 ^ (w - 1))); lia.
Qed.

Global Arguments Z.mul : simpl never.
Global Arguments Z.add : simpl never.
Global Arguments Z.sub : simpl never.
Global Arguments Z.div : simpl never.
Global Arguments Z.modulo : simpl never.
Global Arguments Z.pow : simpl never.
Global Arguments Z.of_nat : simpl never.
