(** Proofs about the #if evaluator. *)
From Verif Require Import Base Tokens Fuel Precedence PPExpr PPExprSpec ConstFoldProofs.

Definition Ev p ev l r := exists n, evaluate n p ev l = Some r.
Definition Inf p ev e l r := exists n, infix n p ev e l = Some r.

Lemma exbind_mono {A B} (x x' : ex A) (f f' : A -> ex B) r :
  (forall a, x = Some a -> x' = Some a) -> (forall a b, f a = Some b -> f' a = Some b) ->
  exbind x f = Some r -> exbind x' f' = Some r.
Proof.
  intros H1 H2. destruct x as [[a| |]|]; cbn [exbind]; intros E.
  - rewrite (H1 _ eq_refl). cbn [exbind]. auto.
  - rewrite (H1 _ eq_refl). exact E.
  - rewrite (H1 _ eq_refl). exact E.
  - discriminate.
Qed.

Lemma fuel_mono n : forall m, (n <= m)%nat ->
  (forall p ev l r, evaluate n p ev l = Some r -> evaluate m p ev l = Some r) /\
  (forall p ev e l r, infix n p ev e l = Some r -> infix m p ev e l = Some r).
Proof.
  induction n as [|n IH]; [split; discriminate|]. intros m Hm. destruct m as [|m]; [lia|].
  destruct (IH m ltac:(lia)) as [IHe IHi]. split.
  - intros p ev l r. cbn [evaluate]. apply exbind_mono; auto. intros [t l1] r1. apply exbind_mono.
    + intros a. repeat match goal with |- context [if ?c then _ else _] => destruct c end; try apply IHe; auto;
        (apply exbind_mono; [apply IHe|auto]).
    + intros [e l2] r2. apply IHi.
  - intros p ev e l r. cbn [infix]. apply exbind_mono; auto. intros [t l1] r1.
    destruct (p <? precedence_get (ktype t) true); [|auto].
    destruct (ktype t =? T_QUEST); [|destruct (ktype t =? T_AND); [|destruct (ktype t =? T_OR)]].
    + apply exbind_mono; [apply IHe|]. intros [mid l2] r2. apply exbind_mono; auto. intros [c l3] r3.
      destruct (negb (ktype c =? T_COLON)); auto. apply exbind_mono; [apply IHe|]. intros [rhs l4] r4. apply IHi.
    + apply exbind_mono; [apply IHe|]. intros [rhs l2] r2. apply IHi.
    + apply exbind_mono; [apply IHe|]. intros [rhs l2] r2. apply IHi.
    + apply exbind_mono; [apply IHe|]. intros [rhs l2] r2. destruct (convert_operands e rhs) as [a b].
      apply exbind_mono; auto.
Qed.
Lemma evaluate_mono n m p ev l r : (n <= m)%nat -> evaluate n p ev l = Some r -> evaluate m p ev l = Some r.
Proof. intros H. apply fuel_mono; auto. Qed.
Lemma infix_mono n m p ev e l r : (n <= m)%nat -> infix n p ev e l = Some r -> infix m p ev e l = Some r.
Proof. intros H. apply fuel_mono; auto. Qed.

(** Building evaluations from evaluations of parts. *)
Lemma Ev_atom_num p ev s v l r : Inf p ev {| sg := s; vl := v |} l r -> Ev p ev (KNum s v :: l) r.
Proof. intros [n H]. exists (S n). exact H. Qed.
Lemma Ev_atom_ident p ev l r : Inf p ev (result_signed 0) l r -> Ev p ev (KIdent :: l) r.
Proof. intros [n H]. exists (S n). exact H. Qed.
Lemma Ev_atom_char p ev v l r : Inf p ev (result_signed v) l r -> Ev p ev (KChar v :: l) r.
Proof. intros [n H]. exists (S n). exact H. Qed.

Lemma Ev_plus p ev l v l2 r : Ev PREFIX_PREC ev l (Ok (v, l2)) -> Inf p ev v l2 r -> Ev p ev (KOp T_ADD :: l) r.
Proof.
  intros [n H] [m K]. exists (S (n + m)). cbn [evaluate buffer_next exbind]. change (ktype (KOp T_ADD) =? T_ADD) with true. cbn iota.
  rewrite (evaluate_mono n (n + m) _ _ _ _ ltac:(lia) H). cbn [exbind]. exact (infix_mono m (n + m) _ _ _ _ _ ltac:(lia) K).
Qed.
Lemma Ev_plus_fail p ev l : Ev PREFIX_PREC ev l Fail -> Ev p ev (KOp T_ADD :: l) Fail.
Proof.
  intros [n H]. exists (S n). cbn [evaluate buffer_next exbind]. change (ktype (KOp T_ADD) =? T_ADD) with true. cbn iota.
  rewrite H. reflexivity.
Qed.
Lemma Ev_minus p ev l v l2 w r : Ev PREFIX_PREC ev l (Ok (v, l2)) -> unary_minus v = Ok w -> Inf p ev w l2 r -> Ev p ev (KOp T_SUB :: l) r.
Proof.
  intros [n H] E [m K]. exists (S (n + m)). cbn [evaluate buffer_next exbind].
  change (ktype (KOp T_SUB) =? T_ADD) with false. change (ktype (KOp T_SUB) =? T_SUB) with true. cbn iota.
  rewrite (evaluate_mono n (n + m) _ _ _ _ ltac:(lia) H). cbn [exbind]. rewrite E. unfold ok. cbn [exbind].
  exact (infix_mono m (n + m) _ _ _ _ _ ltac:(lia) K).
Qed.
Lemma Ev_minus_fail p ev l : Ev PREFIX_PREC ev l Fail -> Ev p ev (KOp T_SUB :: l) Fail.
Proof.
  intros [n H]. exists (S n). cbn [evaluate buffer_next exbind].
  change (ktype (KOp T_SUB) =? T_ADD) with false. change (ktype (KOp T_SUB) =? T_SUB) with true. cbn iota.
  rewrite H. reflexivity.
Qed.
Lemma Ev_not p ev l v l2 r : Ev PREFIX_PREC ev l (Ok (v, l2)) -> Inf p ev (unary_not v) l2 r -> Ev p ev (KOp T_NOT :: l) r.
Proof.
  intros [n H] [m K]. exists (S (n + m)). cbn [evaluate buffer_next exbind].
  change (ktype (KOp T_NOT) =? T_ADD) with false. change (ktype (KOp T_NOT) =? T_SUB) with false.
  change (ktype (KOp T_NOT) =? T_NOT) with true. cbn iota.
  rewrite (evaluate_mono n (n + m) _ _ _ _ ltac:(lia) H). unfold ok. cbn [exbind].
  exact (infix_mono m (n + m) _ _ _ _ _ ltac:(lia) K).
Qed.
Lemma Ev_not_fail p ev l : Ev PREFIX_PREC ev l Fail -> Ev p ev (KOp T_NOT :: l) Fail.
Proof.
  intros [n H]. exists (S n). cbn [evaluate buffer_next exbind].
  change (ktype (KOp T_NOT) =? T_ADD) with false. change (ktype (KOp T_NOT) =? T_SUB) with false.
  change (ktype (KOp T_NOT) =? T_NOT) with true. cbn iota.
  rewrite H. reflexivity.
Qed.
Lemma Ev_paren p ev l v l2 r : Ev 0 ev l (Ok (v, KOp T_RPAR :: l2)) -> Inf p ev v l2 r -> Ev p ev (KOp T_LPAR :: l) r.
Proof.
  intros [n H] [m K]. exists (S (n + m)). cbn [evaluate buffer_next exbind].
  change (ktype (KOp T_LPAR) =? T_ADD) with false. change (ktype (KOp T_LPAR) =? T_SUB) with false.
  change (ktype (KOp T_LPAR) =? T_NOT) with false. change (ktype (KOp T_LPAR) =? T_LPAR) with true. cbn iota.
  rewrite (evaluate_mono n (n + m) _ _ _ _ ltac:(lia) H). unfold ok. cbn [exbind buffer_next].
  change (ktype (KOp T_RPAR) =? T_RPAR) with true. cbn iota.
  exact (infix_mono m (n + m) _ _ _ _ _ ltac:(lia) K).
Qed.
Lemma Ev_paren_fail p ev l : Ev 0 ev l Fail -> Ev p ev (KOp T_LPAR :: l) Fail.
Proof.
  intros [n H]. exists (S n). cbn [evaluate buffer_next exbind].
  change (ktype (KOp T_LPAR) =? T_ADD) with false. change (ktype (KOp T_LPAR) =? T_SUB) with false.
  change (ktype (KOp T_LPAR) =? T_NOT) with false. change (ktype (KOp T_LPAR) =? T_LPAR) with true. cbn iota.
  rewrite H. reflexivity.
Qed.

Lemma Inf_stop p ev v ty l : precedence_get ty true <= p -> Inf p ev v (KOp ty :: l) (Ok (v, KOp ty :: l)).
Proof.
  intros H. exists 1%nat. cbn [infix buffer_next exbind ktype].
  rewrite (proj2 (Z.ltb_ge _ _) H). reflexivity.
Qed.

Definition prec_of (op : binop) : Z := binlevel op - 1.
Lemma prec_of_get op b : precedence_get (bintok op) b = prec_of op.
Proof. destruct op, b; reflexivity. Qed.
Lemma quest_get : precedence_get T_QUEST true = 2 /\ precedence_get T_QUEST false = 1.
Proof. split; reflexivity. Qed.

Definition strict (op : binop) : bool := match op with BLand | BLor => false | _ => true end.
Lemma strict_tok op : strict op = true -> (bintok op =? T_QUEST) = false /\ (bintok op =? T_AND) = false /\ (bintok op =? T_OR) = false.
Proof. destruct op; intros H; try discriminate; repeat split; reflexivity. Qed.

Lemma Inf_strict p ev v op l w l2 x r :
  strict op = true -> p < prec_of op -> Ev (prec_of op) ev l (Ok (w, l2)) ->
  (if ev then binary_op (bintok op) (fst (convert_operands v w)) (snd (convert_operands v w)) else Ok (fst (convert_operands v w))) = Ok x ->
  Inf p ev x l2 r -> Inf p ev v (KOp (bintok op) :: l) r.
Proof.
  intros S1 HP [n H] E [m K]. exists (S (n + m)). cbn [infix buffer_next exbind ktype].
  rewrite !prec_of_get, (proj2 (Z.ltb_lt _ _) HP). destruct (strict_tok op S1) as (-> & -> & ->). cbn iota.
  rewrite (evaluate_mono n (n + m) _ _ _ _ ltac:(lia) H). cbn [exbind]. destruct (convert_operands v w) as [a b]. cbn [fst snd] in E.
  match goal with |- exbind ?y _ = _ => replace y with (Some (Ok x)) by (unfold ok; destruct ev; congruence) end.
  cbn [exbind]. exact (infix_mono m (n + m) _ _ _ _ _ ltac:(lia) K).
Qed.
Lemma Inf_strict_fail1 p ev v op l :
  strict op = true -> p < prec_of op -> Ev (prec_of op) ev l Fail -> Inf p ev v (KOp (bintok op) :: l) Fail.
Proof.
  intros S1 HP [n H]. exists (S n). cbn [infix buffer_next exbind ktype].
  rewrite !prec_of_get, (proj2 (Z.ltb_lt _ _) HP). destruct (strict_tok op S1) as (-> & -> & ->). cbn iota.
  rewrite H. reflexivity.
Qed.
Lemma Inf_strict_fail2 p v op l w l2 :
  strict op = true -> p < prec_of op -> Ev (prec_of op) true l (Ok (w, l2)) ->
  binary_op (bintok op) (fst (convert_operands v w)) (snd (convert_operands v w)) = Fail ->
  Inf p true v (KOp (bintok op) :: l) Fail.
Proof.
  intros S1 HP [n H] E. exists (S n). cbn [infix buffer_next exbind ktype].
  rewrite !prec_of_get, (proj2 (Z.ltb_lt _ _) HP). destruct (strict_tok op S1) as (-> & -> & ->). cbn iota.
  rewrite H. cbn [exbind]. destruct (convert_operands v w) as [a b]. cbn [fst snd] in E. rewrite E. reflexivity.
Qed.

(** && and ||: [isand] selects which. *)
Definition logop (isand : bool) := if isand then BLand else BLor.
Definition logres (isand : bool) (a b : bool) := if isand then a && b else a || b.
Lemma Inf_logic (isand : bool) p ev v l w l2 r :
  p < prec_of (logop isand) ->
  Ev (prec_of (logop isand)) (if Bool.eqb (negb (result_is_zero v)) isand then ev else false) l (Ok (w, l2)) ->
  Inf p ev (result_signed (b2z (logres isand (negb (result_is_zero v)) (negb (result_is_zero w))))) l2 r ->
  Inf p ev v (KOp (bintok (logop isand)) :: l) r.
Proof.
  intros HP [n H] [m K]. exists (S (n + m)). cbn [infix buffer_next exbind ktype].
  rewrite !prec_of_get, (proj2 (Z.ltb_lt _ _) HP).
  apply (evaluate_mono n (n + m) _ _ _ _ ltac:(lia)) in H. apply (infix_mono m (n + m) _ _ _ _ _ ltac:(lia)) in K.
  destruct isand; cbn [logop bintok].
  - change (T_AND =? T_QUEST) with false. change (T_AND =? T_AND) with true. cbn iota.
    replace (if negb (result_is_zero v) then ev else false) with (if Bool.eqb (negb (result_is_zero v)) true then ev else false)
      by (destruct (result_is_zero v); reflexivity).
    unfold logop in H. rewrite H. exact K.
  - change (T_OR =? T_QUEST) with false. change (T_OR =? T_AND) with false. change (T_OR =? T_OR) with true. cbn iota.
    replace (if negb (result_is_zero v) then false else ev) with (if Bool.eqb (negb (result_is_zero v)) false then ev else false)
      by (destruct (result_is_zero v); reflexivity).
    unfold logop in H. rewrite H. exact K.
Qed.
Lemma Inf_logic_fail (isand : bool) p ev v l :
  p < prec_of (logop isand) ->
  Ev (prec_of (logop isand)) (if Bool.eqb (negb (result_is_zero v)) isand then ev else false) l Fail ->
  Inf p ev v (KOp (bintok (logop isand)) :: l) Fail.
Proof.
  intros HP [n H]. exists (S n). cbn [infix buffer_next exbind ktype].
  rewrite !prec_of_get, (proj2 (Z.ltb_lt _ _) HP).
  destruct isand; cbn [logop bintok].
  - change (T_AND =? T_QUEST) with false. change (T_AND =? T_AND) with true. cbn iota.
    replace (if negb (result_is_zero v) then ev else false) with (if Bool.eqb (negb (result_is_zero v)) true then ev else false)
      by (destruct (result_is_zero v); reflexivity).
    unfold logop in H. rewrite H. reflexivity.
  - change (T_OR =? T_QUEST) with false. change (T_OR =? T_AND) with false. change (T_OR =? T_OR) with true. cbn iota.
    replace (if negb (result_is_zero v) then false else ev) with (if Bool.eqb (negb (result_is_zero v)) false then ev else false)
      by (destruct (result_is_zero v); reflexivity).
    unfold logop in H. rewrite H. reflexivity.
Qed.

Lemma Inf_cond p ev v l mid l3 rhs l4 r :
  p < 2 ->
  Ev 0 (if negb (result_is_zero v) then ev else false) l (Ok (mid, KOp T_COLON :: l3)) ->
  Ev 1 (if negb (result_is_zero v) then false else ev) l3 (Ok (rhs, l4)) ->
  Inf p ev (if negb (result_is_zero v) then mid else rhs) l4 r ->
  Inf p ev v (KOp T_QUEST :: l) r.
Proof.
  intros HP [n H] [m K] [o I]. exists (S (n + m + o)). cbn [infix buffer_next exbind ktype].
  destruct quest_get as [-> ->]. rewrite (proj2 (Z.ltb_lt _ _) HP). change (T_QUEST =? T_QUEST) with true. cbn iota.
  rewrite (evaluate_mono n (n + m + o) _ _ _ _ ltac:(lia) H). cbn [exbind buffer_next ktype].
  change (T_COLON =? T_COLON) with true. cbn [negb].
  rewrite (evaluate_mono m (n + m + o) _ _ _ _ ltac:(lia) K). cbn [exbind].
  exact (infix_mono o (n + m + o) _ _ _ _ _ ltac:(lia) I).
Qed.
Lemma Inf_cond_fail1 p ev v l :
  p < 2 -> Ev 0 (if negb (result_is_zero v) then ev else false) l Fail -> Inf p ev v (KOp T_QUEST :: l) Fail.
Proof.
  intros HP [n H]. exists (S n). cbn [infix buffer_next exbind ktype].
  destruct quest_get as [-> ->]. rewrite (proj2 (Z.ltb_lt _ _) HP). change (T_QUEST =? T_QUEST) with true. cbn iota.
  rewrite H. reflexivity.
Qed.
Lemma Inf_cond_fail2 p ev v l mid l3 :
  p < 2 ->
  Ev 0 (if negb (result_is_zero v) then ev else false) l (Ok (mid, KOp T_COLON :: l3)) ->
  Ev 1 (if negb (result_is_zero v) then false else ev) l3 Fail ->
  Inf p ev v (KOp T_QUEST :: l) Fail.
Proof.
  intros HP [n H] [m K]. exists (S (n + m)). cbn [infix buffer_next exbind ktype].
  destruct quest_get as [-> ->]. rewrite (proj2 (Z.ltb_lt _ _) HP). change (T_QUEST =? T_QUEST) with true. cbn iota.
  rewrite (evaluate_mono n (n + m) _ _ _ _ ltac:(lia) H). cbn [exbind buffer_next ktype].
  change (T_COLON =? T_COLON) with true. cbn [negb].
  rewrite (evaluate_mono m (n + m) _ _ _ _ ltac:(lia) K). reflexivity.
Qed.

(** Values. *)
Definition inrange (t : bool) (v : Z) : Prop := if t then - 2 ^ 63 <= v < 2 ^ 63 else 0 <= v < 2 ^ 64.
Lemma p63 : 2 ^ 64 = 2 * 2 ^ 63. Proof. reflexivity. Qed.
Lemma p63pos : 0 < 2 ^ 63. Proof. reflexivity. Qed.
Lemma truth_b2z b : b2z b = truth b. Proof. reflexivity. Qed.
Lemma truth_range t b : inrange t (truth b).
Proof. destruct t, b; cbn; lia. Qed.
Lemma mod_range v : 0 <= v mod 2 ^ 64 < 2 ^ 64.
Proof. apply Z.mod_pos_bound. reflexivity. Qed.
Lemma convert_range t v : (t = true -> inrange true v) -> inrange t (convert t v).
Proof. destruct t; intros H; [apply H; auto|apply mod_range]. Qed.
Lemma convert_id t v : inrange t v -> convert t v = v.
Proof. destruct t; auto. intros H. apply Z.mod_small. exact H. Qed.
Lemma in_type_range t v w : in_type t v = Value w -> inrange t w.
Proof.
  unfold in_type. destruct t.
  - destruct ((- 2 ^ 63 <=? v) && (v <? 2 ^ 63)) eqn:E; [|discriminate]. intros H; inversion H; subst. cbn [inrange]. lia.
  - intros H; inversion H. apply mod_range.
Qed.

Lemma small_iff t v : inrange t v <-> (if t then Z.shiftr v 63 = 0 \/ Z.shiftr v 63 = -1 else Z.shiftr v 64 = 0).
Proof.
  destruct t; cbn [inrange].
  - apply (shiftr_m1 v 63). lia.
  - rewrite Z.shiftr_div_pow2 by lia. split; intros H.
    + apply Z.div_small; auto.
    + pose proof (Z.div_mod v (2 ^ 64) ltac:(discriminate)) as D. pose proof (mod_range v). rewrite H in D. lia.
Qed.
Lemma land_range t a b : inrange t a -> inrange t b -> inrange t (Z.land a b).
Proof.
  rewrite !small_iff. destruct t; rewrite Z.shiftr_land.
  - intros [->| ->] [->| ->]; auto.
  - intros -> ->; auto.
Qed.
Lemma lor_range t a b : inrange t a -> inrange t b -> inrange t (Z.lor a b).
Proof.
  rewrite !small_iff. destruct t; rewrite Z.shiftr_lor.
  - intros [->| ->] [->| ->]; auto.
  - intros -> ->; auto.
Qed.
Lemma lxor_range t a b : inrange t a -> inrange t b -> inrange t (Z.lxor a b).
Proof.
  rewrite !small_iff. destruct t; rewrite Z.shiftr_lxor.
  - intros [->| ->] [->| ->]; auto.
  - intros -> ->; auto.
Qed.
Lemma shr_range t a y : 0 <= y -> inrange t a -> inrange t (a / 2 ^ y).
Proof.
  intros Hy. assert (P : 0 < 2 ^ y) by (apply Z.pow_pos_nonneg; lia).
  destruct t; cbn [inrange]; intros H.
  - assert (- 2 ^ 63 <= a / 2 ^ y) by (apply Z.div_le_lower_bound; nia).
    assert (a / 2 ^ y < 2 ^ 63) by (apply Z.div_lt_upper_bound; nia). lia.
  - assert (0 <= a / 2 ^ y) by (apply Z.div_pos; lia).
    assert (a / 2 ^ y < 2 ^ 64) by (apply Z.div_lt_upper_bound; nia). lia.
Qed.
Lemma quot_abs_le a b : b <> 0 -> Z.abs (Z.quot a b) <= Z.abs a.
Proof.
  intros N. rewrite <- Z.quot_abs by auto. rewrite Z.quot_div_nonneg by lia.
  apply Z.div_le_upper_bound; [lia|]. assert (0 <= Z.abs a) by lia. assert (1 <= Z.abs b) by lia. nia.
Qed.
Lemma quot_abs_half a b : b <> 0 -> b <> 1 -> b <> -1 -> 2 * Z.abs (Z.quot a b) <= Z.abs a.
Proof.
  intros N N1 N2. rewrite <- Z.quot_abs by auto. rewrite Z.quot_div_nonneg by lia.
  pose proof (Z.mul_div_le (Z.abs a) (Z.abs b) ltac:(lia)) as L.
  assert (0 <= Z.abs a / Z.abs b) by (apply Z.div_pos; lia). assert (2 <= Z.abs b) by lia. nia.
Qed.
Lemma quot_range t a b : inrange t a -> inrange t b -> b <> 0 -> (t && (a =? - 2 ^ 63) && (b =? -1)) = false -> inrange t (Z.quot a b).
Proof.
  intros Ha Hb N E. destruct t; cbn [inrange andb] in *.
  - assert (E2 : a <> - 2 ^ 63 \/ b <> -1).
    { destruct (Z.eqb_spec a (- 2 ^ 63)); [right|left; auto]. intros ->. discriminate. }
    clear E Hb. pose proof (quot_abs_le a b N) as Q.
    destruct (Z.eq_dec a (- 2 ^ 63)) as [Ea|Na]; [|lia].
    destruct (Z.eq_dec b 1) as [->|N1]; [rewrite Z.quot_1_r; lia|].
    pose proof (quot_abs_half a b N N1 ltac:(intuition)). lia.
  - clear E. rewrite Z.quot_div_nonneg by lia. split; [apply Z.div_pos; lia|].
    apply Z.div_lt_upper_bound; [lia|]. nia.
Qed.
Lemma rem_range t a b : inrange t a -> inrange t b -> b <> 0 -> inrange t (Z.rem a b).
Proof.
  intros Ha Hb N. pose proof (Z.rem_bound_abs a b N). destruct t; cbn [inrange] in *; [lia|].
  pose proof (Z.rem_nonneg a b N ltac:(lia)). lia.
Qed.

Definition result_type (op : binop) (ta tb : bool) : bool :=
  match op with
  | BLt | BGt | BLe | BGe | BEq | BNe | BLand | BLor => true
  | BShl | BShr => ta
  | _ => ta && tb
  end.
Lemma apply_range op ta tb x y z : inrange ta x -> inrange tb y -> apply op (ta && tb) ta x y = Value z -> inrange (result_type op ta tb) z.
Proof.
  intros Hx Hy.
  assert (Hcx : inrange (ta && tb) (convert (ta && tb) x)) by (apply convert_range; destruct ta; [auto|discriminate]).
  assert (Hcy : inrange (ta && tb) (convert (ta && tb) y)).
  { apply convert_range. destruct ta, tb; try discriminate; auto. }
  unfold apply. destruct op; cbn [result_type];
    try (intros H; eapply in_type_range; exact H);
    try (intros H; injection H as <-; apply (truth_range true));
    try (intros H; injection H as <-; auto using land_range, lor_range, lxor_range); try discriminate.
  - destruct (Z.eqb_spec (convert (ta && tb) y) 0); [discriminate|].
    destruct (ta && tb && (convert (ta && tb) x =? - 2 ^ 63) && (convert (ta && tb) y =? -1)) eqn:E; [discriminate|].
    intros H; injection H as <-. apply quot_range; auto.
  - destruct (Z.eqb_spec (convert (ta && tb) y) 0); [discriminate|].
    destruct (ta && tb && (convert (ta && tb) x =? - 2 ^ 63) && (convert (ta && tb) y =? -1)) eqn:E; [discriminate|].
    intros H; injection H as <-. apply rem_range; auto.
  - destruct ((0 <=? y) && (y <? 64)); [|discriminate]. destruct ta.
    + destruct (0 <=? x); [|discriminate]. apply in_type_range.
    + intros H; injection H as <-. apply mod_range.
  - destruct ((0 <=? y) && (y <? 64)) eqn:E; [|discriminate]. intros H; injection H as <-. apply shr_range; auto. lia.
Qed.

Definition res_of (t : bool) (v : Z) : result := {| sg := t; vl := v |}.
Lemma convert_operands_spec ta tb x y : inrange ta x -> inrange tb y ->
  convert_operands (res_of ta x) (res_of tb y) = (res_of (ta && tb) (convert (ta && tb) x), res_of (ta && tb) (convert (ta && tb) y)).
Proof.
  intros Hx Hy. unfold convert_operands, res_of, result_unsigned, wrap.
  destruct ta, tb; cbn [sg vl andb negb convert]; try reflexivity.
  - rewrite (Z.mod_small y) by exact Hy. reflexivity.
  - rewrite (Z.mod_small x) by exact Hx. reflexivity.
  - rewrite (Z.mod_small y) by exact Hy. rewrite (Z.mod_small x) by exact Hx. reflexivity.
Qed.

Lemma arith_in_type t v w : in_type t v = Value w ->
  (if t then let* x := imax v in Ok (result_signed x) else Ok (result_unsigned v)) = Ok (res_of t w).
Proof.
  unfold in_type, imax, result_signed, result_unsigned, wrap, res_of. destruct t.
  - destruct ((- 2 ^ 63 <=? v) && (v <? 2 ^ 63)); [|discriminate]. intros H; injection H as <-. reflexivity.
  - intros H; injection H as <-. reflexivity.
Qed.
Lemma exact_res t v : inrange t v -> (if t then Ok (result_signed v) else Ok (result_unsigned v)) = Ok (res_of t v).
Proof.
  destruct t; auto. intros H. unfold result_unsigned, wrap, res_of. rewrite Z.mod_small by exact H. reflexivity.
Qed.

Definition arith (l : result) v := if sg l then let* x := imax v in Ok (result_signed x) else Ok (result_unsigned v).
Definition exact (l : result) v := if sg l then Ok (result_signed v) else Ok (result_unsigned v).
Definition op_model (op : binop) (l r : result) : res result :=
  let a := vl l in
  let b := vl r in
  match op with
  | BMul => arith l (a * b) | BAdd => arith l (a + b) | BSub => arith l (a - b)
  | BDiv => let* _ := check_div_overflow l r in exact l (Z.quot a b)
  | BMod => let* _ := check_div_overflow l r in exact l (Z.rem a b)
  | BShl => let* v := shift_left (sg l) a b in exact l v
  | BShr => let* v := shift_right a b in exact l v
  | BLt => Ok (result_signed (b2z (a <? b))) | BGt => Ok (result_signed (b2z (b <? a)))
  | BLe => Ok (result_signed (b2z (a <=? b))) | BGe => Ok (result_signed (b2z (b <=? a)))
  | BEq => Ok (result_signed (b2z (a =? b))) | BNe => Ok (result_signed (b2z (negb (a =? b))))
  | BAnd => exact l (Z.land a b) | BXor => exact l (Z.lxor a b) | BOr => exact l (Z.lor a b)
  | BLand | BLor => Fail
  end.
Lemma op_model_eq op l r : binary_op (bintok op) l r = op_model op l r.
Proof. destruct op; reflexivity. Qed.

Lemma arith_ok t a v w : in_type t v = Value w -> arith (res_of t a) v = Ok (res_of t w).
Proof. apply arith_in_type. Qed.
Lemma exact_ok t a v : inrange t v -> exact (res_of t a) v = Ok (res_of t v).
Proof. apply exact_res. Qed.
Lemma check_ok t a b : check_div_overflow (res_of t a) (res_of t b) =
  if b =? 0 then Fail else if t && (a =? - 2 ^ 63) && (b =? -1) then Fail else Ok tt.
Proof. reflexivity. Qed.

Lemma binary_ok op ta tb x y z :
  strict op = true -> inrange ta x -> inrange tb y -> (op = BShl \/ op = BShr -> ta = true -> tb = true) ->
  apply op (ta && tb) ta x y = Value z ->
  binary_op (bintok op) (res_of (ta && tb) (convert (ta && tb) x)) (res_of (ta && tb) (convert (ta && tb) y)) = Ok (res_of (result_type op ta tb) z).
Proof.
  intros S1 Hx Hy Sh A. pose proof (apply_range _ _ _ _ _ _ Hx Hy A) as R. rewrite op_model_eq.
  assert (Hcx : inrange (ta && tb) (convert (ta && tb) x)) by (apply convert_range; destruct ta; [auto|discriminate]).
  assert (Hcy : inrange (ta && tb) (convert (ta && tb) y)).
  { apply convert_range. destruct ta, tb; try discriminate; auto. }
  destruct op; try discriminate S1; cbn [result_type] in R |- *; unfold op_model; cbn [sg vl res_of]; unfold apply in A;
    try (apply arith_ok; exact A);
    try (injection A as <-; first [apply exact_ok; exact R | rewrite truth_b2z; reflexivity]).
  - fold (res_of (ta && tb)). rewrite check_ok. destruct (convert (ta && tb) y =? 0); [discriminate|].
    destruct (ta && tb && (convert (ta && tb) x =? - 2 ^ 63) && (convert (ta && tb) y =? -1)); [discriminate|].
    injection A as <-. apply exact_ok; exact R.
  - fold (res_of (ta && tb)). rewrite check_ok. destruct (convert (ta && tb) y =? 0); [discriminate|].
    destruct (ta && tb && (convert (ta && tb) x =? - 2 ^ 63) && (convert (ta && tb) y =? -1)); [discriminate|].
    injection A as <-. apply exact_ok; exact R.
  - destruct ((0 <=? y) && (y <? 64)) eqn:E; [|discriminate].
    assert (Y : convert (ta && tb) y = y) by (destruct (ta && tb); auto; apply Z.mod_small; change (2 ^ 64) with 18446744073709551616; lia).
    rewrite Y. unfold shift_left. replace ((y <? 0) || (64 <=? y)) with false by lia.
    destruct ta.
    + rewrite (Sh (or_introl eq_refl) eq_refl) in *. cbn [andb convert] in *. destruct (0 <=? x) eqn:X; [|discriminate].
      replace (x <? 0) with false by lia. unfold in_type in A. unfold imax.
      destruct ((- 2 ^ 63 <=? x * 2 ^ y) && (x * 2 ^ y <? 2 ^ 63)); [|discriminate]. injection A as <-. reflexivity.
    + cbn [andb]. injection A as <-. cbn [convert bind]. rewrite (Z.mod_small x) by exact Hx. reflexivity.
  - destruct ((0 <=? y) && (y <? 64)) eqn:E; [|discriminate].
    assert (Y : convert (ta && tb) y = y) by (destruct (ta && tb); auto; apply Z.mod_small; change (2 ^ 64) with 18446744073709551616; lia).
    rewrite Y. unfold shift_right. replace ((y <? 0) || (64 <=? y)) with false by lia. cbn [bind].
    injection A as <-. destruct ta.
    + rewrite (Sh (or_intror eq_refl) eq_refl) in *. reflexivity.
    + cbn [andb convert]. rewrite (Z.mod_small x) by exact Hx. apply (exact_ok false x _ R).
Qed.
Lemma binary_fail op ta tb x y :
  strict op = true -> apply op (ta && tb) ta x y = Violation ->
  binary_op (bintok op) (res_of (ta && tb) (convert (ta && tb) x)) (res_of (ta && tb) (convert (ta && tb) y)) = Fail.
Proof.
  intros S1 A. rewrite op_model_eq. destruct op; try discriminate S1; unfold apply in A; unfold op_model; try discriminate A;
    try (unfold in_type in A; destruct (ta && tb); [match type of A with (if ?c then _ else _) = _ => destruct c end|]; discriminate A).
  - fold (res_of (ta && tb)). rewrite check_ok. destruct (convert (ta && tb) y =? 0); [reflexivity|].
    destruct (ta && tb && (convert (ta && tb) x =? - 2 ^ 63) && (convert (ta && tb) y =? -1)); [reflexivity|discriminate].
  - fold (res_of (ta && tb)). rewrite check_ok. destruct (convert (ta && tb) y =? 0); [reflexivity|].
    destruct (ta && tb && (convert (ta && tb) x =? - 2 ^ 63) && (convert (ta && tb) y =? -1)); [reflexivity|discriminate].
  - destruct ((0 <=? y) && (y <? 64)); [|discriminate]. destruct ta; [|discriminate]. destruct (0 <=? x); [|discriminate].
    unfold in_type in A. match type of A with (if ?c then _ else _) = _ => destruct c end; discriminate.
  - destruct ((0 <=? y) && (y <? 64)); discriminate.
Qed.

(** The precedence argument an expression can be parsed with, and the tokens that
    may follow it. *)
Definition accepts (p : Z) (e : pexp) : Prop := p < level e - 1 \/ 14 <= level e.
Definition rbp (e : pexp) : Z := if 14 <=? level e then 13 else match e with PCond _ _ _ => 1 | _ => level e - 1 end.
Lemma binlevel_range op : 4 <= binlevel op <= 13. Proof. destruct op; cbn; lia. Qed.
Lemma level_range e : 3 <= level e <= 15.
Proof. destruct e; cbn [level]; try lia. pose proof (binlevel_range op). lia. Qed.
Lemma rbp_pos e : 1 <= rbp e.
Proof.
  unfold rbp. pose proof (level_range e). destruct (14 <=? level e); [lia|]. destruct e; lia.
Qed.
Lemma rbp_ge e L : 4 <= level e -> L <= level e -> L <= 13 -> L - 1 <= rbp e.
Proof.
  unfold rbp. intros H4 HL H13. destruct (Z.leb_spec 14 (level e)); [lia|].
  destruct e; cbn [level] in *; lia.
Qed.
Lemma rbp_bin op a b : rbp (PBin op a b) = binlevel op - 1.
Proof. unfold rbp. cbn [level]. pose proof (binlevel_range op). destruct (Z.leb_spec 14 (binlevel op)); [lia|auto]. Qed.
Lemma accepts_left p e op : p < binlevel op - 1 -> binlevel op <= level e -> accepts p e.
Proof. unfold accepts. lia. Qed.
Lemma accepts_0 e : accepts 0 e. Proof. unfold accepts. pose proof (level_range e). lia. Qed.

Lemma spell_app_bin op a b rest : spell (PBin op a b) ++ rest = spell a ++ KOp (bintok op) :: spell b ++ rest.
Proof. cbn [spell]. rewrite <- app_assoc. reflexivity. Qed.
Lemma spell_app_cond c a b rest : spell (PCond c a b) ++ rest = spell c ++ KOp T_QUEST :: spell a ++ KOp T_COLON :: spell b ++ rest.
Proof. cbn [spell]. rewrite <- app_assoc. cbn [app]. rewrite <- app_assoc. reflexivity. Qed.
Lemma spell_app_paren e rest : spell (PParen e) ++ rest = KOp T_LPAR :: spell e ++ KOp T_RPAR :: rest.
Proof. cbn [spell app]. rewrite <- app_assoc. reflexivity. Qed.

(** An operand that is not evaluated is read without a diagnostic. *)
Definition safe (r : result) : Prop := sg r = true -> - 2 ^ 63 < vl r < 2 ^ 63.
Lemma safe_signed b : safe (result_signed (b2z b)).
Proof. intros _. destruct b; cbn [b2z vl result_signed]; change (2 ^ 63) with 9223372036854775808; lia. Qed.
Lemma safe_convert a b : safe a -> safe (fst (convert_operands a b)).
Proof.
  unfold safe, convert_operands. intros H.
  destruct (sg b) eqn:Eb, (sg a) eqn:Ea; cbn [andb negb fst]; rewrite ?Ea; auto; discriminate.
Qed.
Lemma safe_minus r : safe r -> exists w, unary_minus r = Ok w /\ safe w.
Proof.
  intros H. unfold unary_minus. destruct (sg r) eqn:E.
  - specialize (H E). unfold imax. replace ((- 2 ^ 63 <=? - vl r) && (- vl r <? 2 ^ 63)) with true by lia.
    eexists. split; [reflexivity|]. intros _. cbn [vl result_signed]. lia.
  - eexists. split; [reflexivity|]. discriminate.
Qed.
Lemma safe_not r : safe (unary_not r).
Proof.
  unfold unary_not. destruct (sg r); [|discriminate]. intros _. cbn [vl result_signed].
  change (2 ^ 63) with 9223372036854775808. destruct (vl r =? 0); lia.
Qed.

Definition reads (ev : bool) (e : pexp) (v : result) : Prop :=
  forall p ty l r, accepts p e -> precedence_get ty true <= rbp e ->
  Inf p ev v (KOp ty :: l) r -> Ev p ev (spell e ++ KOp ty :: l) r.
Definition refuses (e : pexp) : Prop :=
  forall p ty l, accepts p e -> precedence_get ty true <= rbp e -> Ev p true (spell e ++ KOp ty :: l) Fail.

Lemma reads_whole ev e v p ty l : reads ev e v -> accepts p e -> precedence_get ty true <= rbp e -> precedence_get ty true <= p ->
  Ev p ev (spell e ++ KOp ty :: l) (Ok (v, KOp ty :: l)).
Proof. intros R A B C. apply R; auto. apply Inf_stop. auto. Qed.

Lemma prec_zero ty e : precedence_get ty true = 0 -> precedence_get ty true <= rbp e.
Proof. pose proof (rbp_pos e). lia. Qed.

Lemma reads_paren ev e v : reads ev e v -> reads ev (PParen e) v.
Proof.
  intros R p ty l r A B I. rewrite spell_app_paren. eapply Ev_paren; [|exact I].
  apply reads_whole; [exact R|apply accepts_0|apply prec_zero; reflexivity|discriminate].
Qed.
Lemma unary_rest e ty op : 14 <= level e -> precedence_get ty true <= rbp (PUn op e) ->
  accepts PREFIX_PREC e /\ precedence_get ty true <= rbp e /\ precedence_get ty true <= PREFIX_PREC.
Proof.
  intros L B. change (rbp (PUn op e)) with 13 in B. unfold accepts, rbp, PREFIX_PREC.
  rewrite (proj2 (Z.leb_le _ _) L). auto.
Qed.
Lemma reads_plus ev e v : 14 <= level e -> reads ev e v -> reads ev (PUn UPlus e) v.
Proof.
  intros L R p ty l r A B I. destruct (unary_rest _ _ _ L B) as (A1 & B1 & C1). cbn [spell untok app].
  eapply Ev_plus; [apply reads_whole; eauto|exact I].
Qed.
Lemma reads_minus ev e v w : 14 <= level e -> reads ev e v -> unary_minus v = Ok w -> reads ev (PUn UMinus e) w.
Proof.
  intros L R E p ty l r A B I. destruct (unary_rest _ _ _ L B) as (A1 & B1 & C1). cbn [spell untok app].
  eapply Ev_minus; [apply reads_whole; eauto|exact E|exact I].
Qed.
Lemma reads_not ev e v : 14 <= level e -> reads ev e v -> reads ev (PUn UNot e) (unary_not v).
Proof.
  intros L R p ty l r A B I. destruct (unary_rest _ _ _ L B) as (A1 & B1 & C1). cbn [spell untok app].
  eapply Ev_not; [apply reads_whole; eauto|exact I].
Qed.

(** Facts about the operands of a derivable binary expression. *)
Lemma bin_sides op a b p ty : accepts p (PBin op a b) -> precedence_get ty true <= rbp (PBin op a b) ->
  binlevel op <= level a -> binlevel op < level b ->
  p < prec_of op /\ accepts p a /\ precedence_get (bintok op) true <= rbp a /\
  accepts (prec_of op) b /\ precedence_get ty true <= rbp b /\ precedence_get ty true <= prec_of op.
Proof.
  rewrite rbp_bin, prec_of_get. unfold accepts, prec_of. cbn [level]. intros A B La Lb. pose proof (binlevel_range op).
  assert (binlevel op - 1 <= rbp a) by (apply rbp_ge; lia).
  assert (binlevel op - 1 <= rbp b) by (apply rbp_ge; lia). lia.
Qed.
Lemma reads_strict ev op a b v w x :
  strict op = true -> binlevel op <= level a -> binlevel op < level b -> reads ev a v -> reads ev b w ->
  (if ev then binary_op (bintok op) (fst (convert_operands v w)) (snd (convert_operands v w)) else Ok (fst (convert_operands v w))) = Ok x ->
  reads ev (PBin op a b) x.
Proof.
  intros S1 La Lb Ra Rb E p ty l r A B I. destruct (bin_sides _ _ _ _ _ A B La Lb) as (H1 & H2 & H3 & H4 & H5 & H6).
  rewrite spell_app_bin. apply Ra; auto. eapply Inf_strict; eauto. apply reads_whole; auto.
Qed.
Lemma reads_logic ev isand a b v w :
  binlevel (logop isand) <= level a -> binlevel (logop isand) < level b -> reads ev a v ->
  reads (if Bool.eqb (negb (result_is_zero v)) isand then ev else false) b w ->
  reads ev (PBin (logop isand) a b) (result_signed (b2z (logres isand (negb (result_is_zero v)) (negb (result_is_zero w))))).
Proof.
  intros La Lb Ra Rb p ty l r A B I. destruct (bin_sides _ _ _ _ _ A B La Lb) as (H1 & H2 & H3 & H4 & H5 & H6).
  rewrite spell_app_bin. apply Ra; auto. eapply Inf_logic; [exact H1|apply reads_whole; eauto|exact I].
Qed.
Lemma cond_sides c a b p ty : accepts p (PCond c a b) -> precedence_get ty true <= rbp (PCond c a b) -> 4 <= level c -> 3 <= level b ->
  p < 2 /\ accepts p c /\ precedence_get T_QUEST true <= rbp c /\ accepts 1 b /\ precedence_get ty true <= rbp b /\ precedence_get ty true <= 1.
Proof.
  change (rbp (PCond c a b)) with 1. unfold accepts. cbn [level]. intros A B Lc Lb.
  pose proof (rbp_ge c 4 Lc Lc ltac:(lia)). pose proof (rbp_pos b). change (precedence_get T_QUEST true) with 2. lia.
Qed.
Lemma reads_cond ev c a b v x y :
  4 <= level c -> 3 <= level b -> reads ev c v ->
  reads (if negb (result_is_zero v) then ev else false) a x ->
  reads (if negb (result_is_zero v) then false else ev) b y ->
  reads ev (PCond c a b) (if negb (result_is_zero v) then x else y).
Proof.
  intros Lc Lb Rc Ra Rb p ty l r A B I. destruct (cond_sides _ _ _ _ _ A B Lc Lb) as (H1 & H2 & H3 & H4 & H5 & H6).
  rewrite spell_app_cond. apply Rc; auto.
  eapply Inf_cond; [exact H1| | |exact I].
  - apply reads_whole; [exact Ra|apply accepts_0|apply prec_zero; reflexivity|discriminate].
  - apply reads_whole; eauto.
Qed.

Lemma skipped e : derivable e -> no_compl e -> exists v, safe v /\ reads false e v.
Proof.
  induction e as [s v|v| |e IH|op e IH|op a IHa b IHb|c IHc a IHa b IHb]; cbn [derivable no_compl].
  - intros D _. exists {| sg := s; vl := v |}. split.
    + intros E. cbn in E. subst s. cbn [vl]. lia.
    + intros p ty l r _ _ I. apply Ev_atom_num. exact I.
  - intros D _. exists (result_signed v). split.
    + intros _. cbn [vl result_signed]. change (2 ^ 31) with 2147483648 in D. change (2 ^ 63) with 9223372036854775808. lia.
    + intros p ty l r _ _ I. apply Ev_atom_char. exact I.
  - intros _ _. exists (result_signed 0). split; [apply (safe_signed false)|].
    intros p ty l r _ _ I. apply Ev_atom_ident. exact I.
  - intros D N. destruct (IH D N) as (v & S1 & R). exists v. split; auto. apply reads_paren; auto.
  - intros [D L] [N NC]. destruct (IH D N) as (v & S1 & R). destruct op.
    + exists v. split; auto. apply reads_plus; auto.
    + destruct (safe_minus v S1) as (w & E & S2). exists w. split; auto. eapply reads_minus; eauto.
    + exists (unary_not v). split; [apply safe_not|]. apply reads_not; auto.
    + congruence.
  - intros (Da & Db & La & Lb) (Na & Nb). destruct (IHa Da Na) as (v & S1 & Ra). destruct (IHb Db Nb) as (w & S2 & Rb).
    destruct (strict op) eqn:E.
    + exists (fst (convert_operands v w)). split; [apply safe_convert; auto|]. eapply reads_strict; eauto.
    + assert (O : exists isand, op = logop isand) by (destruct op; try discriminate; [exists true|exists false]; reflexivity).
      destruct O as [isand ->]. eexists. split; [apply safe_signed|]. eapply reads_logic; eauto.
      destruct (Bool.eqb (negb (result_is_zero v)) isand); exact Rb.
  - intros (Dc & Da & Db & Lc & Lb) (Nc & Na & Nb).
    destruct (IHc Dc Nc) as (v & S0 & Rc). destruct (IHa Da Na) as (x & S1 & Ra). destruct (IHb Db Nb) as (y & S2 & Rb).
    exists (if negb (result_is_zero v) then x else y). split; [destruct (negb (result_is_zero v)); auto|].
    apply reads_cond; auto; destruct (negb (result_is_zero v)); auto.
Qed.

Lemma within_no_compl e : within e -> no_compl e.
Proof. induction e; cbn [within no_compl]; intuition. Qed.

(** Failures propagate. *)
Lemma refuses_paren e : refuses e -> refuses (PParen e).
Proof.
  intros R p ty l A B. rewrite spell_app_paren. apply Ev_paren_fail. apply R; [apply accepts_0|apply prec_zero; reflexivity].
Qed.
Lemma refuses_un op e : op <> UCompl -> 14 <= level e -> refuses e -> refuses (PUn op e).
Proof.
  intros NC L R p ty l A B. destruct (unary_rest _ _ _ L B) as (A1 & B1 & C1). destruct op; [| | |congruence]; cbn [spell untok app].
  - apply Ev_plus_fail. apply R; auto.
  - apply Ev_minus_fail. apply R; auto.
  - apply Ev_not_fail. apply R; auto.
Qed.
Lemma refuses_left op a b : binlevel op <= level a -> binlevel op < level b -> refuses a -> refuses (PBin op a b).
Proof.
  intros La Lb Ra p ty l A B. destruct (bin_sides _ _ _ _ _ A B La Lb) as (H1 & H2 & H3 & H4 & H5 & H6).
  rewrite spell_app_bin. apply Ra; auto.
Qed.
Lemma refuses_right op a b v : strict op = true -> binlevel op <= level a -> binlevel op < level b -> reads true a v -> refuses b -> refuses (PBin op a b).
Proof.
  intros S1 La Lb Ra Rb p ty l A B. destruct (bin_sides _ _ _ _ _ A B La Lb) as (H1 & H2 & H3 & H4 & H5 & H6).
  rewrite spell_app_bin. apply Ra; auto. apply Inf_strict_fail1; auto.
Qed.
Lemma refuses_op op a b v w : strict op = true -> binlevel op <= level a -> binlevel op < level b -> reads true a v -> reads true b w ->
  binary_op (bintok op) (fst (convert_operands v w)) (snd (convert_operands v w)) = Fail -> refuses (PBin op a b).
Proof.
  intros S1 La Lb Ra Rb E p ty l A B. destruct (bin_sides _ _ _ _ _ A B La Lb) as (H1 & H2 & H3 & H4 & H5 & H6).
  rewrite spell_app_bin. apply Ra; auto. eapply Inf_strict_fail2; eauto. apply reads_whole; auto.
Qed.
Lemma refuses_logic isand a b v : binlevel (logop isand) <= level a -> binlevel (logop isand) < level b -> reads true a v ->
  negb (result_is_zero v) = isand -> refuses b -> refuses (PBin (logop isand) a b).
Proof.
  intros La Lb Ra E Rb p ty l A B. destruct (bin_sides _ _ _ _ _ A B La Lb) as (H1 & H2 & H3 & H4 & H5 & H6).
  rewrite spell_app_bin. apply Ra; auto. apply Inf_logic_fail; auto. rewrite E, Bool.eqb_reflx. apply Rb; auto.
Qed.
Lemma refuses_cond c a b : 4 <= level c -> 3 <= level b -> refuses c -> refuses (PCond c a b).
Proof.
  intros Lc Lb Rc p ty l A B. destruct (cond_sides _ _ _ _ _ A B Lc Lb) as (H1 & H2 & H3 & H4 & H5 & H6).
  rewrite spell_app_cond. apply Rc; auto.
Qed.
Lemma refuses_branch1 c a b v : 4 <= level c -> 3 <= level b -> reads true c v -> result_is_zero v = false -> refuses a -> refuses (PCond c a b).
Proof.
  intros Lc Lb Rc Z1 Ra p ty l A B. destruct (cond_sides _ _ _ _ _ A B Lc Lb) as (H1 & H2 & H3 & H4 & H5 & H6).
  rewrite spell_app_cond. apply Rc; auto. apply Inf_cond_fail1; auto. rewrite Z1. apply Ra; [apply accepts_0|apply prec_zero; reflexivity].
Qed.
Lemma refuses_branch2 c a b v x : 4 <= level c -> 3 <= level b -> reads true c v -> result_is_zero v = true -> reads false a x -> refuses b -> refuses (PCond c a b).
Proof.
  intros Lc Lb Rc Z1 Ra Rb p ty l A B. destruct (cond_sides _ _ _ _ _ A B Lc Lb) as (H1 & H2 & H3 & H4 & H5 & H6).
  rewrite spell_app_cond. apply Rc; auto. eapply Inf_cond_fail2; auto.
  - rewrite Z1. apply reads_whole; [exact Ra|apply accepts_0|apply prec_zero; reflexivity|discriminate].
  - rewrite Z1. apply Rb; auto.
Qed.

Definition means (e : pexp) : Prop :=
  match value e with
  | Value v => inrange (stype e) v /\ reads true e (res_of (stype e) v)
  | Violation => refuses e
  | Undefined => True
  end.

Lemma value_strict op a b : strict op = true ->
  value (PBin op a b) = obind (value a) (fun x => obind (value b) (fun y => apply op (stype a && stype b) (stype a) x y)).
Proof. destruct op; intros H; try discriminate; reflexivity. Qed.
Lemma stype_bin op a b : stype (PBin op a b) = result_type op (stype a) (stype b).
Proof. destruct op; reflexivity. Qed.
Lemma value_logic isand a b : value (PBin (logop isand) a b) =
  obind (value a) (fun x => if Bool.eqb (negb (x =? 0)) isand then obind (value b) (fun y => Value (truth (negb (y =? 0)))) else Value (truth (negb isand))).
Proof.
  destruct isand; cbn [logop value]; destruct (value a) as [x| |]; cbn [obind]; auto; destruct (x =? 0); reflexivity.
Qed.

Lemma evaluated e : derivable e -> within e -> means e.
Proof.
  induction e as [s v|v| |e IH|op e IH|op a IHa b IHb|c IHc a IHa b IHb]; cbn [derivable within].
  - intros D _. split.
    + destruct s; cbn [stype inrange]; lia.
    + intros p ty l r _ _ I. apply Ev_atom_num. exact I.
  - intros D _. split.
    + cbn [stype inrange]. change (2 ^ 31) with 2147483648 in D. change (2 ^ 63) with 9223372036854775808. lia.
    + intros p ty l r _ _ I. apply Ev_atom_char. exact I.
  - intros _ _. split; [apply (truth_range true false)|].
    intros p ty l r _ _ I. apply Ev_atom_ident. exact I.
  - intros D W. specialize (IH D W). unfold means in *. cbn [value stype]. destruct (value e) as [v| |]; auto.
    + destruct IH as [R1 R2]. split; auto. apply reads_paren; auto.
    + apply refuses_paren; auto.
  - intros [D L] (W & NC & US). specialize (IH D W). unfold means in *. destruct op; [| | |congruence]; cbn [value stype].
    + destruct (value e) as [v| |]; auto.
      * destruct IH as [R1 R2]. split; auto. apply reads_plus; auto.
      * apply refuses_un; auto.
    + destruct (value e) as [v| |]; cbn [obind]; auto.
      * destruct IH as [R1 R2]. destruct (in_type (stype e) (- v)) as [w| |] eqn:E; auto.
        -- split; [eapply in_type_range; eauto|]. eapply reads_minus; eauto. apply (arith_ok _ v). exact E.
        -- unfold in_type in E. destruct (stype e); [|discriminate]. match type of E with (if ?c then _ else _) = _ => destruct c end; discriminate.
      * apply refuses_un; auto.
    + destruct (value e) as [v| |]; cbn [obind]; auto.
      * destruct IH as [R1 R2]. split; [apply (truth_range true)|].
        replace (res_of true (truth (v =? 0))) with (unary_not (res_of (stype e) v)) by (unfold unary_not; rewrite US by auto; reflexivity).
        apply reads_not; auto.
      * apply refuses_un; auto.
  - intros (Da & Db & La & Lb) (Wa & Wb & Sh). specialize (IHa Da Wa). specialize (IHb Db Wb).
    destruct (strict op) eqn:E.
    + unfold means in *. rewrite (value_strict _ _ _ E), stype_bin. destruct (value a) as [x| |]; cbn [obind]; auto; [|apply refuses_left; auto].
      destruct IHa as [Rx Ra]. destruct (value b) as [y| |]; cbn [obind]; auto; [|eapply refuses_right; eauto].
      destruct IHb as [Ry Rb]. pose proof (convert_operands_spec _ _ _ _ Rx Ry) as CO.
      destruct (apply op (stype a && stype b) (stype a) x y) as [z| |] eqn:A; auto.
      * split; [eapply apply_range; eauto|]. eapply reads_strict; eauto. rewrite CO. apply binary_ok; auto.
      * eapply refuses_op; eauto. rewrite CO. apply binary_fail; auto.
    + assert (O : exists isand, op = logop isand) by (destruct op; try discriminate; [exists true|exists false]; reflexivity).
      destruct O as [isand ->]. unfold means in *. rewrite value_logic, stype_bin.
      replace (result_type (logop isand) (stype a) (stype b)) with true by (destruct isand; reflexivity).
      destruct (value a) as [x| |]; cbn [obind]; auto; [|apply refuses_left; auto].
      destruct IHa as [Rx Ra].
      destruct (Bool.eqb (negb (x =? 0)) isand) eqn:Ez.
      * destruct (value b) as [y| |]; cbn [obind]; auto.
        -- destruct IHb as [Ry Rb]. split; [apply (truth_range true)|].
           replace (res_of true (truth (negb (y =? 0)))) with
             (result_signed (b2z (logres isand (negb (result_is_zero (res_of (stype a) x))) (negb (result_is_zero (res_of (stype b) y)))))).
           ++ eapply reads_logic; eauto. unfold result_is_zero at 1. cbn [vl res_of]. rewrite Ez. exact Rb.
           ++ unfold result_is_zero. cbn [vl res_of]. apply Bool.eqb_prop in Ez. rewrite Ez. destruct isand; reflexivity.
        -- eapply refuses_logic; eauto. apply Bool.eqb_prop in Ez. exact Ez.
      * split; [apply (truth_range true)|]. destruct (skipped b Db (within_no_compl _ Wb)) as (w & _ & Rb).
        replace (res_of true (truth (negb isand))) with
          (result_signed (b2z (logres isand (negb (result_is_zero (res_of (stype a) x))) (negb (result_is_zero w))))).
        -- eapply reads_logic; eauto. unfold result_is_zero at 1. cbn [vl res_of]. rewrite Ez. exact Rb.
        -- unfold result_is_zero at 1. cbn [vl res_of]. destruct (x =? 0), isand; try discriminate; reflexivity.
  - intros (Dc & Da & Db & Lc & Lb) (Wc & Wa & Wb & ST). specialize (IHc Dc Wc). specialize (IHa Da Wa). specialize (IHb Db Wb).
    unfold means in *. cbn [value stype]. rewrite <- ST in *. rewrite Bool.andb_diag.
    destruct (value c) as [x| |]; cbn [obind]; auto; [|apply refuses_cond; auto]. destruct IHc as [Rx Rc].
    destruct (skipped a Da (within_no_compl _ Wa)) as (wa & _ & Na). destruct (skipped b Db (within_no_compl _ Wb)) as (wb & _ & Nb).
    destruct (x =? 0) eqn:Ez.
    + destruct (value b) as [v| |]; cbn [obind]; auto; [|eapply refuses_branch2; eauto].
      destruct IHb as [Rv Rb]. rewrite (convert_id _ _ Rv). split; auto.
      replace (res_of (stype a) v) with (if negb (result_is_zero (res_of (stype c) x)) then wa else res_of (stype a) v)
        by (unfold result_is_zero; cbn [vl res_of]; rewrite Ez; reflexivity).
      apply reads_cond; auto; unfold result_is_zero; cbn [vl res_of]; rewrite Ez; auto.
    + destruct (value a) as [v| |]; cbn [obind]; auto; [|eapply refuses_branch1; eauto].
      destruct IHa as [Rv Ra]. rewrite (convert_id _ _ Rv). split; auto.
      replace (res_of (stype a) v) with (if negb (result_is_zero (res_of (stype c) x)) then res_of (stype a) v else wb)
        by (unfold result_is_zero; cbn [vl res_of]; rewrite Ez; reflexivity).
      apply reads_cond; auto; unfold result_is_zero; cbn [vl res_of]; rewrite Ez; auto.
Qed.
