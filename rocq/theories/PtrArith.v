(** Words, integers and memory in the translation of expressions. *)
From Coq Require Import Lia.
From Verif Require Import Base Bytes Arch CTypesSpec ConstFold X86 X86Proofs Codegen OpSelect PtrSpec PtrExpr.
Ltac Zify.zify_post_hook ::= idtac.

Local Open Scope Z_scope.
Local Open Scope list_scope.

Lemma pow256 n : 0 <= n -> 256 ^ n = 2 ^ (8 * n).
Proof. intros. rewrite Z.pow_mul_r by lia. reflexivity. Qed.
Lemma pow256_pos n : 0 <= n -> 0 < 256 ^ n.
Proof. intros. apply Z.pow_pos_nonneg; lia. Qed.

(** ** Memory *)
Definition bytes_ok (m : memory) : Prop := forall x, 0 <= m x < 256.

Lemma get_range m a n : bytes_ok m -> 0 <= n -> 0 <= get m a n < 256 ^ n.
Proof.
  intros M N. unfold get. pose proof (load_range m a (Z.to_nat n) M) as H.
  rewrite Z2Nat.id in H by exact N. exact H.
Qed.
Lemma get_ext m m' a n : (forall x, within x (a, n) -> m' x = m x) -> get m' a n = get m a n.
Proof.
  intros H. unfold get. apply load_ext. intros x X. apply H. unfold within. cbn [fst snd].
  destruct (Z_le_gt_dec 0 n); [rewrite Z2Nat.id in X by lia; exact X|].
  destruct n; cbn [Z.to_nat Z.of_nat] in X; lia.
Qed.
Lemma get_put m a n v : 0 <= n -> get (put m a n v) a n = v mod 256 ^ n.
Proof. intros N. unfold get, put. rewrite load_store, Z2Nat.id by exact N. reflexivity. Qed.
Lemma put_out m a n v x : 0 <= n -> ~ within x (a, n) -> put m a n v x = m x.
Proof.
  intros N H. unfold put. apply store_out. rewrite Z2Nat.id by exact N. exact H.
Qed.
Lemma put_in m a n v x : 0 <= n -> within x (a, n) -> put m a n v x = (v / 256 ^ (x - a)) mod 256.
Proof.
  intros N H. unfold put. apply store_in. rewrite Z2Nat.id by exact N. exact H.
Qed.
Lemma put_bytes m a n v : bytes_ok m -> bytes_ok (put m a n v).
Proof.
  intros M x. unfold put, store. destruct (_ && _); [|apply M]. apply Z.mod_pos_bound. lia.
Qed.
Lemma put_same m m' a n v x : 0 <= n -> (~ within x (a, n) -> m x = m' x) -> put m a n v x = put m' a n v x.
Proof.
  intros N H. unfold put, store. rewrite Z2Nat.id by exact N.
  destruct ((a <=? x) && (x <? a + n)) eqn:E; [reflexivity|]. apply H.
  unfold within. cbn [fst snd]. intros [X Y].
  rewrite (proj2 (Z.leb_le _ _) X), (proj2 (Z.ltb_lt _ _) Y) in E. discriminate.
Qed.

(** ** Types *)
Section Sizes.
Variable struct_size : nat -> Z.
Notation bytes := (bytes struct_size).
Notation calculate_size := (calculate_size struct_size).

Lemma csize t : calculate_size t = bytes t.
Proof.
  induction t as [|t|t _|n t IH|i]; try reflexivity.
  - destruct t; reflexivity.
  - cbn. rewrite IH. reflexivity.
Qed.
Lemma scalar_bytes t : scalar t -> bytes t = 1 \/ bytes t = 2 \/ bytes t = 4 \/ bytes t = 8.
Proof.
  destruct t as [|t|t|n t|i]; cbn [scalar]; try tauto.
  intros H. unfold integer_type in H. cbn in H.
  repeat (destruct H as [<- | H]; [cbn; tauto|]). destruct H.
Qed.
Lemma promoted_scalar t : promoted t -> scalar t.
Proof.
  destruct t as [|t| | |]; intros H; try (destruct H; fail). cbn in H.
  repeat (destruct H as [<- | H]; [unfold scalar, integer_type; cbn; repeat first [left; reflexivity | right]|]). destruct H.
Qed.
Lemma integer_scalar t : is_integer t -> scalar t.
Proof. destruct t; intros H; first [exact H | destruct H]. Qed.
Lemma promoted_bytes t : promoted t -> bytes t = 4 \/ bytes t = 8.
Proof.
  destruct t as [|t|t|n t|i]; cbn [promoted]; try tauto. intros H. cbn in H.
  repeat (destruct H as [<- | H]; [cbn; tauto|]). destruct H.
Qed.
Lemma promoted_bool t : promoted t -> is_bool t = false.
Proof.
  destruct t as [|t|t|n t|i]; intros H; try (destruct H; fail). cbn in H.
  repeat (destruct H as [<- | H]; [reflexivity|]). destruct H.
Qed.
Lemma signed_same t : scalar t -> type_is_signed t = signed_type t.
Proof.
  destruct t as [|t|t|n t|i]; try (intros; reflexivity). intros H. cbn [scalar] in H. unfold integer_type in H. cbn in H.
  repeat (destruct H as [<- | H]; [reflexivity|]). destruct H.
Qed.

Lemma ty_eqb_eq a : forall b, ty_eqb a b = true <-> a = b.
Proof.
  induction a as [|t|a IH|n a IH|i]; intros [|u|b|k b|j]; cbn [ty_eqb]; try (split; congruence).
  - destruct (st_eqb_spec t u); split; congruence.
  - rewrite IH. split; congruence.
  - rewrite Bool.andb_true_iff, Z.eqb_eq, IH. split; [intros [-> ->]; reflexivity|intros E; injection E; auto].
  - rewrite Nat.eqb_eq. split; congruence.
Qed.

(** ** Conversions *)
Lemma integer_cong t w : 0 < bytes t -> (integer struct_size t w) mod 256 ^ bytes t = w mod 256 ^ bytes t.
Proof.
  intros B. unfold integer. destruct (signed_type t); [|reflexivity].
  rewrite pow256 by lia. apply signed_cong. lia.
Qed.
Lemma integer_unsigned t w : signed_type t = false -> integer struct_size t w = w.
Proof. intros E. unfold integer. rewrite E. reflexivity. Qed.
Lemma convert_same t w : scalar t -> is_bool t = false -> 0 <= w < 256 ^ bytes t -> convert struct_size t t w = w.
Proof.
  intros S' B W. unfold convert, encode. rewrite B. rewrite integer_cong.
  - apply Z.mod_small. exact W.
  - pose proof (scalar_bytes t S'). lia.
Qed.
Lemma convert_range t u w : scalar u -> 0 <= convert struct_size t u w < 256 ^ bytes u.
Proof.
  intros S'. unfold convert. pose proof (scalar_bytes u S') as B.
  assert (P : 0 < 256 ^ bytes u) by (apply pow256_pos; lia).
  destruct (is_bool u).
  - assert (1 < 256 ^ bytes u).
    { change 1 with (256 ^ 0). apply Z.pow_lt_mono_r; lia. }
    destruct (w =? 0); lia.
  - apply Z.mod_pos_bound. exact P.
Qed.
Lemma is_bool_eq t : is_bool t = true <-> t = TInt ST_BOOL.
Proof.
  split; [|intros ->; reflexivity]. destruct t as [|t|t|n t|i]; try discriminate.
  destruct t; try discriminate. reflexivity.
Qed.

(** ** Operators *)
Lemma signed_of_size n w : signed (8 * n) w = signed (8 * n) w. Proof. reflexivity. Qed.

Lemma add_cong M x y a b : 0 < M -> x mod M = a mod M -> y mod M = b mod M -> (x + y) mod M = (a + b) mod M.
Proof. intros HM E F. rewrite Z.add_mod, E, F, <- Z.add_mod by lia. reflexivity. Qed.
Lemma sub_cong M x y a b : 0 < M -> x mod M = a mod M -> y mod M = b mod M -> (x - y) mod M = (a - b) mod M.
Proof. intros HM E F. rewrite Zminus_mod, E, F, <- Zminus_mod. reflexivity. Qed.
Lemma mul_cong M x y a b : 0 < M -> x mod M = a mod M -> y mod M = b mod M -> (x * y) mod M = (a * b) mod M.
Proof. intros HM E F. rewrite Z.mul_mod, E, F, <- Z.mul_mod by lia. reflexivity. Qed.
Lemma land_cong k x y a b : 0 <= k -> x mod 2 ^ k = a mod 2 ^ k -> y mod 2 ^ k = b mod 2 ^ k ->
  Z.land x y mod 2 ^ k = Z.land a b mod 2 ^ k.
Proof.
  intros K E F. apply Z.bits_inj'. intros i I. rewrite !Z.testbit_mod_pow2 by lia.
  destruct (Z.ltb_spec i k); [|reflexivity]. cbn [andb]. rewrite !Z.land_spec.
  assert (X : Z.testbit (x mod 2 ^ k) i = Z.testbit (a mod 2 ^ k) i) by congruence.
  assert (Y : Z.testbit (y mod 2 ^ k) i = Z.testbit (b mod 2 ^ k) i) by congruence.
  rewrite !Z.mod_pow2_bits_low in X, Y by lia. congruence.
Qed.
Lemma lor_cong k x y a b : 0 <= k -> x mod 2 ^ k = a mod 2 ^ k -> y mod 2 ^ k = b mod 2 ^ k ->
  Z.lor x y mod 2 ^ k = Z.lor a b mod 2 ^ k.
Proof.
  intros K E F. apply Z.bits_inj'. intros i I. rewrite !Z.testbit_mod_pow2 by lia.
  destruct (Z.ltb_spec i k); [|reflexivity]. cbn [andb]. rewrite !Z.lor_spec.
  assert (X : Z.testbit (x mod 2 ^ k) i = Z.testbit (a mod 2 ^ k) i) by congruence.
  assert (Y : Z.testbit (y mod 2 ^ k) i = Z.testbit (b mod 2 ^ k) i) by congruence.
  rewrite !Z.mod_pow2_bits_low in X, Y by lia. congruence.
Qed.
Lemma lxor_cong k x y a b : 0 <= k -> x mod 2 ^ k = a mod 2 ^ k -> y mod 2 ^ k = b mod 2 ^ k ->
  Z.lxor x y mod 2 ^ k = Z.lxor a b mod 2 ^ k.
Proof.
  intros K E F. apply Z.bits_inj'. intros i I. rewrite !Z.testbit_mod_pow2 by lia.
  destruct (Z.ltb_spec i k); [|reflexivity]. cbn [andb]. rewrite !Z.lxor_spec.
  assert (X : Z.testbit (x mod 2 ^ k) i = Z.testbit (a mod 2 ^ k) i) by congruence.
  assert (Y : Z.testbit (y mod 2 ^ k) i = Z.testbit (b mod 2 ^ k) i) by congruence.
  rewrite !Z.mod_pow2_bits_low in X, Y by lia. congruence.
Qed.

Lemma fit_encode t z v : fit struct_size t z = Some v -> v = encode struct_size t z.
Proof.
  unfold fit. destruct (signed_type t); [|congruence].
  destruct (_ && _); congruence.
Qed.

(** The operator chosen for a promoted type or a pointer. *)
Lemma op_chosen t op : promoted t \/ (exists u, t = TPtr u) ->
  (arithmetic op \/ comparison op = true) ->
  exists o, ir_from_type_and_op (operand_kind_of t) op = Ok o /\ forall a b,
    (arithmetic op -> ir_value (ir_binary_op o) (bytes t) a b =
       Ok (match op with OP_ADD => a + b | OP_SUB => a - b | OP_MUL => a * b | OP_BAND => Z.land a b
           | OP_BOR => Z.lor a b | _ => Z.lxor a b end))
    /\ (comparison op = true -> 0 <= a < 256 ^ bytes t -> 0 <= b < 256 ^ bytes t -> exists v,
          operate struct_size t op a b = Some v /\ ir_value (ir_binary_op o) (bytes t) a b = Ok v /\ (v = 0 \/ v = 1)).
Proof.
  intros T O.
  assert (SG : exists sg, signed_type t = sg /\
    ir_from_type_and_op (operand_kind_of t) op =
      Ok (match op with
          | OP_ADD => IR_ADD | OP_SUB => IR_SUB
          | OP_MUL => if sg : bool then IR_IMUL else IR_MUL
          | OP_DIV => if sg then IR_IDIV else IR_DIV
          | OP_MOD => if sg then IR_IMOD else IR_MOD
          | OP_BXOR => IR_BXOR | OP_BOR => IR_BOR | OP_BAND => IR_BAND
          | OP_LSHIFT => IR_LSHIFT
          | OP_RSHIFT => if sg then IR_IRSHIFT else IR_RSHIFT
          | OP_LESS => if sg then IR_ILESS else IR_LESS
          | OP_GREATER => if sg then IR_IGREATER else IR_GREATER
          | OP_LESS_EQ => if sg then IR_ILESS_EQ else IR_LESS_EQ
          | OP_GREATER_EQ => if sg then IR_IGREATER_EQ else IR_GREATER_EQ
          | OP_EQUAL => IR_EQUAL
          | OP_NOT_EQUAL => IR_NOT_EQUAL
          end)).
  { eexists. split; [reflexivity|]. destruct T as [T | [u ->]]; [|reflexivity].
    destruct t as [|t|t|n t|i]; cbn [promoted] in T; try (destruct T; fail). cbn in T.
    repeat (destruct T as [<- | T]; [reflexivity|]). destruct T. }
  destruct SG as (sg & SG & E). eexists. split; [exact E|]. intros a b.
  assert (B : 0 < bytes t).
  { destruct T as [T | [u ->]]; [pose proof (promoted_bytes t T); lia|cbn; lia]. }
  split.
  - intros [<- | [<- | [<- | [<- | [<- | [<- | []]]]]]]; destruct sg; reflexivity.
  - intros C HA HB.
    assert (INT : forall w, integer struct_size t w = if sg then signed (8 * bytes t) w else w)
      by (intros; unfold integer; rewrite SG; reflexivity).
    assert (EQ : (integer struct_size t a =? integer struct_size t b) = (a =? b)).
    { destruct (Z.eqb_spec a b) as [->|N]; [apply Z.eqb_refl|].
      apply Z.eqb_neq. intros X. apply N.
      pose proof (integer_cong t a B) as P. pose proof (integer_cong t b B) as Q. rewrite X in P.
      rewrite (Z.mod_small a) in P by exact HA. rewrite (Z.mod_small b) in Q by exact HB. congruence. }
    destruct op; try discriminate C; unfold operate, truth; rewrite ?EQ, ?INT; eexists;
      (split; [reflexivity|]); destruct sg; cbn [ir_binary_op ir_value]; (split; [reflexivity|]);
      match goal with |- context [if ?c then 1 else 0] => destruct c end; tauto.
Qed.

Lemma op_arith t op a b v : promoted t -> arithmetic op -> operate struct_size t op a b = Some v ->
  v = (match op with OP_ADD => a + b | OP_SUB => a - b | OP_MUL => a * b | OP_BAND => Z.land a b
       | OP_BOR => Z.lor a b | _ => Z.lxor a b end) mod 256 ^ bytes t.
Proof.
  intros T O H. pose proof (promoted_bytes t T) as B.
  assert (BP : 0 < bytes t) by lia.
  pose proof (integer_cong t a BP) as EA. pose proof (integer_cong t b BP) as EB.
  assert (P : 0 < 256 ^ bytes t) by (apply pow256_pos; lia).
  unfold arithmetic in O. cbn in O.
  destruct O as [<- | [<- | [<- | [<- | [<- | [<- | []]]]]]]; cbn [operate] in H;
    try (apply fit_encode in H); try (injection H as H; symmetry in H); rewrite H; unfold encode.
  - apply add_cong; assumption.
  - apply sub_cong; assumption.
  - apply mul_cong; assumption.
  - rewrite pow256 in * by lia. apply land_cong; try lia; assumption.
  - rewrite pow256 in * by lia. apply lor_cong; try lia; assumption.
  - rewrite pow256 in * by lia. apply lxor_cong; try lia; assumption.
Qed.
Lemma operate_range t op a b v : (promoted t \/ exists u, t = TPtr u) -> (arithmetic op /\ promoted t) \/ comparison op = true ->
  operate struct_size t op a b = Some v ->
  0 <= v < 256 ^ (if comparison op then 4 else bytes t).
Proof.
  intros T O H. destruct O as [[O T'] | C].
  - assert (C : comparison op = false).
    { unfold arithmetic in O. cbn in O. destruct O as [<- | [<- | [<- | [<- | [<- | [<- | []]]]]]]; reflexivity. }
    rewrite C. rewrite (op_arith _ _ _ _ _ T' O H). apply Z.mod_pos_bound, pow256_pos.
    pose proof (promoted_bytes t T'). lia.
  - rewrite C. assert (V : v = 0 \/ v = 1).
    { destruct op; try discriminate C; unfold operate, truth in H; injection H as <-;
        match goal with |- context [if ?c then 1 else 0] => destruct c end; tauto. }
    change (256 ^ 4) with 4294967296. lia.
Qed.
End Sizes.
