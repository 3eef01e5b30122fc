(** Facts about memory, registers and straight-line execution. *)
From Verif Require Import Base Bytes X86.

Lemma wbytes_pos w : (0 < wbytes w)%nat.
Proof. destruct w; simpl; lia. Qed.

Lemma bits_pow w : 2 ^ bits w = 256 ^ Z.of_nat (wbytes w).
Proof. unfold bits. rewrite Z.pow_mul_r by lia. reflexivity. Qed.

Lemma pow256_pos n : 0 <= n -> 0 < 256 ^ n.
Proof. intros. apply Z.pow_pos_nonneg; lia. Qed.

(** Memory. *)
Lemma load_range m a n : (forall x, 0 <= m x < 256) -> 0 <= load m a n < 256 ^ Z.of_nat n.
Proof.
  intros M. revert a; induction n; intros.
  - simpl. change (256 ^ Z.of_nat 0) with 1. lia.
  - cbn [load]. rewrite Nat2Z.inj_succ, Z.pow_succ_r by lia.
    specialize (IHn (a + 1)). specialize (M a). lia.
Qed.

Lemma load_ext m m' a n :
  (forall x, a <= x < a + Z.of_nat n -> m' x = m x) -> load m' a n = load m a n.
Proof.
  revert a; induction n; intros a H; [reflexivity|]. cbn [load].
  rewrite (H a) by lia. rewrite IHn; [reflexivity|]. intros x X. apply H. lia.
Qed.

(** The bytes a word leaves in memory read back as the word. *)
Lemma load_digits m a n v :
  (forall x, a <= x < a + Z.of_nat n -> m x = (v / 256 ^ (x - a)) mod 256) ->
  load m a n = v mod 256 ^ Z.of_nat n.
Proof.
  revert a v; induction n; intros a v H.
  - simpl. change (256 ^ Z.of_nat 0) with 1. rewrite Z.mod_1_r. reflexivity.
  - cbn [load]. rewrite (H a) by lia. rewrite Z.sub_diag. change (256 ^ 0) with 1. rewrite Z.div_1_r.
    rewrite (IHn (a + 1) (v / 256)).
    + rewrite Nat2Z.inj_succ, Z.pow_succ_r by lia.
      rewrite Z.rem_mul_r by (pose proof (pow256_pos (Z.of_nat n)); lia). reflexivity.
    + intros x X. rewrite H by lia. f_equal.
      replace (x - a) with (Z.succ (x - (a + 1))) by lia.
      rewrite Z.pow_succ_r by lia. rewrite Z.div_div; [reflexivity|lia|apply pow256_pos; lia].
Qed.

Lemma load_store m a n v : load (store m a n v) a n = v mod 256 ^ Z.of_nat n.
Proof.
  apply load_digits. intros x X. unfold store.
  destruct (Z.leb_spec a x); [|lia]. destruct (Z.ltb_spec x (a + Z.of_nat n)); [|lia]. reflexivity.
Qed.

Lemma store_out m a n v x : ~ a <= x < a + Z.of_nat n -> store m a n v x = m x.
Proof.
  intros X. unfold store. destruct (Z.leb_spec a x); [|reflexivity].
  destruct (Z.ltb_spec x (a + Z.of_nat n)); [lia|reflexivity].
Qed.

Lemma store_in m a n v x : a <= x < a + Z.of_nat n -> store m a n v x = (v / 256 ^ (x - a)) mod 256.
Proof.
  intros X. unfold store. destruct (Z.leb_spec a x); [|lia].
  destruct (Z.ltb_spec x (a + Z.of_nat n)); [reflexivity|lia].
Qed.

Lemma store_bytes m a n v : (forall x, 0 <= m x < 256) -> forall x, 0 <= store m a n v x < 256.
Proof. intros M x. unfold store. destruct (_ && _); [apply Z.mod_pos_bound; lia|apply M]. Qed.

(** The digits of a word that a load reads are the bytes of memory. *)
Lemma digit_load m a n x : (forall y, 0 <= m y < 256) -> a <= x < a + Z.of_nat n ->
  (load m a n / 256 ^ (x - a)) mod 256 = m x.
Proof.
  intros M. revert a; induction n; intros a X; [lia|]. cbn [load].
  destruct (Z.eq_dec x a) as [->|N].
  - rewrite Z.sub_diag. change (256 ^ 0) with 1. rewrite Z.div_1_r, (Z.mul_comm 256), Z.mod_add by lia.
    apply Z.mod_small. apply M.
  - replace (x - a) with (Z.succ (x - (a + 1))) by lia. rewrite Z.pow_succ_r by lia.
    rewrite <- Z.div_div; [|lia|apply pow256_pos; lia].
    replace ((m a + 256 * load m (a + 1) n) / 256) with (load m (a + 1) n).
    + apply IHn. lia.
    + apply (Z.div_unique_pos _ _ _ (m a)); [apply M|lia].
Qed.

(** Registers. *)
Lemma gpr_same s r v : gpr (set_gpr s r v) r = v.
Proof. simpl. destruct (reg_eqb_spec r r); congruence. Qed.
Lemma gpr_other s r q v : q <> r -> gpr (set_gpr s r v) q = gpr s q.
Proof. intros. simpl. destruct (reg_eqb_spec q r); congruence. Qed.

Lemma wrap_small w v : 0 <= v < 2 ^ w -> wrap w v = v.
Proof. apply Z.mod_small. Qed.

Lemma exec_all_app F l l' s :
  exec_all F (l ++ l') s = let* s := exec_all F l s in exec_all F l' s.
Proof.
  revert s; induction l; intros s; simpl; [reflexivity|].
  destruct (exec F a s); simpl; auto.
Qed.

(** A memory operand whose bytes lie inside the address space. *)
Lemma address_in s off base a : gpr s base + off = a -> 0 <= a < 2 ^ 64 -> address s off base = a.
Proof. intros <- H. unfold address. apply wrap_small. exact H. Qed.

Lemma rd_mem s w off base a :
  gpr s base + off = a -> 0 <= a -> a + Z.of_nat (wbytes w) <= 2 ^ 64 ->
  rd s w (MEM off base) = Ok (load (mem s) a (wbytes w)).
Proof.
  intros E L H. pose proof (wbytes_pos w). unfold rd. rewrite (address_in s off base a) by lia.
  cbv zeta. apply Z.leb_le in H. rewrite H. reflexivity.
Qed.

Lemma wr_mem s w off base a v :
  gpr s base + off = a -> 0 <= a -> a + Z.of_nat (wbytes w) <= 2 ^ 64 ->
  wr s w (MEM off base) v = Ok (set_mem s (store (mem s) a (wbytes w) v)).
Proof.
  intros E L H. pose proof (wbytes_pos w). unfold wr. rewrite (address_in s off base a) by lia.
  cbv zeta. apply Z.leb_le in H. rewrite H. reflexivity.
Qed.
