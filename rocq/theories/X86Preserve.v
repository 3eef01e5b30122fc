(** Executing an instruction keeps words in the registers and bytes in
    memory, so pieces of code compose. *)
From Verif Require Import Base Bytes X86 X86Proofs.

Lemma machine_gpr s r v : machine_ok s -> 0 <= v < 2 ^ 64 -> machine_ok (set_gpr s r v).
Proof.
  intros (G & X & M) V. split; [|split; auto]. intros q. cbn [set_gpr gpr]. destruct (reg_eqb q r); auto.
Qed.
Lemma machine_xmm s k v : machine_ok s -> 0 <= v < 2 ^ 64 -> machine_ok (set_xmm s k v).
Proof.
  intros (G & X & M) V. split; [exact G|]. split; [|exact M]. intros q. cbn [set_xmm xmm]. destruct (q =? k); auto.
Qed.
Lemma machine_flag s f : machine_ok s -> machine_ok (set_flag s f).
Proof. intros H. exact H. Qed.
Lemma machine_mem s a n v : machine_ok s -> machine_ok (set_mem s (store (mem s) a n v)).
Proof. intros (G & X & M). split; [exact G|]. split; [exact X|]. apply store_bytes. exact M. Qed.

Lemma mod_range v n : 0 <= n <= 64 -> 0 <= v mod 2 ^ n < 2 ^ 64.
Proof.
  intros N. assert (0 < 2 ^ n) by (apply Z.pow_pos_nonneg; lia). pose proof (Z.mod_pos_bound v (2 ^ n) H).
  assert (2 ^ n <= 2 ^ 64) by (apply Z.pow_le_mono_r; lia). lia.
Qed.
Lemma bits_le w : 0 <= bits w <= 64.
Proof. destruct w; vm_compute; split; congruence. Qed.
Lemma wrap_ok w v : 0 <= wrap (bits w) v < 2 ^ 64.
Proof. apply mod_range, bits_le. Qed.

(** Replacing the low [n] bits of a word. *)
Lemma replace_low x y n : 0 <= n <= 64 -> 0 <= x < 2 ^ 64 -> 0 <= x - wrap n x + wrap n y < 2 ^ 64.
Proof.
  intros N X. unfold wrap. assert (P : 0 < 2 ^ n) by (apply Z.pow_pos_nonneg; lia).
  pose proof (Z.mod_pos_bound y (2 ^ n) P). pose proof (Z.mod_pos_bound x (2 ^ n) P).
  pose proof (Z.div_mod x (2 ^ n) ltac:(lia)) as D.
  assert (P' : 0 < 2 ^ (64 - n)) by (apply Z.pow_pos_nonneg; lia).
  assert (E : 2 ^ 64 = 2 ^ n * 2 ^ (64 - n)) by (rewrite <- Z.pow_add_r by lia; f_equal; lia).
  assert (Q : 0 <= x / 2 ^ n < 2 ^ (64 - n)).
  { split; [apply Z.div_pos; lia|]. apply Z.div_lt_upper_bound; [exact P|]. rewrite <- E. lia. }
  rewrite E. set (q := x / 2 ^ n) in *. set (k := 2 ^ n) in *. set (j := 2 ^ (64 - n)) in *. nia.
Qed.

Lemma wr_ok s w o v s' : machine_ok s -> wr s w o v = Ok s' -> machine_ok s'.
Proof.
  intros OK. unfold wr.
  assert (R : forall r, machine_ok (set_gpr s r (match w with
      | W8 | W4 => wrap (bits w) v | _ => gpr s r - wrap (bits w) (gpr s r) + wrap (bits w) v end))).
  { intros r. apply machine_gpr; [exact OK|]. pose proof (proj1 OK r) as G. pose proof (bits_le w) as B.
    assert (A := wrap_ok w v). assert (C := replace_low (gpr s r) v (bits w) B G). destruct w; assumption. }
  destruct o; try (destruct (reg_of w _) as [q|]; [|discriminate]; intros E; inversion E; apply R).
  cbv zeta. destruct (_ <=? _); [|discriminate]. intros E; inversion E. apply machine_mem. exact OK.
Qed.

Lemma alu_ok s w a b f fl s' : machine_ok s -> alu s w a b f fl = Ok s' -> machine_ok s'.
Proof.
  intros OK. unfold alu. destruct (_ && _); [discriminate|].
  destruct (rd s w a) as [x| |]; try discriminate. cbn [bind].
  destruct (rd s w b) as [y| |]; try discriminate. cbn [bind].
  destruct (wr s w b _) as [s1| |] eqn:W; try discriminate. cbn [bind].
  intros E; inversion E. apply machine_flag. eapply wr_ok; eauto.
Qed.

Lemma bind_ok {A B} (e : res A) (f : A -> res B) r : bind e f = Ok r -> exists a, e = Ok a /\ f a = Ok r.
Proof. destruct e; try discriminate. intros H. eauto. Qed.

Lemma rd_range s w o v : machine_ok s -> rd s w o = Ok v -> 0 <= v < 2 ^ bits w.
Proof.
  intros OK. unfold rd.
  assert (P : 0 < 2 ^ bits w) by (apply Z.pow_pos_nonneg; [lia|apply bits_le]).
  assert (R : forall r, 0 <= wrap (bits w) r < 2 ^ bits w) by (intros; apply Z.mod_pos_bound; exact P).
  destruct o; try (destruct (reg_of w _) as [q|]; [|discriminate]; intros E; inversion E; apply R).
  - cbv zeta. destruct (_ <=? _); [|discriminate]. intros E; inversion E. rewrite bits_pow. apply load_range. apply OK.
  - destruct (_ && _); [|discriminate]. intros E; inversion E; apply R.
Qed.

(** Conversions may touch the flags or a vector register only. *)
Theorem exec_preserves F i s s' : machine_ok s -> exec F i s = Ok s' -> machine_ok s'.
Proof.
  intros OK. pose proof OK as (G & X & M).
  assert (X32 : forall k v, machine_ok (set_xmm s k (xmm s k - low32 (xmm s k) + low32 v))).
  { intros k v. apply machine_xmm; [exact OK|]. apply (replace_low (xmm s k) v 32); [lia|apply X]. }
  assert (X64 : forall k v, machine_ok (set_xmm s k (wrap 64 v))).
  { intros k v. apply machine_xmm; [exact OK|]. apply mod_range. lia. }
  assert (G64 : forall k v, machine_ok (set_gpr s k (wrap 64 v))).
  { intros k v. apply machine_gpr; [exact OK|]. apply mod_range. lia. }
  assert (L32 : forall v, 0 <= low32 v < 2 ^ 64) by (intros; apply mod_range; lia).
  assert (RD : forall w a b k, (if is_mem a && is_mem b then Fail else let* v := rd s w a in k v) = Ok s' ->
             exists v, rd s w a = Ok v /\ k v = Ok s').
  { intros w a b k. destruct (_ && _); [discriminate|]. apply bind_ok. }
  destruct i as [m|m a|m a b]; destruct m; cbn [exec]; try discriminate.
  (* cltd, cqto *)
  - intros E; inversion E. apply machine_gpr; [exact OK|]. destruct (_ <? _); vm_compute; split; congruence.
  - intros E; inversion E. apply machine_gpr; [exact OK|]. destruct (_ <? _); vm_compute; split; congruence.
  - cbv zeta. destruct (_ <=? _); [|discriminate]. intros E; inversion E.
    apply machine_gpr; [apply machine_gpr; [exact OK|]|apply mod_range; lia].
    pose proof (load_range (mem s) (gpr s RBP) 8 M) as R. exact R.
  (* not, neg, setcc *)
  - intros E. apply bind_ok in E as (v & _ & E). eapply wr_ok; eauto.
  - intros E. apply bind_ok in E as (v & _ & E). apply bind_ok in E as (s1 & E1 & E). inversion E.
    apply machine_flag. eapply wr_ok; eauto.
  - destruct (flag s); [|discriminate]. intros E. eapply wr_ok; eauto.
  (* idiv, div *)
  - intros E. apply bind_ok in E as (v & _ & E). cbv zeta in E. destruct (_ =? 0); [discriminate|].
    destruct (_ || _); [discriminate|]. inversion E. apply machine_flag, machine_gpr; [apply machine_gpr; [exact OK|]|]; apply wrap_ok.
  - intros E. apply bind_ok in E as (v & R & E). cbv zeta in E.
    apply rd_range in R; [|exact OK].
    set (n := wrap (bits w) (gpr s RDX) * 2 ^ bits w + wrap (bits w) (gpr s RAX)) in *.
    assert (P : 0 < 2 ^ bits w) by (apply Z.pow_pos_nonneg; [lia|apply bits_le]).
    assert (P64 : 2 ^ bits w <= 2 ^ 64) by (apply Z.pow_le_mono_r; [lia|apply bits_le]).
    assert (N : 0 <= n).
    { subst n. pose proof (Z.mod_pos_bound (gpr s RDX) _ P). pose proof (Z.mod_pos_bound (gpr s RAX) _ P).
      unfold wrap. nia. }
    destruct (Z.eqb_spec v 0); [discriminate|]. destruct (Z.leb_spec (2 ^ bits w) (n / v)); [discriminate|].
    inversion E. pose proof (Z.div_pos n v N ltac:(lia)). pose proof (Z.mod_pos_bound n v ltac:(lia)).
    apply machine_flag, machine_gpr; [apply machine_gpr; [exact OK|lia]|lia].
  - destruct a; try discriminate. cbv zeta. destruct (_ <=? _); [|discriminate]. intros E; inversion E.
    apply (machine_mem (set_gpr s RSP (wrap 64 (gpr s RSP - 8)))). apply machine_gpr; [exact OK|apply mod_range; lia].
  (* mov *)
  - assert (GEN : (if is_mem a && is_mem b then Fail else let* v := rd s w a in wr s w b v) = Ok s' -> machine_ok s').
    { intros E. apply RD in E as (v & _ & E). eapply wr_ok; eauto. }
    destruct w; try exact GEN. destruct a; try exact GEN; destruct b; try exact GEN; intros E; inversion E.
    + apply machine_xmm; auto.
    + apply machine_gpr; auto.
  - destruct a; try discriminate. destruct b; try discriminate. intros E; inversion E. apply G64.
  - destruct (is_mem b); [discriminate|]. intros E. apply bind_ok in E as (v & _ & E). eapply wr_ok; eauto.
  - destruct (is_mem b); [discriminate|]. intros E. apply bind_ok in E as (v & _ & E). eapply wr_ok; eauto.
  - destruct a; try discriminate. destruct (is_mem b); [discriminate|]. apply wr_ok. exact OK.
  - apply alu_ok. exact OK.
  - apply alu_ok. exact OK.
  - destruct (is_mem b); [discriminate|]. apply alu_ok. exact OK.
  - apply alu_ok. exact OK.
  - apply alu_ok. exact OK.
  - apply alu_ok. exact OK.
  (* btc, shifts *)
  - destruct a; try discriminate. intros E. apply bind_ok in E as (v' & _ & E). apply bind_ok in E as (s1 & E1 & E).
    inversion E. apply machine_flag. eapply wr_ok; eauto.
  - intros E. apply bind_ok in E as (c & _ & E). apply bind_ok in E as (v' & _ & E). apply bind_ok in E as (s1 & E1 & E).
    inversion E. apply machine_flag. eapply wr_ok; eauto.
  - intros E. apply bind_ok in E as (c & _ & E). apply bind_ok in E as (v' & _ & E). apply bind_ok in E as (s1 & E1 & E).
    inversion E. apply machine_flag. eapply wr_ok; eauto.
  - intros E. apply bind_ok in E as (c & _ & E). apply bind_ok in E as (v' & _ & E). apply bind_ok in E as (s1 & E1 & E).
    inversion E. apply machine_flag. eapply wr_ok; eauto.
  - intros E. apply RD in E as (v & _ & E). apply bind_ok in E as (y & _ & E). inversion E. exact OK.
  - intros E. apply RD in E as (v & _ & E). apply bind_ok in E as (y & _ & E). inversion E. exact OK.
  (* movd *)
  - destruct a; try discriminate; destruct b; try discriminate; intros E; inversion E.
    + apply machine_xmm; auto.
    + apply machine_xmm; auto.
    + apply machine_gpr; auto.
  - destruct a; try discriminate; destruct b; try discriminate. apply wr_ok. exact OK.
  - destruct a; try discriminate; destruct b; try discriminate.
    + intros E. apply bind_ok in E as (v & R & E). inversion E. apply machine_xmm; [exact OK|].
      apply rd_range in R; [|exact OK]. exact R.
    + apply wr_ok. exact OK.
  - destruct w; try discriminate; destruct a; try discriminate; destruct b; try discriminate; intros E; inversion E; exact OK.
  - destruct w; try discriminate; destruct a; try discriminate; destruct b; try discriminate; intros E; inversion E; auto.
  - destruct w; try discriminate; destruct a; try discriminate; destruct b; try discriminate; intros E; inversion E; auto.
  - destruct w; try discriminate; destruct a; try discriminate; destruct b; try discriminate; intros E; inversion E; auto.
  - destruct a; try discriminate; destruct b; try discriminate; intros E; inversion E; auto.
  - destruct a; try discriminate; destruct b; try discriminate; intros E; inversion E.
    apply machine_xmm; [exact OK|]. apply (replace_low (xmm s x0) _ 32); [lia|apply X].
Qed.

Theorem exec_all_preserves F l : forall s s', machine_ok s -> exec_all F l s = Ok s' -> machine_ok s'.
Proof.
  induction l as [|i l IH]; cbn [exec_all]; intros s s' OK E.
  - inversion E; subst. exact OK.
  - apply bind_ok in E as (s1 & E1 & E). eapply IH; [|exact E]. eapply exec_preserves; eauto.
Qed.
Print Assumptions exec_all_preserves.
