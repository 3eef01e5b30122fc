(** Loads and spills of stack slots, block copies and clears. *)
From Verif Require Import Base Bytes X86 Codegen AsmSpec X86Proofs.

Definition scalar_size (n : Z) : Prop := In n [1; 2; 4; 8].

Lemma pow_small n : 0 <= n <= 8 -> 256 ^ n <= 2 ^ 64.
Proof. intros. change (2 ^ 64) with (256 ^ 8). apply Z.pow_le_mono_r; lia. Qed.

(** scalar_to_reg loads the slot, zero-extended. *)
Lemma scalar_to_reg_ok F s sc r rest :
  machine_ok s -> in_memory s sc -> scalar_size (s_size sc) ->
  exists code, scalar_to_reg sc r = Ok code /\
    exec_all F (code ++ rest) s = exec_all F rest (set_gpr s r (slot_bits s sc)).
Proof.
  intros (G & X & M) [L H] S.
  assert (E : gpr s RBP + - s_loc sc = slot_address s sc) by (unfold slot_address; lia).
  unfold scalar_to_reg, slot_bits.
  pose proof (load_range (mem s) (slot_address s sc) (Z.to_nat (s_size sc)) M) as R.
  destruct S as [S|[S|[S|[S|[]]]]]; rewrite <- S in *; (eexists; split; [reflexivity|]);
    cbn [app exec_all exec is_mem andb];
    rewrite (rd_mem s _ _ _ (slot_address s sc)) by (auto; cbn [wbytes]; lia);
    cbn [bind wr reg_of wbytes]; do 2 f_equal; symmetry;
    unfold wrap; symmetry; apply Z.mod_small; split; try apply R; eapply Z.lt_le_trans; try apply R;
    rewrite bits_pow; apply Z.pow_le_mono_r; cbn [wbytes]; lia.
Qed.

Lemma chunk_bytes l : 0 < l -> 0 < Z.of_nat (wbytes (chunk l)) <= l.
Proof.
  intros. unfold chunk.
  destruct (Z.leb_spec 8 l); [cbn [wbytes]; lia|]. destruct (Z.leb_spec 4 l); [cbn [wbytes]; lia|].
  destruct (Z.leb_spec 2 l); cbn [wbytes]; lia.
Qed.

Lemma chunk_part l : 0 < l < 8 -> Z.of_nat (wbytes (chunk l)) <= 4.
Proof.
  intros. unfold chunk.
  destruct (Z.leb_spec 8 l); [lia|]. destruct (Z.leb_spec 4 l); [cbn [wbytes]; lia|].
  destruct (Z.leb_spec 2 l); cbn [wbytes]; lia.
Qed.

Lemma rd_sized s w r : rd s w (sized w r) = Ok (wrap (bits w) (gpr s r)).
Proof. destruct w; reflexivity. Qed.
Lemma sized_not_mem w r : is_mem (sized w r) = false.
Proof. destruct w; reflexivity. Qed.

Lemma exec_store F s w r off base a :
  gpr s base + off = a -> 0 <= a -> a + Z.of_nat (wbytes w) <= 2 ^ 64 ->
  exec F (I2 (Mov w) (sized w r) (MEM off base)) s =
  Ok (set_mem s (store (mem s) a (wbytes w) (wrap (bits w) (gpr s r)))).
Proof.
  intros. rewrite <- (wr_mem s w off base a) by auto.
  destruct w; reflexivity.
Qed.

(** Digits of a word reduced to the bytes stored. *)
Lemma digit_wrap w v k : 0 <= k < Z.of_nat (wbytes w) ->
  (wrap (bits w) v / 256 ^ k) mod 256 = (v / 256 ^ k) mod 256.
Proof.
  intros K. unfold wrap. rewrite bits_pow.
  replace (Z.of_nat (wbytes w)) with (k + (1 + (Z.of_nat (wbytes w) - k - 1))) by lia.
  rewrite Z.pow_add_r by lia. pose proof (pow256_pos k).
  assert (0 < 256 ^ (1 + (Z.of_nat (wbytes w) - k - 1))) by (apply pow256_pos; lia).
  rewrite Z.rem_mul_r by lia.
  rewrite (Z.mul_comm (256 ^ k)), Z.div_add by lia.
  rewrite (Z.div_small (v mod 256 ^ k)) by (apply Z.mod_pos_bound; lia).
  rewrite Z.add_0_l. rewrite Z.pow_add_r by lia. change (256 ^ 1) with 256.
  pose proof (pow256_pos (Z.of_nat (wbytes w) - k - 1)).
  rewrite Z.rem_mul_r by lia.
  rewrite (Z.mul_comm 256), Z.mod_add by lia. apply Z.mod_mod. lia.
Qed.

(** A shift by whole bytes moves the digits. *)
Lemma digit_shift v i k : 0 <= i -> 0 <= k -> (v / 256 ^ i) / 256 ^ k = v / 256 ^ (i + k).
Proof.
  intros. rewrite Z.pow_add_r by lia. apply Z.div_div.
  - pose proof (pow256_pos i); lia.
  - apply pow256_pos; lia.
Qed.

(** One shift of the loop. *)
Lemma exec_shift F s r n : 0 < n < 8 -> 0 <= gpr s r < 2 ^ 64 ->
  exec F (I2 (Shr W8) (IMM (n * 8)) (R8 r)) s = Ok (set_flag (set_gpr s r (gpr s r / 256 ^ n)) None).
Proof.
  intros N R. cbn [exec rd reg_of bind].
  assert (B : bits W1 = 8) by reflexivity. rewrite B. change (Z.min 32 8) with 8.
  assert (C : (- 2 ^ 31 <=? n * 8) && (n * 8 <? 2 ^ 8) = true).
  { apply andb_true_intro. split; [apply Z.leb_le|apply Z.ltb_lt]; [change (2 ^ 31) with 2147483648|change (2 ^ 8) with 256]; lia. }
  rewrite C. cbn [bind wr reg_of]. change (bits W8) with 64.
  rewrite (wrap_small 8) by (change (2 ^ 8) with 256; lia).
  rewrite (wrap_small 64 (gpr s r)) by exact R.
  unfold shift_count. rewrite (Z.mod_small (n * 8)) by lia.
  rewrite Z.shiftr_div_pow2 by lia. rewrite (Z.mul_comm n), Z.pow_mul_r by lia. change (2 ^ 8) with 256.
  rewrite wrap_small; [reflexivity|].
  pose proof (pow256_pos n).
  split; [apply Z.div_pos; lia|]. apply Z.div_lt_upper_bound; [lia|].
  eapply Z.lt_le_trans; [apply R|]. nia.
Qed.

(** The spill loop from byte [i] on: bytes [i, size) of [v] are written. *)
Lemma store_loop_ok F fuel : forall r base off b size i msize s v,
  base <> r -> 0 <= i <= size -> size <= 8 -> (Z.to_nat (size - i) <= fuel)%nat ->
  0 <= gpr s r < 2 ^ 64 ->
  (0 <= msize <= i) -> (msize = 0 -> i = 0) -> (i < size -> msize <= 4) ->
  gpr s r = v / 256 ^ (i - msize) ->
  gpr s base + off = b -> 0 <= b -> b + size <= 2 ^ 64 ->
  exists s', exec_all F (store_loop fuel (fun i => MEM (off + i) base) r size i msize) s = Ok s' /\
    (forall x, mem s' x = if (b + i <=? x) && (x <? b + size) then (v / 256 ^ (x - b)) mod 256 else mem s x) /\
    (forall q, q <> r -> gpr s' q = gpr s q) /\ (forall x, xmm s' x = xmm s x).
Proof.
  induction fuel; intros r base off b size i msize s v NB I SZ FU R MS M0 M4 V BB B0 BH.
  { exists s. split; [reflexivity|]. split; [|auto]. intros x.
    destruct (Z.leb_spec (b + i) x); [|reflexivity]. destruct (Z.ltb_spec x (b + size)); [lia|reflexivity]. }
  cbn [store_loop]. destruct (Z.ltb_spec i size) as [LT|GE].
  2: { exists s. split; [reflexivity|]. split; [|auto]. intros x.
    destruct (Z.leb_spec (b + i) x); [|reflexivity]. destruct (Z.ltb_spec x (b + size)); [lia|reflexivity]. }
  set (w := chunk (size - i)). cbv zeta.
  pose proof (chunk_bytes (size - i) ltac:(lia)) as CB. fold w in CB.
  rewrite exec_all_app.
  assert (STEP : exists s1, exec_all F (if msize =? 0 then [] else [I2 (Shr W8) (IMM (msize * 8)) (R8 r)]) s = Ok s1 /\
            gpr s1 r = v / 256 ^ i /\ mem s1 = mem s /\ (forall q, q <> r -> gpr s1 q = gpr s q) /\
            xmm s1 = xmm s /\ 0 <= gpr s1 r < 2 ^ 64).
  { destruct (Z.eqb_spec msize 0) as [->|NZ].
    - exists s. split; [reflexivity|]. rewrite V, Z.sub_0_r in *. repeat split; auto; apply R.
    - cbn [exec_all]. rewrite exec_shift by (auto; lia). cbn [bind].
      eexists. split; [reflexivity|]. cbn [set_flag gpr mem xmm].
      assert (E : gpr (set_gpr s r (gpr s r / 256 ^ msize)) r = v / 256 ^ i).
      { rewrite gpr_same, V, digit_shift by lia. do 2 f_equal. lia. }
      split; [exact E|]. split; [reflexivity|]. split; [intros; apply gpr_other; auto|].
      split; [reflexivity|]. rewrite gpr_same. pose proof (pow256_pos msize ltac:(lia)).
      split; [apply Z.div_pos; lia|]. apply Z.div_lt_upper_bound; [lia|].
      eapply Z.lt_le_trans; [apply R|]. nia. }
  destruct STEP as (s1 & -> & G1 & ME & GO & XE & R1). cbn [bind exec_all].
  rewrite (exec_store F s1 w r (off + i) base (b + i)); [|rewrite GO by auto; lia|lia|lia].
  cbn [bind].
  set (s2 := set_mem s1 _).
  destruct (IHfuel r base off b size (i + Z.of_nat (wbytes w)) (Z.of_nat (wbytes w)) s2 v) as (s' & EX & MM & GG & XX);
    auto; try lia.
  - intros HH. destruct (Z.lt_ge_cases (size - i) 8) as [C|C]; [apply chunk_part; lia|].
    assert (C8 : size - i = 8) by lia. unfold w in HH |- *. rewrite C8 in HH |- *.
    change (Z.of_nat (wbytes (chunk 8))) with 8 in *. lia.
  - cbn [s2 set_mem gpr]. rewrite G1. do 2 f_equal. lia.
  - cbn [s2 set_mem gpr]. rewrite GO; auto.
  - exists s'. split; [exact EX|]. split; [|split].
    + intros x. rewrite MM. cbn [s2 set_mem mem].
      destruct (Z.leb_spec (b + (i + Z.of_nat (wbytes w))) x) as [A1|A1]; cbn [andb].
      * destruct (Z.leb_spec (b + i) x); [|lia]. cbn [andb].
        destruct (Z.ltb_spec x (b + size)); [reflexivity|].
        rewrite store_out by lia. rewrite ME. reflexivity.
      * destruct (Z.leb_spec (b + i) x) as [A2|A2]; cbn [andb].
        -- destruct (Z.ltb_spec x (b + size)); [|lia].
           rewrite store_in by lia. rewrite digit_wrap by lia. rewrite G1, digit_shift by lia.
           do 3 f_equal. lia.
        -- rewrite store_out by lia. rewrite ME. reflexivity.
    + intros q Q. rewrite GG by auto. cbn [s2 set_mem gpr]. auto.
    + intros x. rewrite XX. cbn [s2 set_mem xmm]. rewrite XE. reflexivity.
Qed.

(** reg_to_scalar writes the low bytes of the register to the slot. *)
Lemma reg_to_scalar_ok F s r sc :
  machine_ok s -> in_memory s sc -> 0 <= s_size sc <= 8 -> r <> RBP ->
  exists s', exec_all F (reg_to_scalar r sc) s = Ok s' /\
    (forall x, mem s' x = store (mem s) (slot_address s sc) (Z.to_nat (s_size sc)) (gpr s r) x) /\
    (forall q, q <> r -> gpr s' q = gpr s q) /\ (forall x, xmm s' x = xmm s x).
Proof.
  intros (G & X & M) [L H] S N. unfold reg_to_scalar.
  destruct (store_loop_ok F (Z.to_nat (s_size sc)) r RBP (- s_loc sc) (slot_address s sc) (s_size sc) 0 0 s (gpr s r))
    as (s' & E & ME & GE & XE); auto; try lia; try apply G; try (rewrite Z.sub_0_r, Z.div_1_r; reflexivity).
  - exists s'. split; [exact E|]. split; [|auto]. intros x. rewrite ME. unfold store.
    rewrite Z2Nat.id by lia. rewrite Z.add_0_r. reflexivity.
Qed.

Lemma reg_to_memory_ok F s r size :
  machine_ok s -> 0 <= size <= 8 -> gpr s RSI + size <= 2 ^ 64 -> r <> RSI ->
  exists s', exec_all F (reg_to_memory r size) s = Ok s' /\
    (forall x, mem s' x = store (mem s) (gpr s RSI) (Z.to_nat size) (gpr s r) x) /\
    (forall q, q <> r -> gpr s' q = gpr s q) /\ (forall x, xmm s' x = xmm s x).
Proof.
  intros (G & X & M) S H N. unfold reg_to_memory.
  destruct (store_loop_ok F (Z.to_nat size) r RSI 0 (gpr s RSI) size 0 0 s (gpr s r))
    as (s' & E & ME & GE & XE); auto; try lia; try apply G; try (rewrite Z.sub_0_r, Z.div_1_r; reflexivity).
  - exists s'. split; [|split; [|auto]].
    + rewrite <- E. f_equal.
    + intros x. rewrite ME. unfold store. rewrite Z2Nat.id by lia. rewrite Z.add_0_r. reflexivity.
Qed.

(** Clearing. *)
Lemma memzero_loop_ok F fuel : forall len i s b,
  0 <= i <= len -> (Z.to_nat (len - i) <= fuel)%nat ->
  gpr s RDI = b -> 0 <= b -> b + len <= 2 ^ 64 ->
  exists s', exec_all F (memzero_loop fuel len i) s = Ok s' /\
    (forall x, mem s' x = if (b + i <=? x) && (x <? b + len) then 0 else mem s x) /\
    (forall q, gpr s' q = gpr s q).
Proof.
  induction fuel; intros len i s b I FU B B0 BH.
  { exists s. split; [reflexivity|]. split; [|auto]. intros x.
    destruct (Z.leb_spec (b + i) x); [|reflexivity]. destruct (Z.ltb_spec x (b + len)); [lia|reflexivity]. }
  cbn [memzero_loop]. destruct (Z.ltb_spec i len) as [LT|GE].
  2: { exists s. split; [reflexivity|]. split; [|auto]. intros x.
    destruct (Z.leb_spec (b + i) x); [|reflexivity]. destruct (Z.ltb_spec x (b + len)); [lia|reflexivity]. }
  set (w := chunk (len - i)). cbv zeta.
  pose proof (chunk_bytes (len - i) ltac:(lia)) as CB. fold w in CB.
  assert (E : exec F (I2 (Mov w) (IMM 0) (MEM i RDI)) s = Ok (set_mem s (store (mem s) (b + i) (wbytes w) 0))).
  { rewrite <- (wr_mem s w i RDI (b + i)) by lia. destruct w; reflexivity. }
  cbn [exec_all]. rewrite E. cbn [bind].
  destruct (IHfuel len (i + Z.of_nat (wbytes w)) (set_mem s (store (mem s) (b + i) (wbytes w) 0)) b)
    as (s' & EX & MM & GG); try lia; [exact B|].
  exists s'. split; [exact EX|]. split; [|exact GG]. intros x. rewrite MM. cbn [set_mem mem].
  destruct (Z.leb_spec (b + (i + Z.of_nat (wbytes w))) x) as [A1|A1]; cbn [andb].
  - destruct (Z.leb_spec (b + i) x); [|lia]. cbn [andb].
    destruct (Z.ltb_spec x (b + len)); [reflexivity|]. rewrite store_out by lia. reflexivity.
  - destruct (Z.leb_spec (b + i) x) as [A2|A2]; cbn [andb].
    + destruct (Z.ltb_spec x (b + len)); [|lia]. rewrite store_in by lia. rewrite Z.div_0_l; [reflexivity|].
      pose proof (pow256_pos (x - (b + i))). lia.
    + rewrite store_out by lia. reflexivity.
Qed.

(** Copying, source and destination disjoint or the same. *)
Lemma exec_copy_chunk F s w i src dst :
  machine_ok s -> gpr s RDI + i = src -> gpr s RSI + i = dst ->
  0 <= src -> src + Z.of_nat (wbytes w) <= 2 ^ 64 -> 0 <= dst -> dst + Z.of_nat (wbytes w) <= 2 ^ 64 ->
  exists s', exec_all F [I2 (Mov w) (MEM i RDI) (sized w RAX); I2 (Mov w) (sized w RAX) (MEM i RSI)] s = Ok s' /\
    (forall x, mem s' x = if (dst <=? x) && (x <? dst + Z.of_nat (wbytes w)) then mem s (x - dst + src) else mem s x) /\
    (forall q, q <> RAX -> gpr s' q = gpr s q) /\ machine_ok s'.
Proof.
  intros (G & X & M) ES ED S0 SH D0 DH.
  assert (E1 : exists v, exec F (I2 (Mov w) (MEM i RDI) (sized w RAX)) s = Ok (set_gpr s RAX v) /\
             wrap (bits w) v = load (mem s) src (wbytes w) /\ 0 <= v < 2 ^ 64).
  { pose proof (load_range (mem s) src (wbytes w) M) as LR. rewrite <- bits_pow in LR.
    pose proof (rd_mem s w i RDI src ES S0 SH) as RM.
    assert (KEEP : forall n, 0 < n <= 64 -> bits w = n -> 
       wrap n (gpr s RAX - wrap n (gpr s RAX) + wrap n (load (mem s) src (wbytes w))) = load (mem s) src (wbytes w) /\
       0 <= gpr s RAX - wrap n (gpr s RAX) + wrap n (load (mem s) src (wbytes w)) < 2 ^ 64).
    { intros n N BN. rewrite BN in LR. rewrite (wrap_small n (load _ _ _)) by exact LR.
      assert (P : 0 < 2 ^ n) by (apply Z.pow_pos_nonneg; lia).
      pose proof (Z.div_mod (gpr s RAX) (2 ^ n) ltac:(lia)) as DM. unfold wrap in *.
      assert (E : gpr s RAX - gpr s RAX mod 2 ^ n = (gpr s RAX / 2 ^ n) * 2 ^ n) by lia.
      split.
      - rewrite E, Z.add_comm, Z.mod_add by lia. apply Z.mod_small. exact LR.
      - rewrite E. specialize (G RAX).
        assert (T : 2 ^ 64 = 2 ^ (64 - n) * 2 ^ n) by (rewrite <- Z.pow_add_r by lia; f_equal; lia).
        assert (0 <= gpr s RAX / 2 ^ n) by (apply Z.div_pos; lia).
        assert (gpr s RAX / 2 ^ n < 2 ^ (64 - n)) by (apply Z.div_lt_upper_bound; lia).
        split; [nia|]. rewrite T. nia. }
    destruct w; cbn [sized exec is_mem andb]; rewrite RM; cbn [bind wr reg_of].
    - eexists. split; [reflexivity|]. apply (KEEP 8); [lia|reflexivity].
    - eexists. split; [reflexivity|]. apply (KEEP 16); [lia|reflexivity].
    - eexists. split; [reflexivity|]. rewrite (wrap_small (bits W4) (load _ _ _)) by exact LR.
      split; [apply wrap_small; exact LR|]. split; [apply LR|]. eapply Z.lt_trans; [apply LR|reflexivity].
    - eexists. split; [reflexivity|]. rewrite (wrap_small (bits W8) (load _ _ _)) by exact LR.
      split; [apply wrap_small; exact LR|]. exact LR. }
  destruct E1 as (v & E1 & WV & VR). cbn [exec_all]. rewrite E1. cbn [bind].
  rewrite (exec_store F _ w RAX i RSI dst) by (auto; rewrite gpr_other by discriminate; auto).
  cbn [bind]. eexists. split; [reflexivity|]. cbn [set_mem mem gpr]. rewrite gpr_same.
  split; [|split].
  - intros x. unfold store. cbn [set_gpr mem]. destruct (Z.leb_spec dst x); [|reflexivity]. cbn [andb].
    destruct (Z.ltb_spec x (dst + Z.of_nat (wbytes w))); [|reflexivity].
    rewrite WV. replace (x - dst) with (x - dst + src - src) at 1 by lia.
    apply digit_load; [exact M|lia].
  - intros q Q. apply gpr_other. exact Q.
  - split; [|split].
    + intros q. change (0 <= gpr (set_gpr s RAX v) q < 2 ^ 64). destruct (reg_eqb_spec q RAX) as [->|Q].
      * rewrite gpr_same. exact VR.
      * rewrite gpr_other by exact Q. apply G.
    + exact X.
    + apply store_bytes. exact M.
Qed.

Lemma memcpy_loop_ok F fuel : forall len i s src dst,
  machine_ok s -> 0 <= i <= len -> (Z.to_nat (len - i) <= fuel)%nat ->
  gpr s RDI = src -> gpr s RSI = dst -> 0 <= src -> src + len <= 2 ^ 64 -> 0 <= dst -> dst + len <= 2 ^ 64 ->
  src + len <= dst \/ dst + len <= src \/ src = dst ->
  exists s', exec_all F (memcpy_loop fuel len i) s = Ok s' /\
    (forall x, mem s' x = if (dst + i <=? x) && (x <? dst + len) then mem s (x - dst + src) else mem s x) /\
    (forall q, q <> RAX -> gpr s' q = gpr s q) /\ machine_ok s'.
Proof.
  induction fuel; intros len i s src dst OK I FU ES ED S0 SH D0 DH DJ.
  { exists s. split; [reflexivity|]. split; [|auto]. intros x.
    destruct (Z.leb_spec (dst + i) x); [|reflexivity]. destruct (Z.ltb_spec x (dst + len)); [lia|reflexivity]. }
  cbn [memcpy_loop]. destruct (Z.ltb_spec i len) as [LT|GE].
  2: { exists s. split; [reflexivity|]. split; [|auto]. intros x.
    destruct (Z.leb_spec (dst + i) x); [|reflexivity]. destruct (Z.ltb_spec x (dst + len)); [lia|reflexivity]. }
  set (w := chunk (len - i)). cbv zeta.
  pose proof (chunk_bytes (len - i) ltac:(lia)) as CB. fold w in CB.
  destruct (exec_copy_chunk F s w i (src + i) (dst + i)) as (s1 & E1 & M1 & G1 & OK1); auto; try lia.
  match goal with |- exists s', exec_all F (?a :: ?b :: ?l) s = _ /\ _ => change (a :: b :: l) with ([a; b] ++ l) end.
  rewrite exec_all_app, E1. cbn [bind].
  destruct (IHfuel len (i + Z.of_nat (wbytes w)) s1 src dst) as (s' & EX & MM & GG & OK2);
    auto; try lia; try (rewrite G1 by discriminate; auto).
  exists s'. split; [exact EX|]. split; [|split; [|exact OK2]].
  - intros x. rewrite MM.
    destruct (Z.leb_spec (dst + (i + Z.of_nat (wbytes w))) x) as [A1|A1]; cbn [andb].
    + destruct (Z.leb_spec (dst + i) x); [|lia]. cbn [andb].
      destruct (Z.ltb_spec x (dst + len)) as [A3|A3].
      * rewrite M1. destruct (Z.leb_spec (dst + i) (x - dst + src)); [|reflexivity]. cbn [andb].
        destruct (Z.ltb_spec (x - dst + src) (dst + i + Z.of_nat (wbytes w))); [lia|reflexivity].
      * rewrite M1. destruct (Z.leb_spec (dst + i) x); [|reflexivity]. cbn [andb].
        destruct (Z.ltb_spec x (dst + i + Z.of_nat (wbytes w))); [lia|reflexivity].
    + rewrite M1. destruct (Z.leb_spec (dst + i) x) as [A2|A2]; cbn [andb]; [|reflexivity].
      destruct (Z.ltb_spec x (dst + i + Z.of_nat (wbytes w))); [|lia].
      destruct (Z.ltb_spec x (dst + len)); [|lia]. f_equal. lia.
  - intros q Q. rewrite GG by exact Q. apply G1. exact Q.
Qed.
