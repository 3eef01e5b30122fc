(** The integer operator sequences compute the C results. *)
From Verif Require Import Base Bytes Arch CTypesSpec ConstFold ConstFoldSpec X86 Codegen AsmSpec OpSelect
  X86Proofs CodegenProofs.

Definition word (w : width) : Prop := w = W4 \/ w = W8.

Lemma word_bits w : word w -> bits w = 32 \/ bits w = 64.
Proof. intros [->| ->]; [left|right]; reflexivity. Qed.

Lemma pow_bits w : 0 < 2 ^ bits w.
Proof. apply Z.pow_pos_nonneg; [lia|]. unfold bits. lia. Qed.

Lemma wr_sized s w r v : word w -> wr s w (sized w r) v = Ok (set_gpr s r (wrap (bits w) v)).
Proof. intros [->| ->]; reflexivity. Qed.

(** What a state after the operator sequence must satisfy. *)
Definition leaves (w : width) (s : machine) (r : Z) (out : res machine) : Prop :=
  exists s', out = Ok s' /\ wrap (bits w) (gpr s' RAX) = r /\ (forall x, mem s' x = mem s x) /\
    gpr s' RBP = gpr s RBP /\ gpr s' RSP = gpr s RSP /\ machine_ok s'.

Lemma set_gpr_ok s r v : machine_ok s -> 0 <= v < 2 ^ 64 -> machine_ok (set_gpr s r v).
Proof.
  intros (G & X & M) V. split; [|split; auto]. intros q.
  destruct (reg_eqb_spec q r) as [->|Q]; [rewrite gpr_same|rewrite gpr_other by auto]; auto.
Qed.
Lemma set_flag_ok s f : machine_ok s -> machine_ok (set_flag s f).
Proof. intros H. exact H. Qed.

Lemma wrap_range w v : word w -> 0 <= wrap (bits w) v < 2 ^ 64.
Proof.
  intros W. pose proof (pow_bits w). unfold wrap. pose proof (Z.mod_pos_bound v (2 ^ bits w) H).
  split; [lia|]. eapply Z.lt_le_trans; [apply H0|]. apply Z.pow_le_mono_r; [lia|].
  destruct (word_bits w W) as [->| ->]; lia.
Qed.

Lemma wrap_wrap n v : 0 <= n -> wrap n (wrap n v) = wrap n v.
Proof.
  intros. unfold wrap. apply Z.mod_mod.
  pose proof (Z.pow_pos_nonneg 2 n ltac:(lia) ltac:(lia)). lia.
Qed.
Lemma wrap_bits_twice w v : wrap (bits w) (wrap (bits w) v) = wrap (bits w) v.
Proof. apply wrap_wrap. unfold bits. lia. Qed.

(** Two-operand arithmetic. *)
Lemma alu_leaves F w m f s x y :
  word w -> machine_ok s -> gpr s RAX = x -> gpr s RCX = y -> 0 <= x < 2 ^ bits w -> 0 <= y < 2 ^ bits w ->
  (exists fl, exec F (I2 (m w) (sized w RCX) (sized w RAX)) s = alu s w (sized w RCX) (sized w RAX) f fl) ->
  leaves w s (wrap (bits w) (f x y)) (exec_all F (binary_ins m w) s).
Proof.
  intros W OK EX EY RX RY [fl E]. unfold binary_ins. cbn [exec_all]. rewrite E. unfold alu.
  rewrite !sized_not_mem. cbn [andb]. rewrite !rd_sized. cbn [bind]. rewrite wr_sized by auto. cbn [bind].
  eexists. split; [reflexivity|]. cbn [set_flag gpr mem].
  rewrite gpr_same, EX, EY, !(wrap_small (bits w) x), !(wrap_small (bits w) y) by auto.
  rewrite !wrap_bits_twice.
  split; [reflexivity|]. split; [reflexivity|]. split; [reflexivity|]. split; [reflexivity|].
  apply set_flag_ok. apply set_gpr_ok; auto. apply wrap_range. exact W.
Qed.

(** Comparisons: what each condition says after comparing. *)
Lemma bits_pos w : 0 < bits w.
Proof. unfold bits. pose proof (wbytes_pos w). lia. Qed.

Lemma zf_spec n x y : 0 < n -> 0 <= x < 2 ^ n -> 0 <= y < 2 ^ n -> (wrap n (x - y) =? 0) = (x =? y).
Proof.
  intros N X Y. unfold wrap. apply Bool.eq_iff_eq_true. rewrite !Z.eqb_eq. split.
  - intros E. apply Z.mod_divide in E; [|lia]. destruct E as [k E]. assert (k = 0) by nia. lia.
  - intros ->. rewrite Z.sub_diag. apply Z.mod_0_l. lia.
Qed.

Lemma sf_signed n r : 0 < n -> 0 <= r < 2 ^ n -> (2 ^ (n - 1) <=? r) = (signed n r <? 0).
Proof.
  intros N R. unfold signed. cbv zeta. rewrite Z.mod_small by exact R.
  assert (T : 2 ^ n = 2 * 2 ^ (n - 1)) by (rewrite <- Z.pow_succ_r by lia; f_equal; lia).
  destruct (Z.leb_spec (2 ^ (n - 1)) r) as [L|L]; destruct (Z.ltb_spec r (2 ^ (n - 1))) as [L'|L']; try lia.
Qed.

Lemma signed_wrap n v : 0 < n -> signed n (wrap n v) = signed n v.
Proof.
  intros N. unfold signed, wrap. cbv zeta. rewrite Z.mod_mod; [reflexivity|].
  pose proof (Z.pow_pos_nonneg 2 n ltac:(lia) ltac:(lia)). lia.
Qed.

(** Subtraction of signed values wraps by at most one period. *)
Lemma signed_sub n x y : 0 < n ->
  let d := signed n x - signed n y in
  signed n (x - y) = d \/ (signed n (x - y) = d - 2 ^ n /\ 0 < d) \/ (signed n (x - y) = d + 2 ^ n /\ d < 0).
Proof.
  intros N d.
  pose proof (signed_range n x N) as RX. pose proof (signed_range n y N) as RY.
  pose proof (signed_range n (x - y) N) as RD.
  assert (T : 2 ^ n = 2 * 2 ^ (n - 1)) by (rewrite <- Z.pow_succ_r by lia; f_equal; lia).
  assert (P : 0 < 2 ^ (n - 1)) by (apply Z.pow_pos_nonneg; lia).
  assert (C : signed n (x - y) mod 2 ^ n = d mod 2 ^ n).
  { rewrite signed_cong by lia. unfold d. rewrite Zminus_mod, (Zminus_mod (signed n x)).
    rewrite !signed_cong by lia. reflexivity. }
  assert (K : exists k, signed n (x - y) = d + k * 2 ^ n).
  { pose proof (Z.div_mod d (2 ^ n) ltac:(lia)) as D1.
    pose proof (Z.div_mod (signed n (x - y)) (2 ^ n) ltac:(lia)) as D2.
    exists (signed n (x - y) / 2 ^ n - d / 2 ^ n). rewrite C in D2. lia. }
  destruct K as [k K].
  assert (KK : k = 0 \/ k = -1 \/ k = 1).
  { assert (- 2 * 2 ^ n < k * 2 ^ n < 2 * 2 ^ n) by (unfold d in *; lia). nia. }
  unfold d in *. destruct KK as [->|[->| ->]]; [left; lia|right; left; lia|right; right; lia].
Qed.

Lemma less_spec w x y : 0 <= x < 2 ^ bits w -> 0 <= y < 2 ^ bits w ->
  xorb (sf (sub_flags w x y)) (ovf (sub_flags w x y)) = (signed (bits w) x <? signed (bits w) y).
Proof.
  intros X Y. pose proof (bits_pos w) as N. unfold sub_flags. cbv zeta. cbn [sf ovf].
  rewrite sf_signed; [|exact N|apply Z.mod_pos_bound; apply pow_bits].
  rewrite signed_wrap by auto.
  pose proof (signed_sub (bits w) x y N) as D. cbv zeta in D.
  pose proof (signed_range (bits w) x N) as RX. pose proof (signed_range (bits w) y N) as RY.
  pose proof (signed_range (bits w) (x - y) N) as RD.
  assert (T : 2 ^ bits w = 2 * 2 ^ (bits w - 1)) by (rewrite <- Z.pow_succ_r by lia; f_equal; lia).
  set (a := signed (bits w) x) in *. set (b := signed (bits w) y) in *. set (c := signed (bits w) (x - y)) in *.
  destruct (Z.ltb_spec c 0); destruct (Z.eqb_spec c (a - b)); destruct (Z.ltb_spec a b); cbn [negb xorb]; try reflexivity; lia.
Qed.

(** The meaning of each condition on unsigned or signed operands. *)
Definition cond_holds (c : cond) (w : width) (x y : Z) : bool :=
  let a := signed (bits w) x in
  let b := signed (bits w) y in
  match c with
  | CE => x =? y | CNE => negb (x =? y)
  | CB => x <? y | CNB => negb (x <? y) | CBE => x <=? y | CA => negb (x <=? y)
  | CL => a <? b | CGE => negb (a <? b) | CLE => a <=? b | CG => negb (a <=? b)
  end.

Lemma signed_inj n x y : 0 < n -> 0 <= x < 2 ^ n -> 0 <= y < 2 ^ n -> signed n x = signed n y -> x = y.
Proof.
  intros N X Y E. pose proof (signed_cong n x N) as C1. pose proof (signed_cong n y N) as C2.
  rewrite E, C2 in C1. rewrite (Z.mod_small x), (Z.mod_small y) in C1 by auto. congruence.
Qed.

Lemma cond_spec c w x y : 0 <= x < 2 ^ bits w -> 0 <= y < 2 ^ bits w ->
  holds c (sub_flags w x y) = cond_holds c w x y.
Proof.
  intros X Y. pose proof (bits_pos w) as N.
  assert (Zf : zf (sub_flags w x y) = (x =? y)) by (apply zf_spec; auto).
  assert (Cf : cf (sub_flags w x y) = (x <? y)) by reflexivity.
  pose proof (less_spec w x y X Y) as LS.
  assert (LE : (x =? y) || (signed (bits w) x <? signed (bits w) y) = (signed (bits w) x <=? signed (bits w) y)).
  { destruct (Z.eqb_spec x y) as [->|NE]; cbn [orb].
    - symmetry. apply Z.leb_le. lia.
    - destruct (Z.ltb_spec (signed (bits w) x) (signed (bits w) y)); destruct (Z.leb_spec (signed (bits w) x) (signed (bits w) y)); try reflexivity; try lia.
      exfalso. apply NE. apply (signed_inj (bits w)); auto. lia. }
  assert (UL : (x <? y) || (x =? y) = (x <=? y)).
  { destruct (Z.ltb_spec x y); destruct (Z.eqb_spec x y); destruct (Z.leb_spec x y); cbn [orb]; try reflexivity; lia. }
  destruct c; cbn [holds cond_holds]; rewrite ?Zf, ?Cf, ?LS, ?LE, ?UL; reflexivity.
Qed.

Lemma comp_leaves F w c s x y :
  word w -> machine_ok s -> gpr s RAX = x -> gpr s RCX = y -> 0 <= x < 2 ^ bits w -> 0 <= y < 2 ^ bits w ->
  leaves w s (if cond_holds c w x y then 1 else 0) (exec_all F (binary_comp c w) s).
Proof.
  intros W OK EX EY RX RY. unfold binary_comp. cbn [exec_all].
  assert (E : exec F (I2 (Cmp w) (sized w RCX) (sized w RAX)) s = Ok (set_flag s (Some (sub_flags w x y)))).
  { cbn [exec]. rewrite !sized_not_mem. cbn [andb]. rewrite !rd_sized. cbn [bind]. rewrite EX, EY, !wrap_small by auto. reflexivity. }
  rewrite E. cbn [bind exec set_flag flag wr reg_of]. rewrite cond_spec by auto.
  set (v := if cond_holds c w x y then 1 else 0).
  assert (V : 0 <= v <= 1) by (unfold v; destruct (cond_holds c w x y); lia).
  cbn [bind is_mem rd reg_of wr]. rewrite gpr_same.
  assert (E1 : wrap (bits W1) (gpr s RAX - wrap (bits W1) (gpr s RAX) + wrap (bits W1) v) = v).
  { change (bits W1) with 8. unfold wrap. pose proof (Z.div_mod (gpr s RAX) (2 ^ 8) ltac:(lia)) as D.
    replace (gpr s RAX - gpr s RAX mod 2 ^ 8 + v mod 2 ^ 8) with (v mod 2 ^ 8 + (gpr s RAX / 2 ^ 8) * 2 ^ 8) by lia.
    rewrite Z.mod_add by lia. rewrite Z.mod_mod by lia. apply Z.mod_small. change (2 ^ 8) with 256. lia. }
  change (gpr (set_flag s (Some (sub_flags w x y))) RAX) with (gpr s RAX).
  rewrite E1.
  assert (E2 : wrap (bits W4) v = v) by (apply wrap_small; change (2 ^ bits W4) with 4294967296; lia).
  rewrite E2. eexists. split; [reflexivity|]. rewrite gpr_same.
  split; [|split; [reflexivity|split; [reflexivity|split; [reflexivity|]]]].
  - apply wrap_small. destruct W as [->| ->]; [change (2 ^ bits W4) with 4294967296|change (2 ^ bits W8) with 18446744073709551616]; lia.
  - destruct OK as (G & XX & M). split; [|split; [exact XX|exact M]].
    intros q. cbn [set_gpr gpr]. destruct (reg_eqb q RAX) eqn:Q; [lia|]. apply G.
Qed.

(** Shifts by less than the width. *)
Lemma count_ok w s y : word w -> gpr s RCX = y -> 0 <= y < bits w ->
  exists c, rd s W1 (R1 RCX) = Ok c /\ shift_count w c = y.
Proof.
  intros W E Y. exists y. cbn [rd reg_of]. rewrite E. change (bits W1) with 8.
  assert (B : bits w <= 64) by (destruct (word_bits w W) as [->| ->]; lia).
  rewrite wrap_small by (change (2 ^ 8) with 256; lia). split; [reflexivity|].
  unfold shift_count. destruct W as [->| ->]; apply Z.mod_small; [change (bits W4) with 32 in Y|change (bits W8) with 64 in Y]; lia.
Qed.

Lemma shift_leaves F w m s x y v :
  word w -> machine_ok s -> gpr s RAX = x -> gpr s RCX = y -> 0 <= x < 2 ^ bits w -> 0 <= y < bits w ->
  (forall c, rd s W1 (R1 RCX) = Ok c -> shift_count w c = y ->
     exists v', exec F (I2 m (R1 RCX) (sized w RAX)) s =
       (let* s' := wr s w (sized w RAX) v' in Ok (set_flag s' None)) /\ wrap (bits w) v' = v) ->
  leaves w s v (exec_all F [I2 m (R1 RCX) (sized w RAX)] s).
Proof.
  intros W OK EX EY RX RY H. destruct (count_ok w s y W EY RY) as (c & RC & SC).
  destruct (H c RC SC) as (v' & E & V). cbn [exec_all]. rewrite E, wr_sized by auto. cbn [bind].
  eexists. split; [reflexivity|]. cbn [set_flag gpr mem]. rewrite gpr_same, wrap_bits_twice.
  split; [exact V|]. split; [reflexivity|]. split; [reflexivity|]. split; [reflexivity|].
  apply set_flag_ok, set_gpr_ok; auto. apply wrap_range. exact W.
Qed.

(** Division: the dividend the processor sees is the sign- or zero-extended
    left operand. *)
Lemma extend_dividend n x : 0 < n -> 0 <= x < 2 ^ n ->
  signed (2 * n) ((if x <? 2 ^ (n - 1) then 0 else 2 ^ n - 1) * 2 ^ n + x) = signed n x.
Proof.
  intros N X. assert (P : 0 < 2 ^ n) by (apply Z.pow_pos_nonneg; lia).
  assert (T : 2 ^ n = 2 * 2 ^ (n - 1)) by (rewrite <- Z.pow_succ_r by lia; f_equal; lia).
  assert (T2 : 2 ^ (2 * n) = 2 ^ n * 2 ^ n) by (rewrite <- Z.pow_add_r by lia; f_equal; lia).
  assert (T3 : 2 ^ (2 * n - 1) = 2 ^ n * 2 ^ (n - 1)) by (rewrite <- Z.pow_add_r by lia; f_equal; lia).
  unfold signed. cbv zeta. rewrite (Z.mod_small x) by exact X.
  destruct (Z.ltb_spec x (2 ^ (n - 1))) as [L|L].
  - rewrite Z.mul_0_l, Z.add_0_l. rewrite T2, T3. rewrite Z.mod_small by nia.
    destruct (Z.ltb_spec x (2 ^ n * 2 ^ (n - 1))); [reflexivity|nia].
  - rewrite T2, T3. rewrite Z.mod_small by nia.
    destruct (Z.ltb_spec ((2 ^ n - 1) * 2 ^ n + x) (2 ^ n * 2 ^ (n - 1))); nia.
Qed.

Definition extension (w : width) : instr := I0 (match w with W8 => Cqto | _ => Cltd end).

Lemma extension_ok F w s x : word w -> gpr s RAX = x -> 0 <= x < 2 ^ bits w ->
  exec F (extension w) s = Ok (set_gpr s RDX (if x <? 2 ^ (bits w - 1) then 0 else 2 ^ bits w - 1)).
Proof.
  intros [->| ->] E X; unfold extension; cbn [exec]; rewrite E; [|reflexivity].
  rewrite wrap_small by exact X. reflexivity.
Qed.

Lemma idiv_ok F w s x y :
  word w -> machine_ok s -> gpr s RAX = x -> gpr s RCX = y -> 0 <= x < 2 ^ bits w -> 0 <= y < 2 ^ bits w ->
  let q := Z.quot (signed (bits w) x) (signed (bits w) y) in
  let r := Z.rem (signed (bits w) x) (signed (bits w) y) in
  signed (bits w) y <> 0 -> - 2 ^ (bits w - 1) <= q < 2 ^ (bits w - 1) ->
  exists s', exec_all F [extension w; I1 (Idiv w) (sized w RCX)] s = Ok s' /\
    gpr s' RAX = wrap (bits w) q /\ gpr s' RDX = wrap (bits w) r /\
    (forall z, mem s' z = mem s z) /\ gpr s' RBP = gpr s RBP /\ gpr s' RSP = gpr s RSP /\ machine_ok s'.
Proof.
  intros W OK EX EY RX RY q r NZ Q. cbn [exec_all]. rewrite (extension_ok F w s x) by auto. cbn [bind exec].
  rewrite rd_sized. cbn [bind].
  set (e := if x <? 2 ^ (bits w - 1) then 0 else 2 ^ bits w - 1).
  pose proof (bits_pos w) as BP. pose proof (pow_bits w) as PB.
  assert (ER : 0 <= e < 2 ^ bits w) by (unfold e; destruct (x <? 2 ^ (bits w - 1)); lia).
  rewrite (gpr_other s RDX RCX) by discriminate. rewrite EY, (wrap_small (bits w) y) by auto.
  rewrite gpr_same, (gpr_other s RDX RAX) by discriminate. rewrite EX, (wrap_small (bits w) x), (wrap_small (bits w) e) by auto.
  unfold e. rewrite extend_dividend by auto. fold q r.
  destruct (Z.eqb_spec (signed (bits w) y) 0); [contradiction|].
  destruct (Z.ltb_spec q (- 2 ^ (bits w - 1))); [lia|]. destruct (Z.leb_spec (2 ^ (bits w - 1)) q); [lia|]. cbn [orb].
  eexists. split; [reflexivity|]. cbn [set_flag gpr mem].
  split; [rewrite gpr_other by discriminate; apply gpr_same|]. split; [apply gpr_same|].
  split; [reflexivity|]. split; [reflexivity|]. split; [reflexivity|].
  apply set_flag_ok, set_gpr_ok; [apply set_gpr_ok; [apply set_gpr_ok; auto|]|].
  - split; [apply ER|]. eapply Z.lt_le_trans; [apply ER|]. apply Z.pow_le_mono_r; [lia|]. destruct (word_bits w W) as [->| ->]; lia.
  - apply wrap_range; auto.
  - apply wrap_range; auto.
Qed.

Lemma div_ok F w s x y :
  word w -> machine_ok s -> gpr s RAX = x -> gpr s RCX = y -> 0 <= x < 2 ^ bits w -> 0 < y < 2 ^ bits w ->
  exists s', exec_all F [I2 (Xor W8) (R8 RDX) (R8 RDX); I1 (Div w) (sized w RCX)] s = Ok s' /\
    gpr s' RAX = x / y /\ gpr s' RDX = x mod y /\
    (forall z, mem s' z = mem s z) /\ gpr s' RBP = gpr s RBP /\ gpr s' RSP = gpr s RSP /\ machine_ok s'.
Proof.
  intros W OK EX EY RX RY. cbn [exec_all exec]. unfold alu. cbn [is_mem andb rd reg_of bind wr].
  rewrite !Z.lxor_nilpotent. change (wrap (bits W8) 0) with 0. change (wrap (bits W8) 0) with 0.
  cbn [bind]. rewrite rd_sized. cbn [set_flag gpr bind].
  rewrite (gpr_other s RDX RCX) by discriminate. rewrite EY, (wrap_small (bits w) y) by lia.
  rewrite gpr_same, (gpr_other s RDX RAX) by discriminate. rewrite EX, (wrap_small (bits w) x) by auto.
  assert (Z0 : wrap (bits w) 0 = 0) by (apply Z.mod_0_l; pose proof (pow_bits w); lia).
  rewrite Z0, Z.mul_0_l, Z.add_0_l.
  destruct (Z.eqb_spec y 0); [lia|].
  assert (QL : x / y <= x) by (apply Z.div_le_upper_bound; nia).
  assert (Q0 : 0 <= x / y) by (apply Z.div_pos; lia).
  pose proof (Z.mod_pos_bound x y ltac:(lia)) as RB.
  destruct (Z.leb_spec (2 ^ bits w) (x / y)); [lia|].
  assert (B64 : 2 ^ bits w <= 2 ^ 64) by (apply Z.pow_le_mono_r; [lia|]; destruct (word_bits w W) as [->| ->]; lia).
  eexists. split; [reflexivity|]. cbn [gpr mem].
  split; [reflexivity|]. split; [reflexivity|].
  split; [reflexivity|]. split; [reflexivity|]. split; [reflexivity|].
  destruct OK as (G & X & M). split; [|split; [exact X|exact M]].
  intros p. cbn [set_flag set_gpr gpr]. destruct (reg_eqb p RDX); [lia|]. destruct (reg_eqb p RAX); [lia|]. apply G.
Qed.

Lemma div_leaves F w s v l q :
  word w -> exec_all F l s = Ok q -> wrap (bits w) (gpr q RAX) = v ->
  (forall z, mem q z = mem s z) -> gpr q RBP = gpr s RBP -> gpr q RSP = gpr s RSP -> machine_ok q ->
  leaves w s v (exec_all F l s).
Proof. intros. exists q. auto 10. Qed.

Lemma rem_leaves F w s v l q :
  word w -> exec_all F l s = Ok q -> wrap (bits w) (gpr q RDX) = v ->
  (forall z, mem q z = mem s z) -> gpr q RBP = gpr s RBP -> gpr q RSP = gpr s RSP -> machine_ok q ->
  leaves w s v (exec_all F (l ++ [I2 (Mov w) (sized w RDX) (sized w RAX)]) s).
Proof.
  intros W E V M B S OK. rewrite exec_all_app, E. cbn [bind exec_all].
  assert (X : exec F (I2 (Mov w) (sized w RDX) (sized w RAX)) q = Ok (set_gpr q RAX v)).
  { assert (Y : exec F (I2 (Mov w) (sized w RDX) (sized w RAX)) q =
       (let* z := rd q w (sized w RDX) in wr q w (sized w RAX) z)) by (destruct W as [->| ->]; reflexivity).
    rewrite Y, rd_sized. cbn [bind]. rewrite wr_sized by auto. rewrite V, <- V, wrap_bits_twice. reflexivity. }
  rewrite X. cbn [bind]. eexists. split; [reflexivity|]. rewrite gpr_same.
  split; [rewrite <- V; apply wrap_bits_twice|]. split; [exact M|]. split; [exact B|]. split; [exact S|].
  apply set_gpr_ok; auto. rewrite <- V. apply wrap_range. exact W.
Qed.
