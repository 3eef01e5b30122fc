(** Proofs about the instruction encoder: what is written is decoded. *)
From Coq Require Import String.
From Verif Require Import Base X86 Object Encode EncodeSpec BytesSpec BytesProofs EncodeProofs EncodeRows.
Local Open Scope Z_scope.
Local Open Scope list_scope.

(** Reading back one operand. *)
Definition carried (fr : bool) (x : rex_bits) (op reg : Z) (m : option rmop) (k : oe) (o : aop) : Prop :=
  match k with
  | OE_MODRM_RM => m = Some (rmop_of o) /\ (needs o = true -> fr = true)
  | OE_MODRM_REG => reg = idx o /\ (needs o = true -> fr = true)
  | OE_OPEXT => ext4 (B x) (lo3 op) = idx o /\ (needs o = true -> fr = true)
  | _ => True
  end.
Lemma gp_right fr r s : (needs (AReg r false s) = true -> fr = true) -> gp fr s (number r) = DReg s (number r).
Proof.
  intros H. unfold gp. destruct (Z.eqb_spec s 1) as [->|]; [|reflexivity].
  destruct fr; [reflexivity|]. destruct r; try reflexivity; specialize (H eq_refl); discriminate.
Qed.
Lemma read_plain sym next fr x op reg m k a s o lea tl :
  want lea k a s = true -> does_match o a = true -> plain_operand o = true -> carried fr x op reg m k o ->
  imm_of k = None -> k <> OE_REL32 -> (lea = true -> s = SM -> is_mem o = true) ->
  exists d, read_operand fr x op reg m s tl = Some (d, tl) /\ denotes sym next o d.
Proof.
  intros Hw Hm Hp Hc Hi Hr Hl.
  destruct k; cbn in Hi; try discriminate Hi; try congruence; clear Hi Hr.
  - (* empty *) cbn in Hw. destruct a, s; discriminate.
  - (* none *)
    destruct a; destruct s; cbn in Hw; try discriminate Hw; apply andb_prop in Hw; destruct Hw as [H1 H2];
      apply Z.eqb_eq in H1, H2; subst; destruct o; cbn in Hm; try discriminate Hm; apply andb_prop in Hm; destruct Hm as [H3 H4];
      apply Z.eqb_eq in H3; subst; cbn in Hp; destruct upper_byte; try discriminate Hp;
      cbn [read_operand]; eexists; (split; [reflexivity|]); cbn [denotes]; (split; [reflexivity|]);
      destruct r; try discriminate H4; reflexivity.
  - (* reg *)
    destruct Hc as [-> Hc].
    destruct a; destruct s; cbn in Hw; try discriminate Hw.
    + apply Z.eqb_eq in Hw. subst. destruct o; cbn in Hm; try discriminate Hm. apply Z.eqb_eq in Hm. subst.
      cbn in Hp. destruct upper_byte; [discriminate|].
      cbn [read_operand idx]. eexists. split; [reflexivity|]. rewrite gp_right by exact Hc. cbn. auto.
    + destruct o; cbn in Hm; try discriminate Hm. cbn [read_operand idx]. eexists. split; reflexivity.
  - (* r/m *)
    destruct Hc as [-> Hc].
    destruct a; destruct s; cbn in Hw; try discriminate Hw.
    + apply Z.eqb_eq in Hw. subst. destruct o; cbn in Hm; try discriminate Hm. apply Z.eqb_eq in Hm. subst.
      cbn in Hp. destruct upper_byte; [discriminate|].
      cbn [read_operand rmop_of]. eexists. split; [reflexivity|]. rewrite gp_right by exact Hc. cbn. auto.
    + apply andb_prop in Hw. destruct Hw as [H1 H2]. apply Z.eqb_eq in H1, H2. subst.
      destruct o; cbn in Hm; try discriminate Hm. apply Z.eqb_eq in Hm. subst.
      cbn in Hp. destruct upper_byte; [discriminate|].
      cbn [read_operand rmop_of]. eexists. split; [reflexivity|]. cbn. auto.
    + apply Z.eqb_eq in Hw. subst. destruct o; cbn in Hm; try discriminate Hm.
      * apply Z.eqb_eq in Hm. subst. cbn in Hp. destruct upper_byte; [discriminate|].
        cbn [read_operand rmop_of]. eexists. split; [reflexivity|]. rewrite gp_right by exact Hc. cbn. auto.
      * cbn in Hp. destruct index; [discriminate|]. destruct base as [b|]; [|discriminate].
        cbn [read_operand rmop_of]. eexists. split; [reflexivity|]. cbn [denotes]. split; [reflexivity|]. apply signed_cong. lia.
    + specialize (Hl Hw eq_refl). destruct o; try discriminate Hl.
      cbn in Hp. destruct index; [discriminate|]. destruct base as [b|]; [|discriminate].
      cbn [read_operand rmop_of]. eexists. split; [reflexivity|]. cbn [denotes]. split; [reflexivity|]. apply signed_cong. lia.
    + destruct o; cbn in Hm; try discriminate Hm; [cbn [read_operand rmop_of]; eexists; split; reflexivity|].
      cbn in Hp. destruct index; [discriminate|]. destruct base as [b|]; [|discriminate].
      cbn [read_operand rmop_of]. eexists. split; [reflexivity|]. cbn [denotes]. split; [reflexivity|]. apply signed_cong. lia.
    + destruct o; cbn in Hm; try discriminate Hm; [cbn [read_operand rmop_of]; eexists; split; reflexivity|].
      cbn in Hp. destruct index; [discriminate|]. destruct base as [b|]; [|discriminate].
      cbn [read_operand rmop_of]. eexists. split; [reflexivity|]. cbn [denotes]. split; [reflexivity|]. apply signed_cong. lia.
    + destruct o; cbn in Hm; try discriminate Hm; [cbn [read_operand rmop_of]; eexists; split; reflexivity|].
      cbn in Hp. destruct index; [discriminate|]. destruct base as [b|]; [|discriminate].
      cbn [read_operand rmop_of]. eexists. split; [reflexivity|]. cbn [denotes]. split; [reflexivity|]. apply signed_cong. lia.
  - (* opcode *)
    destruct Hc as [E Hc].
    destruct a; destruct s; cbn in Hw; try discriminate Hw.
    apply Z.eqb_eq in Hw. subst. destruct o; cbn in Hm; try discriminate Hm. apply Z.eqb_eq in Hm. subst.
    cbn in Hp. destruct upper_byte; [discriminate|].
    cbn [read_operand]. rewrite E. cbn [idx]. eexists. split; [reflexivity|]. rewrite gp_right by exact Hc. cbn. auto.
Qed.

Lemma mod_mod_pow v a b : 0 <= a <= b -> (v mod 2 ^ b) mod 2 ^ a = v mod 2 ^ a.
Proof.
  intros H. replace b with (a + (b - a)) by lia. rewrite Z.pow_add_r by lia.
  pose proof (Z.pow_pos_nonneg 2 a ltac:(lia) ltac:(lia)). pose proof (Z.pow_pos_nonneg 2 (b - a) ltac:(lia) ltac:(lia)).
  rewrite Z.rem_mul_r by lia. rewrite (Z.mul_comm (2 ^ a)). rewrite Z.mod_add by lia. apply Z.mod_mod. lia.
Qed.
(** A constant that fits the signed field is read back at any size. *)
Lemma short_imm n s v :
  (1 <= n <= 8)%nat -> 1 <= s <= 8 -> - 2 ^ (8 * Z.of_nat n - 1) <= signed 64 v < 2 ^ (8 * Z.of_nat n - 1) ->
  (signed (8 * Z.of_nat n) v) mod 2 ^ (8 * s) = v mod 2 ^ (8 * s).
Proof.
  intros Hn Hs H. rewrite signed_of_signed64 by (try assumption; lia).
  rewrite <- (mod_mod_pow (signed 64 v) (8 * s) 64) by lia. rewrite signed_cong by lia. apply mod_mod_pow. lia.
Qed.
Lemma read_imm sym next fr x op reg m k a s o lea n lab v tl mn :
  want lea k a s = true -> does_match o a = true -> imm_of k = Some n -> o = AImm lab v ->
  (lab = None \/ n = 4%nat \/ n = 8%nat) ->
  (a = ACC_IMM64 \/ mn <> "movabsq"%string) -> fits sym mn [o] ->
  exists d, read_operand fr x op reg m s (le_digits n (value_of sym lab v) ++ tl) = Some (d, tl) /\ denotes sym next o d.
Proof.
  intros Hw Hm Hi -> Hn Ha Hf.
  assert (exists t, s = SImm n t /\ imm_ok n t a = true) as (t & -> & Ho).
  { destruct k; cbn in Hi; try discriminate Hi; inversion Hi; subst n;
      destruct a; cbn in Hm; try discriminate Hm; destruct s; cbn in Hw; try discriminate Hw;
      apply andb_prop in Hw; destruct Hw as [H1 H2]; apply Nat.eqb_eq in H1; subst; eexists; (split; [reflexivity|exact H2]). }
  cbn [read_operand]. rewrite take_signed_digits. eexists. split; [reflexivity|]. cbn [denotes].
  unfold imm_ok in Ho. apply andb_prop in Ho. destruct Ho as [Ho Hk]. apply andb_prop in Ho. destruct Ho as [H1 H2].
  apply Z.leb_le in H1, H2.
  assert (Full : Z.of_nat n = t -> signed (8 * Z.of_nat n) (value_of sym lab v) mod 2 ^ (8 * t) = value_of sym lab v mod 2 ^ (8 * t)).
  { intros <-. apply signed_cong. lia. }
  assert (Lab : forall l', lab = Some l' -> a <> ACC_IMM64 -> signed (8 * Z.of_nat n) (value_of sym lab v) mod 2 ^ (8 * t) = value_of sym lab v mod 2 ^ (8 * t)).
  { intros l' -> Na. assert (F : - 2 ^ 31 <= sym l' + v < 2 ^ 31).
    { destruct Hf as [Hf|Hf]; [destruct Ha as [Ha|Ha]; congruence|]. apply Hf. left. reflexivity. }
    cbn [value_of].
    assert (S64 : signed 64 (sym l' + v) = sym l' + v).
    { apply signed_id; [lia|]. change (2 ^ (64 - 1)) with (2 ^ 63). assert (2 ^ 31 <= 2 ^ 63) by (apply Z.pow_le_mono_r; lia). lia. }
    destruct Hn as [Hn|[-> | ->]]; [discriminate| |].
    - apply short_imm; [lia|lia|]. rewrite S64. exact F.
    - apply short_imm; [lia|lia|]. rewrite S64. change (8 * Z.of_nat 8 - 1) with 63.
      assert (2 ^ 31 <= 2 ^ 63) by (apply Z.pow_le_mono_r; lia). lia. }
  destruct a; try discriminate Hk; cbn in Hm.
  - apply orb_prop in Hk. destruct Hk as [Hk|Hk]; [apply Full; apply Z.eqb_eq; exact Hk|]. apply Nat.eqb_eq in Hk.
    destruct lab as [l'|]; [apply (Lab l'); congruence|]. cbn [value_of]. apply andb_prop in Hm. destruct Hm as [A B].
    apply Z.leb_le in A, B. subst n. apply short_imm; [lia|lia|]. change (2 ^ (8 * Z.of_nat 1 - 1)) with 128. lia.
  - apply orb_prop in Hk. destruct Hk as [Hk|Hk]; [apply Full; apply Z.eqb_eq; exact Hk|]. apply Nat.eqb_eq in Hk.
    destruct lab as [l'|]; [apply (Lab l'); congruence|]. cbn [value_of]. apply andb_prop in Hm. destruct Hm as [A B].
    apply Z.leb_le in A, B. subst n. apply short_imm; [lia|lia|]. change (2 ^ (8 * Z.of_nat 2 - 1)) with 32768. lia.
  - apply orb_prop in Hk. destruct Hk as [Hk|Hk]; [apply Full; apply Z.eqb_eq; exact Hk|]. apply Nat.eqb_eq in Hk.
    destruct lab as [l'|]; [apply (Lab l'); congruence|]. cbn [value_of]. apply andb_prop in Hm. destruct Hm as [A B].
    apply Z.leb_le in A, B. subst n. apply short_imm; [lia|lia|]. change (2 ^ (8 * Z.of_nat 4 - 1)) with 2147483648. lia.
  - apply Full, Z.eqb_eq. exact Hk.
  - apply Full, Z.eqb_eq. exact Hk.
  - apply Full, Z.eqb_eq. exact Hk.
  - apply Full, Z.eqb_eq. exact Hk.
Qed.
Lemma read_rel sym next fr x op reg m a s o lea tl l :
  want lea OE_REL32 a s = true -> does_match o a = true -> 
  rel_label l = match o with AAbs lab _ => lab | _ => None end ->
  rel l = match o with AAbs _ v => wrap 32 v | _ => 0 end ->
  exists d, read_operand fr x op reg m s (le_digits 4 (rel_value sym next l) ++ tl) = Some (d, tl) /\ denotes sym next o d.
Proof.
  intros Hw Hm Hl Hr. destruct a; destruct s; cbn in Hw; try discriminate Hw.
  destruct o; try discriminate Hm. cbn [read_operand]. rewrite take_signed_digits. eexists. split; [reflexivity|].
  change (8 * Z.of_nat 4) with 32. unfold rel_value. rewrite Hl, Hr. cbn [denotes]. destruct label as [lab|].
  - rewrite Z.add_mod by lia. rewrite signed_cong by lia. rewrite <- Z.add_mod by lia. f_equal. lia.
  - rewrite signed_cong by lia. unfold wrap. apply Z.mod_mod. lia.
Qed.

Lemma bit3_01 i : 0 <= i < 16 -> bit3 i = 0 \/ bit3 i = 1.
Proof. revert i. apply below_16; cbn; auto. Qed.
Lemma ext4_reg i w b : 0 <= i < 16 -> ext4 (R (bits_of w (bit3 i) b)) (i mod 8) = i.
Proof. revert i. apply below_16; reflexivity. Qed.
Lemma at_i e i : row_ok e = true -> 0 <= i < 8 -> row_at e i = true.
Proof.
  intros H Hi. unfold row_ok in H. apply andb_prop in H. destruct H as [_ H].
  rewrite forallb_forall in H. apply H. 
  assert (C : i = 0 \/ i = 1 \/ i = 2 \/ i = 3 \/ i = 4 \/ i = 5 \/ i = 6 \/ i = 7) by lia.
  cbn [In]. repeat (destruct C as [->|C]; [auto 10|]). subst. auto 10.
Qed.
Lemma row_facts e : row_ok e = true ->
  form (e_encoding e) (e_accepts e) = true /\
  (has_oe e OE_MODRM_REG = true -> e_ext e = 0) /\ 0 <= e_ext e < 8 /\
  (existsb wide (e_accepts e) = true -> e_rexw e = true \/ named ["pushq"; "popq"]%string (e_mnemonic e) = true) /\
  (has_oe e OE_OPEXT = true -> named ["pushq"; "popq"; "movabsq"]%string (e_mnemonic e) = true \/ existsb wide (e_accepts e) = false) /\
  (forall x xs, e_encoding e = (x, true) :: xs -> e_mnemonic e = "imulq"%string) /\
  (e_mnemonic e = "movabsq"%string -> exists a, e_accepts e = [a; ACC_IMM64]) /\
  (has_oe e OE_OPEXT = true -> has_oe e OE_MODRM_REG = false /\ has_oe e OE_MODRM_RM = false /\ e_opcode e <> 15) /\
  (has_oe e OE_MODRM_RM = false -> e_ext e = 0) /\
  (forall a, In a (e_accepts e) -> a <> ACC_EMPTY) /\
  (forall p x n, e_encoding e = [p; (x, false)] -> imm_of x = Some n -> e_mnemonic e <> "imulq"%string).
Proof.
  intros H. unfold row_ok in H.
  apply andb_prop in H. destruct H as [H _]. apply andb_prop in H. destruct H as [H H10]. apply andb_prop in H. destruct H as [H H9]. apply andb_prop in H. destruct H as [H H11]. apply andb_prop in H. destruct H as [H H8].
  apply andb_prop in H. destruct H as [H H7]. apply andb_prop in H. destruct H as [H H6].
  apply andb_prop in H. destruct H as [H H5]. apply andb_prop in H. destruct H as [H H4].
  apply andb_prop in H. destruct H as [H H3]. apply andb_prop in H. destruct H as [H H2].
  apply andb_prop in H. destruct H as [H H1].
  split; [exact H|]. split.
  { intros E. rewrite E in H1. cbn [negb orb] in H1. apply andb_prop in H1. apply Z.eqb_eq. apply H1. }
  split; [lia|]. split.
  { intros E. rewrite E in H4. cbn [negb orb] in H4. apply orb_prop in H4. exact H4. }
  split.
  { intros E. rewrite E in H5. cbn [negb orb] in H5. apply orb_prop in H5. destruct H5 as [H5|H5]; [left; exact H5|right].
    destruct (existsb wide (e_accepts e)); [discriminate|reflexivity]. }
  split.
  { intros x xs E. rewrite E in H6. apply String.eqb_eq. exact H6. }
  split.
  { intros E. rewrite E in H7. cbn [String.eqb Ascii.eqb Bool.eqb negb] in H7.
    destruct (e_accepts e) as [|a [|b [|? ?]]]; try discriminate H7; destruct b; try discriminate H7. exists a. reflexivity. }
  split; [|split; [intros E; rewrite E in H9; apply Z.eqb_eq; exact H9|
    split; [intros a Ia ->; rewrite forallb_forall in H10; specialize (H10 _ Ia); discriminate|]]].
  2:{ intros p x n E I M. rewrite E, I, M in H11. discriminate H11. }
  intros E. rewrite E in H8. cbn [negb orb] in H8. apply andb_prop in H8. destruct H8 as [H8 N].
  apply andb_prop in H8. destruct H8 as [H8 N2].
  split; [destruct (has_oe e OE_MODRM_REG); [discriminate|reflexivity]|].
  split; [destruct (has_oe e OE_MODRM_RM); [discriminate|reflexivity]|].
  intros E15. rewrite E15 in N. discriminate N.
Qed.

Lemma modrm_of_field e l :
  0 <= e_ext e < 8 -> 0 <= modrm_reg l < 16 -> (e_ext e = 0 \/ modrm_reg l = 0) ->
  modrm_of e l = wrap 8 (Z.lor (Z.lor (Z.shiftl (if modrm_reg l =? 0 then e_ext e else modrm_reg l mod 8) 3)
     (Z.shiftl (Z.land (modrm_mod (rm l)) 3) 6)) (Z.land (modrm_rm (rm l)) 7)).
Proof.
  intros He Hr Hz. unfold modrm_of.
  assert (L : forall i, 0 <= i < 16 -> Z.land i 7 = i mod 8) by (intros; apply (low3_eq i); assumption).
  rewrite (L (e_ext e)) by lia. rewrite (L (modrm_reg l)) by lia. rewrite (Z.mod_small (e_ext e)) by lia.
  destruct (Z.eqb_spec (modrm_reg l) 0) as [E|N].
  - rewrite E. change (0 mod 8) with 0. change (Z.shiftl 0 3) with 0. rewrite Z.lor_0_r. reflexivity.
  - destruct Hz as [Hz|Hz]; [|congruence]. rewrite Hz. change (Z.shiftl 0 3) with 0. rewrite Z.lor_0_l. reflexivity.
Qed.

Lemma head_row e l o :
  row_ok e = true -> 0 <= modrm_reg l < 16 -> rex_r l = bit3 (modrm_reg l) ->
  (if has_modrm l then rm_decodes (rm l) o else rm l = rm0) ->
  (e_rexw e = true -> has_rex l = true) -> has_modrm l = has_oe e OE_MODRM_RM ->
  (has_oe e OE_MODRM_REG = false -> modrm_reg l = 0) -> (has_oe e OE_MODRM_REG = true -> has_modrm l = true) ->
  (if has_oe e OE_OPEXT then 0 <= op_ext l < 8 else op_ext l = 0) ->
  exists name ss op, same_name (e_mnemonic e) name /\ want_all (is_lea e) (listed e) ss = true /\
    (has_oe e OE_OPEXT = true -> lo3 op = op_ext l) /\
    forall tail ds tail',
      read_operands (final_rex l) (bits_of (e_rexw e) (rex_r l) (rex_b (rm l))) op (modrm_reg l)
        (if has_modrm l then Some (rmop_of o) else None) ss tail = Some (ds, tail') ->
      decode (emit_head e l ++ tail) = Some (name, ds, tail').
Proof.
  intros Hrow Hreg Hrr Hrm Hw Hm Hr0 Hrm1 Hop.
  destruct (row_facts e Hrow) as (_ & Hext & Hext8 & _ & _ & _ & _ & Hx & Hx0 & _ & _).
  set (i := if has_oe e OE_OPEXT then op_ext l else modrm_reg l mod 8).
  assert (Hi : 0 <= i < 8).
  { unfold i. destruct (has_oe e OE_OPEXT); [exact Hop|]. apply Z.mod_pos_bound. lia. }
  pose proof (at_i e i Hrow Hi) as Ha. unfold row_at in Ha. cbv zeta in Ha.
  set (op := if has_oe e OE_OPEXT then e_opcode e + i else e_opcode e) in *.
  set (ext := if has_oe e OE_MODRM_REG then i else e_ext e) in *.
  apply andb_prop in Ha. destruct Ha as [Ha A8]. apply andb_prop in Ha. destruct Ha as [Ha A7].
  apply andb_prop in Ha. destruct Ha as [Ha A6]. apply andb_prop in Ha. destruct Ha as [Ha A5].
  apply andb_prop in Ha. destruct Ha as [Ha A4]. apply andb_prop in Ha. destruct Ha as [Ha A3].
  apply andb_prop in Ha. destruct Ha as [A1 A2].
  destruct (meaning e op ext) as [[name ss]|] eqn:EM; [|discriminate].
  apply andb_prop in A8. destruct A8 as [N S]. apply same_nameb_ok in N.
  exists name, ss, (if e_opcode e =? 15 then e_op2 e else op).
  split; [exact N|]. split; [exact S|]. split.
  { intros E. destruct (Hx E) as (_ & _ & N15). destruct (Z.eqb_spec (e_opcode e) 15); [congruence|].
    rewrite E in A2. apply Z.eqb_eq in A2. rewrite A2. unfold i. rewrite E. reflexivity. }
  intros tail ds tail' HR.
  assert (Hb : rex_b (rm l) = 0 \/ rex_b (rm l) = 1).
  { destruct (has_modrm l); [apply Hrm|]. rewrite Hrm. left. reflexivity. }
  assert (Hrr' : rex_r l = 0 \/ rex_r l = 1) by (rewrite Hrr; apply bit3_01; exact Hreg).
  rewrite decode_head with (op := op).
  - assert (Fin : forall opx mf, mf = has_modrm l ->
       read_operands (final_rex l) (bits_of (e_rexw e) (rex_r l) (rex_b (rm l))) opx (modrm_reg l)
         (if has_modrm l then Some (rmop_of o) else None) ss tail = Some (ds, tail') ->
       finish (final_rex l) (bits_of (e_rexw e) (rex_r l) (rex_b (rm l))) opx mf (meaning e op)
         (if has_modrm l then modrm_of e l :: sib_disp (rm l) ++ tail else tail) = Some (name, ds, tail')).
    { intros opx mf -> HO. unfold finish. destruct (has_modrm l) eqn:EL.
      - rewrite modrm_of_field; [|exact Hext8|exact Hreg|].
        2:{ destruct (has_oe e OE_MODRM_REG); [left; apply Hext; reflexivity|right; apply Hr0; reflexivity]. }
        destruct Hrm as [_ Hrm].
        set (k := if modrm_reg l =? 0 then e_ext e else modrm_reg l mod 8).
        assert (Hk : 0 <= k < 8).
        { unfold k. destruct (modrm_reg l =? 0); [exact Hext8|]. apply Z.mod_pos_bound. lia. }
        assert (Kext : k = ext).
        { unfold k, ext, i. destruct (has_oe e OE_MODRM_REG) eqn:EG.
          - assert (EX : has_oe e OE_OPEXT = false).
            { destruct (has_oe e OE_OPEXT); [|reflexivity]. destruct (Hx eq_refl) as (Q & _). discriminate. }
            rewrite EX. destruct (Z.eqb_spec (modrm_reg l) 0) as [Z0|NZ]; [|reflexivity]. rewrite Z0. rewrite (Hext eq_refl). reflexivity.
          - rewrite (Hr0 eq_refl). reflexivity. }
        pose proof (Hrm (e_rexw e) (rex_r l) k tail Hk) as HD. cbv zeta in HD. destruct HD as [HD1 HD2].
        rewrite HD2. rewrite HD1.
        rewrite Kext, EM.
        assert (RG : ext4 (R (bits_of (e_rexw e) (rex_r l) (rex_b (rm l)))) ext = modrm_reg l
                     \/ has_oe e OE_MODRM_REG = false).
        { unfold ext, i. destruct (has_oe e OE_MODRM_REG) eqn:EG; [left|right; reflexivity].
          assert (EX : has_oe e OE_OPEXT = false).
            { destruct (has_oe e OE_OPEXT); [|reflexivity]. destruct (Hx eq_refl) as (Q & _). discriminate. }
          rewrite EX. rewrite Hrr. apply ext4_reg. exact Hreg. }
        assert (RO : forall r1 r2 shs tl, (r1 = r2 \/ forall s, In s shs -> match s with SG _ | SGX => False | _ => True end) ->
           read_operands (final_rex l) (bits_of (e_rexw e) (rex_r l) (rex_b (rm l))) opx r1 (Some (rmop_of o)) shs tl =
           read_operands (final_rex l) (bits_of (e_rexw e) (rex_r l) (rex_b (rm l))) opx r2 (Some (rmop_of o)) shs tl).
        { intros r1 r2 shs. induction shs as [|s shs IH]; intros tl C; [reflexivity|]. cbn [read_operands].
          assert (C' : r1 = r2 \/ (forall s, In s shs -> match s with SG _ | SGX => False | _ => True end)).
          { destruct C as [C|C]; [left; exact C|right; intros s' Hs'; apply C; right; exact Hs']. }
          assert (Q : read_operand (final_rex l) (bits_of (e_rexw e) (rex_r l) (rex_b (rm l))) opx r1 (Some (rmop_of o)) s tl =
                      read_operand (final_rex l) (bits_of (e_rexw e) (rex_r l) (rex_b (rm l))) opx r2 (Some (rmop_of o)) s tl).
          { destruct C as [->|C]; [reflexivity|]. specialize (C s (or_introl eq_refl)). destruct s; try reflexivity; contradiction. }
          rewrite Q. destruct (read_operand _ _ _ r2 _ s tl) as [[d tl2]|]; [|reflexivity]. rewrite (IH tl2 C'). reflexivity. }
        rewrite (RO _ (modrm_reg l)).
        + rewrite HO. reflexivity.
        + destruct RG as [RG|RG]; [left; exact RG|right].
          (* no operand in the reg field *)
          intros s Is. assert (W : forall lst shs, want_all (is_lea e) lst shs = true -> In s shs ->
             exists x a, In (x, a) lst /\ want (is_lea e) x a s = true).
          { clear. induction lst as [|[x a] lst IH]; intros [|s' shs] Hw Hin; cbn in Hw; try discriminate; try contradiction.
            apply andb_prop in Hw. destruct Hw as [Hw1 Hw2]. destruct Hin as [<-|Hin].
            - exists x, a. split; [left; reflexivity|exact Hw1].
            - destruct (IH shs Hw2 Hin) as (x' & a' & I1 & I2). exists x', a'. split; [right; exact I1|exact I2]. }
          destruct (W _ _ S Is) as (x & a & I1 & I2).
          assert (NX : x <> OE_MODRM_REG).
          { intros ->. assert (T : has_oe e OE_MODRM_REG = true); [|congruence].
            unfold has_oe. apply existsb_exists.
            assert (I3 : exists b, In (OE_MODRM_REG, b) (e_encoding e)).
            { clear - I1 Hrow. unfold listed in I1.
              pose proof (proj1 (row_facts e Hrow)) as F.
              assert (Comb : forall (xs : list (oe * bool)) (accs : list acc), In (OE_MODRM_REG, a) (combine (map fst xs) accs) -> exists b, In (OE_MODRM_REG, b) xs).
              { intros xs accs I. apply in_combine_l in I. apply in_map_iff in I. destruct I as ([q b] & E & I). cbn in E. subst q. exists b. exact I. }
              destruct (e_encoding e) as [|[x0 [|]] [|[y0 b1] [|[z0 b2] [|? ?]]]];
                try (apply Comb in I1; exact I1).
              destruct (e_accepts e) as [|a0 [|a1 [|? ?]]]; try (apply Comb in I1; exact I1).
              cbn in I1. destruct I1 as [I1|[I1|[I1|[]]]]; inversion I1; subst.
              - exists b1. right. left. reflexivity.
              - exists true. left. reflexivity.
              - exists b2. right. right. left. reflexivity. }
            destruct I3 as [b I3]. exists (OE_MODRM_REG, b). split; [exact I3|reflexivity]. }
          clear - NX I2. destruct x; destruct a; destruct s; cbn in I2; try discriminate I2; try exact I; congruence.
      - assert (E0 : ext = e_ext e).
        { unfold ext. destruct (has_oe e OE_MODRM_REG) eqn:EG; [|reflexivity]. specialize (Hrm1 eq_refl). discriminate. }
        rewrite Hm in EL. rewrite E0, (Hx0 (eq_sym Hm)) in EM. rewrite EM.
        assert (R0 : modrm_reg l = 0).
        { destruct (has_oe e OE_MODRM_REG); [specialize (Hrm1 eq_refl); discriminate|apply Hr0; reflexivity]. }
        rewrite R0 in HO. rewrite HO. reflexivity. }
    apply eqb_prop in A6. rewrite <- Hm in A6.
    destruct (e_opcode e =? 15) eqn:E15.
    + apply Fin; [exact A6|exact HR].
    + cbn [negb andb] in A7. destruct (e_f2 e || e_f3 e); [discriminate|]. apply Fin; [exact A6|exact HR].
  - exact Hrr'.
  - exact Hb.
  - exact Hw.
  - apply Z.eqb_eq in A1. rewrite <- A1. unfold i. destruct (has_oe e OE_OPEXT); [reflexivity|]. rewrite Hop. reflexivity.
  - destruct (is_prefix op); [discriminate|reflexivity].
  - destruct (between 64 79 op); [discriminate|reflexivity].
  - apply eqb_prop. exact A5.
  - intros F. rewrite F in Hrm. rewrite Hrm. repeat split; reflexivity.
Qed.

(** Reading back a list of operands, of which the last may be a constant or a jump distance. *)
Definition plainok (lea fr : bool) (x : rex_bits) (op reg : Z) (m : option rmop) (q : (oe * acc) * aop) : Prop :=
  let '((k, a), o) := q in
  does_match o a = true /\ plain_operand o = true /\ carried fr x op reg m k o /\ imm_of k = None /\ k <> OE_REL32 /\
  (lea = true -> k = OE_MODRM_RM -> is_mem o = true).
Lemma want_SM lea k a : want lea k a SM = true -> k = OE_MODRM_RM.
Proof. destruct k; destruct a; cbn; congruence. Qed.
Lemma read_list sym next lea fr x op reg m tl qs : forall ss,
  want_all lea (map fst qs) ss = true -> Forall (plainok lea fr x op reg m) qs ->
  exists ds, read_operands fr x op reg m ss tl = Some (ds, tl) /\ Forall2 (denotes sym next) (map snd qs) ds.
Proof.
  induction qs as [|[[k a] o] qs IH]; intros ss Hw Hf.
  - destruct ss; [|discriminate]. exists []. split; [reflexivity|constructor].
  - destruct ss as [|s ss]; [discriminate|]. cbn in Hw. apply andb_prop in Hw. destruct Hw as [Hw Hws].
    inversion Hf as [|? ? P Hfs]; subst. destruct P as (P1 & P2 & P3 & P4 & P5 & P6).
    destruct (read_plain sym next fr x op reg m k a s o lea tl Hw P1 P2 P3 P4 P5) as (d & R & D).
    { intros L ->. apply P6; [exact L|]. apply (want_SM _ _ _ Hw). }
    destruct (IH ss Hws Hfs) as (ds & Rs & Ds).
    exists (d :: ds). split; [cbn [read_operands]; rewrite R, Rs; reflexivity|]. constructor; assumption.
Qed.
Lemma read_list_last sym next lea fr x op reg m bytes tl k a o qs : forall ss,
  want_all lea (map fst qs ++ [(k, a)]) ss = true -> Forall (plainok lea fr x op reg m) qs ->
  (forall s, want lea k a s = true -> exists d, read_operand fr x op reg m s (bytes ++ tl) = Some (d, tl) /\ denotes sym next o d) ->
  exists ds, read_operands fr x op reg m ss (bytes ++ tl) = Some (ds, tl) /\ Forall2 (denotes sym next) (map snd qs ++ [o]) ds.
Proof.
  induction qs as [|[[k' a'] o'] qs IH]; intros ss Hw Hf Hl.
  - destruct ss as [|s [|? ?]]; cbn in Hw; try discriminate.
    + apply andb_prop in Hw. destruct Hw as [Hw _]. destruct (Hl s Hw) as (d & R & D).
      exists [d]. split; [cbn [read_operands]; rewrite R; reflexivity|]. repeat constructor. exact D.
    + rewrite andb_false_r in Hw. discriminate.
  - destruct ss as [|s ss]; [discriminate|]. cbn in Hw. apply andb_prop in Hw. destruct Hw as [Hw Hws].
    inversion Hf as [|? ? P Hfs]; subst. destruct P as (P1 & P2 & P3 & P4 & P5 & P6).
    destruct (read_plain sym next fr x op reg m k' a' s o' lea (bytes ++ tl) Hw P1 P2 P3 P4 P5) as (d & R & D).
    { intros L ->. apply P6; [exact L|]. apply (want_SM _ _ _ Hw). }
    destruct (IH ss Hws Hfs Hl) as (ds & Rs & Ds).
    exists (d :: ds). split; [cbn [read_operands]; rewrite R, Rs; reflexivity|]. cbn. constructor; assumption.
Qed.

(** Which registers may appear. *)
Lemma match_wide : forall ops accs fuel, all_match fuel ops accs = true -> length ops = length accs -> (length ops <= fuel)%nat ->
  (forall a, In a accs -> a <> ACC_EMPTY) -> existsb (reg_of_size 8) ops = true -> existsb wide accs = true.
Proof.
  induction ops as [|o ops IH]; intros [|a accs] fuel Hm Hl Hf Hn He; try discriminate.
  destruct fuel; [cbn in Hf; lia|]. cbn [all_match hd tl] in Hm. apply andb_prop in Hm. destruct Hm as [Hm Hms].
  cbn in He. apply orb_prop in He. cbn [existsb]. destruct He as [He|He].
  - assert (W : wide a = true); [|rewrite W; reflexivity]. destruct o; try discriminate He. cbn in He. apply Z.eqb_eq in He. subst.
    assert (a <> ACC_EMPTY) by (apply Hn; left; reflexivity).
    destruct a; cbn [does_match] in Hm; try discriminate Hm; try congruence; cbn [wide];
      try (apply andb_prop in Hm; destruct Hm as [Hm _]); rewrite Z.eqb_sym; exact Hm.
  - rewrite (IH accs fuel); try assumption; [apply orb_true_r|cbn in Hl; lia|cbn in Hf; lia|intros b Ib; apply Hn; right; exact Ib].
Qed.
Lemma named_sub (s : string) : named ["pushq"; "popq"]%string s = true -> named ["pushq"; "popq"; "movabsq"]%string s = true.
Proof. unfold named. cbn [existsb]. rewrite !orb_false_r. intros H. apply orb_prop in H. destruct H as [-> | ->]; rewrite ?orb_true_r; reflexivity. Qed.
Lemma registers e ops :
  row_ok e = true -> encodable (e_mnemonic e) ops = true -> all_match 4 ops (e_accepts e) = true ->
  length ops = length (e_accepts e) -> (length ops <= 4)%nat ->
  (forallb low_reg ops = true \/ existsb is_mem ops = true \/ (e_rexw e = true /\ has_oe e OE_OPEXT = false)) /\
  forallb plain_operand ops = true /\ (is_lea e = true -> existsb is_mem ops = true).
Proof.
  intros Hr He Hm Hl Hf. unfold encodable in He.
  apply andb_prop in He. destruct He as [He H4]. apply andb_prop in He. destruct He as [He H3].
  apply andb_prop in He. destruct He as [He H2].
  split; [|split; [exact He|]].
  - apply orb_prop in H2. destruct H2 as [H2|H2]; [apply orb_prop in H2; destruct H2 as [H2|H2]; auto|].
    apply andb_prop in H2. destruct H2 as [H2 N]. right. right.
    destruct (row_facts e Hr) as (_ & _ & _ & Hw & Ho & _ & _ & _ & _ & Hne & _).
    assert (W : existsb wide (e_accepts e) = true) by (apply (match_wide ops _ 4); assumption).
    split.
    + destruct (Hw W) as [Q|Q]; [exact Q|]. apply named_sub in Q. rewrite Q in N. discriminate.
    + destruct (has_oe e OE_OPEXT); [|reflexivity]. destruct (Ho eq_refl) as [Q|Q]; [rewrite Q in N; discriminate|congruence].
  - intros L. unfold is_lea in L. rewrite L in H4. cbn [andb] in H4. destruct (existsb is_mem ops); [reflexivity|discriminate].
Qed.
Lemma low_idx o : low_reg o = true -> plain_operand o = true -> idx o < 8.
Proof.
  destruct o; cbn; intros A B; lia.
Qed.

(** The eleven forms of a row. *)
Lemma form_cases xs accs : form xs accs = true ->
  (xs = [] /\ accs = []) \/
  (exists a, xs = [(OE_REL32, false)] /\ accs = [a]) \/
  (exists a, xs = [(OE_MODRM_RM, false)] /\ accs = [a]) \/
  (exists a, xs = [(OE_OPEXT, false)] /\ accs = [a]) \/
  (exists a b, xs = [(OE_MODRM_RM, false); (OE_MODRM_REG, false)] /\ accs = [a; b]) \/
  (exists a b, xs = [(OE_MODRM_REG, false); (OE_MODRM_RM, false)] /\ accs = [a; b]) \/
  (exists a b, xs = [(OE_MODRM_RM, false); (OE_NONE, false)] /\ accs = [a; b]) \/
  (exists a b x n, xs = [(OE_MODRM_RM, false); (x, false)] /\ accs = [a; b] /\ imm_of x = Some n) \/
  (exists a b x n, xs = [(OE_NONE, false); (x, false)] /\ accs = [a; b] /\ imm_of x = Some n) \/
  (exists a b x n, xs = [(OE_OPEXT, false); (x, false)] /\ accs = [a; b] /\ imm_of x = Some n) \/
  (exists a b x n, xs = [(OE_MODRM_RM, true); (OE_MODRM_REG, false); (x, false)] /\ accs = [a; b] /\ imm_of x = Some n).
Proof.
  intros H. destruct xs as [|[x0 d0] [|[x1 d1] [|[x2 d2] [|? ?]]]].
  - destruct accs; [|discriminate]. left. auto.
  - destruct accs as [|a [|? ?]]; destruct x0; destruct d0; try discriminate H.
    + right. right. left. exists a. auto.
    + right. left. exists a. auto.
    + right. right. right. left. exists a. auto.
  - destruct accs as [|a [|b [|? ?]]]; destruct x0; destruct d0; try discriminate H; destruct d1; try (destruct x1; discriminate H).
    + do 8 right. left. destruct x1; try discriminate H; eexists a, b, _, _; repeat split; reflexivity.
    + destruct x1; try discriminate H. do 5 right. left. exists a, b. auto.
    + destruct x1; try discriminate H.
      * do 6 right. left. exists a, b. auto.
      * do 4 right. left. exists a, b. auto.
      * do 7 right. left. eexists a, b, _, _; repeat split; reflexivity.
      * do 7 right. left. eexists a, b, _, _; repeat split; reflexivity.
      * do 7 right. left. eexists a, b, _, _; repeat split; reflexivity.
      * do 7 right. left. eexists a, b, _, _; repeat split; reflexivity.
    + do 9 right. left. destruct x1; try discriminate H; eexists a, b, _, _; repeat split; reflexivity.
  - destruct accs as [|a [|b [|? ?]]]; destruct x0; destruct d0; try discriminate H; destruct x1; try discriminate H;
      destruct d1; try discriminate H; destruct d2; try (destruct x2; discriminate H).
    do 10 right. destruct x2; try discriminate H; eexists a, b, _, _; repeat split; reflexivity.
  - destruct x0; destruct d0; try discriminate H; destruct x1; try discriminate H; destruct d1; try discriminate H; destruct x2, d2; discriminate H.
Qed.

Lemma mrex_has_rex o l : has_rex (mrex o l) = has_rex l || needs o. Proof. apply mrex_fields. Qed.
Lemma mrex_rex_r o l : rex_r (mrex o l) = rex_r l. Proof. apply mrex_fields. Qed.
Lemma mrex_has_modrm o l : has_modrm (mrex o l) = has_modrm l. Proof. apply mrex_fields. Qed.
Lemma mrex_modrm_reg o l : modrm_reg (mrex o l) = modrm_reg l. Proof. apply mrex_fields. Qed.
Lemma mrex_rm o l : rm (mrex o l) = rm l. Proof. apply mrex_fields. Qed.
Lemma mrex_op_ext o l : op_ext (mrex o l) = op_ext l. Proof. apply mrex_fields. Qed.
Lemma mrex_imm_size o l : imm_size (mrex o l) = imm_size l. Proof. apply mrex_fields. Qed.
Lemma mrex_imm o l : imm (mrex o l) = imm l. Proof. apply mrex_fields. Qed.
Lemma mrex_imm_label o l : imm_label (mrex o l) = imm_label l. Proof. apply mrex_fields. Qed.
Lemma mrex_has_rel32 o l : has_rel32 (mrex o l) = has_rel32 l. Proof. apply mrex_fields. Qed.
Lemma mrex_rel o l : rel (mrex o l) = rel l. Proof. apply mrex_fields. Qed.
Lemma mrex_rel_label o l : rel_label (mrex o l) = rel_label l. Proof. apply mrex_fields. Qed.
Global Hint Rewrite mrex_has_rex mrex_rex_r mrex_has_modrm mrex_modrm_reg mrex_rm mrex_op_ext mrex_imm_size mrex_imm
  mrex_imm_label mrex_has_rel32 mrex_rel mrex_rel_label : loc.
Ltac locs := repeat (first [progress autorewrite with loc | progress
  cbn [has_rex rex_r has_modrm modrm_reg rm op_ext imm_size imm imm_label has_rel32 rel rel_label
        set_rm set_reg set_op_ext set_imm set_rel locals0]]).
Lemma final_rex_has l : has_rex l = true -> final_rex l = true.
Proof. unfold final_rex. intros ->. destruct (_ || _); reflexivity. Qed.

Definition right (sym : list Z -> Z) (at_ : Z) (e : encoding) (ops : list aop) (l : locals) (len : Z) : Prop :=
  forall tail, exists name ds,
    decode ((emit_head e l ++ tail_bytes sym (at_ + len) l) ++ tail) = Some (name, ds, tail) /\ same_name (e_mnemonic e) name /\
    Forall2 (denotes sym (at_ + len)) (written ops (e_mnemonic e)) ds.

Lemma written_id ops mn : (forall r l v, ops = [r; AImm l v] -> mn <> "imulq"%string) -> written ops mn = ops.
Proof.
  intros H. unfold written. destruct ops as [|r [|p [|? ?]]]; try reflexivity; destruct p; try reflexivity.
  destruct (String.eqb_spec mn "imulq"); [|reflexivity]. exfalso. eapply H; eauto.
Qed.
