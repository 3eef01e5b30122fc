(** Proofs about the instruction encoder. *)
From Coq Require Import String.
From Verif Require Import Base X86 Object Encode EncodeSpec BytesSpec BytesProofs.
Local Open Scope Z_scope.
Local Open Scope list_scope.

(** Small numbers. *)
Lemma small_cases n (P : Z -> Prop) : (forall k, (k < n)%nat -> P (Z.of_nat k)) -> forall i, 0 <= i < Z.of_nat n -> P i.
Proof. intros H i Hi. rewrite <- (Z2Nat.id i) by lia. apply H. lia. Qed.
Lemma below_16 (P : Z -> Prop) :
  P 0 -> P 1 -> P 2 -> P 3 -> P 4 -> P 5 -> P 6 -> P 7 -> P 8 -> P 9 -> P 10 -> P 11 -> P 12 -> P 13 -> P 14 -> P 15 ->
  forall i, 0 <= i < 16 -> P i.
Proof.
  intros. assert (C : i = 0 \/ i = 1 \/ i = 2 \/ i = 3 \/ i = 4 \/ i = 5 \/ i = 6 \/ i = 7 \/ i = 8 \/ i = 9 \/ i = 10
    \/ i = 11 \/ i = 12 \/ i = 13 \/ i = 14 \/ i = 15) by lia.
  repeat (destruct C as [->|C]; [assumption|]). subst i. assumption.
Qed.
Lemma low3_eq i : 0 <= i < 16 -> low3 i = i mod 8.
Proof. revert i. apply below_16; reflexivity. Qed.
Lemma bit3_eq i : 0 <= i < 16 -> bit3 i = i / 8.
Proof. revert i. apply below_16; reflexivity. Qed.
Lemma index_number r : register_index r = number r.
Proof. destruct r; reflexivity. Qed.
Lemma number_range r : 0 <= number r < 16.
Proof. destruct r; cbn; lia. Qed.

Definition seqz (n : nat) : list Z := map Z.of_nat (seq 0 n).
Lemma in_seqz n i : 0 <= i < Z.of_nat n -> In i (seqz n).
Proof.
  intros H. unfold seqz. apply in_map_iff. exists (Z.to_nat i). split; [lia|]. apply in_seq. lia.
Qed.
Lemma modrm_byte k m r :
  0 <= k < 8 -> 0 <= m < 4 -> 0 <= r < 8 ->
  let b := wrap 8 (Z.lor (Z.lor (Z.shiftl k 3) (Z.shiftl m 6)) r) in
  hi2 b = m /\ mid3 b = k /\ lo3 b = r.
Proof.
  intros Hk Hm Hr.
  assert (H : forallb (fun k => forallb (fun m => forallb (fun r =>
     let b := wrap 8 (Z.lor (Z.lor (Z.shiftl k 3) (Z.shiftl m 6)) r) in
     (hi2 b =? m) && (mid3 b =? k) && (lo3 b =? r)) (seqz 8)) (seqz 4)) (seqz 8) = true) by (vm_compute; reflexivity).
  rewrite forallb_forall in H. specialize (H k (in_seqz 8 k ltac:(lia))). cbv beta in H.
  rewrite forallb_forall in H. specialize (H m (in_seqz 4 m ltac:(lia))). cbv beta in H.
  rewrite forallb_forall in H. specialize (H r (in_seqz 8 r ltac:(lia))). cbv beta zeta in H.
  apply andb_prop in H. destruct H as [H H3]. apply andb_prop in H. destruct H as [H1 H2].
  cbv zeta. apply Z.eqb_eq in H1, H2, H3. repeat split; assumption.
Qed.

Lemma write_le_digits n x : write_le n x = le_digits n x.
Proof.
  unfold write_le. revert x. induction n; intros x; [reflexivity|].
  cbn [seq map le_digits]. f_equal.
  { rewrite <- IHn. rewrite <- seq_shift, map_map. apply map_ext. intros k.
    unfold wrap. f_equal. change 256 with (2 ^ 8). rewrite <- Z.shiftr_div_pow2 by lia.
    rewrite Z.shiftr_shiftr by lia. f_equal. lia. }
Qed.
Lemma patch_digits n v : map (fun k => (v / 256 ^ Z.of_nat k) mod 256) (seq 0 n) = le_digits n v.
Proof.
  revert v. induction n; intros v; [reflexivity|].
  cbn [seq map le_digits]. f_equal.
  - change (256 ^ Z.of_nat 0) with 1. rewrite Z.div_1_r. reflexivity.
  - rewrite <- IHn. rewrite <- seq_shift, map_map. apply map_ext. intros k.
    rewrite Nat2Z.inj_succ, Z.pow_succ_r by lia. rewrite Z.div_div by lia. reflexivity.
Qed.
Lemma take_app n l t : length l = n -> take n (l ++ t) = Some (l, t).
Proof.
  revert l. induction n; intros [|b l] H; cbn in *; try discriminate; [reflexivity|].
  rewrite IHn by lia. reflexivity.
Qed.
Lemma take_signed_digits n v t : take_signed n (le_digits n v ++ t) = Some (signed (8 * Z.of_nat n) v, t).
Proof.
  unfold take_signed. rewrite take_app by apply le_digits_length. f_equal. f_equal.
  rewrite le_value_digits. replace (256 ^ Z.of_nat n) with (2 ^ (8 * Z.of_nat n)) by (rewrite Z.pow_mul_r by lia; reflexivity).
  unfold signed. rewrite Z.mod_mod; [reflexivity|]. pose proof (Z.pow_pos_nonneg 2 (8 * Z.of_nat n)). lia.
Qed.

(** Prefixes, REX and opcode. *)
Definition is_prefix (b : Z) : bool := (b =? 102) || (b =? 242) || (b =? 243).
Lemma decode_prefixes (a b c : bool) x t :
  is_prefix x = false ->
  decode ((if a then [102] else []) ++ (if b then [242] else []) ++ (if c then [243] else []) ++ x :: t) = decode_rex a b c (x :: t).
Proof.
  unfold is_prefix. intros H. apply orb_false_elim in H. destruct H as [H H3]. apply orb_false_elim in H. destruct H as [H1 H2].
  unfold decode. destruct a, b, c; cbn [app decode_from];
    repeat (change (102 =? 102) with true || change (242 =? 102) with false || change (242 =? 242) with true
            || change (243 =? 102) with false || change (243 =? 242) with false || change (243 =? 243) with true); cbn iota;
    cbn [decode_from]; rewrite ?H1, ?H2, ?H3; reflexivity.
Qed.
Definition bits_of (w : bool) (r b : Z) : rex_bits := {| W := w; R := r =? 1; X := false; B := b =? 1 |}.
Lemma decode_rex_byte (a b c fr w : bool) rr rb x t :
  rr = 0 \/ rr = 1 -> rb = 0 \/ rb = 1 -> (fr = false -> w = false /\ rr = 0 /\ rb = 0) -> between 64 79 x = false ->
  decode_rex a b c ((if fr then [wrap 8 (Z.lor (Z.lor (Z.lor 64 (if w then 8 else 0)) rb) (Z.shiftl rr 2))] else []) ++ x :: t)
  = decode_opcode a b c fr (bits_of w rr rb) (x :: t).
Proof.
  intros Hr Hb Hf Hx. destruct fr.
  - cbn [app decode_rex].
    destruct w; destruct Hr as [-> | ->]; destruct Hb as [-> | ->]; reflexivity.
  - destruct (Hf eq_refl) as (-> & -> & ->). cbn [app decode_rex]. rewrite Hx. reflexivity.
Qed.

(** The meaning of a row's opcode byte [op] for a reg field [ext]. *)
Definition prefix_of (e : encoding) : mandatory := if e_f3 e then PF3 else if e_f2 e then PF2 else if e_66 e then P66 else PNone.
Definition meaning (e : encoding) (op ext : Z) : option (string * list shape) :=
  if e_opcode e =? 15 then two_byte (prefix_of e) (e_rexw e) (e_op2 e) ext
  else if e_f2 e || e_f3 e then None else one_byte (e_66 e) (e_rexw e) op ext.
Definition opcode_modrm (e : encoding) : bool := if e_opcode e =? 15 then has_modrm2 (e_op2 e) else has_modrm1 (e_opcode e).
Definition final_op (e : encoding) (op : Z) : Z := if e_opcode e =? 15 then e_op2 e else op.

Definition modrm_of (e : encoding) (l : locals) : Z :=
  wrap 8 (Z.lor (Z.lor (Z.lor (Z.shiftl (Z.land (e_ext e) 7) 3) (Z.shiftl (Z.land (modrm_reg l) 7) 3))
                              (Z.shiftl (Z.land (modrm_mod (rm l)) 3) 6)) (Z.land (modrm_rm (rm l)) 7)).
Definition sib_disp (m : rmf) : list Z :=
  (if has_sib m then [wrap 8 (Z.lor (Z.shiftl (Z.land (sib_index m) 7) 3) (Z.land (sib_base m) 7))] else []) ++
  (if has_disp8 m then write_le 1 (disp m) else if has_disp32 m then write_le 4 (disp m) else []).

Lemma decode_head e l op tail :
  rex_r l = 0 \/ rex_r l = 1 -> rex_b (rm l) = 0 \/ rex_b (rm l) = 1 ->
  (e_rexw e = true -> has_rex l = true) ->
  wrap 8 (Z.lor (e_opcode e) (op_ext l)) = op ->
  is_prefix op = false -> between 64 79 op = false ->
  (op =? 15) = (e_opcode e =? 15) ->
  (has_modrm l = false -> has_sib (rm l) = false /\ has_disp8 (rm l) = false /\ has_disp32 (rm l) = false) ->
  decode (emit_head e l ++ tail) =
  (if e_opcode e =? 15 then
     finish (final_rex l) (bits_of (e_rexw e) (rex_r l) (rex_b (rm l))) (e_op2 e) (has_modrm2 (e_op2 e)) (meaning e op)
            (if has_modrm l then modrm_of e l :: sib_disp (rm l) ++ tail else tail)
   else if e_f2 e || e_f3 e then None
   else finish (final_rex l) (bits_of (e_rexw e) (rex_r l) (rex_b (rm l))) op (has_modrm1 op) (meaning e op)
            (if has_modrm l then modrm_of e l :: sib_disp (rm l) ++ tail else tail)).
Proof.
  intros Hr Hb Hw Hop Hp H64 H15 Hm.
  assert (Hf : final_rex l = false -> e_rexw e = false /\ rex_r l = 0 /\ rex_b (rm l) = 0).
  { unfold final_rex. destruct Hr as [Hr|Hr], Hb as [Hb|Hb]; rewrite Hr, Hb; cbn; intros F; try discriminate.
    repeat split. destruct (e_rexw e); [|reflexivity]. rewrite Hw in F by reflexivity. discriminate. }
  set (rest := (if e_opcode e =? 15 then [e_op2 e] else []) ++ (if has_modrm l then modrm_of e l :: sib_disp (rm l) ++ tail else tail)).
  assert (E : emit_head e l ++ tail =
    (if e_66 e then [102] else []) ++ (if e_f2 e then [242] else []) ++ (if e_f3 e then [243] else []) ++
    ((if final_rex l then [wrap 8 (Z.lor (Z.lor (Z.lor 64 (if e_rexw e then 8 else 0)) (rex_b (rm l))) (Z.shiftl (rex_r l) 2))] else []) ++
     op :: rest)).
  { unfold emit_head, rest. rewrite Hop. rewrite <- !app_assoc. do 4 f_equal. cbn [app]. f_equal. rewrite <- ?app_assoc.
    f_equal. destruct (has_modrm l).
    - cbn [app]. unfold modrm_of. f_equal. unfold sib_disp. rewrite <- ?app_assoc. reflexivity.
    - destruct (Hm eq_refl) as (-> & -> & ->). reflexivity. }
  rewrite E.
  assert (P : decode ((if e_66 e then [102] else []) ++ (if e_f2 e then [242] else []) ++ (if e_f3 e then [243] else []) ++
    ((if final_rex l then [wrap 8 (Z.lor (Z.lor (Z.lor 64 (if e_rexw e then 8 else 0)) (rex_b (rm l))) (Z.shiftl (rex_r l) 2))] else []) ++
     op :: rest)) = decode_rex (e_66 e) (e_f2 e) (e_f3 e)
     ((if final_rex l then [wrap 8 (Z.lor (Z.lor (Z.lor 64 (if e_rexw e then 8 else 0)) (rex_b (rm l))) (Z.shiftl (rex_r l) 2))] else []) ++
     op :: rest)).
  { destruct (final_rex l) eqn:F; cbn [app]; apply decode_prefixes; [|assumption].
    destruct (e_rexw e); destruct Hr as [-> | ->]; destruct Hb as [-> | ->]; reflexivity. }
  rewrite P. rewrite decode_rex_byte by assumption.
  unfold decode_opcode. rewrite H15. unfold rest.
  destruct (e_opcode e =? 15) eqn:E15.
  - cbn [app]. unfold meaning. rewrite E15. unfold prefix_of. reflexivity.
  - destruct (e_f2 e || e_f3 e) eqn:F; [reflexivity|]. unfold meaning. rewrite E15, F. reflexivity.
Qed.

(** The r/m operand. *)
Definition rmop_of (o : aop) : rmop :=
  match o with
  | AReg r _ _ | AStar r _ _ => RmReg (number r)
  | ASse x => RmReg x
  | AMem _ (Some b) _ offset => RmMem (number b) (signed 64 offset)
  | _ => RmReg 0
  end.
Definition rm_decodes (m : rmf) (o : aop) : Prop :=
  (rex_b m = 0 \/ rex_b m = 1) /\
  forall w r k tail, 0 <= k < 8 ->
    let b := wrap 8 (Z.lor (Z.lor (Z.shiftl k 3) (Z.shiftl (Z.land (modrm_mod m) 3) 6)) (Z.land (modrm_rm m) 7)) in
    mid3 b = k /\ read_rm (bits_of w r (rex_b m)) b (sib_disp m ++ tail) = Some (rmop_of o, tail).

Lemma register_decodes (hr : bool) i :
  0 <= i < 16 -> hr = true \/ i < 8 ->
  forall m, m = {| modrm_mod := 3; modrm_rm := i; rex_b := if hr then bit3 i else 0;
     rex_x := 0; disp := 0; has_disp8 := false; has_disp32 := false; has_sib := false; sib_index := 0; sib_base := 0 |} ->
  forall o, rmop_of o = RmReg i -> rm_decodes m o.
Proof.
  intros Hi Hh m -> o Ho.
  assert (Hb : (if hr then bit3 i else 0) = i / 8).
  { destruct hr; [apply bit3_eq; exact Hi|]. destruct Hh as [Hh|Hh]; [discriminate|]. symmetry. apply Z.div_small. lia. }
  unfold rm_decodes. cbn [rex_b modrm_mod modrm_rm sib_disp has_sib has_disp8 has_disp32]. rewrite Hb. split.
  - destruct (Z.lt_ge_cases i 8); [left; apply Z.div_small; lia|right].
    symmetry. apply Z.div_unique with (r := i - 8); lia.
  - intros w r k tail Hk. change (Z.land i 7) with (low3 i). rewrite low3_eq by exact Hi.
    change (Z.land 3 3) with 3. cbv zeta.
    pose proof (modrm_byte k 3 (i mod 8) Hk ltac:(lia) (Z.mod_pos_bound i 8 ltac:(lia))) as M. cbv zeta in M.
    destruct M as (M1 & M2 & M3). split; [exact M2|]. unfold read_rm. rewrite M1. cbn iota. change (3 =? 3) with true. cbv iota.
    rewrite M3, Ho. unfold sib_disp. cbn [has_sib has_disp8 has_disp32 app]. do 3 f_equal.
    unfold ext4, bits_of, B.
    destruct (Z.lt_ge_cases i 8).
    + rewrite Z.div_small by lia. cbn. apply Z.mod_small. lia.
    + replace (i / 8) with 1 by (apply Z.div_unique with (r := i - 8); lia). cbn.
      replace (i mod 8) with (i - 8) by (apply Z.mod_unique with (q := 1); lia). lia.
Qed.

Lemma signed64_zero v : signed 64 v = 0 <-> v mod 2 ^ 64 = 0.
Proof.
  unfold signed. cbv zeta. pose proof (Z.mod_pos_bound v (2 ^ 64) ltac:(lia)) as B.
  destruct (Z.ltb_spec (v mod 2 ^ 64) (2 ^ (64 - 1))); [tauto|]. split; intros; [lia|].
  change (2 ^ (64 - 1)) with 9223372036854775808 in *. lia.
Qed.
Lemma signed_of_signed64 w v : 0 < w <= 64 -> - 2 ^ (w - 1) <= signed 64 v < 2 ^ (w - 1) -> signed w v = signed 64 v.
Proof.
  intros Hw H. rewrite <- (signed_id w (signed 64 v)) by (try assumption; lia).
  assert (E : v mod 2 ^ w = (signed 64 v) mod 2 ^ w).
  { pose proof (signed_cong 64 v ltac:(lia)) as C.
    assert (D : (2 ^ w | 2 ^ 64)).
    { exists (2 ^ (64 - w)). rewrite <- Z.pow_add_r by lia. f_equal. lia. }
    assert (Q : forall a, a mod 2 ^ w = (a mod 2 ^ 64) mod 2 ^ w).
    { intros a. destruct D as [q D]. rewrite D. rewrite (Z.mul_comm q). pose proof (Z.pow_pos_nonneg 2 w ltac:(lia) ltac:(lia)).
      assert (0 < q) by (pose proof (Z.pow_pos_nonneg 2 64 ltac:(lia) ltac:(lia)); nia).
      rewrite Z.rem_mul_r by lia. rewrite (Z.mul_comm (2 ^ w)). rewrite Z.mod_add by lia. rewrite Z.mod_mod by lia. reflexivity. }
    rewrite (Q v), (Q (signed 64 v)), C. reflexivity. }
  unfold signed at 1 2. rewrite E. reflexivity.
Qed.

Ltac mem_case k HK md rmv :=
  let M := fresh "M" in
  pose proof (modrm_byte k md rmv HK ltac:(lia) ltac:(lia)) as M; cbv zeta in M;
  let M1 := fresh "M1" in let M2 := fresh "M2" in let M3 := fresh "M3" in
  destruct M as (M1 & M2 & M3); split; [exact M2|];
  unfold read_rm; rewrite M1, M3.

Theorem memory_operand b offset m sc :
  encode_sib None (Some b) offset rm0 = Ok m ->
  ~ (offset mod 2 ^ 64 = 0 /\ (b = RBP \/ b = R_13)) ->
  rm_decodes m (AMem None (Some b) sc offset).
Proof.
  intros H Hn. unfold encode_sib in H. unfold get_disp_size in H.
  destruct (Z.eqb_spec (signed 64 offset) 0) as [Z0|N0].
  - cbn [bind] in H. change (0 =? 0) with true in H. cbv iota in H.
    apply signed64_zero in Z0.
    assert (b <> RBP /\ b <> R_13) as [B1 B2] by (split; intros ->; apply Hn; split; auto).
    assert (S0 : signed 64 offset = 0) by (apply signed64_zero; exact Z0).
    unfold rm_decodes, rmop_of. rewrite S0.
    destruct b; try congruence; cbn - [Z.shiftl Z.lor wrap read_rm mid3] in H; inversion H; subst m; clear H;
      (split; [cbn; auto|]); intros w r k tail HK; cbn [modrm_mod modrm_rm rex_b sib_disp has_sib has_disp8 has_disp32 sib_index sib_base];
      cbv zeta;
      match goal with
      | |- context [Z.land ?md 3] => change (Z.land md 3) with 0
      end;
      match goal with
      | |- context [Z.lor _ (Z.land ?r 7)] => let v := eval vm_compute in (Z.land r 7) in change (Z.land r 7) with v; mem_case k HK 0 v
      end; reflexivity.
  - destruct ((-128 <=? signed 64 offset) && (signed 64 offset <=? 127)) eqn:D8.
    + apply andb_prop in D8. destruct D8 as [D1 D2]. apply Z.leb_le in D1, D2.
      assert (S8 : signed 8 offset = signed 64 offset) by (apply signed_of_signed64; lia).
      cbn [bind] in H. change (1 =? 0) with false in H. change (1 <=? 1) with true in H. cbv iota in H.
      unfold rm_decodes, rmop_of.
      destruct b; cbn - [Z.shiftl Z.lor wrap read_rm mid3] in H; inversion H; subst m; clear H;
      (split; [cbn; auto|]); intros w r k tail HK; cbv zeta; cbn [modrm_mod modrm_rm rex_b];
      match goal with
      | |- context [Z.land ?md 3] => change (Z.land md 3) with 1
      end;
      match goal with
      | |- context [Z.lor _ (Z.land ?r 7)] => let v := eval vm_compute in (Z.land r 7) in change (Z.land r 7) with v; mem_case k HK 1 v
      end; unfold sib_disp; cbn [has_sib has_disp8 has_disp32 sib_index sib_base disp app];
      change (1 =? 3) with false; cbv iota;
      rewrite write_le_digits; unfold take_disp; change (1 =? 0) with false; change (1 =? 1) with true; cbn [andb]; cbv iota;
      try (change (4 =? 4) with true; cbv iota;
           change (mid3 (wrap 8 (Z.lor (Z.shiftl (Z.land 4 7) 3) (Z.land 4 7)))) with 4;
           change (lo3 (wrap 8 (Z.lor (Z.shiftl (Z.land 4 7) 3) (Z.land 4 7)))) with 4;
           change (negb (ext4 (X (bits_of w r 0)) 4 =? 4)) with false; change (negb (ext4 (X (bits_of w r 1)) 4 =? 4)) with false; cbv iota);
      rewrite take_signed_digits; change (8 * Z.of_nat 1) with 8; rewrite S8; reflexivity.
    + destruct ((-2147483648 <=? signed 64 offset) && (signed 64 offset <=? 2147483647)) eqn:D32; [|discriminate].
      apply andb_prop in D32. destruct D32 as [D1 D2]. apply Z.leb_le in D1, D2.
      assert (S8 : signed 32 offset = signed 64 offset) by (apply signed_of_signed64; [lia|]; change (2 ^ (32 - 1)) with 2147483648; lia).
      cbn [bind] in H. change (4 =? 0) with false in H. change (4 <=? 1) with false in H. change (4 <=? 4) with true in H. cbv iota in H.
      unfold rm_decodes, rmop_of.
      destruct b; cbn - [Z.shiftl Z.lor wrap read_rm mid3] in H; inversion H; subst m; clear H;
      (split; [cbn; auto|]); intros w r k tail HK; cbv zeta; cbn [modrm_mod modrm_rm rex_b];
      match goal with
      | |- context [Z.land ?md 3] => change (Z.land md 3) with 2
      end;
      match goal with
      | |- context [Z.lor _ (Z.land ?r 7)] => let v := eval vm_compute in (Z.land r 7) in change (Z.land r 7) with v; mem_case k HK 2 v
      end; unfold sib_disp; cbn [has_sib has_disp8 has_disp32 sib_index sib_base disp app];
      change (2 =? 3) with false; cbv iota;
      rewrite write_le_digits; unfold take_disp; change (2 =? 0) with false; change (2 =? 1) with false; cbn [andb]; cbv iota;
      try (change (4 =? 4) with true; cbv iota;
           change (mid3 (wrap 8 (Z.lor (Z.shiftl (Z.land 4 7) 3) (Z.land 4 7)))) with 4;
           change (lo3 (wrap 8 (Z.lor (Z.shiftl (Z.land 4 7) 3) (Z.land 4 7)))) with 4;
           change (negb (ext4 (X (bits_of w r 0)) 4 =? 4)) with false; change (negb (ext4 (X (bits_of w r 1)) 4 =? 4)) with false; cbv iota);
      rewrite take_signed_digits; change (8 * Z.of_nat 4) with 32; rewrite S8; reflexivity.
Qed.
