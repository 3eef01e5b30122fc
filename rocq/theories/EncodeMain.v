(** Proofs about the instruction encoder: choosing a row; nothing undefined. *)
From Coq Require Import String.
From Verif Require Import Base X86 Object Encode EncodeSpec BytesSpec BytesProofs EncodeProofs EncodeRows EncodeRight EncodeForms.
Local Open Scope Z_scope.
Local Open Scope list_scope.

(** The chosen encoding is that of a row whose mnemonic and operands match. *)
Lemma rows_choose mn ops rows : forall best out,
  assemble_rows rows mn ops best = Ok out ->
  out = best \/ exists e r, In e rows /\ e_mnemonic e = mn /\ all_match 4 ops (e_accepts e) = true /\
    assemble_encoding e ops = Ok r /\ out = Some r.
Proof.
  induction rows as [|e rows IH]; intros best out H; cbn [assemble_rows] in H.
  - left. congruence.
  - destruct (String.eqb_spec (e_mnemonic e) mn) as [Em|Em]; cbn [negb] in H.
    2:{ destruct (IH _ _ H) as [?|(e' & r & I & Q)]; [auto|right; exists e', r; split; [right; exact I|exact Q]]. }
    destruct (all_match 4 ops (e_accepts e)) eqn:Ma; cbn [negb] in H.
    2:{ destruct (IH _ _ H) as [?|(e' & r & I & Q)]; [auto|right; exists e', r; split; [right; exact I|exact Q]]. }
    destruct (assemble_encoding e ops) as [r| |] eqn:Ea; try discriminate H. cbn [bind] in H.
    destruct (IH _ _ H) as [Q|(e' & r' & I & Q)].
    + destruct (_ <? _)%nat; [|left; exact Q]. right. exists e, r. split; [left; reflexivity|]. auto.
    + right. exists e', r'. split; [right; exact I|exact Q].
Qed.

Lemma bad_row_size : forallb (fun e => negb (bad_row e) ||
  match e_accepts e with a :: _ => match a with ACC_REG s | ACC_RAX s => s =? 4 | _ => false end | _ => false end) encodings = true.
Proof. vm_compute. reflexivity. Qed.
Lemma row_of e ops mn :
  In e encodings -> e_mnemonic e = mn -> all_match 4 ops (e_accepts e) = true -> encodable mn ops = true -> row_ok e = true.
Proof.
  intros I Em Ma He. pose proof table_ok as T. rewrite forallb_forall in T. specialize (T e I).
  apply orb_prop in T. destruct T as [T|T]; [exfalso|exact T].
  pose proof bad_row_size as S. rewrite forallb_forall in S. specialize (S e I). rewrite T in S. cbn [negb orb] in S.
  assert (Add : mn = "addq"%string).
  { unfold bad_row in T. apply andb_prop in T. destruct T as [T _]. apply String.eqb_eq in T. congruence. }
  unfold encodable in He. apply andb_prop in He. destruct He as [He _]. apply andb_prop in He. destruct He as [_ He].
  rewrite Add in He. change (named ["addq"%string] "addq") with true in He. cbn [andb] in He.
  destruct (e_accepts e) as [|a accs]; [discriminate|].
  cbn [all_match hd tl] in Ma. apply andb_prop in Ma. destruct Ma as [Ma _].
  destruct ops as [|o ops]; cbn [hd] in Ma; [destruct a; discriminate|].
  cbn [existsb] in He.
  destruct a; try discriminate S; apply Z.eqb_eq in S; subst size; destruct o; cbn [does_match] in Ma; try discriminate Ma;
    cbn [reg_of_size] in He; try (apply andb_prop in Ma; destruct Ma as [Ma _]); rewrite Ma in He; discriminate He.
Qed.

(** Never more than 15 bytes, nothing undefined. *)
Definition cost (x : oe) : nat :=
  match x with OE_MODRM_RM => 6 | OE_IMM8 => 1 | OE_IMM16 => 2 | OE_IMM32 => 4 | OE_IMM64 => 8 | OE_REL32 => 4 | _ => 0 end.
Definition cap (xs : list (oe * bool)) : nat := fold_right (fun p n => (cost (fst p) + n)%nat) 0%nat xs.
Definition fixed (e : encoding) : nat :=
  ((if e_66 e then 1 else 0) + (if e_f2 e then 1 else 0) + (if e_f3 e then 1 else 0) + 1 + 1 + (if (e_opcode e =? 15)%Z then 1 else 0))%nat.
Definition reg_first (e : encoding) : bool :=
  match e_encoding e with
  | (OE_OPEXT, d) :: xs => negb d && match e_accepts e with ACC_REG _ :: _ => true | _ => false end &&
      forallb (fun p => match fst p with OE_OPEXT => false | _ => true end) xs
  | xs => forallb (fun p => match fst p with OE_OPEXT => false | _ => true end) xs
  end.
Lemma table_short : forallb (fun e => (fixed e + cap (e_encoding e) <=? 15)%nat && reg_first e) encodings = true.
Proof. vm_compute. reflexivity. Qed.

Definition room (l : locals) : nat := ((if has_modrm l then 6 else 0) + imm_size l + (if has_rel32 l then 4 else 0))%nat.
Definition tidy (l : locals) : Prop := has_modrm l = false -> has_sib (rm l) = false /\ has_disp8 (rm l) = false /\ has_disp32 (rm l) = false.
Lemma one_room e o x l l' : one_operand e o x l = Ok l' -> tidy l -> (room l' <= room l + cost x)%nat /\ tidy l'.
Proof.
  intros H T. unfold one_operand in H. destruct (negb _); [discriminate|]. cbv zeta in H. fold (mrex o l) in H.
  assert (R : room (mrex o l) = room l) by (unfold room; locs; reflexivity).
  assert (T' : tidy (mrex o l)) by (unfold tidy in *; locs; exact T).
  revert H R T'. generalize (mrex o l) as k. intros k H R T'. rewrite <- R.
  destruct x.
  - injection H as <-. cbn [cost]. split; [lia|exact T'].
  - injection H as <-. cbn [cost]. split; [lia|exact T'].
  - assert (S : exists i, l' = set_reg k i) by (destruct o; try discriminate H; destruct (e_slash_r e); try discriminate H; injection H as <-; eauto).
    destruct S as [i ->]. split; [unfold room; cbn; lia|exact T'].
  - assert (S : exists m, l' = set_rm k m).
    { destruct o; try discriminate H; try (injection H as <-; eauto).
      destruct (encode_sib _ _ _ _) as [m| |]; try discriminate H. cbn [bind] in H. injection H as <-. eauto. }
    destruct S as [m ->]. split; [unfold room; cbn; destruct (has_modrm k); lia|]. intros Q. discriminate Q.
  - injection H as <-. split; [unfold room; cbn; lia|exact T'].
  - injection H as <-. split; [unfold room; cbn; lia|exact T'].
  - injection H as <-. split; [unfold room; cbn; lia|exact T'].
  - injection H as <-. split; [unfold room; cbn; lia|exact T'].
  - injection H as <-. split; [unfold room; cbn; lia|exact T'].
  - assert (S : exists i, l' = set_op_ext k i) by (destruct o; try discriminate H; injection H as <-; eauto).
    destruct S as [i ->]. split; [unfold room; cbn; lia|exact T'].
Qed.
Lemma loop_room e : forall fuel ops xs l l', operand_loop fuel e ops xs l = Ok l' -> tidy l -> (room l' <= room l + cap xs)%nat /\ tidy l'.
Proof.
  induction fuel as [|fuel IH]; intros ops xs l l' H T; cbn [operand_loop] in H.
  - injection H as <-. split; [lia|exact T].
  - destruct xs as [|[x d] xs]; cbn [hd tl] in H.
    + destruct (one_operand e (hd AEmpty ops) OE_EMPTY l) as [l1| |] eqn:E1; try discriminate H. cbn [bind] in H.
      destruct (one_room _ _ _ _ _ E1 T) as [R1 T1]. destruct (IH _ _ _ _ H T1) as [R2 T2]. cbn in *. split; [lia|exact T2].
    + destruct (one_operand e (hd AEmpty ops) x l) as [l1| |] eqn:E1; try discriminate H. cbn [bind] in H.
      destruct (one_room _ _ _ _ _ E1 T) as [R1 T1]. destruct (IH _ _ _ _ H T1) as [R2 T2]. cbn [cap fold_right fst] in *.
      fold (cap xs). split; [lia|exact T2].
Qed.
Lemma write_le_length n x : length (write_le n x) = n.
Proof. unfold write_le. rewrite map_length, seq_length. reflexivity. Qed.
Lemma emit_short e l : tidy l -> (length (fst (emit e l)) <= fixed e + room l)%nat.
Proof.
  intros T.
  assert (Hh : (length (emit_head e l) <= fixed e + (if has_modrm l then 6 else 0))%nat).
  { unfold emit_head, fixed. rewrite !app_length.
    destruct (has_modrm l) eqn:Hm.
    - destruct (e_66 e), (e_f2 e), (e_f3 e), (final_rex l), (e_opcode e =? 15), (has_sib (rm l)), (has_disp8 (rm l)), (has_disp32 (rm l));
        cbn [length]; rewrite ?write_le_length; cbn [length]; lia.
    - destruct (T Hm) as (A & B & C). rewrite A, B, C.
      destruct (e_66 e), (e_f2 e), (e_f3 e), (final_rex l), (e_opcode e =? 15); cbn [length]; lia. }
  unfold emit, room. destruct (imm_size l) as [|n].
  - destruct (has_rel32 l); cbn [fst]; rewrite ?app_length, ?write_le_length; cbn [length]; lia.
  - destruct (imm_label l); destruct (has_rel32 l); cbn [fst]; rewrite ?app_length, ?write_le_length; lia.
Qed.
Lemma one_defined e o x l : (x = OE_OPEXT -> exists r u s, o = AReg r u s) -> one_operand e o x l <> Undef.
Proof.
  intros H. unfold one_operand. destruct (negb _); [discriminate|]. cbv zeta. destruct x; try discriminate.
  - destruct o; try discriminate; destruct (e_slash_r e); discriminate.
  - destruct o; try discriminate. unfold encode_sib, get_disp_size.
    destruct (signed 64 offset =? 0); [|destruct (_ && _); [|destruct (_ && _)]]; cbn [bind]; try discriminate.
    + destruct index as [i|], base as [b|]; try discriminate.
      * change (0 =? 0) with true. cbv iota. destruct (reg_eqb i RSP); [discriminate|]. destruct (_ || _); discriminate.
      * change (0 =? 0) with true. cbv iota. destruct (_ || _); [discriminate|]. destruct (_ || _); discriminate.
    + destruct index as [i|], base as [b|]; try discriminate.
      change (1 =? 0) with false. change (1 <=? 1) with true. cbv iota. destruct (_ || _); discriminate.
    + destruct index as [i|], base as [b|]; try discriminate.
      change (4 =? 0) with false. change (4 <=? 1) with false. change (4 <=? 4) with true. cbv iota. destruct (_ || _); discriminate.
  - destruct (H eq_refl) as (r & u & s & ->). discriminate.
Qed.
Lemma loop_defined e : forall fuel ops xs l,
  forallb (fun p => match fst p with OE_OPEXT => false | _ => true end) xs = true -> operand_loop fuel e ops xs l <> Undef.
Proof.
  induction fuel as [|fuel IH]; intros ops xs l H; cbn [operand_loop]; [discriminate|].
  destruct xs as [|[x d] xs]; cbn [hd tl forallb fst] in *.
  - pose proof (one_defined e (hd AEmpty ops) OE_EMPTY l ltac:(discriminate)) as N.
    destruct (one_operand e (hd AEmpty ops) OE_EMPTY l); cbn [bind]; try congruence. apply IH. reflexivity.
  - apply andb_prop in H. destruct H as [Hx Hs].
    assert (N : one_operand e (hd AEmpty ops) x l <> Undef) by (apply one_defined; intros ->; discriminate).
    destruct (one_operand e (hd AEmpty ops) x l); cbn [bind]; try congruence. apply IH. exact Hs.
Qed.
Lemma encoding_defined e ops : In e encodings -> all_match 4 ops (e_accepts e) = true -> assemble_encoding e ops <> Undef.
Proof.
  intros I M. pose proof table_short as T. rewrite forallb_forall in T. specialize (T e I). apply andb_prop in T. destruct T as [T F].
  apply Nat.leb_le in T. unfold assemble_encoding.
  assert (D : operand_loop 4 e ops (e_encoding e) (locals0 e) <> Undef).
  { unfold reg_first in F. destruct (e_encoding e) as [|[x d] xs] eqn:Ex; [apply loop_defined; reflexivity|].
    assert (C : x = OE_OPEXT \/ forallb (fun p => match fst p with OE_OPEXT => false | _ => true end) ((x, d) :: xs) = true).
    { destruct x; auto. }
    destruct C as [-> | C]; [|apply loop_defined; exact C].
    apply andb_prop in F. destruct F as [F F3]. apply andb_prop in F. destruct F as [F1 F2].
    destruct d; [discriminate|]. destruct (e_accepts e) as [|[] accs]; try discriminate F2.
    cbn [all_match hd tl] in M. apply andb_prop in M. destruct M as [M _].
    destruct ops as [|o ops]; [discriminate|]. cbn [hd] in M. destruct o; try discriminate M.
    change (operand_loop 4 e (AReg r upper_byte size0 :: ops) ((OE_OPEXT, false) :: xs) (locals0 e)) with
      (bind (one_operand e (AReg r upper_byte size0) OE_OPEXT (locals0 e)) (fun l => operand_loop 3 e ops xs l)).
    pose proof (one_defined e (AReg r upper_byte size0) OE_OPEXT (locals0 e) ltac:(eauto)) as N.
    destruct (one_operand e (AReg r upper_byte size0) OE_OPEXT (locals0 e)); cbn [bind]; try congruence.
    apply loop_defined. exact F3. }
  destruct (operand_loop 4 e ops (e_encoding e) (locals0 e)) as [l| |] eqn:El; cbn [bind]; try congruence.
  destruct (loop_room _ _ _ _ _ _ El) as [R Ti]; [intros _; repeat split; reflexivity|].
  pose proof (emit_short e l Ti) as S. change (room (locals0 e)) with 0%nat in R.
  destruct (Nat.leb_spec (length (fst (emit e l))) 15); [discriminate|]. lia.
Qed.
Lemma rows_defined mn ops rows : (forall e, In e rows -> In e encodings) -> forall best, assemble_rows rows mn ops best <> Undef.
Proof.
  induction rows as [|e rows IH]; intros Sub best; cbn [assemble_rows]; [discriminate|].
  destruct (negb _); [apply IH; intros; apply Sub; right; assumption|].
  destruct (all_match 4 ops (e_accepts e)) eqn:M; cbn [negb]; [|apply IH; intros; apply Sub; right; assumption].
  pose proof (encoding_defined e ops (Sub e (or_introl eq_refl)) M) as N.
  destruct (assemble_encoding e ops); cbn [bind]; try congruence. apply IH. intros; apply Sub; right; assumption.
Qed.

(** The result of a row. *)
Lemma head_tail_length sym next e l out relocs : emit e l = (out, relocs) -> length (emit_head e l ++ tail_bytes sym next l) = length out.
Proof.
  intros H. unfold emit in H. unfold tail_bytes. rewrite !app_length, le_digits_length.
  assert (L : length (if has_rel32 l then le_digits 4 (rel_value sym next l) else []) = if has_rel32 l then 4%nat else 0%nat)
    by (destruct (has_rel32 l); [apply le_digits_length|reflexivity]).
  rewrite L. destruct (imm_size l) as [|n].
  - destruct (has_rel32 l); injection H as <- _; rewrite ?app_length, ?write_le_length; cbn [length]; lia.
  - destruct (imm_label l); destruct (has_rel32 l); injection H as <- _; rewrite ?app_length, ?write_le_length; lia.
Qed.
Lemma form_exclusive e ops l : row_ok e = true -> operand_loop 4 e ops (e_encoding e) (locals0 e) = Ok l -> forallb plain_operand ops = true ->
  imm_size l = 0%nat \/ has_rel32 l = false.
Proof.
  intros Hr HL P. destruct (row_facts e Hr) as (F & _). apply form_cases in F.
  assert (K : forall o x k l', one_operand e o x k = Ok l' -> x <> OE_REL32 -> has_rel32 l' = has_rel32 k).
  { intros o x k l' H N. unfold one_operand in H. destruct (negb _); [discriminate|]. cbv zeta in H. fold (mrex o k) in H.
    assert (R : has_rel32 (mrex o k) = has_rel32 k) by (locs; reflexivity).
    revert H R. generalize (mrex o k) as k'. intros k' H R. rewrite <- R.
    destruct x; try congruence; try (injection H as <-; reflexivity).
    - destruct o; try discriminate H; destruct (e_slash_r e); try discriminate H; injection H as <-; reflexivity.
    - destruct o; try discriminate H; try (injection H as <-; reflexivity).
      destruct (encode_sib _ _ _ _) as [m| |]; try discriminate H. cbn [bind] in H. injection H as <-. reflexivity.
    - destruct o; try discriminate H; injection H as <-; reflexivity. }
  assert (KL : forall fuel os xs k, forallb (fun p => match fst p with OE_REL32 => false | _ => true end) xs = true ->
     forall l', operand_loop fuel e os xs k = Ok l' -> has_rel32 l' = has_rel32 k).
  { induction fuel as [|fuel IH]; intros os xs k Hx l' H; cbn [operand_loop] in H; [congruence|].
    destruct xs as [|[x d] xs]; cbn [hd tl forallb fst] in *.
    - destruct (one_operand e (hd AEmpty os) OE_EMPTY k) as [l1| |] eqn:E1; try discriminate H. cbn [bind] in H.
      rewrite (IH (tl os) [] l1 eq_refl _ H). eapply K; [exact E1|discriminate].
    - apply andb_prop in Hx. destruct Hx as [Hx Hs].
      destruct (one_operand e (hd AEmpty os) x k) as [l1| |] eqn:E1; try discriminate H. cbn [bind] in H.
      rewrite (IH _ _ _ Hs _ H). eapply K; [exact E1|]. intros ->. discriminate. }
  destruct F as [(A & B)|[(a & A & B)|F]].
  - right. refine (KL _ _ (e_encoding e) _ _ _ HL). rewrite A. reflexivity.
  - left. rewrite A in HL. apply loop_one in HL; [|reflexivity|exact P]. destruct HL as (o & _ & Po & H1).
    apply one_rel in H1; [|exact Po]. rewrite H1. locs. reflexivity.
  - right. refine (KL _ _ _ _ _ _ HL).
    destruct F as [(a & A & B)|[(a & A & B)|[(a & b & A & B)|[(a & b & A & B)|[(a & b & A & B)|
    [(a & b & k & n & A & B & C)|[(a & b & k & n & A & B & C)|[(a & b & k & n & A & B & C)|(a & b & k & n & A & B & C)]]]]]]]];
      rewrite A; try reflexivity; destruct k; try discriminate C; reflexivity.
Qed.
Lemma row_right sym at_ e ops out relocs qs :
  row_ok e = true -> encodable (e_mnemonic e) ops = true -> all_match 4 ops (e_accepts e) = true -> fits sym (e_mnemonic e) ops ->
  assemble_encoding e ops = Ok (out, relocs) -> relocation_requests (Z.of_nat (length out)) relocs = Ok qs ->
  (length out <= 15)%nat /\ length (linked sym at_ (qs ++ [Write out]) out) = length out /\
  forall tail, exists name ds,
    decode (linked sym at_ (qs ++ [Write out]) out ++ tail) = Some (name, ds, tail) /\ same_name (e_mnemonic e) name /\
    Forall2 (denotes sym (at_ + Z.of_nat (length out))) (written ops (e_mnemonic e)) ds.
Proof.
  intros Hr He Hm Hf Ha Hq. unfold assemble_encoding in Ha.
  destruct (operand_loop 4 e ops (e_encoding e) (locals0 e)) as [l| |] eqn:HL; try discriminate Ha. cbn [bind] in Ha.
  destruct (Nat.leb_spec (length (fst (emit e l))) 15) as [L15|]; [|discriminate].
  assert (Em : emit e l = (out, relocs)) by (injection Ha as Ha; exact Ha).
  rewrite Em in L15. cbn [fst] in L15.
  assert (P : forallb plain_operand ops = true) by (apply (plain_all e ops He)).
  destruct (linked_emit e l out relocs sym at_ qs Em (form_exclusive e ops l Hr HL P) Hq) as [LE Lb].
  split; [exact L15|]. rewrite LE. split; [apply (head_tail_length _ _ _ _ _ _ Em)|].
  apply (every_form sym at_ e ops l (Z.of_nat (length out)) Hr He Hm HL Hf Lb).
Qed.
