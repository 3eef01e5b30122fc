(** C41: memory operands. *)
From Coq Require Import String.
From Verif Require Import Base X86 Object Encode EncodeSpec BytesSpec EncodeProofs EncodeRows EncodeRight EncodeForms EncodeMain C42Props.
Local Open Scope Z_scope.
Local Open Scope list_scope.

(** When every matching row can be encoded and there is one, an encoding is found. *)
Lemma rows_found mn ops rows : forall best,
  (forall e, In e rows -> e_mnemonic e = mn -> all_match 4 ops (e_accepts e) = true ->
     exists out, assemble_encoding e ops = Ok (out, []) /\ (length out <= 15)%nat) ->
  (forall b, best = Some b -> snd b = []) ->
  (best <> None \/ exists e, In e rows /\ e_mnemonic e = mn /\ all_match 4 ops (e_accepts e) = true) ->
  exists out, assemble_rows rows mn ops best = Ok (Some (out, [])).
Proof.
  induction rows as [|e rows IH]; intros best H N C; cbn [assemble_rows].
  - destruct best as [[out r]|]; [|destruct C as [C|(e & [] & _)]; congruence].
    exists out. specialize (N _ eq_refl). cbn in N. subst r. reflexivity.
  - assert (H' : forall e, In e rows -> e_mnemonic e = mn -> all_match 4 ops (e_accepts e) = true ->
      exists out, assemble_encoding e ops = Ok (out, []) /\ (length out <= 15)%nat) by (intros; apply H; try right; assumption).
    destruct (String.eqb_spec (e_mnemonic e) mn) as [Em|Em]; cbn [negb].
    2:{ apply IH; try assumption. destruct C as [C|(e' & [-> | I] & Q)]; [left; exact C|exfalso; apply Em, Q|right; exists e'; auto]. }
    destruct (all_match 4 ops (e_accepts e)) eqn:Ma; cbn [negb].
    2:{ apply IH; try assumption. destruct C as [C|(e' & [-> | I] & Q)]; [left; exact C|destruct Q; congruence|right; exists e'; auto]. }
    destruct (H e (or_introl eq_refl) Em Ma) as (out & -> & L). cbn [bind].
    apply IH; [exact H'| |].
    + intros b Eb. destruct (_ <? _)%nat; [injection Eb as <-; reflexivity|apply N; exact Eb].
    + left. destruct (Nat.ltb_spec (length (fst (out, @nil ins_reloc))) (match best with Some (b, _) => length b | None => 16%nat end)); [discriminate|].
      destruct best as [[b r]|]; [discriminate|]. cbn in *. lia.
Qed.

Lemma sib_ok b offset m : - 2 ^ 31 <= signed 64 offset < 2 ^ 31 -> exists m', encode_sib None (Some b) offset m = Ok m'.
Proof.
  intros H. change (2 ^ 31) with 2147483648 in H. unfold encode_sib, get_disp_size.
  destruct (signed 64 offset =? 0) eqn:E0; [|destruct ((-128 <=? signed 64 offset) && (signed 64 offset <=? 127)) eqn:E1;
    [|replace ((-2147483648 <=? signed 64 offset) && (signed 64 offset <=? 2147483647)) with true by lia]]; cbn [bind].
  - change (0 =? 0) with true. cbv iota. destruct (_ || _); [eauto|]. destruct (_ || _); eauto.
  - change (1 =? 0) with false. change (1 <=? 1) with true. cbv iota. destruct (_ || _); eauto.
  - change (4 =? 0) with false. change (4 <=? 1) with false. change (4 <=? 4) with true. cbv iota. destruct (_ || _); eauto.
Qed.
Lemma match_mem i b s o a : does_match (AMem i b s o) a = does_match (AMem None (Some RAX) 1 0) a.
Proof. destruct a; reflexivity. Qed.
(** The rows of movq and leaq for a register and a memory operand. *)
Definition load_rows (mn : string) (r : reg) : bool :=
  let ops := [AReg r false 8; AMem None (Some RAX) 1 0] in
  forallb (fun e => negb (String.eqb (e_mnemonic e) mn) || negb (all_match 4 ops (e_accepts e)) ||
     (e_slash_r e && match e_encoding e with [(OE_MODRM_REG, false); (OE_MODRM_RM, false)] => true | _ => false end)) encodings &&
  existsb (fun e => String.eqb (e_mnemonic e) mn && all_match 4 ops (e_accepts e)) encodings.
Definition store_rows (mn : string) (r : reg) : bool :=
  let ops := [AMem None (Some RAX) 1 0; AReg r false 8] in
  forallb (fun e => negb (String.eqb (e_mnemonic e) mn) || negb (all_match 4 ops (e_accepts e)) ||
     (e_slash_r e && match e_encoding e with [(OE_MODRM_RM, false); (OE_MODRM_REG, false)] => true | _ => false end)) encodings &&
  existsb (fun e => String.eqb (e_mnemonic e) mn && all_match 4 ops (e_accepts e)) encodings.
Lemma rows_checked : forallb (fun r => load_rows "movq" r && load_rows "leaq" r && store_rows "movq" r)
  [RAX; RBX; RCX; RDX; RSI; RDI; RBP; RSP; R_8; R_9; R_10; R_11; R_12; R_13; R_14; R_15] = true.
Proof. vm_compute. reflexivity. Qed.
Lemma rows_for r : load_rows "movq" r = true /\ load_rows "leaq" r = true /\ store_rows "movq" r = true.
Proof.
  pose proof rows_checked as H. rewrite forallb_forall in H. specialize (H r ltac:(destruct r; cbn; auto 20)).
  apply andb_prop in H. destruct H as [H C]. apply andb_prop in H. destruct H as [A B]. auto.
Qed.
Lemma emit_no_reloc e l : imm_size l = 0%nat -> has_rel32 l = false -> snd (emit e l) = [].
Proof. intros A B. unfold emit. rewrite A, B. reflexivity. Qed.

Lemma load_found mn r b sc offset : load_rows mn r = true -> - 2 ^ 31 <= signed 64 offset < 2 ^ 31 ->
  exists out, assemble_rows encodings mn [AReg r false 8; AMem None (Some b) sc offset] None = Ok (Some (out, [])).
Proof.
  intros H R. unfold load_rows in H. cbv zeta in H. apply andb_prop in H. destruct H as [H1 H2].
  assert (M : forall accs, all_match 4 [AReg r false 8; AMem None (Some b) sc offset] accs = all_match 4 [AReg r false 8; AMem None (Some RAX) 1 0] accs).
  { intros accs. cbn [all_match hd tl]. rewrite (match_mem None (Some b) sc offset). reflexivity. }
  apply rows_found; [|discriminate|right].
  - intros e I Em Ma. rewrite M in Ma. rewrite forallb_forall in H1. specialize (H1 e I). rewrite Em, String.eqb_refl, Ma in H1.
    cbn [negb orb] in H1. apply andb_prop in H1. destruct H1 as [S F].
    rewrite <- M in Ma. pose proof (encoding_defined e _ I Ma) as D. revert D. unfold assemble_encoding.
    destruct (e_encoding e) as [|[[] []] [|[[] []] [|? ?]]]; try discriminate F.
    destruct (sib_ok b offset rm0 R) as [m Em'].
    assert (OL : exists l, operand_loop 4 e [AReg r false 8; AMem None (Some b) sc offset] [(OE_MODRM_REG, false); (OE_MODRM_RM, false)] (locals0 e) = Ok l
       /\ imm_size l = 0%nat /\ has_rel32 l = false).
    { exists (set_rm (set_reg (mrex (AReg r false 8) (locals0 e)) (register_index r)) m).
      split; [|split; locs; reflexivity].
      cbn [operand_loop hd tl one_operand is_empty oe_empty Bool.eqb negb]. rewrite S.
      replace (if needs_rex r false 8 then set_rex (locals0 e) else locals0 e) with (locals0 e)
        by (destruct r; reflexivity).
      replace (mrex (AReg r false 8) (locals0 e)) with (locals0 e) by (destruct r; reflexivity).
      cbn [bind]. change (rm (set_reg (locals0 e) (register_index r))) with rm0. rewrite Em'. reflexivity. }
    destruct OL as (l & -> & L1 & L2). cbn [bind]. destruct (Nat.leb_spec (length (fst (emit e l))) 15) as [L|]; [|congruence].
    intros _. exists (fst (emit e l)). split; [|exact L]. rewrite <- (emit_no_reloc e l L1 L2). f_equal. apply surjective_pairing.
  - apply existsb_exists in H2. destruct H2 as (e & I & H2). apply andb_prop in H2. destruct H2 as [A B].
    apply String.eqb_eq in A. exists e. rewrite M. auto.
Qed.
Lemma store_found mn r b sc offset : store_rows mn r = true -> - 2 ^ 31 <= signed 64 offset < 2 ^ 31 ->
  exists out, assemble_rows encodings mn [AMem None (Some b) sc offset; AReg r false 8] None = Ok (Some (out, [])).
Proof.
  intros H R. unfold store_rows in H. cbv zeta in H. apply andb_prop in H. destruct H as [H1 H2].
  assert (M : forall accs, all_match 4 [AMem None (Some b) sc offset; AReg r false 8] accs = all_match 4 [AMem None (Some RAX) 1 0; AReg r false 8] accs).
  { intros accs. cbn [all_match hd tl]. rewrite (match_mem None (Some b) sc offset). reflexivity. }
  apply rows_found; [|discriminate|right].
  - intros e I Em Ma. rewrite M in Ma. rewrite forallb_forall in H1. specialize (H1 e I). rewrite Em, String.eqb_refl, Ma in H1.
    cbn [negb orb] in H1. apply andb_prop in H1. destruct H1 as [S F].
    rewrite <- M in Ma. pose proof (encoding_defined e _ I Ma) as D. revert D. unfold assemble_encoding.
    destruct (e_encoding e) as [|[[] []] [|[[] []] [|? ?]]]; try discriminate F.
    destruct (sib_ok b offset rm0 R) as [m Em'].
    assert (OL : exists l, operand_loop 4 e [AMem None (Some b) sc offset; AReg r false 8] [(OE_MODRM_RM, false); (OE_MODRM_REG, false)] (locals0 e) = Ok l
       /\ imm_size l = 0%nat /\ has_rel32 l = false).
    { exists (set_reg (set_rm (locals0 e) m) (register_index r)).
      split; [|split; locs; reflexivity].
      cbn [operand_loop hd tl one_operand is_empty oe_empty Bool.eqb negb].
      change (rm (locals0 e)) with rm0. rewrite Em'. cbn [bind]. rewrite S.
      replace (if needs_rex r false 8 then set_rex (set_rm (locals0 e) m) else set_rm (locals0 e) m) with (set_rm (locals0 e) m)
        by (destruct r; reflexivity). reflexivity. }
    destruct OL as (l & -> & L1 & L2). cbn [bind]. destruct (Nat.leb_spec (length (fst (emit e l))) 15) as [L|]; [|congruence].
    intros _. exists (fst (emit e l)). split; [|exact L]. rewrite <- (emit_no_reloc e l L1 L2). f_equal. apply surjective_pairing.
  - apply existsb_exists in H2. destruct H2 as (e & I & H2). apply andb_prop in H2. destruct H2 as [A B].
    apply String.eqb_eq in A. exists e. rewrite M. auto.
Qed.
Lemma asm_of mn ops out : (length ops <= 4)%nat -> forallb plain_operand (rev ops) = true ->
  assemble_rows encodings mn (rev ops) None = Ok (Some (out, [])) -> asm_ins mn ops = Ok [Write out].
Proof.
  intros L P. unfold asm_ins. cbv zeta. rewrite firstn_all2 by exact L. rewrite plain_filter by exact P. unfold assemble_instruction.
  intros ->. reflexivity.
Qed.

(** The decoder's displacement is a number of at most 32 bits. *)
Lemma disp_range : forall bytes name ds tail, decode bytes = Some (name, ds, tail) ->
  Forall (fun d => match d with DMem _ v => - 2 ^ 31 <= v < 2 ^ 31 | _ => True end) ds.
Proof.
  assert (TS : forall n l v t, (n <= 4)%nat -> take_signed n l = Some (v, t) -> - 2 ^ 31 <= v < 2 ^ 31).
  { intros n l v t Hn H. unfold take_signed in H. destruct (take n l) as [[b t']|] eqn:E; [|discriminate]. injection H as <- _.
    destruct n as [|n].
    - cbn in E. injection E as <- <-. vm_compute. split; [intros C; discriminate C|reflexivity].
    - pose proof (signed_range (8 * Z.of_nat (S n)) (le_value b) ltac:(lia)) as [A B].
      assert (2 ^ (8 * Z.of_nat (S n) - 1) <= 2 ^ 31) by (apply Z.pow_le_mono_r; lia). lia. }
  assert (TD : forall md l v t, take_disp md l = Some (v, t) -> - 2 ^ 31 <= v < 2 ^ 31).
  { intros md l v t H. unfold take_disp in H. destruct (md =? 0); [injection H as <- _; lia|].
    destruct (md =? 1); eapply TS in H; try exact H; lia. }
  assert (RM : forall x b l m t, read_rm x b l = Some (m, t) -> match m with RmMem _ v => - 2 ^ 31 <= v < 2 ^ 31 | _ => True end).
  { intros x b l m t H. unfold read_rm in H. cbv zeta in H. destruct (hi2 b =? 3); [injection H as <- _; exact I|].
    destruct (lo3 b =? 4).
    - destruct l as [|s l]; [discriminate|]. destruct (negb _); [discriminate|]. destruct (_ && _); [discriminate|].
      destruct (take_disp (hi2 b) l) as [[d l']|] eqn:E; [|discriminate]. injection H as <- _. apply (TD _ _ _ _ E).
    - destruct (_ && _); [discriminate|].
      destruct (take_disp (hi2 b) l) as [[d l']|] eqn:E; [|discriminate]. injection H as <- _. apply (TD _ _ _ _ E). }
  assert (RO : forall fr x op reg m ss l ds t, match m with Some (RmMem _ v) => - 2 ^ 31 <= v < 2 ^ 31 | _ => True end ->
     read_operands fr x op reg m ss l = Some (ds, t) -> Forall (fun d => match d with DMem _ v => - 2 ^ 31 <= v < 2 ^ 31 | _ => True end) ds).
  { intros fr x op reg m ss. induction ss as [|s ss IH]; intros l ds t Hm H; cbn [read_operands] in H; [injection H as <- _; constructor|].
    destruct (read_operand fr x op reg m s l) as [[d l']|] eqn:E; [|discriminate].
    destruct (read_operands fr x op reg m ss l') as [[ds' l'']|] eqn:E'; [|discriminate]. injection H as <- _.
    constructor; [|eapply IH; [exact Hm|exact E']].
    assert (G : forall b s n, match gp b s n with DMem _ v => - 2 ^ 31 <= v < 2 ^ 31 | _ => True end) by (intros; unfold gp; destruct (_ && _); exact I).
    destruct s; cbn [read_operand] in E.
    - destruct m as [[n|b v]|]; inversion E; [apply G|subst; exact Hm].
    - inversion E. apply G.
    - destruct m as [[n|b v]|]; inversion E; [exact I|subst; exact Hm].
    - inversion E. exact I.
    - destruct m as [[n|b v]|]; inversion E. subst. exact Hm.
    - inversion E. apply G.
    - inversion E. exact I.
    - destruct (take_signed n l) as [[v l2]|]; inversion E. exact I.
    - destruct (take_signed 4 l) as [[v l2]|]; inversion E. exact I. }
  assert (FI : forall fr x op md f l name ds t, finish fr x op md f l = Some (name, ds, t) ->
     Forall (fun d => match d with DMem _ v => - 2 ^ 31 <= v < 2 ^ 31 | _ => True end) ds).
  { intros fr x op md f l name ds t H. unfold finish in H. cbv zeta in H. destruct md.
    - destruct l as [|b l]; [discriminate|]. destruct (read_rm x b l) as [[m l']|] eqn:E; [|discriminate].
      destruct (f (mid3 b)) as [[n ss]|]; [|discriminate].
      destruct (read_operands fr x op (ext4 (R x) (mid3 b)) (Some m) ss l') as [[ds' l'']|] eqn:E2; [|discriminate].
      injection H as _ <- _. eapply RO; [|exact E2]. apply (RM _ _ _ _ _ E).
    - destruct (f 0) as [[n ss]|]; [|discriminate].
      destruct (read_operands fr x op 0 None ss l) as [[ds' l'']|] eqn:E2; [|discriminate].
      injection H as _ <- _. eapply RO; [|exact E2]. exact I. }
  assert (OP : forall a b c fr x l name ds t, decode_opcode a b c fr x l = Some (name, ds, t) ->
     Forall (fun d => match d with DMem _ v => - 2 ^ 31 <= v < 2 ^ 31 | _ => True end) ds).
  { intros a b c fr x l name ds t H. unfold decode_opcode in H. destruct l as [|op l]; [discriminate|].
    destruct (op =? 15).
    - destruct l as [|op2 l]; [discriminate|]. cbv zeta in H. eapply FI. exact H.
    - destruct (b || c); [discriminate|]. eapply FI. exact H. }
  intros bytes. unfold decode. generalize false at 1 as a. generalize false at 1 as b. generalize false as c.
  induction bytes as [|x bytes IH]; intros c b a name ds tail H; cbn [decode_from] in H; [discriminate|].
  destruct (x =? 102); [eapply IH; exact H|]. destruct (x =? 242); [eapply IH; exact H|]. destruct (x =? 243); [eapply IH; exact H|].
  unfold decode_rex in H. destruct (between 64 79 x); eapply OP; exact H.
Qed.

(** C41: a load from, a store to, and the address of a memory operand, for
    every base register and every displacement of 32 bits, except
    displacement 0 from rbp or r13: the instruction is encoded and decoding
    the bytes gives the same base register and the same displacement. *)
Theorem C41_memory_operand_partial : forall r b scale offset,
  - 2 ^ 31 <= signed 64 offset < 2 ^ 31 -> ~ (offset mod 2 ^ 64 = 0 /\ (b = RBP \/ b = R_13)) ->
  forall tail,
  (exists out, asm_ins "movq" [AMem None (Some b) scale offset; AReg r false 8] = Ok [Write out] /\
    decode (out ++ tail) = Some ("movq"%string, [DReg 8 (number r); DMem (number b) (signed 64 offset)], tail)) /\
  (exists out, asm_ins "movq" [AReg r false 8; AMem None (Some b) scale offset] = Ok [Write out] /\
    decode (out ++ tail) = Some ("movq"%string, [DMem (number b) (signed 64 offset); DReg 8 (number r)], tail)) /\
  (exists out, asm_ins "leaq" [AMem None (Some b) scale offset; AReg r false 8] = Ok [Write out] /\
    decode (out ++ tail) = Some ("leaq"%string, [DReg 8 (number r); DMem (number b) (signed 64 offset)], tail)).
Proof.
  intros r b sc offset R N tail. destruct (rows_for r) as (C1 & C2 & C3).
  set (mem := AMem None (Some b) sc offset). set (rg := AReg r false 8).
  assert (Pm : plain_operand mem = true).
  { cbn [plain_operand mem]. destruct (Z.eqb_spec (offset mod 2 ^ 64) 0) as [Z0|NZ]; [|reflexivity]. cbn [andb].
    destruct b; try reflexivity; exfalso; apply N; auto. }
  assert (Pr : plain_operand rg = true) by reflexivity.
  assert (Dm : forall d, denotes (fun _ => 0) 0 mem d -> match d with DMem _ v => - 2 ^ 31 <= v < 2 ^ 31 | _ => True end -> d = DMem (number b) (signed 64 offset)).
  { intros d H V. unfold mem in H. cbn [denotes] in H. destruct d; try contradiction. destruct H as [-> E]. f_equal.
    assert (2 ^ 31 <= 2 ^ 63) by (apply Z.pow_le_mono_r; lia).
    rewrite <- (signed_id 64 disp) by (change (64 - 1) with 63; lia).
    unfold signed. unfold wrap. rewrite E. reflexivity. }
  assert (Dr : forall d nx, denotes (fun _ => 0) nx rg d -> d = DReg 8 (number r)).
  { intros d nx H. unfold rg in H. cbn [denotes] in H. destruct d; try contradiction. destruct H as [-> ->]. reflexivity. }
  assert (DE : forall nx o d, denotes (fun _ => 0) nx mem d -> denotes (fun _ => 0) o mem d) by (intros nx o d H; exact H).
  assert (EN : forall mn, encodable mn [rg; mem] = negb (named ["addq"%string] mn && false) /\ encodable mn [mem; rg] = negb (named ["addq"%string] mn && false)).
  { intros mn. unfold encodable. cbn [forallb existsb is_mem]. rewrite Pm, Pr.
    replace (is_mem mem) with true by reflexivity. replace (is_mem rg) with false by reflexivity.
    replace (reg_of_size 4 mem) with false by reflexivity. replace (reg_of_size 4 rg) with false by reflexivity.
    cbn [orb andb negb]. rewrite !orb_true_r, !andb_false_r. cbn [orb andb negb]. auto. }
  assert (FT : forall mn ops, (forall l v, ~ In (AImm (Some l) v) ops) -> fits (fun _ => 0) mn ops).
  { intros mn ops H. right. intros l v I. exfalso. apply (H _ _ I). }
  assert (MQ : forall mn n, same_name mn n -> mn = "movq"%string \/ mn = "leaq"%string -> n = mn).
  { intros mn n [->|I] [-> | ->]; try reflexivity; cbn in I; repeat (destruct I as [I|I]; [discriminate|]); contradiction. }
  split; [|split].
  - destruct (load_found _ r b sc offset C1 R) as [out E]. fold mem rg in E.
    assert (A : asm_ins "movq" [mem; rg] = Ok [Write out]) by (apply asm_of; [cbn; lia|cbn [rev app forallb]; rewrite Pm, Pr; reflexivity|exact E]).
    exists out. split; [exact A|].
    destruct (C42_instruction_partial (fun _ => 0) 0 "movq" [mem; rg] [Write out] ltac:(cbn; lia) A) as (rel & o' & Q & _ & _ & D).
    { change (rev [mem; rg]) with [rg; mem]. rewrite (proj1 (EN _)). reflexivity. }
    { apply FT. intros l v [I|[I|[]]]; discriminate. }
    destruct rel as [|q [|? ?]]; try discriminate Q. injection Q as <-. destruct (D tail) as (name & ds & D1 & D2 & D3).
    change (linked (fun _ => 0) 0 [Write out] out) with out in D1. pose proof (disp_range _ _ _ _ D1) as V.
    apply MQ in D2; [|auto]. subst name. change (written (rev [mem; rg]) "movq") with [rg; mem] in D3.
    inversion D3 as [|? d1 ? ds1 X1 X2]; subst. inversion X2 as [|? d2 ? ds2 X3 X4]; subst. inversion X4; subst.
    apply Dr in X1. subst d1. inversion V as [|? ? _ V2]; subst. inversion V2 as [|? ? V3 _]; subst.
    apply Dm in X3; [|exact V3]. subst d2. exact D1.
  - destruct (store_found _ r b sc offset C3 R) as [out E]. fold mem rg in E.
    assert (A : asm_ins "movq" [rg; mem] = Ok [Write out]) by (apply asm_of; [cbn; lia|cbn [rev app forallb]; rewrite Pm, Pr; reflexivity|exact E]).
    exists out. split; [exact A|].
    destruct (C42_instruction_partial (fun _ => 0) 0 "movq" [rg; mem] [Write out] ltac:(cbn; lia) A) as (rel & o' & Q & _ & _ & D).
    { change (rev [rg; mem]) with [mem; rg]. rewrite (proj2 (EN _)). reflexivity. }
    { apply FT. intros l v [I|[I|[]]]; discriminate. }
    destruct rel as [|q [|? ?]]; try discriminate Q. injection Q as <-. destruct (D tail) as (name & ds & D1 & D2 & D3).
    change (linked (fun _ => 0) 0 [Write out] out) with out in D1. pose proof (disp_range _ _ _ _ D1) as V.
    apply MQ in D2; [|auto]. subst name. change (written (rev [rg; mem]) "movq") with [mem; rg] in D3.
    inversion D3 as [|? d1 ? ds1 X1 X2]; subst. inversion X2 as [|? d2 ? ds2 X3 X4]; subst. inversion X4; subst.
    apply Dr in X3. subst d2. inversion V as [|? ? V3 _]; subst.
    apply Dm in X1; [|exact V3]. subst d1. exact D1.
  - destruct (load_found _ r b sc offset C2 R) as [out E]. fold mem rg in E.
    assert (A : asm_ins "leaq" [mem; rg] = Ok [Write out]) by (apply asm_of; [cbn; lia|cbn [rev app forallb]; rewrite Pm, Pr; reflexivity|exact E]).
    exists out. split; [exact A|].
    destruct (C42_instruction_partial (fun _ => 0) 0 "leaq" [mem; rg] [Write out] ltac:(cbn; lia) A) as (rel & o' & Q & _ & _ & D).
    { change (rev [mem; rg]) with [rg; mem]. rewrite (proj1 (EN _)). reflexivity. }
    { apply FT. intros l v [I|[I|[]]]; discriminate. }
    destruct rel as [|q [|? ?]]; try discriminate Q. injection Q as <-. destruct (D tail) as (name & ds & D1 & D2 & D3).
    change (linked (fun _ => 0) 0 [Write out] out) with out in D1. pose proof (disp_range _ _ _ _ D1) as V.
    apply MQ in D2; [|auto]. subst name. change (written (rev [mem; rg]) "leaq") with [rg; mem] in D3.
    inversion D3 as [|? d1 ? ds1 X1 X2]; subst. inversion X2 as [|? d2 ? ds2 X3 X4]; subst. inversion X4; subst.
    apply Dr in X1. subst d1. inversion V as [|? ? _ V2]; subst. inversion V2 as [|? ? V3 _]; subst.
    apply Dm in X3; [|exact V3]. subst d2. exact D1.
Qed.
Print Assumptions C41_memory_operand_partial.
(** The hypotheses are met, for instance by -8(%r13) and 100000(%rsp). *)
Example C41_met : (- 2 ^ 31 <= signed 64 (2 ^ 64 - 8) < 2 ^ 31 /\ ~ ((2 ^ 64 - 8) mod 2 ^ 64 = 0 /\ (R_13 = RBP \/ R_13 = R_13))) /\
  (- 2 ^ 31 <= signed 64 100000 < 2 ^ 31 /\ ~ (100000 mod 2 ^ 64 = 0 /\ (RSP = RBP \/ RSP = R_13))).
Proof.
  split; (split; [split; vm_compute; [intros C; discriminate C|reflexivity]|intros [A _]; vm_compute in A; discriminate A]).
Qed.
(** For displacement 0 from rbp or r13 the ModRM byte names register 0 (8
    with REX.B): every such load, store and address computation uses rax or
    r8 instead. *)
Theorem C41_zero_rbp_refuted : forall r,
  decoded "movq" [AMem None (Some RBP) 1 0; AReg r false 8] = Some ("movq"%string, [DReg 8 (number r); DMem (number RAX) 0]) /\
  decoded "movq" [AReg r false 8; AMem None (Some RBP) 1 0] = Some ("movq"%string, [DMem (number RAX) 0; DReg 8 (number r)]) /\
  decoded "leaq" [AMem None (Some RBP) 1 0; AReg r false 8] = Some ("leaq"%string, [DReg 8 (number r); DMem (number RAX) 0]) /\
  decoded "movq" [AMem None (Some R_13) 1 0; AReg r false 8] = Some ("movq"%string, [DReg 8 (number r); DMem (number R_8) 0]) /\
  decoded "movq" [AReg r false 8; AMem None (Some R_13) 1 0] = Some ("movq"%string, [DMem (number R_8) 0; DReg 8 (number r)]).
Proof. intros r. destruct r; vm_compute; repeat split; reflexivity. Qed.
Print Assumptions C41_zero_rbp_refuted.
