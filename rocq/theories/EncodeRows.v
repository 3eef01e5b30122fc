(** Proofs about the instruction encoder: the rows of the table. *)
From Coq Require Import String.
From Verif Require Import Base X86 Object Encode EncodeSpec BytesSpec BytesProofs EncodeProofs.
Local Open Scope Z_scope.
Local Open Scope list_scope.

(** What a row must look like to be decoded as it is meant. *)
Definition imm_of (x : oe) : option nat :=
  match x with OE_IMM8 => Some 1%nat | OE_IMM16 => Some 2%nat | OE_IMM32 => Some 4%nat | OE_IMM64 => Some 8%nat | _ => None end.
Definition imm_ok (n : nat) (s : Z) (a : acc) : bool :=
  (1 <=? s) && (s <=? 8) &&
  match a with
  | ACC_IMM8_S => (Z.of_nat n =? s) || (n =? 1)%nat
  | ACC_IMM16_S => (Z.of_nat n =? s) || (n =? 2)%nat
  | ACC_IMM32_S => (Z.of_nat n =? s) || (n =? 4)%nat
  | ACC_IMM8_U | ACC_IMM16_U | ACC_IMM32_U | ACC_IMM64 => Z.of_nat n =? s
  | _ => false
  end.
Definition want (lea : bool) (x : oe) (a : acc) (s : shape) : bool :=
  match x, a, s with
  | OE_MODRM_RM, ACC_MODRM k, SE k' | OE_MODRM_RM, ACC_REG k, SE k' => k =? k'
  | OE_MODRM_RM, ACC_REG_STAR k, SE k' => (k =? k') && (k =? 8)
  | OE_MODRM_RM, ACC_MODRM _, SM => lea
  | OE_MODRM_RM, ACC_XMM_M32, SEX | OE_MODRM_RM, ACC_XMM_M64, SEX | OE_MODRM_RM, ACC_XMM_M128, SEX => true
  | OE_MODRM_REG, ACC_REG k, SG k' => k =? k'
  | OE_MODRM_REG, ACC_XMM, SGX => true
  | OE_OPEXT, ACC_REG k, SO k' => k =? k'
  | OE_NONE, ACC_RAX k, SFix k' n => (k =? k') && (n =? 0)
  | OE_NONE, ACC_RCX k, SFix k' n => (k =? k') && (n =? 1)
  | OE_REL32, ACC_REL32, SRel => true
  | x, a, SImm n s => match imm_of x with Some n' => (n =? n')%nat && imm_ok n s a | None => false end
  | _, _, _ => false
  end.
Definition is_oe (x y : oe) : bool :=
  match x, y with
  | OE_MODRM_RM, OE_MODRM_RM | OE_MODRM_REG, OE_MODRM_REG | OE_OPEXT, OE_OPEXT => true
  | _, _ => false
  end.
Definition has_oe (e : encoding) (x : oe) : bool := existsb (fun p => is_oe x (fst p)) (e_encoding e).
Definition is_lea (e : encoding) : bool := named ["leaq"; "leal"]%string (e_mnemonic e).
Definition wide (a : acc) : bool := match a with ACC_REG s | ACC_MODRM s | ACC_RAX s | ACC_RCX s => s =? 8 | _ => false end.
Definition same_nameb (a b : string) : bool :=
  String.eqb a b || existsb (fun p => String.eqb a (fst p) && String.eqb b (snd p))
     [("xor", "xorq"); ("setgl", "setl"); ("setnb", "setae"); ("jnae", "jb"); ("jnb", "jae"); ("jna", "jbe"); ("movd", "movq")]%string.
Lemma same_nameb_ok a b : same_nameb a b = true -> same_name a b.
Proof.
  unfold same_nameb, same_name. intros H. apply orb_prop in H. destruct H as [H|H].
  - left. apply String.eqb_eq. exact H.
  - right. apply existsb_exists in H. destruct H as ([p q] & I & H). cbn [fst snd] in H. apply andb_prop in H.
    destruct H as [A B]. apply String.eqb_eq in A, B. subst. exact I.
Qed.

(** The order in which the decoder lists the operands of a row. *)
Definition listed (e : encoding) : list (oe * acc) :=
  match e_encoding e, e_accepts e with
  | [(x, true); (y, _); (z, _)], [a; b] => [(y, a); (x, a); (z, b)]
  | xs, accs => combine (map fst xs) accs
  end.
Fixpoint want_all (lea : bool) (l : list (oe * acc)) (ss : list shape) : bool :=
  match l, ss with
  | [], [] => true
  | (x, a) :: l, s :: ss => want lea x a s && want_all lea l ss
  | _, _ => false
  end.
Definition form (xs : list (oe * bool)) (accs : list acc) : bool :=
  match xs, accs with
  | [], [] => true
  | [(OE_REL32, false)], [_] => true
  | [(OE_MODRM_RM, false)], [_] => true
  | [(OE_OPEXT, false)], [_] => true
  | [(OE_MODRM_RM, false); (OE_MODRM_REG, false)], [_; _] => true
  | [(OE_MODRM_REG, false); (OE_MODRM_RM, false)], [_; _] => true
  | [(OE_MODRM_RM, false); (OE_NONE, false)], [_; _] => true
  | [(OE_MODRM_RM, false); (x, false)], [_; _] => match imm_of x with Some _ => true | None => false end
  | [(OE_NONE, false); (x, false)], [_; _] => match imm_of x with Some _ => true | None => false end
  | [(OE_OPEXT, false); (x, false)], [_; _] => match imm_of x with Some _ => true | None => false end
  | [(OE_MODRM_RM, true); (OE_MODRM_REG, false); (x, false)], [_; _] => match imm_of x with Some _ => true | None => false end
  | _, _ => false
  end.
Definition row_at (e : encoding) (i : Z) : bool :=
  let op := if has_oe e OE_OPEXT then e_opcode e + i else e_opcode e in
  let ext := if has_oe e OE_MODRM_REG then i else e_ext e in
  (wrap 8 (Z.lor (e_opcode e) (if has_oe e OE_OPEXT then i else 0)) =? op) &&
  (if has_oe e OE_OPEXT then lo3 op =? i else true) &&
  negb (is_prefix op) && negb (between 64 79 op) && Bool.eqb (op =? 15) (e_opcode e =? 15) &&
  Bool.eqb (if e_opcode e =? 15 then has_modrm2 (e_op2 e) else has_modrm1 op) (has_oe e OE_MODRM_RM) &&
  negb (negb (e_opcode e =? 15) && (e_f2 e || e_f3 e)) &&
  match meaning e op ext with
  | Some (name, ss) => same_nameb (e_mnemonic e) name && want_all (is_lea e) (listed e) ss
  | None => false
  end.
Definition row_ok (e : encoding) : bool :=
  form (e_encoding e) (e_accepts e) &&
  (negb (has_oe e OE_MODRM_REG) || (e_slash_r e && (e_ext e =? 0))) &&
  (0 <=? e_ext e) && (e_ext e <? 8) &&
  (negb (existsb wide (e_accepts e)) || e_rexw e || named ["pushq"; "popq"]%string (e_mnemonic e)) &&
  (negb (has_oe e OE_OPEXT) || named ["pushq"; "popq"; "movabsq"]%string (e_mnemonic e) || negb (existsb wide (e_accepts e))) &&
  (match e_encoding e with (_, true) :: _ => String.eqb (e_mnemonic e) "imulq" | _ => true end) &&
  (match e_accepts e with [_; ACC_IMM64] => true | _ => negb (String.eqb (e_mnemonic e) "movabsq") end) &&
  (negb (has_oe e OE_OPEXT) || (negb (has_oe e OE_MODRM_REG) && negb (has_oe e OE_MODRM_RM) && negb (e_opcode e =? 15))) &&
  (match e_encoding e with
   | [_; (x, false)] => match imm_of x with Some _ => negb (String.eqb (e_mnemonic e) "imulq") | None => true end
   | _ => true
   end) &&
  (has_oe e OE_MODRM_RM || (e_ext e =? 0)) && forallb (fun a => match a with ACC_EMPTY => false | _ => true end) (e_accepts e) &&
  forallb (row_at e) [0; 1; 2; 3; 4; 5; 6; 7].
(** The row whose opcode is not that of its mnemonic. *)
Definition bad_row (e : encoding) : bool := String.eqb (e_mnemonic e) "addq" && (e_opcode e =? 4).

Lemma table_ok : forallb (fun e => bad_row e || row_ok e) encodings = true.
Proof. vm_compute. reflexivity. Qed.

(** The relocated bytes. *)
Definition rel_value (sym : list Z -> Z) (next : Z) (l : locals) : Z :=
  match rel_label l with Some lab => sym lab - next | None => rel l end.
Definition tail_bytes (sym : list Z -> Z) (next : Z) (l : locals) : list Z :=
  le_digits (imm_size l) (value_of sym (imm_label l) (imm l)) ++ (if has_rel32 l then le_digits 4 (rel_value sym next l) else []).
Lemma patch_end a b n v : length b = n -> patch (a ++ b) (length a) n v = a ++ le_digits n v.
Proof.
  intros H. unfold patch. rewrite firstn_app, Nat.sub_diag, firstn_all. cbn [firstn]. rewrite app_nil_r.
  rewrite skipn_all2 by (rewrite app_length; lia). rewrite app_nil_r. f_equal. apply patch_digits.
Qed.
Lemma linked_emit e l out relocs sym at_ qs :
  emit e l = (out, relocs) -> (imm_size l = 0%nat \/ has_rel32 l = false) ->
  relocation_requests (Z.of_nat (length out)) relocs = Ok qs ->
  linked sym at_ (qs ++ [Write out]) out = emit_head e l ++ tail_bytes sym (at_ + Z.of_nat (length out)) l /\
  (imm_size l = 0%nat \/ imm_label l = None \/ imm_size l = 4%nat \/ imm_size l = 8%nat).
Proof.
  intros He Hs Hq. unfold emit in He. unfold tail_bytes, rel_value, value_of.
  destruct (imm_size l) as [|n] eqn:En.
  - match goal with |- context [le_digits 0 ?v] => change (le_digits 0 v) with (@nil Z) end.
    cbn [app] in *. rewrite app_nil_r in He. split; [|left; reflexivity].
    destruct (has_rel32 l); inversion He; subst out relocs; clear He.
    + destruct (rel_label l) as [lab|]; cbn - [write_le] in Hq; inversion Hq; subst qs; clear Hq.
      * cbn [app linked]. rewrite Nat2Z.id. rewrite write_le_digits. rewrite patch_end by apply le_digits_length.
        f_equal. f_equal. rewrite !app_length, !le_digits_length. lia.
      * cbn [app linked]. rewrite write_le_digits. reflexivity.
    + cbn in Hq. inversion Hq. cbn [app linked]. rewrite app_nil_r. reflexivity.
  - destruct Hs as [Hs|Hs]; [discriminate|]. rewrite Hs in *. rewrite app_nil_r.
    destruct (imm_label l) as [lab|]; inversion He; subst out relocs; clear He.
    + cbn [relocation_requests] in Hq. unfold relocation_request in Hq.
      cbn [ir_size ir_relative ir_label ir_offset ir_imm] in Hq.
      destruct (Z.eqb_spec (Z.of_nat (S n)) 8) as [E8|N8].
      * assert (S n = 8%nat) by lia. cbn [bind] in Hq. injection Hq as <-.
        cbn [app linked]. rewrite Nat2Z.id. rewrite write_le_digits. rewrite H. rewrite patch_end by apply le_digits_length.
        split; [reflexivity|]. right. right. right. reflexivity.
      * destruct (Z.eqb_spec (Z.of_nat (S n)) 4) as [E4|N4]; [|discriminate].
        assert (S n = 4%nat) by lia. cbn [bind] in Hq. injection Hq as <-.
        cbn [app linked]. rewrite Nat2Z.id. rewrite write_le_digits. rewrite H. rewrite patch_end by apply le_digits_length.
        split; [reflexivity|]. right. right. left. reflexivity.
    + cbn in Hq. inversion Hq. cbn [app linked]. rewrite write_le_digits. split; [reflexivity|]. right. left. reflexivity.
Qed.

(** One operand at a time. *)
Definition mrex (o : aop) (l : locals) : locals :=
  match o with AReg r u s => if needs_rex r u s then set_rex l else l | _ => l end.
Definition needs (o : aop) : bool := match o with AReg r u s => needs_rex r u s | _ => false end.
Lemma mrex_fields o l :
  has_rex (mrex o l) = has_rex l || needs o /\ rex_r (mrex o l) = rex_r l /\ has_modrm (mrex o l) = has_modrm l /\
  modrm_reg (mrex o l) = modrm_reg l /\ rm (mrex o l) = rm l /\ op_ext (mrex o l) = op_ext l /\
  imm_size (mrex o l) = imm_size l /\ imm (mrex o l) = imm l /\ imm_label (mrex o l) = imm_label l /\
  has_rel32 (mrex o l) = has_rel32 l /\ rel (mrex o l) = rel l /\ rel_label (mrex o l) = rel_label l.
Proof.
  unfold mrex, needs. destruct o; rewrite ?orb_false_r; try (repeat split; reflexivity).
  destruct (needs_rex r upper_byte size); cbn; rewrite ?orb_false_r, ?orb_true_r; repeat split; reflexivity.
Qed.
Definition idx (o : aop) : Z := match o with AReg r _ _ | AStar r _ _ => number r | ASse x => x | _ => 0 end.
Lemma idx_range o : plain_operand o = true -> 0 <= idx o < 16.
Proof.
  destruct o; cbn; intros H; try lia; try apply number_range. unfold between in H. lia.
Qed.

Lemma plain_not_empty o : plain_operand o = true -> is_empty o = false.
Proof. destruct o; cbn; congruence. Qed.
Lemma one_rm e o l l' :
  one_operand e o OE_MODRM_RM l = Ok l' -> plain_operand o = true -> rm l = rm0 ->
  (has_rex (mrex o l) = true \/ is_mem o = true \/ idx o < 8) ->
  exists m, l' = set_rm (mrex o l) m /\ rm_decodes m o.
Proof.
  intros H P R C. unfold one_operand in H. rewrite (plain_not_empty _ P) in H. cbn [oe_empty Bool.eqb negb] in H. cbv zeta in H.
  fold (mrex o l) in H.
  pose proof (mrex_fields o l) as F. destruct F as (_ & _ & _ & _ & F & _). rewrite R in F.
  destruct o; try discriminate H.
  - injection H as <-. eexists. split; [reflexivity|].
    eapply register_decodes with (hr := has_rex (mrex (AReg r upper_byte size) l)) (i := number r).
    + apply number_range.
    + destruct C as [C|[C|C]]; [left; exact C|discriminate|right; exact C].
    + unfold rm_register, mrex in *. cbv zeta. rewrite F, index_number. reflexivity.
    + reflexivity.
  - injection H as <-. eexists. split; [reflexivity|].
    eapply register_decodes with (hr := has_rex (mrex (ASse x) l)) (i := x).
    + apply (idx_range _ P).
    + destruct C as [C|[C|C]]; [left; exact C|discriminate|right; exact C].
    + unfold rm_register, mrex in *. cbv zeta. rewrite F. reflexivity.
    + reflexivity.
  - injection H as <-. eexists. split; [reflexivity|].
    eapply register_decodes with (hr := has_rex (mrex (AStar r upper_byte size) l)) (i := number r).
    + apply number_range.
    + destruct C as [C|[C|C]]; [left; exact C|discriminate|right; exact C].
    + unfold rm_register, mrex in *. cbv zeta. rewrite F, index_number. reflexivity.
    + reflexivity.
  - rewrite F in H. destruct (encode_sib index base offset rm0) as [m| |] eqn:E; try discriminate. cbn [bind] in H.
    inversion H; subst l'; clear H. exists m. split; [reflexivity|].
    cbn [plain_operand] in P. destruct index; [discriminate|]. destruct base as [b|]; [|discriminate].
    apply memory_operand; [exact E|]. intros [Z0 B]. rewrite Z0 in P. change (0 =? 0) with true in P.
    destruct B as [-> | ->]; discriminate P.
Qed.
Lemma one_reg e o l l' :
  one_operand e o OE_MODRM_REG l = Ok l' -> plain_operand o = true -> l' = set_reg (mrex o l) (idx o) /\ is_mem o = false.
Proof.
  intros H P. unfold one_operand in H. rewrite (plain_not_empty _ P) in H. cbn [oe_empty Bool.eqb negb] in H. cbv zeta in H.
  fold (mrex o l) in H. destruct o; try discriminate H; destruct (e_slash_r e); inversion H; subst l'.
  - cbn [idx]. rewrite index_number. split; reflexivity.
  - split; reflexivity.
Qed.
Lemma one_opext e o l l' :
  one_operand e o OE_OPEXT l = Ok l' -> plain_operand o = true -> l' = set_op_ext (mrex o l) (idx o) /\ is_mem o = false.
Proof.
  intros H P. unfold one_operand in H. rewrite (plain_not_empty _ P) in H. cbn [oe_empty Bool.eqb negb] in H. cbv zeta in H.
  fold (mrex o l) in H. destruct o; try discriminate H; inversion H; subst l'; cbn [idx]; rewrite index_number; split; reflexivity.
Qed.
Lemma one_imm e o x n l l' :
  one_operand e o x l = Ok l' -> plain_operand o = true -> imm_of x = Some n -> l' = set_imm (mrex o l) n o.
Proof.
  intros H P I. unfold one_operand in H. rewrite (plain_not_empty _ P) in H.
  destruct x; cbn in I; try discriminate; inversion I; subst n; cbn [oe_empty Bool.eqb negb] in H; cbv zeta in H;
    fold (mrex o l) in H; inversion H; reflexivity.
Qed.
Lemma one_none e o l l' : one_operand e o OE_NONE l = Ok l' -> plain_operand o = true -> l' = mrex o l.
Proof.
  intros H P. unfold one_operand in H. rewrite (plain_not_empty _ P) in H. cbn [oe_empty Bool.eqb negb] in H. cbv zeta in H.
  fold (mrex o l) in H. inversion H. reflexivity.
Qed.
Lemma one_rel e o l l' : one_operand e o OE_REL32 l = Ok l' -> plain_operand o = true -> l' = set_rel (mrex o l) o.
Proof.
  intros H P. unfold one_operand in H. rewrite (plain_not_empty _ P) in H. cbn [oe_empty Bool.eqb negb] in H. cbv zeta in H.
  fold (mrex o l) in H. inversion H. reflexivity.
Qed.

(** The loop for each number of operands. *)
Lemma one_empty e ops l l' :
  one_operand e (hd AEmpty ops) OE_EMPTY l = Ok l' -> forallb plain_operand ops = true -> ops = [] /\ l' = l.
Proof.
  destruct ops as [|o ops]; cbn [hd forallb].
  - intros H _. cbn in H. inversion H. split; reflexivity.
  - intros H P. apply andb_prop in P. destruct P as [P _]. unfold one_operand in H. rewrite (plain_not_empty _ P) in H.
    discriminate H.
Qed.
Lemma one_full e ops x l l' :
  one_operand e (hd AEmpty ops) x l = Ok l' -> oe_empty x = false -> forallb plain_operand ops = true ->
  exists o t, ops = o :: t /\ plain_operand o = true /\ forallb plain_operand t = true /\ one_operand e o x l = Ok l'.
Proof.
  destruct ops as [|o ops]; cbn [hd forallb]; intros H X P.
  - unfold one_operand in H. rewrite X in H. discriminate H.
  - apply andb_prop in P. destruct P as [P Q]. exists o, ops. auto.
Qed.
Lemma loop_zero e ops l l' :
  operand_loop 4 e ops [] l = Ok l' -> forallb plain_operand ops = true -> ops = [] /\ l' = l.
Proof.
  intros H P. cbn [operand_loop hd tl] in H.
  destruct (one_operand e (hd AEmpty ops) OE_EMPTY l) as [l1| |] eqn:E1; try discriminate H.
  apply one_empty in E1; [|exact P]. destruct E1 as [-> ->]. cbn in H. inversion H. split; reflexivity.
Qed.
Lemma loop_one e ops x l l' :
  operand_loop 4 e ops [(x, false)] l = Ok l' -> oe_empty x = false -> forallb plain_operand ops = true ->
  exists o, ops = [o] /\ plain_operand o = true /\ one_operand e o x l = Ok l'.
Proof.
  intros H X P. cbn [operand_loop hd tl] in H.
  destruct (one_operand e (hd AEmpty ops) x l) as [l1| |] eqn:E1; try discriminate H.
  apply one_full in E1; try assumption. destruct E1 as (o & t & -> & Po & Pt & E1). cbn [bind tl] in H.
  destruct (one_operand e (hd AEmpty t) OE_EMPTY l1) as [l2| |] eqn:E2; try discriminate H.
  apply one_empty in E2; [|exact Pt]. destruct E2 as [-> ->]. cbn in H. inversion H; subst l'. exists o. auto.
Qed.
Lemma loop_two e ops x y l l' :
  operand_loop 4 e ops [(x, false); (y, false)] l = Ok l' -> oe_empty x = false -> oe_empty y = false -> forallb plain_operand ops = true ->
  exists o p l1, ops = [o; p] /\ plain_operand o = true /\ plain_operand p = true /\
    one_operand e o x l = Ok l1 /\ one_operand e p y l1 = Ok l'.
Proof.
  intros H X Y P. cbn [operand_loop hd tl] in H.
  destruct (one_operand e (hd AEmpty ops) x l) as [l1| |] eqn:E1; try discriminate H.
  apply one_full in E1; try assumption. destruct E1 as (o & t & -> & Po & Pt & E1). cbn [bind tl] in H.
  destruct (one_operand e (hd AEmpty t) y l1) as [l2| |] eqn:E2; try discriminate H.
  apply one_full in E2; try assumption. destruct E2 as (p & t' & -> & Pp & Pt' & E2). cbn [bind tl] in H.
  destruct (one_operand e (hd AEmpty t') OE_EMPTY l2) as [l3| |] eqn:E3; try discriminate H.
  apply one_empty in E3; [|exact Pt']. destruct E3 as [-> ->]. cbn in H. inversion H; subst l'. exists o, p, l1. auto.
Qed.
Lemma loop_dup e ops x y z l l' :
  operand_loop 4 e ops [(x, true); (y, false); (z, false)] l = Ok l' -> oe_empty x = false -> oe_empty y = false -> oe_empty z = false ->
  forallb plain_operand ops = true ->
  exists o p l1 l2, ops = [o; p] /\ plain_operand o = true /\ plain_operand p = true /\
    one_operand e o x l = Ok l1 /\ one_operand e o y l1 = Ok l2 /\ one_operand e p z l2 = Ok l'.
Proof.
  intros H X Y Zz P. cbn [operand_loop hd tl] in H.
  destruct (one_operand e (hd AEmpty ops) x l) as [l1| |] eqn:E1; try discriminate H.
  pose proof P as P0.
  apply one_full in E1; try assumption. destruct E1 as (o & t & -> & Po & Pt & E1). cbn [bind tl hd] in H.
  destruct (one_operand e o y l1) as [l2| |] eqn:E2; try discriminate H. cbn [bind tl hd] in H.
  destruct (one_operand e (hd AEmpty t) z l2) as [l3| |] eqn:E3; try discriminate H.
  apply one_full in E3; try assumption. destruct E3 as (p & t' & -> & Pp & Pt' & E3). cbn [bind tl] in H.
  destruct (one_operand e (hd AEmpty t') OE_EMPTY l3) as [l4| |] eqn:E4; try discriminate H.
  apply one_empty in E4; [|exact Pt']. destruct E4 as [-> ->]. cbn in H. inversion H; subst l'. exists o, p, l1, l2. repeat split; assumption.
Qed.
