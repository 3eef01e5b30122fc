(** Proofs about the instruction encoder: the eleven forms of a row. *)
From Coq Require Import String.
From Verif Require Import Base X86 Object Encode EncodeSpec BytesSpec BytesProofs EncodeProofs EncodeRows EncodeRight.
Local Open Scope Z_scope.
Local Open Scope list_scope.

Lemma tail_none sym next l : imm_size l = 0%nat -> has_rel32 l = false -> tail_bytes sym next l = [].
Proof. intros A B. unfold tail_bytes. rewrite A, B. reflexivity. Qed.
Lemma tail_rel sym next l : imm_size l = 0%nat -> has_rel32 l = true -> tail_bytes sym next l = le_digits 4 (rel_value sym next l).
Proof. intros A B. unfold tail_bytes. rewrite A, B. reflexivity. Qed.
Lemma tail_imm sym next l n : imm_size l = n -> has_rel32 l = false -> tail_bytes sym next l = le_digits n (value_of sym (imm_label l) (imm l)).
Proof. intros A B. unfold tail_bytes. rewrite A, B. apply app_nil_r. Qed.

Section Form.
Variable sym : list Z -> Z.
Variable at_ : Z.
Variable e : encoding.
Variable ops : list aop.
Variable l : locals.
Variable len : Z.
Hypothesis Hrow : row_ok e = true.
Hypothesis Henc : encodable (e_mnemonic e) ops = true.
Hypothesis Hmatch : all_match 4 ops (e_accepts e) = true.
Hypothesis Hloop : operand_loop 4 e ops (e_encoding e) (locals0 e) = Ok l.
Hypothesis Hfits : fits sym (e_mnemonic e) ops.
Hypothesis Hlab : imm_size l = 0%nat \/ imm_label l = None \/ imm_size l = 4%nat \/ imm_size l = 8%nat.

Lemma plain_all : forallb plain_operand ops = true.
Proof. unfold encodable in Henc. apply andb_prop in Henc. destruct Henc as [A _]. apply andb_prop in A. destruct A as [A _].
  apply andb_prop in A. apply A. Qed.

(** Assembling the pieces. *)
Lemma conclude o qs :
  0 <= modrm_reg l < 16 -> rex_r l = bit3 (modrm_reg l) ->
  (if has_modrm l then rm_decodes (rm l) o else rm l = rm0) ->
  (e_rexw e = true -> has_rex l = true) -> has_modrm l = has_oe e OE_MODRM_RM ->
  (has_oe e OE_MODRM_REG = false -> modrm_reg l = 0) -> (has_oe e OE_MODRM_REG = true -> has_modrm l = true) ->
  (if has_oe e OE_OPEXT then 0 <= op_ext l < 8 else op_ext l = 0) ->
  written ops (e_mnemonic e) = qs ->
  (forall ss op tail, want_all (is_lea e) (listed e) ss = true -> (has_oe e OE_OPEXT = true -> lo3 op = op_ext l) ->
     exists ds, read_operands (final_rex l) (bits_of (e_rexw e) (rex_r l) (rex_b (rm l))) op (modrm_reg l)
        (if has_modrm l then Some (rmop_of o) else None) ss (tail_bytes sym (at_ + len) l ++ tail) = Some (ds, tail) /\
        Forall2 (denotes sym (at_ + len)) qs ds) ->
  right sym at_ e ops l len.
Proof.
  intros H1 H2 H3 H4 H5 H6 H7 H8 H9 H tail.
  destruct (head_row e l o Hrow H1 H2 H3 H4 H5 H6 H7 H8) as (name & ss & op & N & W & L & D).
  destruct (H ss op tail W L) as (ds & R & F).
  exists name, ds. rewrite <- app_assoc. split; [apply D; exact R|]. split; [exact N|]. rewrite H9. exact F.
Qed.
Lemma rexw_locals0 : e_rexw e = true -> has_rex (locals0 e) = true.
Proof. intros H. cbn. rewrite H. reflexivity. Qed.

Lemma match_one a : e_accepts e = [a] -> forall o, ops = [o] -> does_match o a = true.
Proof. intros E o ->. rewrite E in Hmatch. cbn [all_match hd tl] in Hmatch. apply andb_prop in Hmatch. apply Hmatch. Qed.
Lemma match_two a b : e_accepts e = [a; b] -> forall o p, ops = [o; p] -> does_match o a = true /\ does_match p b = true.
Proof.
  intros E o p ->. rewrite E in Hmatch. cbn [all_match hd tl] in Hmatch. apply andb_prop in Hmatch. destruct Hmatch as [A B].
  apply andb_prop in B. split; [exact A|apply B].
Qed.

(** The condition on the r/m operand. *)
Lemma rm_cond_one o l0 : ops = [o] -> length (e_accepts e) = 1%nat -> (e_rexw e = true -> has_rex l0 = true) -> 
  has_rex (mrex o l0) = true \/ is_mem o = true \/ idx o < 8.
Proof.
  intros -> Hl Hx. destruct (registers e [o] Hrow Henc Hmatch (eq_sym Hl) ltac:(cbn; lia)) as (C & P & _).
  cbn in P. rewrite andb_true_r in P.
  destruct C as [C|[C|[C _]]].
  - right. right. apply low_idx; [|exact P]. cbn in C. rewrite andb_true_r in C. exact C.
  - right. left. cbn in C. rewrite orb_false_r in C. exact C.
  - left. rewrite mrex_has_rex, (Hx C). reflexivity.
Qed.
Lemma rm_cond_two o p q l0 : ops = [o; p] \/ ops = [p; o] -> q = o -> length (e_accepts e) = 2%nat -> is_mem p = false ->
  (e_rexw e = true -> has_rex l0 = true) ->
  has_rex (mrex q l0) = true \/ is_mem q = true \/ idx q < 8.
Proof.
  intros Ho -> Hl Hp Hx.
  assert (length ops = 2%nat) by (destruct Ho as [-> | ->]; reflexivity).
  destruct (registers e ops Hrow Henc Hmatch ltac:(congruence) ltac:(lia)) as (C & P & _).
  destruct C as [C|[C|[C _]]].
  - right. right. destruct Ho as [-> | ->]; cbn in C, P; rewrite !andb_true_r in *; apply andb_prop in C, P; apply low_idx; tauto.
  - right. left. destruct Ho as [-> | ->]; cbn in C; rewrite Hp, ?orb_false_r in C; cbn in C; exact C.
  - left. rewrite mrex_has_rex, (Hx C). reflexivity.
Qed.
Lemma lea_one o : ops = [o] -> length (e_accepts e) = 1%nat -> is_lea e = true -> is_mem o = true.
Proof.
  intros -> Hl Hx. destruct (registers e [o] Hrow Henc Hmatch (eq_sym Hl) ltac:(cbn; lia)) as (_ & _ & C).
  specialize (C Hx). cbn in C. rewrite orb_false_r in C. exact C.
Qed.
Lemma lea_two o p : ops = [o; p] \/ ops = [p; o] -> length (e_accepts e) = 2%nat -> is_mem p = false -> is_lea e = true -> is_mem o = true.
Proof.
  intros Ho Hl Hp Hx. assert (length ops = 2%nat) by (destruct Ho as [-> | ->]; reflexivity).
  destruct (registers e ops Hrow Henc Hmatch ltac:(congruence) ltac:(lia)) as (_ & _ & C). specialize (C Hx).
  destruct Ho as [-> | ->]; cbn in C; rewrite Hp, ?orb_false_r in C; cbn in C; exact C.
Qed.
(** The condition on a register in the opcode. *)
Lemma opext_cond o t : ops = o :: t -> (length ops <= 4)%nat -> length (e_accepts e) = length ops -> existsb is_mem ops = false ->
  has_oe e OE_OPEXT = true -> idx o < 8.
Proof.
  intros Eo L Hl Hp Hx.
  destruct (registers e ops Hrow Henc Hmatch (eq_sym Hl) L) as (C & P & _).
  destruct C as [C|[C|[_ C]]]; [|congruence|congruence].
  rewrite Eo in C, P. cbn in C, P. apply andb_prop in C, P. apply low_idx; tauto.
Qed.

Ltac has_oes E := unfold has_oe; rewrite E; cbn [existsb fst is_oe orb]; try reflexivity; try (intros; discriminate); try (intros; reflexivity).

Lemma accepts_not_empty a : In a (e_accepts e) -> a <> ACC_EMPTY.
Proof. destruct (row_facts e Hrow) as (_ & _ & _ & _ & _ & _ & _ & _ & _ & H & _). apply H. Qed.

Lemma form_zero : e_encoding e = [] -> e_accepts e = [] -> right sym at_ e ops l len.
Proof.
  intros Ex Ea. pose proof Hloop as HL. rewrite Ex in HL. apply loop_zero in HL; [|apply plain_all]. destruct HL as [Eo El].
  apply conclude with (o := AEmpty) (qs := []); rewrite ?El; locs.
  all: try (has_oes Ex); try reflexivity. lia.
  - intros E. rewrite E. reflexivity.
  - rewrite Eo. reflexivity.
  - intros ss op tail W _. unfold listed in W. rewrite Ex, Ea in W. cbn in W. destruct ss; [|discriminate].
    exists []. split; [reflexivity|constructor].
Qed.

Lemma form_rel a : e_encoding e = [(OE_REL32, false)] -> e_accepts e = [a] -> right sym at_ e ops l len.
Proof.
  intros Ex Ea. pose proof Hloop as HL. rewrite Ex in HL. apply loop_one in HL; [|reflexivity|apply plain_all].
  destruct HL as (o & Eo & Po & H1). apply one_rel in H1; [|exact Po].
  pose proof (match_one a Ea o Eo) as Ma.
  apply conclude with (o := AEmpty) (qs := ops); rewrite ?H1; locs.
  all: try (has_oes Ex); try reflexivity. lia.
  - intros E. rewrite E. reflexivity.
  - apply written_id. intros r lb v E. rewrite Eo in E. discriminate.
  - intros ss op tail W _. unfold listed in W. rewrite Ex, Ea in W. cbn [combine map fst] in W.
    rewrite tail_rel by (locs; reflexivity). locs. rewrite Eo.
    change [o] with (map snd (@nil ((oe * acc) * aop)) ++ [o]).
    apply read_list_last with (lea := is_lea e) (k := OE_REL32) (a := a).
    + exact W.
    + constructor.
    + intros s Hs. eapply read_rel; [exact Hs|exact Ma| |]; locs; destruct o; reflexivity.
Qed.

Lemma form_rm a : e_encoding e = [(OE_MODRM_RM, false)] -> e_accepts e = [a] -> right sym at_ e ops l len.
Proof.
  intros Ex Ea. pose proof Hloop as HL. rewrite Ex in HL. apply loop_one in HL; [|reflexivity|apply plain_all].
  destruct HL as (o & Eo & Po & H1).
  assert (Le : length (e_accepts e) = 1%nat) by (rewrite Ea; reflexivity).
  apply one_rm in H1; [|exact Po|reflexivity|apply rm_cond_one; [exact Eo|exact Le|apply rexw_locals0]].
  destruct H1 as (m & H1 & D).
  pose proof (match_one a Ea o Eo) as Ma.
  apply conclude with (o := o) (qs := ops); rewrite ?H1; locs.
  all: try (has_oes Ex); try reflexivity. lia. exact D.
  - intros E. rewrite E. reflexivity.
  - apply written_id. intros r lb v E. rewrite Eo in E. discriminate.
  - intros ss op tail W _. unfold listed in W. rewrite Ex, Ea in W. cbn [combine map fst] in W.
    rewrite tail_none by (locs; reflexivity). locs. rewrite Eo. cbn [app].
    change [o] with (map snd [((OE_MODRM_RM, a), o)]).
    eapply read_list; [exact W|]. constructor; [|constructor].
    split; [exact Ma|]. split; [exact Po|]. split.
    { cbn [carried]. split; [reflexivity|]. intros N. apply final_rex_has. locs. rewrite N, orb_true_r. reflexivity. }
    split; [reflexivity|]. split; [discriminate|]. intros L _. apply lea_one; assumption.
Qed.

Lemma form_opext a : e_encoding e = [(OE_OPEXT, false)] -> e_accepts e = [a] -> right sym at_ e ops l len.
Proof.
  intros Ex Ea. pose proof Hloop as HL. rewrite Ex in HL. apply loop_one in HL; [|reflexivity|apply plain_all].
  destruct HL as (o & Eo & Po & H1). apply one_opext in H1; [|exact Po]. destruct H1 as [H1 Nm].
  pose proof (match_one a Ea o Eo) as Ma.
  assert (Lo : idx o < 8).
  { apply opext_cond with (t := []); rewrite ?Eo, ?Ea; [reflexivity|cbn; lia|reflexivity|cbn; rewrite Nm; reflexivity|has_oes Ex]. }
  pose proof (idx_range o Po) as Ri.
  apply conclude with (o := AEmpty) (qs := ops); rewrite ?H1; locs.
  all: try (has_oes Ex); try reflexivity. lia.
  - intros E. rewrite E. reflexivity.
  - lia.
  - apply written_id. intros r lb v E. rewrite Eo in E. discriminate.
  - intros ss op tail W Lop. unfold listed in W. rewrite Ex, Ea in W. cbn [combine map fst] in W.
    rewrite tail_none by (locs; reflexivity). locs. rewrite Eo. cbn [app].
    change [o] with (map snd [((OE_OPEXT, a), o)]).
    eapply read_list; [exact W|]. constructor; [|constructor].
    split; [exact Ma|]. split; [exact Po|]. split.
    { cbn [carried]. split; [apply Lop; reflexivity|]. intros N. apply final_rex_has. locs. rewrite N, orb_true_r. reflexivity. }
    split; [reflexivity|]. split; [discriminate|]. intros L Q. discriminate Q.
Qed.

Lemma second_not_imm q k a b lab v :
  e_encoding e = [(q, false); (k, false)] -> e_accepts e = [a; b] -> imm_of k = None -> k <> OE_REL32 -> does_match (AImm lab v) b = true -> False.
Proof.
  intros Ex Ea Ik Nk Mb. pose proof (at_i e 0 Hrow ltac:(lia)) as A. unfold row_at in A. cbv zeta in A.
  apply andb_prop in A. destruct A as [_ A]. destruct (meaning _ _ _) as [[name ss]|]; [|discriminate].
  apply andb_prop in A. destruct A as [_ A]. unfold listed in A. rewrite Ex, Ea in A. cbn [combine map fst] in A.
  destruct ss as [|s1 [|s2 ss]]; cbn [want_all] in A; rewrite ?andb_false_r in A; try discriminate.
  apply andb_prop in A. destruct A as [_ A]. apply andb_prop in A. destruct A as [A _].
  destruct k; try discriminate Ik; destruct b; destruct s2; cbn in A; try discriminate A; try discriminate Mb; congruence.
Qed.
Lemma second_is_imm q k n a b p : 
  e_encoding e = [(q, false); (k, false)] -> e_accepts e = [a; b] -> imm_of k = Some n -> does_match p b = true -> exists lab v, p = AImm lab v.
Proof.
  intros Ex Ea Ik Mb. pose proof (at_i e 0 Hrow ltac:(lia)) as A. unfold row_at in A. cbv zeta in A.
  apply andb_prop in A. destruct A as [_ A]. destruct (meaning _ _ _) as [[name ss]|]; [|discriminate].
  apply andb_prop in A. destruct A as [_ A]. unfold listed in A. rewrite Ex, Ea in A. cbn [combine map fst] in A.
  destruct ss as [|s1 [|s2 ss]]; cbn [want_all] in A; rewrite ?andb_false_r in A; try discriminate.
  apply andb_prop in A. destruct A as [_ A]. apply andb_prop in A. destruct A as [A _].
  destruct s2; try (destruct k; try discriminate Ik; destruct b; discriminate A).
  assert (imm_ok n0 s b = true).
  { destruct k; try discriminate Ik; destruct b; cbn in A; try discriminate A; apply andb_prop in A; apply A. }
  unfold imm_ok in H. apply andb_prop in H. destruct H as [_ H].
  destruct b; try discriminate H; destruct p; try discriminate Mb; eauto.
Qed.
Lemma dup_is_imm k n a b p : 
  e_encoding e = [(OE_MODRM_RM, true); (OE_MODRM_REG, false); (k, false)] -> e_accepts e = [a; b] -> imm_of k = Some n -> does_match p b = true -> exists lab v, p = AImm lab v.
Proof.
  intros Ex Ea Ik Mb. pose proof (at_i e 0 Hrow ltac:(lia)) as A. unfold row_at in A. cbv zeta in A.
  apply andb_prop in A. destruct A as [_ A]. destruct (meaning _ _ _) as [[name ss]|]; [|discriminate].
  apply andb_prop in A. destruct A as [_ A]. unfold listed in A. rewrite Ex, Ea in A. cbn [combine map fst] in A.
  destruct ss as [|s1 [|s2 [|s3 ss]]]; cbn [want_all] in A; rewrite ?andb_false_r in A; try discriminate.
  apply andb_prop in A. destruct A as [_ A]. apply andb_prop in A. destruct A as [_ A]. apply andb_prop in A. destruct A as [A _].
  destruct s3; try (destruct k; try discriminate Ik; destruct b; discriminate A).
  assert (imm_ok n0 s b = true).
  { destruct k; try discriminate Ik; destruct b; cbn in A; try discriminate A; apply andb_prop in A; apply A. }
  unfold imm_ok in H. apply andb_prop in H. destruct H as [_ H].
  destruct b; try discriminate H; destruct p; try discriminate Mb; eauto.
Qed.
Lemma movabs_acc a b : e_accepts e = [a; b] -> b = ACC_IMM64 \/ e_mnemonic e <> "movabsq"%string.
Proof.
  intros Ea. destruct (string_dec (e_mnemonic e) "movabsq") as [E|N]; [left|right; exact N].
  destruct (row_facts e Hrow) as (_ & _ & _ & _ & _ & _ & H & _). destruct (H E) as [a' E']. rewrite Ea in E'. congruence.
Qed.
Lemma fits_sub o p : ops = [o; p] -> fits sym (e_mnemonic e) [p].
Proof.
  intros Eo. destruct Hfits as [H|H]; [left; exact H|right]. intros lb v [I|[]]. apply H. rewrite Eo. right. left. exact I.
Qed.

Lemma form_rm_reg a b : e_encoding e = [(OE_MODRM_RM, false); (OE_MODRM_REG, false)] -> e_accepts e = [a; b] -> right sym at_ e ops l len.
Proof.
  intros Ex Ea. pose proof Hloop as HL. rewrite Ex in HL. apply loop_two in HL; [|reflexivity|reflexivity|apply plain_all].
  destruct HL as (o & p & l1 & Eo & Po & Pp & H1 & H2).
  assert (Le : length (e_accepts e) = 2%nat) by (rewrite Ea; reflexivity).
  apply one_reg in H2; [|exact Pp]. destruct H2 as [H2 Nm].
  apply one_rm in H1; [|exact Po|reflexivity|apply rm_cond_two with (o := o) (p := p); auto using rexw_locals0].
  destruct H1 as (m & H1 & D). subst l1.
  destruct (match_two a b Ea o p Eo) as [Ma Mb]. pose proof (idx_range p Pp) as Ri.
  apply conclude with (o := o) (qs := ops); rewrite ?H2; locs.
  all: try (has_oes Ex); try reflexivity. lia. exact D.
  - intros E. rewrite E. reflexivity.
  - apply written_id. intros r lb v E. rewrite Eo in E. injection E as _ E. rewrite E in Mb. exfalso.
    eapply second_not_imm; [exact Ex|exact Ea|reflexivity|discriminate|exact Mb].
  - intros ss op tail W _. unfold listed in W. rewrite Ex, Ea in W. cbn [combine map fst] in W.
    rewrite tail_none by (locs; reflexivity). locs. rewrite Eo. cbn [app].
    change [o; p] with (map snd [((OE_MODRM_RM, a), o); ((OE_MODRM_REG, b), p)]).
    eapply read_list; [exact W|]. constructor; [|constructor; [|constructor]].
    + split; [exact Ma|]. split; [exact Po|]. split.
      { cbn [carried]. split; [reflexivity|]. intros N. apply final_rex_has. locs. rewrite N, ?orb_true_r. reflexivity. }
      split; [reflexivity|]. split; [discriminate|]. intros L _. apply lea_two with (p := p); auto.
    + split; [exact Mb|]. split; [exact Pp|]. split.
      { cbn [carried]. split; [reflexivity|]. intros N. apply final_rex_has. locs. rewrite N, ?orb_true_r. reflexivity. }
      split; [reflexivity|]. split; [discriminate|]. intros L Q. discriminate Q.
Qed.

Lemma form_reg_rm a b : e_encoding e = [(OE_MODRM_REG, false); (OE_MODRM_RM, false)] -> e_accepts e = [a; b] -> right sym at_ e ops l len.
Proof.
  intros Ex Ea. pose proof Hloop as HL. rewrite Ex in HL. apply loop_two in HL; [|reflexivity|reflexivity|apply plain_all].
  destruct HL as (p & o & l1 & Eo & Pp & Po & H1 & H2).
  assert (Le : length (e_accepts e) = 2%nat) by (rewrite Ea; reflexivity).
  apply one_reg in H1; [|exact Pp]. destruct H1 as [H1 Nm]. subst l1.
  apply one_rm in H2; [|exact Po|locs; reflexivity|apply rm_cond_two with (o := o) (p := p); auto; locs; intros E; rewrite E; reflexivity].
  destruct H2 as (m & H2 & D).
  destruct (match_two a b Ea p o Eo) as [Ma Mb]. pose proof (idx_range p Pp) as Ri.
  apply conclude with (o := o) (qs := ops); rewrite ?H2; locs.
  all: try (has_oes Ex); try reflexivity. lia. exact D.
  - intros E. rewrite E. reflexivity.
  - apply written_id. intros r lb v E. rewrite Eo in E. injection E as _ E. rewrite E in Mb. exfalso.
    eapply second_not_imm; [exact Ex|exact Ea|reflexivity|discriminate|exact Mb].
  - intros ss op tail W _. unfold listed in W. rewrite Ex, Ea in W. cbn [combine map fst] in W.
    rewrite tail_none by (locs; reflexivity). locs. rewrite Eo. cbn [app].
    change [p; o] with (map snd [((OE_MODRM_REG, a), p); ((OE_MODRM_RM, b), o)]).
    eapply read_list; [exact W|]. constructor; [|constructor; [|constructor]].
    + split; [exact Ma|]. split; [exact Pp|]. split.
      { cbn [carried]. split; [reflexivity|]. intros N. apply final_rex_has. locs. rewrite N, ?orb_true_r. reflexivity. }
      split; [reflexivity|]. split; [discriminate|]. intros L Q. discriminate Q.
    + split; [exact Mb|]. split; [exact Po|]. split.
      { cbn [carried]. split; [reflexivity|]. intros N. apply final_rex_has. locs. rewrite N, ?orb_true_r. reflexivity. }
      split; [reflexivity|]. split; [discriminate|]. intros L _. apply lea_two with (p := p); auto.
Qed.

Lemma none_not_mem q a b o p : e_encoding e = [(q, false); (OE_NONE, false)] -> e_accepts e = [a; b] -> ops = [o; p] -> does_match p b = true -> is_mem p = false.
Proof.
  intros Ex Ea Eo Mb. pose proof (at_i e 0 Hrow ltac:(lia)) as A. unfold row_at in A. cbv zeta in A.
  apply andb_prop in A. destruct A as [_ A]. destruct (meaning _ _ _) as [[name ss]|]; [|discriminate].
  apply andb_prop in A. destruct A as [_ A]. unfold listed in A. rewrite Ex, Ea in A. cbn [combine map fst] in A.
  destruct ss as [|s1 [|s2 ss]]; cbn [want_all] in A; rewrite ?andb_false_r in A; try discriminate.
  apply andb_prop in A. destruct A as [_ A]. apply andb_prop in A. destruct A as [A _].
  destruct b; destruct s2; cbn in A; try discriminate A; destruct p; try discriminate Mb; reflexivity.
Qed.
Lemma form_rm_none a b : e_encoding e = [(OE_MODRM_RM, false); (OE_NONE, false)] -> e_accepts e = [a; b] -> right sym at_ e ops l len.
Proof.
  intros Ex Ea. pose proof Hloop as HL. rewrite Ex in HL. apply loop_two in HL; [|reflexivity|reflexivity|apply plain_all].
  destruct HL as (o & p & l1 & Eo & Po & Pp & H1 & H2).
  assert (Le : length (e_accepts e) = 2%nat) by (rewrite Ea; reflexivity).
  destruct (match_two a b Ea o p Eo) as [Ma Mb].
  pose proof (none_not_mem _ a b o p Ex Ea Eo Mb) as Nm.
  apply one_none in H2; [|exact Pp].
  apply one_rm in H1; [|exact Po|reflexivity|apply rm_cond_two with (o := o) (p := p); auto using rexw_locals0].
  destruct H1 as (m & H1 & D). subst l1.
  apply conclude with (o := o) (qs := ops); rewrite ?H2; locs.
  all: try (has_oes Ex); try reflexivity. lia. exact D.
  - intros E. rewrite E. reflexivity.
  - apply written_id. intros r lb v E. rewrite Eo in E. injection E as _ E. rewrite E in Mb. exfalso.
    eapply second_not_imm; [exact Ex|exact Ea|reflexivity|discriminate|exact Mb].
  - intros ss op tail W _. unfold listed in W. rewrite Ex, Ea in W. cbn [combine map fst] in W.
    rewrite tail_none by (locs; reflexivity). locs. rewrite Eo. cbn [app].
    change [o; p] with (map snd [((OE_MODRM_RM, a), o); ((OE_NONE, b), p)]).
    eapply read_list; [exact W|]. constructor; [|constructor; [|constructor]].
    + split; [exact Ma|]. split; [exact Po|]. split.
      { cbn [carried]. split; [reflexivity|]. intros N. apply final_rex_has. locs. rewrite N, ?orb_true_r. reflexivity. }
      split; [reflexivity|]. split; [discriminate|]. intros L _. apply lea_two with (p := p); auto.
    + split; [exact Mb|]. split; [exact Pp|]. split; [exact I|].
      split; [reflexivity|]. split; [discriminate|]. intros L Q. discriminate Q.
Qed.

Lemma not_imulq q k n : e_encoding e = [q; (k, false)] -> imm_of k = Some n -> e_mnemonic e <> "imulq"%string.
Proof. intros Ex Ik. destruct (row_facts e Hrow) as (_ & _ & _ & _ & _ & _ & _ & _ & _ & _ & H). apply (H _ _ _ Ex Ik). Qed.
Lemma imm_labels n : imm_size l = n -> (0 < n)%nat -> imm_label l = None \/ n = 4%nat \/ n = 8%nat.
Proof. intros E P. destruct Hlab as [H|[H|H]]; [lia|left; exact H|]. rewrite E in H. right. exact H. Qed.
Lemma imm_pos k n : imm_of k = Some n -> (0 < n)%nat.
Proof. destruct k; cbn; intros H; inversion H; lia. Qed.

Lemma form_rm_imm a b k n : e_encoding e = [(OE_MODRM_RM, false); (k, false)] -> e_accepts e = [a; b] -> imm_of k = Some n -> right sym at_ e ops l len.
Proof.
  intros Ex Ea Ik. pose proof Hloop as HL. rewrite Ex in HL. apply loop_two in HL; [|reflexivity|destruct k; discriminate Ik || reflexivity|apply plain_all].
  destruct HL as (o & p & l1 & Eo & Po & Pp & H1 & H2).
  assert (Le : length (e_accepts e) = 2%nat) by (rewrite Ea; reflexivity).
  destruct (match_two a b Ea o p Eo) as [Ma Mb].
  destruct (second_is_imm _ k n a b p Ex Ea Ik Mb) as (lb & v & Ep).
  assert (Nm : is_mem p = false) by (rewrite Ep; reflexivity).
  apply one_imm with (n := n) in H2; [|exact Pp|exact Ik].
  apply one_rm in H1; [|exact Po|reflexivity|apply rm_cond_two with (o := o) (p := p); auto using rexw_locals0].
  destruct H1 as (m & H1 & D). subst l1.
  assert (Lb : lb = None \/ n = 4%nat \/ n = 8%nat).
  { pose proof (imm_labels n) as Q. rewrite H2 in Q. rewrite Ep in Q. cbn [imm_size imm_label set_imm] in Q. apply Q; [reflexivity|apply (imm_pos k); exact Ik]. }
  assert (K2 : existsb (fun q => is_oe OE_MODRM_REG (fst q)) [(OE_MODRM_RM, false); (k, false)] = false) by (destruct k; try discriminate Ik; reflexivity).
  assert (K3 : existsb (fun q => is_oe OE_OPEXT (fst q)) [(OE_MODRM_RM, false); (k, false)] = false) by (destruct k; try discriminate Ik; reflexivity).
  apply conclude with (o := o) (qs := ops); rewrite ?H2; unfold has_oe; rewrite ?Ex, ?K2, ?K3; locs; try reflexivity; try (intros; reflexivity); try discriminate.
  - lia.
  - exact D.
  - intros E. rewrite E. reflexivity.
  - apply written_id. intros _ _ _ _. apply (not_imulq _ _ _ Ex Ik).
  - intros ss op tail W _. unfold listed in W. rewrite Ex, Ea in W. cbn [combine map fst] in W.
    rewrite tail_imm with (n := n) by (locs; reflexivity). locs.
    match goal with |- context [value_of sym ?x ?y] => assert (Ev : value_of sym x y = value_of sym lb v) by (rewrite Ep; reflexivity) end. rewrite Eo.
    change [o; p] with (map snd [((OE_MODRM_RM, a), o)] ++ [p]).
    apply read_list_last with (lea := is_lea e) (k := k) (a := b).
    + exact W.
    + constructor; [|constructor]. split; [exact Ma|]. split; [exact Po|]. split.
      { cbn [carried]. split; [reflexivity|]. intros N. apply final_rex_has. locs. rewrite N, ?orb_true_r. reflexivity. }
      split; [reflexivity|]. split; [discriminate|]. intros L _. apply lea_two with (p := p); auto.
    + intros s Hs. rewrite Ev. eapply read_imm; [exact Hs|exact Mb|exact Ik|exact Ep|exact Lb|apply (movabs_acc a); exact Ea|apply (fits_sub o); exact Eo].
Qed.

Lemma form_none_imm a b k n : e_encoding e = [(OE_NONE, false); (k, false)] -> e_accepts e = [a; b] -> imm_of k = Some n -> right sym at_ e ops l len.
Proof.
  intros Ex Ea Ik. pose proof Hloop as HL. rewrite Ex in HL. apply loop_two in HL; [|reflexivity|destruct k; discriminate Ik || reflexivity|apply plain_all].
  destruct HL as (o & p & l1 & Eo & Po & Pp & H1 & H2).
  destruct (match_two a b Ea o p Eo) as [Ma Mb].
  destruct (second_is_imm _ k n a b p Ex Ea Ik Mb) as (lb & v & Ep).
  apply one_imm with (n := n) in H2; [|exact Pp|exact Ik].
  apply one_none in H1; [|exact Po]. subst l1.
  assert (Lb : lb = None \/ n = 4%nat \/ n = 8%nat).
  { pose proof (imm_labels n) as Q. rewrite H2 in Q. rewrite Ep in Q. cbn [imm_size imm_label set_imm] in Q. apply Q; [reflexivity|apply (imm_pos k); exact Ik]. }
  assert (Ko : existsb (fun q => is_oe OE_MODRM_RM (fst q)) [(OE_NONE, false); (k, false)] = false /\
               existsb (fun q => is_oe OE_MODRM_REG (fst q)) [(OE_NONE, false); (k, false)] = false /\
               existsb (fun q => is_oe OE_OPEXT (fst q)) [(OE_NONE, false); (k, false)] = false).
  { destruct k; try discriminate Ik; repeat split; reflexivity. }
  destruct Ko as (K1 & K2 & K3).
  apply conclude with (o := AEmpty) (qs := ops); rewrite ?H2; unfold has_oe; rewrite ?Ex, ?K1, ?K2, ?K3; locs; try reflexivity; try discriminate.
  - lia.
  - intros E. rewrite E. reflexivity.
  - apply written_id. intros _ _ _ _. apply (not_imulq _ _ _ Ex Ik).
  - intros ss op tail W _. unfold listed in W. rewrite Ex, Ea in W. cbn [combine map fst] in W.
    rewrite tail_imm with (n := n) by (locs; reflexivity). locs.
    match goal with |- context [value_of sym ?x ?y] => assert (Ev : value_of sym x y = value_of sym lb v) by (rewrite Ep; reflexivity) end. rewrite Eo.
    change [o; p] with (map snd [((OE_NONE, a), o)] ++ [p]).
    apply read_list_last with (lea := is_lea e) (k := k) (a := b).
    + exact W.
    + constructor; [|constructor]. split; [exact Ma|]. split; [exact Po|]. split; [exact I|].
      split; [reflexivity|]. split; [discriminate|]. intros L Q. discriminate Q.
    + intros s Hs. rewrite Ev. eapply read_imm; [exact Hs|exact Mb|exact Ik|exact Ep|exact Lb|apply (movabs_acc a); exact Ea|apply (fits_sub o); exact Eo].
Qed.

Lemma form_opext_imm a b k n : e_encoding e = [(OE_OPEXT, false); (k, false)] -> e_accepts e = [a; b] -> imm_of k = Some n -> right sym at_ e ops l len.
Proof.
  intros Ex Ea Ik. pose proof Hloop as HL. rewrite Ex in HL. apply loop_two in HL; [|reflexivity|destruct k; discriminate Ik || reflexivity|apply plain_all].
  destruct HL as (o & p & l1 & Eo & Po & Pp & H1 & H2).
  destruct (match_two a b Ea o p Eo) as [Ma Mb].
  destruct (second_is_imm _ k n a b p Ex Ea Ik Mb) as (lb & v & Ep).
  apply one_imm with (n := n) in H2; [|exact Pp|exact Ik].
  apply one_opext in H1; [|exact Po]. destruct H1 as [H1 Nm]. subst l1.
  assert (Ko : existsb (fun q => is_oe OE_MODRM_RM (fst q)) [(OE_OPEXT, false); (k, false)] = false /\
               existsb (fun q => is_oe OE_MODRM_REG (fst q)) [(OE_OPEXT, false); (k, false)] = false /\
               existsb (fun q => is_oe OE_OPEXT (fst q)) [(OE_OPEXT, false); (k, false)] = true).
  { destruct k; try discriminate Ik; repeat split; reflexivity. }
  destruct Ko as (K1 & K2 & K3).
  assert (Lo : idx o < 8).
  { apply opext_cond with (t := [p]); rewrite ?Eo, ?Ea; [reflexivity|cbn; lia|reflexivity|rewrite Ep; cbn; rewrite Nm; reflexivity|].
    unfold has_oe. rewrite Ex. exact K3. }
  pose proof (idx_range o Po) as Ri.
  assert (Lb : lb = None \/ n = 4%nat \/ n = 8%nat).
  { pose proof (imm_labels n) as Q. rewrite H2 in Q. rewrite Ep in Q. cbn [imm_size imm_label set_imm] in Q. apply Q; [reflexivity|apply (imm_pos k); exact Ik]. }
  apply conclude with (o := AEmpty) (qs := ops); rewrite ?H2; unfold has_oe; rewrite ?Ex, ?K1, ?K2, ?K3; locs; try reflexivity; try discriminate.
  - lia.
  - intros E. rewrite E. reflexivity.
  - lia.
  - apply written_id. intros _ _ _ _. apply (not_imulq _ _ _ Ex Ik).
  - intros ss op tail W Lop. unfold listed in W. rewrite Ex, Ea in W. cbn [combine map fst] in W.
    rewrite tail_imm with (n := n) by (locs; reflexivity). locs.
    match goal with |- context [value_of sym ?x ?y] => assert (Ev : value_of sym x y = value_of sym lb v) by (rewrite Ep; reflexivity) end. rewrite Eo.
    change [o; p] with (map snd [((OE_OPEXT, a), o)] ++ [p]).
    apply read_list_last with (lea := is_lea e) (k := k) (a := b).
    + exact W.
    + constructor; [|constructor]. split; [exact Ma|]. split; [exact Po|]. split.
      { cbn [carried]. split; [apply Lop; reflexivity|]. intros N. apply final_rex_has. locs. rewrite N, ?orb_true_r. reflexivity. }
      split; [reflexivity|]. split; [discriminate|]. intros L Q. discriminate Q.
    + intros s Hs. rewrite Ev. eapply read_imm; [exact Hs|exact Mb|exact Ik|exact Ep|exact Lb|apply (movabs_acc a); exact Ea|apply (fits_sub o); exact Eo].
Qed.

Lemma form_dup a b k n : e_encoding e = [(OE_MODRM_RM, true); (OE_MODRM_REG, false); (k, false)] -> e_accepts e = [a; b] -> imm_of k = Some n ->
  right sym at_ e ops l len.
Proof.
  intros Ex Ea Ik. pose proof Hloop as HL. rewrite Ex in HL. apply loop_dup in HL; [|reflexivity|reflexivity|destruct k; discriminate Ik || reflexivity|apply plain_all].
  destruct HL as (o & p & l1 & l2 & Eo & Po & Pp & H1 & H2 & H3).
  assert (Le : length (e_accepts e) = 2%nat) by (rewrite Ea; reflexivity).
  destruct (match_two a b Ea o p Eo) as [Ma Mb].
  destruct (dup_is_imm k n a b p Ex Ea Ik Mb) as (lb & v & Ep).
  assert (Nm : is_mem p = false) by (rewrite Ep; reflexivity).
  apply one_imm with (n := n) in H3; [|exact Pp|exact Ik].
  apply one_reg in H2; [|exact Po]. destruct H2 as [H2 Nmo]. 
  apply one_rm in H1; [|exact Po|reflexivity|apply rm_cond_two with (o := o) (p := p); auto using rexw_locals0].
  destruct H1 as (m & H1 & D). subst l1. subst l2.
  pose proof (idx_range o Po) as Ri.
  assert (Lb : lb = None \/ n = 4%nat \/ n = 8%nat).
  { pose proof (imm_labels n) as Q. rewrite H3 in Q. rewrite Ep in Q. cbn [imm_size imm_label set_imm] in Q. apply Q; [reflexivity|apply (imm_pos k); exact Ik]. }
  assert (Im : e_mnemonic e = "imulq"%string).
  { destruct (row_facts e Hrow) as (_ & _ & _ & _ & _ & H & _). apply (H _ _ Ex). }
  assert (K3 : existsb (fun q => is_oe OE_OPEXT (fst q)) [(OE_MODRM_RM, true); (OE_MODRM_REG, false); (k, false)] = false).
  { destruct k; try discriminate Ik; reflexivity. }
  apply conclude with (o := o) (qs := [o; o; p]); rewrite ?H3; unfold has_oe; rewrite ?Ex, ?K3; locs; try reflexivity; try (cbn; discriminate).
  - lia.
  - exact D.
  - intros E. rewrite E. reflexivity.
  - rewrite Eo, Im, Ep. reflexivity.
  - intros ss op tail W _. unfold listed in W. rewrite Ex, Ea in W.
    rewrite tail_imm with (n := n) by (locs; reflexivity). locs.
    match goal with |- context [value_of sym ?x ?y] => assert (Ev : value_of sym x y = value_of sym lb v) by (rewrite Ep; reflexivity) end.
    change [o; o; p] with (map snd [((OE_MODRM_REG, a), o); ((OE_MODRM_RM, a), o)] ++ [p]).
    apply read_list_last with (lea := is_lea e) (k := k) (a := b).
    + exact W.
    + constructor; [|constructor; [|constructor]].
      * split; [exact Ma|]. split; [exact Po|]. split.
        { cbn [carried]. split; [reflexivity|]. intros N. apply final_rex_has. locs. rewrite N, ?orb_true_r. reflexivity. }
        split; [reflexivity|]. split; [discriminate|]. intros L Q. discriminate Q.
      * split; [exact Ma|]. split; [exact Po|]. split.
        { cbn [carried]. split; [reflexivity|]. intros N. apply final_rex_has. locs. rewrite N, ?orb_true_r. reflexivity. }
        split; [reflexivity|]. split; [discriminate|]. intros L _. apply lea_two with (p := p); auto.
    + intros s Hs. rewrite Ev. eapply read_imm; [exact Hs|exact Mb|exact Ik|exact Ep|exact Lb|apply (movabs_acc a); exact Ea|apply (fits_sub o); exact Eo].
Qed.

Lemma every_form : right sym at_ e ops l len.
Proof.
  destruct (row_facts e Hrow) as (F & _). apply form_cases in F.
  destruct F as [(A & B)|[(a & A & B)|[(a & A & B)|[(a & A & B)|[(a & b & A & B)|[(a & b & A & B)|[(a & b & A & B)|
    [(a & b & k & n & A & B & C)|[(a & b & k & n & A & B & C)|[(a & b & k & n & A & B & C)|(a & b & k & n & A & B & C)]]]]]]]]]].
  - apply form_zero; assumption.
  - apply (form_rel a); assumption.
  - apply (form_rm a); assumption.
  - apply (form_opext a); assumption.
  - apply (form_rm_reg a b); assumption.
  - apply (form_reg_rm a b); assumption.
  - apply (form_rm_none a b); assumption.
  - apply (form_rm_imm a b k n); assumption.
  - apply (form_none_imm a b k n); assumption.
  - apply (form_opext_imm a b k n); assumption.
  - apply (form_dup a b k n); assumption.
Qed.
End Form.
