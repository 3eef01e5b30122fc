(** The code of a call puts every argument where the convention says. *)
From Verif Require Import Base Bytes Common CommonProofs Arch X86 Codegen AsmSpec X86Proofs X86Preserve CodegenProofs Frame FrameSpec FrameProofs SysV SysVSpec Passing PassingSpec PassingProofs PassingRegs PassingLayout.
From Coq Require Import Sorted.
Ltac Zify.zify_post_hook ::= idtac.

Lemma all_code_forall {A} (f : A -> res (list instr)) l : forall codes, all_code f l = Ok codes ->
  Forall2 (fun code a => f a = Ok code) codes l.
Proof.
  induction l as [|a l IH]; intros codes; cbn [all_code].
  - intros E; injection E as <-. constructor.
  - intros E. apply bind_ok in E. destruct E as (c & E1 & E). apply bind_ok in E. destruct E as (cs & E2 & E).
    injection E as <-. constructor; auto.
Qed.
Lemma all_code_total {A} (f : A -> res (list instr)) l : (forall a, In a l -> exists c, f a = Ok c) ->
  exists codes, all_code f l = Ok codes.
Proof.
  induction l as [|a l IH]; intros H; cbn [all_code]; [eauto|].
  destruct (H a (or_introl eq_refl)) as (c & ->). destruct IH as (cs & ->); [intros b I; apply H; right; exact I|]. cbn [bind]. eauto.
Qed.
Lemma all_code_map {A B} (g : A -> B) (f : B -> res (list instr)) l : all_code (fun a => f (g a)) l = all_code f (map g l).
Proof. induction l as [|a l IH]; cbn [all_code map]; [reflexivity|]. rewrite IH. reflexivity. Qed.

Lemma ordpairs_map {A B} (R : A -> A -> Prop) (Q : B -> B -> Prop) (f : A -> B) l :
  ForallOrdPairs R l -> (forall a b, In a l -> In b l -> R a b -> Q (f a) (f b)) -> ForallOrdPairs Q (map f l).
Proof.
  induction 1 as [|a l F _ IH]; intros H; cbn [map]; constructor.
  - apply Forall_forall. intros y I. apply in_map_iff in I. destruct I as (b & <- & I). rewrite Forall_forall in F.
    apply H; [left; reflexivity|right; exact I|apply F; exact I].
  - apply IH. intros x y I J. apply H; right; assumption.
Qed.
Lemma ordpairs_rev {A} (R : A -> A -> Prop) l : ForallOrdPairs R l -> ForallOrdPairs (fun a b => R b a) (rev l).
Proof.
  induction 1 as [|a l F _ IH]; cbn [rev]; [constructor|]. apply ordpairs_app; [exact IH|repeat constructor|].
  intros x y I [<-|[]]. apply in_rev in I. rewrite Forall_forall in F. apply F. exact I.
Qed.
Lemma forall2_rev {A B} (R : A -> B -> Prop) l m : Forall2 R l m -> Forall2 R (rev l) (rev m).
Proof. induction 1; cbn [rev]; [constructor|]. apply Forall2_app; auto. Qed.

Lemma load_same m m' a n : (forall x, a <= x < a + Z.of_nat n -> m' x = m x) -> load m' a n = load m a n.
Proof. intros H. apply load_ext. exact H. Qed.

Lemma exec_add_neg F s n r : machine_ok s -> 0 <= n < 2 ^ 31 -> n <= gpr s r ->
  exec F (I2 (Add W8) (IMM (- n)) (R8 r)) s = Ok (set_flag (set_gpr s r (gpr s r - n)) None).
Proof.
  intros (G & _ & _) K L. pose proof (G r) as GR. cbn [exec]. unfold alu. cbn [is_mem andb rd reg_of].
  destruct (Z.leb_spec (- 2 ^ 31) (- n)); [|lia].
  destruct (Z.ltb_spec (- n) (2 ^ Z.min 32 (bits W8))) as [_|B]; [|change (2 ^ Z.min 32 (bits W8)) with 4294967296 in B; lia].
  cbn [andb bind]. change (bits W8) with 64. rewrite (wrap_small 64 (gpr s r)) by exact GR.
  cbn [wr reg_of bind]. change (bits W8) with 64.
  assert (E : wrap 64 (gpr s r + wrap 64 (- n)) = gpr s r - n).
  { unfold wrap. rewrite Zplus_mod_idemp_r. replace (gpr s r + - n) with (gpr s r - n) by lia. apply Z.mod_small. lia. }
  rewrite E. rewrite (wrap_small 64) by lia. reflexivity.
Qed.

Lemma round16_total n : 0 <= n -> n + 16 < 2 ^ 31 -> exists r, round_up_to_nearest n 16 = Ok r /\ n <= r < n + 16 /\ r mod 16 = 0.
Proof.
  intros A B. destruct (round_up_eq n 16) as (r & E & L & H & (q & ->)); [lia|lia|unfold INT_MAX; lia|unfold INT_MAX; lia|].
  exists (q * 16). split; [exact E|]. split; [lia|]. apply Z.mod_mul. lia.
Qed.

Record call_done (s : machine) (types : list atype) (c : call_info) (k : call_site) (args : list Z) (sub : Z)
       (layout : list (nat * Z * Z)) (s1 : machine) : Prop := {
  cd_ok : machine_ok s1;
  cd_rbp : gpr s1 RBP = gpr s RBP;
  cd_rsp : gpr s1 RSP = gpr s RSP - sub;
  cd_rbx : gpr s1 RBX = slot_bits s (k_callee k);
  cd_rax : gpr s1 RAX = slot_bits s (k_rax k);
  cd_stack : forall i off size a j, In (i, off, size) layout -> nth_error args i = Some a -> 0 <= j < size ->
    mem s1 (gpr s1 RSP + off + j) = mem s (a + j);
  cd_regs : forall r i pos a j, In r (c_regs c) -> r_merged r = Some (i, pos) -> nth_error args i = Some a -> 0 <= j < r_size r ->
    byte_of (content s1 (r_place r)) j = mem s (a + pos + j);
  cd_hidden : forall r loc j, In (r, loc) (combine (c_regs c) (k_pieces k)) -> r_merged r = None -> 0 <= j < r_size r ->
    byte_of (content s1 (r_place r)) j = mem s (slot_address s (piece_slot r loc) + j);
  cd_kept : forall x, (forall r loc, In (r, loc) (combine (c_regs c) (k_pieces k)) -> r_merged r <> None -> ~ in_slot s (piece_slot r loc) x) ->
    ~ gpr s RSP - sub <= x < gpr s RSP -> mem s1 x = mem s x
}.

Lemma combine_fst {A B} (l : list A) : forall (m : list B), length m = length l -> map fst (combine l m) = l.
Proof. induction l as [|a l IH]; intros [|b m] L; try discriminate; cbn [combine map fst]; [reflexivity|]. f_equal. apply IH. cbn in L. lia. Qed.

Lemma call_total types c k : convention_facts types c -> Forall (fun t => 0 < a_size t) types ->
  length (k_addresses k) = length types -> length (k_pieces k) = length (c_regs c) ->
  Forall (fun p => s_size p = 8) (k_addresses k) -> s_size (k_callee k) = 8 -> s_size (k_rax k) = 8 ->
  argument_bytes types + 16 < 2 ^ 31 ->
  exists code sub layout total, call_sequence types c k = Ok (code, sub) /\
    stack_layout types (c_stack c) 0 = Ok (layout, total) /\ total <= sub < total + 16 /\ sub mod 16 = 0 /\
    total <= argument_bytes types /\ 0 <= total.
Proof.
  intros CF P LA LP A8 C8 X8 SM.
  assert (NA : forall i, (i < length types)%nat -> exists p, nth_error (k_addresses k) i = Some p /\ s_size p = 8).
  { intros i L. destruct (nth_error (k_addresses k) i) as [p|] eqn:E; [|apply nth_error_None in E; lia].
    exists p. split; [reflexivity|]. rewrite Forall_forall in A8. apply A8. eapply nth_error_In. exact E. }
  assert (SR : forall p r, s_size p = 8 -> exists code, scalar_to_reg p r = Ok code).
  { intros p r E. unfold scalar_to_reg. rewrite E. eauto. }
  assert (IB := index_bytes_le types P (c_stack c) (cf_sorted _ _ CF) (cf_bound _ _ CF)).
  destruct (layout_total types P (c_stack c) 0 (cf_bound _ _ CF)) as (layout & total & EL & LE); [lia|lia|].
  assert (LF := layout_gives types (c_stack c) 0 layout total P EL).
  destruct (round16_total total) as (sub & ES & SB & S16); [apply LF|lia|].
  destruct (all_code_total (load_piece (k_addresses k)) (combine (c_regs c) (k_pieces k))) as (loads & E1).
  { intros [r loc] I. unfold load_piece. cbn [fst snd]. destruct (r_merged r) as [[i pos]|] eqn:EM; [|eauto].
    destruct (cf_merged _ _ CF r i pos) as (t & ET & _); [eapply in_combine_l; exact I|exact EM|].
    destruct (NA i) as (p & -> & P8); [apply nth_error_Some; congruence|].
    unfold codegen_load_part. destruct (SR p RDI P8) as (lp & ->). cbn [bind]. eauto. }
  destruct (all_code_total (store_argument (k_addresses k)) (rev layout)) as (stores & E2).
  { intros [[i off] size] I. apply in_rev in I. unfold store_argument.
    destruct (lf_in _ _ _ _ _ LF _ _ _ I) as (_ & _ & _ & t & ET & _).
    destruct (NA i) as (p & -> & P8); [apply nth_error_Some; congruence|].
    unfold codegen_store_stack. destruct (SR p RDI P8) as (lp & ->). cbn [bind]. eauto. }
  destruct (all_code_total (fun p => codegen_set_reg (piece_slot (fst p) (snd p)) (r_place (fst p)))
                        (rev (combine (c_regs c) (k_pieces k)))) as (sets & E3).
  { intros [r loc] I. apply in_rev in I. apply set_reg_total. cbn [piece_slot s_size fst].
    apply (cf_size _ _ CF). eapply in_combine_l. exact I. }
  destruct (SR (k_rax k) RAX X8) as (rax & E4). destruct (SR (k_callee k) RBX C8) as (callee & E5).
  unfold call_sequence. rewrite E1. cbn [bind]. rewrite EL. cbn [bind]. rewrite ES. cbn [bind]. rewrite E2. cbn [bind].
  cbn [codegen_set_reg]. rewrite E4. cbn [bind]. rewrite E3. cbn [bind]. rewrite E5. cbn [bind].
  eexists _, sub, layout, total. split; [reflexivity|]. split; [reflexivity|]. split; [exact SB|]. split; [exact S16|].
  split; [lia|]. apply LF.
Qed.

Lemma forall2_nth {A B} (R : A -> B -> Prop) l m : Forall2 R l m -> forall i a, nth_error l i = Some a ->
  exists b, nth_error m i = Some b /\ R a b.
Proof. induction 1 as [|x y l m H _ IH]; intros [|i] a E; try discriminate; cbn in *; [injection E as <-; eauto|eauto]. Qed.

Lemma slot_stable s st p : (forall x, in_slot s p x -> mem st x = mem s x) -> gpr st RBP = gpr s RBP -> 0 <= s_size p ->
  slot_bits st p = slot_bits s p.
Proof.
  intros H B N. unfold slot_bits, slot_address. rewrite B. apply load_same. intros x X. apply H. unfold in_slot, slot_address. lia.
Qed.

Lemma forall2_map_in {A} (f : A -> res (list instr)) (Q : list instr -> Z * Z * Z -> Prop) (g : A -> Z * Z * Z) codes l :
  Forall2 (fun code a => f a = Ok code) codes l -> (forall a code, In a l -> f a = Ok code -> Q code (g a)) ->
  Forall2 Q codes (map g l).
Proof.
  induction 1 as [|code a codes l E _ IH]; intros H; cbn [map]; constructor.
  - apply H; [left; reflexivity|exact E].
  - apply IH. intros b c I. apply H. right. exact I.
Qed.

Lemma call_code_ok F s types c k args room : convention_facts types c -> Forall (fun t => 0 < a_size t) types ->
  call_ready s types c k args room ->
  exists code sub layout total s1, call_sequence types c k = Ok (code, sub) /\
    stack_layout types (c_stack c) 0 = Ok (layout, total) /\ 0 <= total <= sub /\ sub < argument_bytes types + 16 /\ sub mod 16 = 0 /\
    exec_all F code s = Ok s1 /\ call_done s types c k args sub layout s1.
Proof.
  intros CF P CR.
  assert (LA : length (k_addresses k) = length types).
  { rewrite <- (cr_args _ _ _ _ _ _ CR). clear -CR. destruct CR as [_ _ _ A _ _ _ _ _ _ _ _]. induction A; cbn [length]; congruence. }
  assert (A8 : Forall (fun p => s_size p = 8) (k_addresses k)).
  { clear -CR. destruct CR as [_ _ _ A _ _ _ _ _ _ _ _]. induction A as [|p a l m (H & _) _ IH]; constructor; auto. }
  destruct (call_total types c k CF P LA (cr_pieces _ _ _ _ _ _ CR) A8 (proj1 (cr_callee _ _ _ _ _ _ CR))
              (proj1 (cr_rax _ _ _ _ _ _ CR)) (cr_small _ _ _ _ _ _ CR)) as (code & sub & layout & total & EC & EL & SB & S16 & TB & T0).
  exists code, sub, layout, total.
  assert (LF := layout_gives types (c_stack c) 0 layout total P EL).
  assert (M := cr_ok _ _ _ _ _ _ CR). pose proof (proj1 M RSP) as GSP.
  pose proof (cr_room _ _ _ _ _ _ CR) as ROOM. pose proof (cr_small _ _ _ _ _ _ CR) as SMALL.
  set (W := scratch s c k room). set (bp := gpr s RBP). set (m0 := mem s).
  set (pcs := combine (c_regs c) (k_pieces k)) in *.
  assert (EX : exists s1, exec_all F code s = Ok s1 /\ call_done s types c k args sub layout s1).
  2: { destruct EX as (s1 & EX & CD). exists s1. split; [exact EC|]. split; [exact EL|]. split; [lia|]. split; [lia|].
       split; [exact S16|]. split; [exact EX|exact CD]. }
  unfold call_sequence in EC. apply bind_ok in EC. destruct EC as (loads & E1 & EC). rewrite EL in EC. cbn [bind] in EC.
  apply bind_ok in EC. destruct EC as (sub' & ES & EC). apply bind_ok in EC. destruct EC as (stores & E2 & EC).
  apply bind_ok in EC. destruct EC as (rax & E3 & EC). apply bind_ok in EC. destruct EC as (sets & E4 & EC).
  apply bind_ok in EC. destruct EC as (callee & E5 & EC). injection EC as <- ->.
  fold pcs in E1, E4.
  (* an address node in a later state *)
  assert (HOLD : forall sp st i p, stable bp sp m0 W st -> nth_error (k_addresses k) i = Some p ->
            exists a, nth_error args i = Some a /\ holds_address st p a).
  { intros sp st i p (MS & BS & SS & K) EI.
    destruct (forall2_nth _ _ _ (cr_addresses _ _ _ _ _ _ CR) i p EI) as (a & EA & H8 & IM & SBT).
    exists a. split; [exact EA|]. split; [exact H8|]. split; [unfold in_memory, slot_address in *; rewrite BS; exact IM|].
    rewrite <- SBT. apply slot_stable; [|exact BS|lia].
    intros x X. apply K. unfold W. apply (cr_address_safe _ _ _ _ _ _ CR p x); [eapply nth_error_In; exact EI|exact X]. }
  assert (OBJ : forall i t, nth_error types i = Some t -> exists a, nth_error args i = Some a /\
             a + a_size t <= 2 ^ 64 /\ forall x, a <= x < a + a_size t -> ~ W x).
  { intros i t ET. destruct (nth_error args i) as [a|] eqn:EA.
    - exists a. split; [reflexivity|]. apply (cr_objects _ _ _ _ _ _ CR i t a ET EA).
    - apply nth_error_None in EA. rewrite (cr_args _ _ _ _ _ _ CR) in EA.
      assert (i < length types)%nat by (apply nth_error_Some; congruence). lia. }
  (* first the pieces *)
  set (sp0 := gpr s RSP).
  set (triple := fun q : reg_info * Z => match r_merged (fst q) with
                 | Some (i, pos) => (nth i args 0 + pos, bp - snd q, r_size (fst q)) | None => (0, 0, 0) end).
  assert (ST0 : stable bp sp0 m0 W s) by (split; [exact M|]; split; [reflexivity|]; split; [reflexivity|reflexivity]).
  destruct (copies_ok F bp sp0 m0 W loads (map triple pcs)) with (st := s) as (s1 & X1 & (M1 & B1 & SP1 & K1) & R1 & N1).
  { apply (forall2_map_in (load_piece (k_addresses k))); [apply all_code_forall; exact E1|].
    intros [r loc] code I EQ. unfold load_piece in EQ. unfold triple. cbn [fst snd] in *.
    destruct (r_merged r) as [[i pos]|] eqn:EM.
    2: { injection EQ as <-. split; [intros x X; lia|]. split; [intros x X; lia|]. intros st (MS & _).
         exists st. split; [reflexivity|]. split; [|split; [reflexivity|split; [reflexivity|exact MS]]].
         intros x. destruct (Z.leb_spec 0 x); [|reflexivity]. destruct (Z.ltb_spec x (0 + 0)); [lia|reflexivity]. }
    assert (IR : In r (c_regs c)) by (eapply in_combine_l; exact I).
    destruct (cf_merged _ _ CF r i pos IR EM) as (t & ET & PO & PS).
    destruct (OBJ i t ET) as (a & EA & AH & AW).
    destruct (nth_error (k_addresses k) i) as [p|] eqn:EP; [|discriminate].
    rewrite (nth_error_nth _ _ 0 EA).
    destruct (cr_slots _ _ _ _ _ _ CR r loc I) as ((RL & RH) & RS). pose proof (cf_size _ _ CF r IR) as SZ.
    assert (INW : forall x, in_slot s (piece_slot r loc) x -> W x).
    { intros x X. left. exists r, loc. split; [exact I|]. split; [congruence|exact X]. }
    unfold in_slot, slot_address in INW, RL, RH. cbn [piece_slot s_size s_loc] in INW, RL, RH. fold bp in INW, RL, RH.
    split; [exact INW|]. split; [intros x X; apply AW; lia|].
    intros st ST. destruct (HOLD sp0 st i p ST EP) as (a' & EA' & HA). rewrite EA in EA'. injection EA' as <-.
    destruct ST as (MS & BS & SS & K).
    assert (AP : apart (a + pos) (r_size r) (bp - loc) (r_size r)).
    { unfold apart. destruct (Z.le_gt_cases (a + pos + r_size r) (bp - loc)) as [|G1]; [left; assumption|].
      destruct (Z.le_gt_cases (bp - loc + r_size r) (a + pos)) as [|G2]; [right; assumption|]. exfalso.
      apply (AW (Z.max (a + pos) (bp - loc))); [lia|]. apply INW. lia. }
    assert (SAE : slot_address st (piece_slot r loc) = bp - loc) by (unfold slot_address; rewrite BS; reflexivity).
    destruct (load_part_copied F st p (piece_slot r loc) pos a code MS HA) as (st' & X & C); try (cbn [piece_slot s_size]; lia);
      try (rewrite SAE; cbn [piece_slot s_size]); try lia; try exact AP; try exact EQ.
    - unfold in_memory. rewrite SAE. cbn [piece_slot s_size]. lia.
    - exists st'. split; [exact X|]. rewrite SAE in C. exact C. }
  { apply (ordpairs_map (fun a b => forall x, in_slot s (piece_slot (fst a) (snd a)) x ->
      in_slot s (piece_slot (fst b) (snd b)) x -> False)); [apply (cr_distinct _ _ _ _ _ _ CR)|].
    intros [r loc] [r' loc'] _ _ D x. specialize (D x). unfold triple. cbn [fst snd] in *.
    unfold in_slot, slot_address in D. cbn [piece_slot s_size s_loc] in D. fold bp in D.
    destruct (r_merged r) as [[i pos]|], (r_merged r') as [[i' pos']|]; cbn [within]; first [exact D|lia]. }
  { exact ST0. }
  (* then the stack *)
  rewrite exec_all_app, X1. cbn [bind app exec_all].
  assert (SUBL : 0 <= sub <= room) by lia.
  rewrite exec_add_neg by (auto; try rewrite SP1; unfold sp0; lia). cbn [bind].
  set (s2 := set_flag _ None).
  assert (M2 : machine_ok s2) by (apply machine_flag, machine_gpr; [exact M1|rewrite SP1; unfold sp0; lia]).
  set (sp2 := gpr s RSP - sub).
  assert (SP2 : gpr s2 RSP = sp2) by (unfold s2, sp2; cbn [gpr set_flag]; rewrite gpr_same, SP1; reflexivity).
  assert (B2 : gpr s2 RBP = bp) by (unfold s2; cbn [gpr set_flag]; rewrite gpr_other by discriminate; exact B1).
  assert (ST2 : stable bp sp2 m0 W s2) by (split; [exact M2|]; split; [exact B2|]; split; [exact SP2|exact K1]).
  set (triple2 := fun q : nat * Z * Z => let '(i, off, size) := q in (nth i args 0, sp2 + off, size)).
  rewrite exec_all_app.
  destruct (copies_ok F bp sp2 m0 W stores (map triple2 (rev layout))) with (st := s2) as (s3 & X3 & (M3 & B3 & SP3 & K3) & R3 & N3).
  { apply (forall2_map_in (store_argument (k_addresses k))); [apply all_code_forall; exact E2|].
    intros [[i off] size] code I EQ. apply in_rev in I. unfold store_argument in EQ. unfold triple2.
    destruct (lf_in _ _ _ _ _ LF i off size I) as (O0 & O1 & _ & t & ET & ->).
    destruct (OBJ i t ET) as (a & EA & AH & AW).
    destruct (nth_error (k_addresses k) i) as [p|] eqn:EP; [|discriminate].
    rewrite (nth_error_nth _ _ 0 EA).
    assert (T : 0 < a_size t) by (rewrite Forall_forall in P; apply P; eapply nth_error_In; exact ET).
    assert (INW : forall x, sp2 + off <= x < sp2 + off + a_size t -> W x).
    { intros x X. right. unfold sp2 in X. lia. }
    split; [exact INW|]. split; [intros x X; apply AW; lia|].
    intros st ST. destruct (HOLD sp2 st i p ST EP) as (a' & EA' & HA). rewrite EA in EA'. injection EA' as <-.
    destruct ST as (MS & BS & SS & K).
    assert (AP : apart a (a_size t) (sp2 + off) (a_size t)).
    { unfold apart. destruct (Z.le_gt_cases (a + a_size t) (sp2 + off)) as [|G1]; [left; assumption|].
      destruct (Z.le_gt_cases (sp2 + off + a_size t) a) as [|G2]; [right; assumption|]. exfalso.
      apply (AW (Z.max a (sp2 + off))); [lia|]. apply INW. lia. }
    destruct (store_stack_copied F st p off (a_size t) a code MS HA) as (st' & X & C);
      try (rewrite ?SS; unfold sp2; lia); try (rewrite ?SS; exact AP); try exact EQ.
    exists st'. split; [exact X|]. rewrite SS in C. exact C. }
  { rewrite map_rev. apply (ordpairs_rev (fun b a => forall x, within a x -> within b x -> False)).
    apply (ordpairs_map (fun a b => snd (fst a) + snd a <= snd (fst b))); [apply (lf_apart _ _ _ _ _ LF)|].
    intros [[i off] size] [[i' off'] size'] _ _ D x. cbn [fst snd] in D. unfold triple2. cbn [within]. lia. }
  { exact ST2. }
  rewrite X3. cbn [bind].
  (* rax and the registers *)
  set (sl := (k_rax k, GP RAX) :: map (fun q : reg_info * Z => (piece_slot (fst q) (snd q), r_place (fst q))) (rev pcs)).
  assert (PL : map snd sl = GP RAX :: rev (map r_place (c_regs c))).
  { unfold sl. cbn [map snd]. f_equal. rewrite map_map. cbn [snd]. rewrite <- map_rev.
    unfold pcs. rewrite <- (combine_fst (c_regs c) (k_pieces k)) at 2 by apply (cr_pieces _ _ _ _ _ _ CR).
    rewrite <- map_rev, map_map. reflexivity. }
  assert (ESL : all_code (fun q => codegen_set_reg (fst q) (snd q)) sl = Ok (rax :: sets)).
  { unfold sl. cbn [all_code fst snd]. rewrite E3. cbn [bind].
    rewrite <- (all_code_map (fun q : reg_info * Z => (piece_slot (fst q) (snd q), r_place (fst q)))
                  (fun q => codegen_set_reg (fst q) (snd q))). cbn [fst snd]. rewrite E4. reflexivity. }
  rewrite app_assoc, exec_all_app.
  assert (NOTGP : forall q, ~ In q abi_gp -> ~ In (GP q) (map r_place (c_regs c))).
  { intros q NQ I. apply NQ. apply (cf_gp _ _ CF). exact I. }
  destruct (set_regs_ok F sl (rax :: sets) s3 M3) as (s4 & X4 & M4 & ME4 & G4 & R4); [| | |exact ESL|].
  { unfold sl. constructor.
    - cbn [fst]. destruct (cr_rax _ _ _ _ _ _ CR) as (S8 & RD & _). split; [|lia].
      unfold readable, slot_address in *. rewrite B3. exact RD.
    - apply Forall_forall. intros q I. apply in_map_iff in I. destruct I as ([r loc] & <- & I). apply in_rev in I. cbn [fst snd].
      destruct (cr_slots _ _ _ _ _ _ CR r loc I) as (RD & _). split.
      + unfold readable, slot_address in *. rewrite B3. exact RD.
      + cbn [piece_slot s_size]. apply (cf_size _ _ CF). eapply in_combine_l. exact I. }
  { rewrite PL. constructor.
    - intros I. apply in_rev in I. apply (NOTGP RAX) in I; [exact I|]. cbn. intuition discriminate.
    - apply NoDup_rev. apply (cf_nodup _ _ CF). }
  { rewrite PL. intros [I|I]; [discriminate|]. apply in_rev in I. apply (NOTGP RBP) in I; [exact I|]. cbn. intuition discriminate. }
  cbn [concat] in X4. rewrite X4. cbn [bind].
  assert (CONT : forall r, ~ In (GP r) (map snd sl) -> gpr s4 r = gpr s3 r) by (intros r NI; exact (G4 (GP r) NI)).
  assert (NRAX : forall q, q <> RAX -> ~ In q abi_gp -> ~ In (GP q) (map snd sl)).
  { intros q NQ NA. rewrite PL. intros [I|I]; [congruence|]. apply in_rev in I. apply (NOTGP q NA I). }
  assert (B4 : gpr s4 RBP = bp) by (rewrite CONT; [exact B3|apply NRAX; [discriminate|cbn; intuition discriminate]]).
  assert (SP4 : gpr s4 RSP = sp2) by (rewrite CONT; [exact SP3|apply NRAX; [discriminate|cbn; intuition discriminate]]).
  (* the callee *)
  destruct (cr_callee _ _ _ _ _ _ CR) as (C8 & CRD & CSAFE).
  destruct (set_reg_ok F s4 (k_callee k) (GP RBX) callee M4) as (w & X5 & WR & _ & WV); [|lia|exact E5|].
  { unfold readable, slot_address in *. rewrite B4. exact CRD. }
  rewrite X5. eexists. split; [reflexivity|]. cbn [set_place].
  assert (WV' := WV ltac:(rewrite C8; cbn; tauto) RBX eq_refl).
  assert (KEEP : forall x, ~ W x -> mem s4 x = mem s x) by (intros x X; rewrite ME4; apply K3; exact X).
  (* the pieces are not touched by the stores to the stack *)
  assert (PIECE : forall r loc x, In (r, loc) pcs -> in_slot s (piece_slot r loc) x -> mem s3 x = mem s1 x).
  { intros r loc x I X. rewrite N3; [reflexivity|]. intros t IT WX. apply in_map_iff in IT.
    destruct IT as ([[i off] size] & <- & IT). apply in_rev in IT. cbn [triple2 within] in WX.
    destruct (lf_in _ _ _ _ _ LF i off size IT) as (O0 & O1 & _).
    destruct (cr_slots _ _ _ _ _ _ CR r loc I) as (_ & RS). apply (RS x X). unfold sp2 in WX. lia. }
  assert (GRBX : forall p, p <> GP RBX -> content (set_gpr s4 RBX w) p = content s4 p) by (intros p NP; apply (content_other s4 (GP RBX)); exact NP).
  constructor.
  - apply machine_gpr; assumption.
  - rewrite gpr_other by discriminate. exact B4.
  - rewrite gpr_other by discriminate. exact SP4.
  - rewrite gpr_same. rewrite WV'. apply slot_stable; [|exact B4|lia]. intros x X. apply KEEP. apply CSAFE. exact X.
  - rewrite gpr_other by discriminate. destruct (cr_rax _ _ _ _ _ _ CR) as (S8 & RD & RSAFE).
    destruct (set_reg_ok F s3 (k_rax k) (GP RAX) rax M3) as (v & XV & VR & VB & VV); [|lia|exact E3|].
    { unfold readable, slot_address in *. rewrite B3. exact RD. }
    (* rax is not set again *)
    destruct (set_regs_ok F (tl sl) sets (set_gpr s3 RAX v)) as (s4' & X4' & _ & _ & G4' & _).
    { apply machine_gpr; assumption. }
    { unfold sl. cbn [tl]. apply Forall_forall. intros q I. apply in_map_iff in I. destruct I as ([r loc] & <- & I). apply in_rev in I. cbn [fst snd].
      destruct (cr_slots _ _ _ _ _ _ CR r loc I) as (RD' & _). split.
      + unfold readable, slot_address in *. rewrite gpr_other by discriminate. rewrite B3. exact RD'.
      + cbn [piece_slot s_size]. apply (cf_size _ _ CF). eapply in_combine_l. exact I. }
    { assert (Q : map snd (tl sl) = rev (map r_place (c_regs c))) by (injection PL; auto). rewrite Q. apply NoDup_rev. apply (cf_nodup _ _ CF). }
    { assert (Q : map snd (tl sl) = rev (map r_place (c_regs c))) by (injection PL; auto). rewrite Q. intros I. apply in_rev in I.
      apply (NOTGP RBP) in I; [exact I|]. cbn. intuition discriminate. }
    { unfold sl in ESL. cbn [all_code fst snd] in ESL. rewrite E3 in ESL. cbn [bind] in ESL. apply bind_ok in ESL.
      destruct ESL as (cs & EQ & E). injection E as <-. exact EQ. }
    rewrite exec_all_app, XV in X4. cbn [bind set_place] in X4. rewrite X4' in X4. injection X4 as ->.
    assert (Q : map snd (tl sl) = rev (map r_place (c_regs c))) by (injection PL; auto).
    assert (EQ : gpr s4 RAX = v).
    { rewrite <- (gpr_same s3 RAX v). apply (G4' (GP RAX)). rewrite Q. intros I. apply in_rev in I.
      apply (NOTGP RAX) in I; [exact I|]. cbn. intuition discriminate. }
    rewrite EQ. rewrite (VV ltac:(rewrite S8; cbn; tauto) RAX eq_refl). apply slot_stable; [|exact B3|lia].
    intros x X. apply K3. apply RSAFE. exact X.
  - intros i off size a j I EA J. rewrite gpr_other by discriminate. rewrite SP4. cbn [mem set_gpr]. rewrite ME4.
    rewrite (R3 (nth i args 0) (sp2 + off) size j); [|apply in_map_iff; exists (i, off, size); split; [reflexivity|apply in_rev in I; exact I]|exact J].
    rewrite (nth_error_nth _ _ 0 EA). reflexivity.
  - intros r i pos a j IR EM EA J. rewrite GRBX.
    2: { intros EQ. apply (NOTGP RBX); [cbn; intuition discriminate|]. rewrite <- EQ. apply in_map. exact IR. }
    assert (IL : exists loc, In (r, loc) pcs).
    { unfold pcs. rewrite <- (combine_fst (c_regs c) (k_pieces k) (cr_pieces _ _ _ _ _ _ CR)) in IR. apply in_map_iff in IR.
      destruct IR as ([r' loc] & <- & I). exists loc. exact I. }
    destruct IL as (loc & IL).
    rewrite (R4 (piece_slot r loc) (r_place r) j); [|unfold sl; right; apply in_map_iff; exists (r, loc); split; [reflexivity|rewrite <- in_rev; exact IL]|exact J].
    unfold slot_address. rewrite B3. cbn [piece_slot s_loc].
    rewrite (PIECE r loc) by (auto; unfold in_slot, slot_address; cbn [piece_slot s_size s_loc]; unfold bp; lia).
    rewrite (R1 (a + pos) (bp - loc) (r_size r) j); [reflexivity| |exact J].
    apply in_map_iff. exists (r, loc). split; [|exact IL]. unfold triple. cbn [fst snd]. rewrite EM, (nth_error_nth _ _ 0 EA). reflexivity.
  - intros r loc j IL EM J. rewrite GRBX.
    2: { intros EQ. apply (NOTGP RBX); [cbn; intuition discriminate|]. rewrite <- EQ. apply in_map. eapply in_combine_l. exact IL. }
    rewrite (R4 (piece_slot r loc) (r_place r) j); [|unfold sl; right; apply in_map_iff; exists (r, loc); split; [reflexivity|rewrite <- in_rev; exact IL]|exact J].
    unfold slot_address. rewrite B3. fold bp. cbn [piece_slot s_loc].
    assert (XS : in_slot s (piece_slot r loc) (bp - loc + j)) by (unfold in_slot, slot_address; cbn [piece_slot s_size s_loc]; unfold bp; lia).
    rewrite (PIECE r loc) by assumption. apply K1. intros [(r' & loc' & I' & NM & X')|X'].
    + assert (D := cr_distinct _ _ _ _ _ _ CR). fold pcs in D. assert (NE : (r, loc) <> (r', loc')) by congruence.
      destruct (ForallOrdPairs_In D (r, loc) (r', loc') IL I') as [H|[H|H]]; [congruence|apply (H (bp - loc + j)); assumption|].
      apply (H (bp - loc + j)); assumption.
    + destruct (cr_slots _ _ _ _ _ _ CR r loc IL) as (_ & RS). apply (RS _ XS X').
  - intros x NS NB. cbn [mem set_gpr]. rewrite ME4. rewrite N3.
    + change (mem s2 x) with (mem s1 x). apply N1. intros t IT WX. apply in_map_iff in IT. destruct IT as ([r loc] & <- & IL).
      unfold triple in WX. cbn [fst snd] in WX. destruct (r_merged r) as [[i pos]|] eqn:EM; cbn [within] in WX; [|lia].
      apply (NS r loc IL); [congruence|]. unfold in_slot, slot_address. cbn [piece_slot s_size s_loc]. exact WX.
    + intros t IT WX. apply in_map_iff in IT. destruct IT as ([[i off] size] & <- & IT). apply in_rev in IT. cbn [triple2 within] in WX.
      destruct (lf_in _ _ _ _ _ LF i off size IT) as (O0 & O1 & _). apply NB. unfold sp2 in WX. lia.
Qed.
