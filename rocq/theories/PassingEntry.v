(** The code at the start of a function collects the parameters. *)
From Verif Require Import Base Bytes Common CommonProofs Arch X86 Codegen AsmSpec X86Proofs X86Preserve CodegenProofs Frame FrameSpec FrameProofs SysV SysVSpec Passing PassingSpec PassingProofs PassingRegs PassingLayout PassingCall.
From Coq Require Import Sorted.
Ltac Zify.zify_post_hook ::= idtac.

Record entry_done (types : list atype) (variadic : bool) (c : call_info) (fr : frame) (n : function_nodes)
       (layout : list (nat * Z * Z)) (ret : Z) (s1 s' : machine) : Prop := {
  ed_ok : machine_ok s';
  ed_rbp : gpr s' RBP = gpr s1 RSP - 16;
  ed_rsp : gpr s' RSP = gpr s' RBP - fr_sub fr;
  ed_stack : forall i off size p loc j, In (i, off, size) layout -> nth_error (n_params n) i = Some (p, loc) -> 0 <= j < size ->
    mem s' (gpr s' RBP - loc + j) = mem s1 (gpr s1 RSP + off + j);
  ed_regs : forall r i pos p loc j, In r (c_regs c) -> r_merged r = Some (i, pos) -> nth_error (n_params n) i = Some (p, loc) ->
    0 <= j < r_size r -> mem s' (gpr s' RBP - loc + pos + j) = byte_of (content s1 (r_place r)) j;
  ed_hidden : forall r loc j, In (r, loc) (combine (c_regs c) (n_pieces n)) -> 0 <= j < r_size r ->
    mem s' (gpr s' RBP - loc + j) = byte_of (content s1 (r_place r)) j;
  ed_rbx : forall j, 0 <= j < 8 -> mem s' (gpr s' RBP - n_rbx n + j) = byte_of (gpr s1 RBX) j;
  ed_saved : forall position k r j, variadic = true -> fr_preamble fr = Some position ->
    nth_error abi_gp k = Some r -> 0 <= j < 8 ->
    mem s' (gpr s' RBP - position + 8 * Z.of_nat k + j) = byte_of (gpr s1 r) j;
  ed_params : forall p loc, In (p, loc) (n_params n) -> holds_address s' p (gpr s' RBP - loc);
  ed_return : load (mem s') (gpr s1 RSP - 8) 8 = ret;
  ed_caller : load (mem s') (gpr s1 RSP - 16) 8 = gpr s1 RBP;
  ed_above : forall x, gpr s1 RSP <= x -> mem s' x = mem s1 x
}.

Lemma forall2_ordpairs {A B} (R : A -> B -> Prop) (Q : B -> B -> Prop) ids l : Forall2 R ids l -> NoDup ids ->
  (forall i j a b, R i a -> R j b -> i <> j -> Q a b) -> ForallOrdPairs Q l.
Proof.
  induction 1 as [|i a ids l H F IH]; intros ND C; constructor; inversion ND as [|? ? NI ND']; subst.
  - apply Forall_forall. intros b I. clear IH ND ND'. induction F as [|j b' ids l HB F IH]; [destruct I|].
    destruct I as [<-|I]; [apply (C i j); auto; intros ->; apply NI; left; reflexivity|].
    apply IH; [|exact I]. intros J. apply NI. right. exact J.
  - apply IH; assumption.
Qed.
Lemma ordpairs_impl {A} (R Q : A -> A -> Prop) l : (forall a b, R a b -> Q a b) -> ForallOrdPairs R l -> ForallOrdPairs Q l.
Proof. intros H. induction 1 as [|a l F _ IH]; constructor; [|exact IH]. eapply Forall_impl; [|exact F]. auto. Qed.
Lemma forall2_cross {A B} (R : A -> B -> Prop) ids l b : Forall2 R ids l -> In b l -> exists i, In i ids /\ R i b.
Proof.
  induction 1 as [|i a ids l H F IH]; intros I; [destruct I|].
  destruct I as [<-|I]; [exists i; split; [left; reflexivity|exact H]|].
  destruct (IH I) as (j & J & RJ). exists j. split; [right; exact J|exact RJ].
Qed.

(** ** Straight stores below the frame pointer *)
Lemma exec_store_reg F s r off a : machine_ok s -> gpr s RBP + off = a -> 0 <= a -> a + 8 <= 2 ^ 64 ->
  exec F (I2 (Mov W8) (R8 r) (MEM off RBP)) s = Ok (set_mem s (store (mem s) a 8 (gpr s r))).
Proof.
  intros (G & _ & _) E L H. cbn [exec]. unfold rd at 1. cbn [reg_of bind is_mem andb].
  change (bits W8) with 64. rewrite (wrap_small 64) by apply G.
  rewrite (wr_mem s W8 off RBP a) by (auto; cbn; lia). reflexivity.
Qed.

Definition saved (bp position : Z) (s s' : machine) : Prop :=
  machine_ok s' /\ (forall r, gpr s' r = gpr s r) /\ (forall x, xmm s' x = xmm s x) /\
  (forall x, ~ bp - position <= x < bp - position + 48 -> mem s' x = mem s x) /\
  (forall k r j, nth_error abi_gp k = Some r -> 0 <= j < 8 ->
     mem s' (bp - position + 8 * Z.of_nat k + j) = byte_of (gpr s r) j).

Lemma save_registers_ok F s position : machine_ok s -> 48 <= position <= gpr s RBP ->
  exists s', exec_all F (save_registers position) s = Ok s' /\ saved (gpr s RBP) position s s'.
Proof.
  intros M P. pose proof (proj1 M RBP) as GB. set (bp := gpr s RBP) in *.
  assert (ST : forall st k r, machine_ok st -> gpr st RBP = bp -> 0 <= k <= 5 ->
    exec F (I2 (Mov W8) (R8 r) (MEM (8 * k - position) RBP)) st =
    Ok (set_mem st (store (mem st) (bp - position + 8 * k) 8 (gpr st r)))).
  { intros st k r MS BS K. apply exec_store_reg; [exact MS|rewrite BS; lia|lia|lia]. }
  assert (MO : forall st a r, machine_ok st -> machine_ok (set_mem st (store (mem st) a 8 (gpr st r)))).
  { intros st a r MS. apply machine_mem. exact MS. }
  unfold save_registers. cbn [exec_all].
  change (0 - position) with (8 * 0 - position). change (8 - position) with (8 * 1 - position).
  change (16 - position) with (8 * 2 - position). change (24 - position) with (8 * 3 - position).
  change (32 - position) with (8 * 4 - position). change (40 - position) with (8 * 5 - position).
  set (upd := fun st k r => set_mem st (store (mem st) (bp - position + 8 * k) 8 (gpr st r))).
  assert (ST' : forall st k r, machine_ok st -> gpr st RBP = bp -> 0 <= k <= 5 ->
    exec F (I2 (Mov W8) (R8 r) (MEM (8 * k - position) RBP)) st = Ok (upd st k r)) by exact ST.
  assert (MO' : forall st k r, machine_ok st -> machine_ok (upd st k r)) by (intros; apply MO; assumption).
  assert (GU : forall st k r q, gpr (upd st k r) q = gpr st q) by reflexivity.
  assert (OUT : forall st k r x, ~ bp - position + 8 * k <= x < bp - position + 8 * k + 8 -> mem (upd st k r) x = mem st x).
  { intros st k r x X. cbn [upd mem set_mem]. apply store_out. lia. }
  assert (INN : forall st k r j, 0 <= j < 8 -> mem (upd st k r) (bp - position + 8 * k + j) = byte_of (gpr st r) j).
  { intros st k r j J. cbn [upd mem set_mem]. rewrite store_in by lia. unfold byte_of. do 3 f_equal. lia. }
  assert (XU : forall st k r q, xmm (upd st k r) q = xmm st q) by reflexivity.
  clearbody upd.
  rewrite ST' by (auto; lia). cbn [bind]. rewrite ST' by (auto; rewrite ?GU; auto; lia). cbn [bind].
  rewrite ST' by (auto; rewrite ?GU; auto; lia). cbn [bind].
  rewrite ST' by (auto; rewrite ?GU; auto; lia). cbn [bind].
  rewrite ST' by (auto; rewrite ?GU; auto; lia). cbn [bind].
  rewrite ST' by (auto 6; rewrite ?GU; auto; lia). cbn [bind].
  eexists. split; [reflexivity|]. split; [auto 8|]. split; [intros r; rewrite !GU; reflexivity|].
  split; [intros x; rewrite !XU; reflexivity|]. split.
  - intros x X. rewrite !OUT by lia. reflexivity.
  - intros k r j E J. unfold abi_gp in E.
    do 6 (destruct k as [|k]; [cbn [nth_error] in E; injection E as <-;
      match goal with |- context [Z.of_nat ?m] => let v := eval compute in (Z.of_nat m) in change (Z.of_nat m) with v end;
      rewrite ?OUT by lia; rewrite INN by exact J; rewrite ?GU; reflexivity|]).
    destruct k; discriminate.
Qed.

Lemma zero_slots_ok F off : forall (idx : list nat) s, machine_ok s ->
  (forall i, In i idx -> 0 <= gpr s RBP - off + Z.of_nat i * 8 /\ gpr s RBP - off + Z.of_nat i * 8 + 8 <= 2 ^ 64) ->
  exists s', exec_all F (map (fun i => I2 (Mov W8) (IMM 0) (MEM (- off + Z.of_nat i * 8) RBP)) idx) s = Ok s' /\
    machine_ok s' /\ (forall r, gpr s' r = gpr s r) /\ (forall x, xmm s' x = xmm s x) /\
    (forall x, (forall i, In i idx -> ~ gpr s RBP - off + Z.of_nat i * 8 <= x < gpr s RBP - off + Z.of_nat i * 8 + 8) ->
       mem s' x = mem s x).
Proof.
  induction idx as [|i idx IH]; intros s M B; cbn [map exec_all].
  - exists s. split; [reflexivity|]. split; [exact M|]. split; [reflexivity|]. split; reflexivity.
  - destruct (B i (or_introl eq_refl)) as (L & H).
    assert (EX : exec F (I2 (Mov W8) (IMM 0) (MEM (- off + Z.of_nat i * 8) RBP)) s =
                 Ok (set_mem s (store (mem s) (gpr s RBP - off + Z.of_nat i * 8) 8 0))).
    { cbn [exec is_mem andb]. change (rd s W8 (IMM 0)) with (Ok 0). cbn [bind].
      rewrite (wr_mem s W8 _ RBP (gpr s RBP - off + Z.of_nat i * 8)) by (cbn [wbytes]; lia). reflexivity. }
    rewrite EX. cbn [bind]. set (s1 := set_mem s _).
    assert (M1 : machine_ok s1) by (apply machine_mem; exact M).
    destruct (IH s1 M1) as (s' & X & M' & G & XM & K); [intros j J; apply (B j (or_intror J))|].
    exists s'. split; [exact X|]. split; [exact M'|]. split; [exact G|]. split; [exact XM|].
    intros x NX. rewrite K by (intros j J; apply (NX j (or_intror J))). cbn [s1 mem set_mem]. apply store_out.
    specialize (NX i (or_introl eq_refl)). lia.
Qed.

Lemma alloc_ok F s p loc : machine_ok s -> s_size p = 8 -> in_memory s p -> 0 <= gpr s RBP - loc < 2 ^ 64 ->
  exists s', exec_all F (codegen_alloc loc p) s = Ok s' /\ machine_ok s' /\
    gpr s' RBP = gpr s RBP /\ gpr s' RSP = gpr s RSP /\ holds_address s' p (gpr s RBP - loc) /\
    (forall x, ~ in_slot s p x -> mem s' x = mem s x).
Proof.
  intros M P8 IM R. unfold codegen_alloc. cbn [exec_all].
  rewrite (exec_lea F s (- loc) RBP RSI (gpr s RBP - loc)) by lia. cbn [bind].
  set (s1 := set_gpr s RSI _). assert (M1 : machine_ok s1) by (apply machine_gpr; [exact M|exact R]).
  assert (SA : slot_address s1 p = slot_address s p) by (unfold slot_address, s1; rewrite gpr_other by discriminate; reflexivity).
  destruct (reg_to_scalar_ok F s1 RSI p M1) as (s' & X & ME & GE & XE); [unfold in_memory; rewrite SA; exact IM|lia|discriminate|].
  assert (B : gpr s' RBP = gpr s RBP) by (rewrite GE by discriminate; unfold s1; apply gpr_other; discriminate).
  exists s'. split; [exact X|]. split; [eapply exec_all_preserves; eauto|]. split; [exact B|].
  split; [rewrite GE by discriminate; unfold s1; apply gpr_other; discriminate|]. split.
  - split; [exact P8|]. split; [unfold in_memory, slot_address in *; rewrite B; exact IM|].
    unfold slot_bits. rewrite P8. change (Z.to_nat 8) with 8%nat.
    assert (SA' : slot_address s' p = slot_address s p) by (unfold slot_address; rewrite B; reflexivity).
    rewrite SA'. rewrite (load_ext (store (mem s) (slot_address s p) 8 (gpr s RBP - loc))).
    + rewrite load_store. change (256 ^ Z.of_nat 8) with (2 ^ 64). apply Z.mod_small. exact R.
    + intros x _. rewrite ME, SA, P8. change (Z.to_nat 8) with 8%nat. unfold s1 at 2. rewrite gpr_same. reflexivity.
  - intros x NX. rewrite ME, SA. unfold in_slot in NX. rewrite store_out by lia. reflexivity.
Qed.

Lemma allocs_ok F (l : list (slot * Z)) : forall s, machine_ok s ->
  Forall (fun q => s_size (fst q) = 8 /\ in_memory s (fst q) /\ 0 <= gpr s RBP - snd q < 2 ^ 64) l ->
  ForallOrdPairs (fun a b => forall x, in_slot s (fst a) x -> in_slot s (fst b) x -> False) l ->
  exists s', exec_all F (concat (map (fun q => codegen_alloc (snd q) (fst q)) l)) s = Ok s' /\ machine_ok s' /\
    gpr s' RBP = gpr s RBP /\ gpr s' RSP = gpr s RSP /\
    (forall p loc, In (p, loc) l -> holds_address s' p (gpr s RBP - loc)) /\
    (forall x, (forall p loc, In (p, loc) l -> ~ in_slot s p x) -> mem s' x = mem s x).
Proof.
  induction l as [|[p loc] l IH]; intros s M FA OP; cbn [map concat].
  - exists s. split; [reflexivity|]. split; [exact M|]. split; [reflexivity|]. split; [reflexivity|].
    split; [intros ? ? []|reflexivity].
  - inversion FA as [|? ? (P8 & IM & R) FA']; subst. inversion OP as [|? ? HD TL]; subst. cbn [fst snd] in *.
    destruct (alloc_ok F s p loc M P8 IM R) as (s1 & X1 & M1 & B1 & S1 & (H1 & H2 & H3) & K1).
    assert (SA : forall v, slot_address s1 v = slot_address s v) by (intros v; unfold slot_address; rewrite B1; reflexivity).
    destruct (IH s1 M1) as (s' & X' & M' & B' & S' & H' & K').
    { eapply Forall_impl; [|exact FA']. intros [q lq]. unfold in_memory. rewrite B1, SA. auto. }
    { eapply ordpairs_impl; [|exact TL]. intros a b D x. unfold in_slot. rewrite !SA. apply D. }
    exists s'. split; [rewrite exec_all_app, X1; exact X'|]. split; [exact M'|]. split; [congruence|]. split; [congruence|]. split.
    + intros q lq [E|I].
      * injection E as <- <-. split; [exact P8|].
        assert (SA' : slot_address s' p = slot_address s1 p) by (unfold slot_address; rewrite B'; reflexivity).
        split; [unfold in_memory; rewrite SA'; exact H2|]. rewrite <- H3. apply slot_stable; [|exact B'|lia].
        intros x XI. apply K'. intros q lq' I XQ. rewrite Forall_forall in HD. unfold in_slot in *. rewrite SA in XI, XQ.
        apply (HD (q, lq') I x); cbn [fst]; [exact XI|exact XQ].
      * rewrite <- B1. apply H'. exact I.
    + intros x NX. rewrite K'; [apply K1; apply (NX p loc); left; reflexivity|].
      intros q lq I. unfold in_slot. rewrite SA. apply (NX q lq). right. exact I.
Qed.

Lemma nodup_split {A} (a b : list A) : NoDup (a ++ b) -> NoDup a /\ NoDup b /\ forall x, In x a -> In x b -> False.
Proof.
  induction a as [|y a IH]; cbn [app]; intros H; [split; [constructor|]; split; [exact H|intros ? []]|].
  inversion H as [|? ? NI ND]; subst. destruct (IH ND) as (A1 & A2 & A3). split; [|split; [exact A2|]].
  - constructor; [intros I; apply NI, in_or_app; left; exact I|exact A1].
  - intros x [->|I] J; [apply NI, in_or_app; right; exact J|apply (A3 x I J)].
Qed.

Lemma entry_code_ok F l preamble types variadic c fr n rbx pieces params layout total ret s1 :
  convention_facts types c -> Forall (fun t => 0 < a_size t) types ->
  placed l preamble types c fr n rbx pieces params -> fr_save fr = None ->
  (forall r x, In r (c_regs c) -> r_place r = VEC x -> r_size r = 4 \/ r_size r = 8) ->
  (variadic = true -> 48 <= preamble) ->
  stack_layout types (c_stack c) 0 = Ok (layout, total) ->
  machine_ok s1 -> 0 <= ret < 2 ^ 64 -> fr_sub fr + fr_align fr + 24 <= gpr s1 RSP -> gpr s1 RSP + total <= 2 ^ 64 ->
  exists code s', function_entry types variadic c fr n = Ok code /\ exec_all F code (push_return ret s1) = Ok s' /\
    entry_done types variadic c fr n layout ret s1 s'.
Proof.
  intros CF P PL SV SSE PRE EL M RET ROOM TOP.
  destruct PL as [RQ P0 FR ND PRBX (LP & LN) PP PN].
  destruct (frame_chain _ _ _ RQ P0 FR) as (CH & _ & _ & _ & _ & PRS & _ & _).
  destruct (frame_suits _ _ _ RQ P0 FR) as (SUB & AL & _).
  assert (LF := layout_gives types (c_stack c) 0 layout total P EL).
  pose proof (proj1 M RSP) as GSP. set (sp := gpr s1 RSP) in *. set (bp := sp - 16).
  set (pcs := combine (c_regs c) (n_pieces n)) in *.
  (* regions *)
  assert (INS : forall o loc k, region l preamble fr o loc k -> 0 <= k /\ k <= loc <= fr_sub fr).
  { intros o loc k RG. apply region_entry in RG. pose proof (chain_in _ _ _ _ _ _ CH RG). lia. }
  assert (DIS : forall o1 loc1 n1 o2 loc2 n2, region l preamble fr o1 loc1 n1 -> region l preamble fr o2 loc2 n2 -> o1 <> o2 ->
     forall x, bp - loc1 <= x < bp - loc1 + n1 -> bp - loc2 <= x < bp - loc2 + n2 -> False).
  { intros o1 loc1 n1 o2 loc2 n2 R1 R2 NE x X1 X2.
    assert (D := chain_two _ _ _ _ _ _ _ _ _ CH (region_entry _ _ _ _ _ _ R1) (region_entry _ _ _ _ _ _ R2) NE).
    unfold disjoint in D. lia. }
  inversion ND as [|? ? NRBX NDPP]; subst. destruct (nodup_split _ _ NDPP) as (NDP & NDN & NPN).
  assert (PIECE : forall r loc, In (r, loc) pcs -> exists i, In i pieces /\ region l preamble fr (Slot i) loc (r_size r)).
  { intros r loc I. destruct (forall2_cross _ _ _ _ PP I) as (i & II & RI). exists i. auto. }
  assert (IPAR : forall i t, nth_error types i = Some t -> exists p loc, nth_error (n_params n) i = Some (p, loc) /\
             In (t, (p, loc)) (combine types (n_params n))).
  { clear -LN. revert LN. generalize (n_params n). induction types as [|t0 ty IH]; intros [|[p0 loc0] q] LN i t E; try discriminate; [destruct i; discriminate|].
    destruct i as [|i]; cbn [nth_error] in *.
    - injection E as ->. exists p0, loc0. split; [reflexivity|left; reflexivity].
    - cbn [length] in LN. destruct (IH q ltac:(lia) i t E) as (p & loc & EN & I). exists p, loc. split; [exact EN|right; exact I]. }
  assert (PIN : forall i p loc, nth_error (n_params n) i = Some (p, loc) -> exists t, nth_error types i = Some t).
  { intros i p loc E. destruct (nth_error types i) as [t|] eqn:ET; [eauto|]. apply nth_error_None in ET.
    assert (i < length (n_params n))%nat by (apply nth_error_Some; congruence). lia. }
  assert (PNN : forall i t p loc, nth_error types i = Some t -> nth_error (n_params n) i = Some (p, loc) ->
     exists k, nth_error params i = Some k /\ s_size p = 8 /\ region l preamble fr (Slot k) (s_loc p) 8 /\
       region l preamble fr (Object k) loc (a_size t)).
  { clear -PN. revert PN. generalize (n_params n). revert types. induction params as [|k ks IH]; intros ty q PN i t p loc ET EN.
    - inversion PN as [HN|]; subst. destruct ty as [|t0 ty]; [destruct i; discriminate|]. destruct q as [|q0 q]; [destruct i; discriminate|discriminate].
    - destruct ty as [|t0 ty]; [inversion PN|]. destruct q as [|[p0 loc0] q]; [inversion PN|]. cbn [combine] in PN.
      inversion PN as [|? ? ? ? H H']; subst. cbn [fst snd] in H. destruct i as [|i]; cbn [nth_error] in *.
      + injection ET as ->. injection EN as -> ->. exists k. split; [reflexivity|exact H].
      + apply (IH ty q H' i t p loc ET EN). }
  assert (PNI : forall p loc, In (p, loc) (n_params n) -> exists k i t, In k params /\ nth_error (n_params n) i = Some (p, loc) /\
     nth_error types i = Some t /\ s_size p = 8 /\ region l preamble fr (Slot k) (s_loc p) 8 /\
       region l preamble fr (Object k) loc (a_size t)).
  { intros p loc I. apply In_nth_error in I. destruct I as (i & E). destruct (PIN i p loc E) as (t & ET).
    destruct (PNN i t p loc ET E) as (k & EK & H8 & R1 & R2). exists k, i, t. split; [eapply nth_error_In; exact EK|]. auto. }
  assert (OBD : forall i j t u p loc p' loc', nth_error types i = Some t -> nth_error (n_params n) i = Some (p, loc) ->
     nth_error types j = Some u -> nth_error (n_params n) j = Some (p', loc') -> i <> j ->
     forall x, bp - loc <= x < bp - loc + a_size t -> bp - loc' <= x < bp - loc' + a_size u -> False).
  { intros i j t u p loc p' loc' ET EN EU EN' NE. destruct (PNN i t p loc ET EN) as (k & EK & _ & _ & R1).
    destruct (PNN j u p' loc' EU EN') as (k' & EK' & _ & _ & R2). apply (DIS (Object k) loc _ (Object k') loc' _ R1 R2).
    intros E. injection E as ->. apply NE. clear -NDN EK EK'. apply (proj1 (NoDup_nth_error params) NDN); [apply nth_error_Some; congruence|congruence]. }
  (* the code *)
  assert (SR : forall p r, s_size p = 8 -> exists code, scalar_to_reg p r = Ok code).
  { intros p r E. unfold scalar_to_reg. rewrite E. eauto. }
  destruct (all_code_total (load_argument (n_params n)) layout) as (loads & E1).
  { intros [[i off] size] I. unfold load_argument. destruct (lf_in _ _ _ _ _ LF _ _ _ I) as (_ & _ & _ & t & ET & _).
    destruct (IPAR i t ET) as (p & loc & EN & _). rewrite EN. destruct (PNN i t p loc ET EN) as (k & _ & H8 & _).
    unfold codegen_load_base. destruct (SR p RSI H8) as (lp & ->). cbn [bind]. eauto. }
  destruct (all_code_total (store_piece (n_params n)) pcs) as (stores & E2).
  { intros [r loc] I. unfold store_piece. cbn [fst snd]. destruct (r_merged r) as [[i pos]|] eqn:EM; [|eauto].
    destruct (cf_merged _ _ CF r i pos) as (t & ET & _); [eapply in_combine_l; exact I|exact EM|].
    destruct (IPAR i t ET) as (p & loc' & EN & _). rewrite EN. destruct (PNN i t p loc' ET EN) as (k & _ & H8 & _).
    unfold codegen_store_part. destruct (SR p RSI H8) as (lp & ->). cbn [bind]. eauto. }
  assert (EPR : exists pre, (if variadic then match fr_preamble fr with Some p => Ok (save_registers p) | None => Undef end else Ok []) = Ok pre /\
     (variadic = false /\ pre = [] \/ exists position, variadic = true /\ fr_preamble fr = Some position /\ pre = save_registers position)).
  { destruct variadic; [|eauto]. specialize (PRE eq_refl). destruct PRS as (position & ->); [lia|].
    eexists. split; [reflexivity|]. right. eauto. }
  destruct EPR as (pre & EPR & PREC).
  unfold function_entry. rewrite EPR. cbn [bind]. rewrite EL. cbn [bind]. rewrite E1. cbn [bind]. fold pcs. rewrite E2. cbn [bind].
  set (gl := (GP RBX, {| s_size := 8; s_loc := n_rbx n |}) :: map (fun q : reg_info * Z => (r_place (fst q), piece_slot (fst q) (snd q))) pcs).
  assert (EG : codegen_get_reg (GP RBX) {| s_size := 8; s_loc := n_rbx n |}
              :: map (fun p => codegen_get_reg (r_place (fst p)) (piece_slot (fst p) (snd p))) pcs =
              map (fun q => codegen_get_reg (fst q) (snd q)) gl).
  { unfold gl. cbn [map fst snd]. f_equal. rewrite map_map. reflexivity. }
  rewrite EG. eexists.
  assert (M2 : machine_ok (push_return ret s1)).
  { unfold push_return. apply (machine_mem (set_gpr s1 RSP (gpr s1 RSP - 8))). apply machine_gpr; [exact M|]. fold sp. lia. }
  assert (SP2 : gpr (push_return ret s1) RSP = sp - 8) by reflexivity.
  set (s2 := push_return ret s1) in *.
  (* prologue *)
  destruct (prologue_enters F s2 fr M2) as (s3 & X3 & EN); [rewrite SP2; lia|exact SUB|exact AL|rewrite SV; discriminate|].
  destruct EN as [M3 SP3 B3 G3 X3x OLD _ MEM3]. rewrite SV, SP2 in B3. rewrite SP2 in OLD, MEM3.
  assert (B3' : gpr s3 RBP = bp) by (rewrite B3; unfold bp; lia).
  (* register save area *)
  assert (PH : exists s4, exec_all F pre s3 = Ok s4 /\ machine_ok s4 /\ (forall r, gpr s4 r = gpr s3 r) /\ (forall x, xmm s4 x = xmm s3 x) /\
     (forall x, bp <= x -> mem s4 x = mem s3 x) /\
     (forall position k r j, variadic = true -> fr_preamble fr = Some position -> nth_error abi_gp k = Some r -> 0 <= j < 8 ->
        mem s4 (bp - position + 8 * Z.of_nat k + j) = byte_of (gpr s3 r) j)).
  { destruct PREC as [(-> & ->)|(position & -> & EP & ->)].
    - exists s3. split; [reflexivity|]. split; [exact M3|]. split; [reflexivity|]. split; [reflexivity|]. split; [reflexivity|]. discriminate.
    - specialize (PRE eq_refl). assert (RG : region l preamble fr SaveArea position preamble) by (split; [lia|]; split; [reflexivity|exact EP]).
      apply INS in RG. destruct (save_registers_ok F s3 position M3) as (s4 & X4 & M4 & G4 & XX4 & K4 & B4); [rewrite B3'; unfold bp; lia|].
      rewrite B3' in K4, B4. exists s4. split; [exact X4|]. split; [exact M4|]. split; [exact G4|]. split; [exact XX4|].
      split; [intros x X; apply K4; lia|]. intros position' k r j _ EP' EK J. rewrite EP in EP'. injection EP' as <-. apply B4; assumption. }
  destruct PH as (s4 & X4 & M4 & G4 & XX4 & K4 & A4).
  (* slots of variable length arrays *)
  assert (VL : Z.to_nat (fr_vlas fr) = length (filter f_vla l)).
  { clear -FR. unfold allocate_frame in FR. apply bind_ok in FR. destruct FR as ((a & b) & _ & FR). apply bind_ok in FR.
    destruct FR as (p & _ & FR). apply bind_ok in FR. destruct FR as (((o & p2) & al) & _ & FR). apply bind_ok in FR.
    destruct FR as ((pr & p3) & _ & FR). apply bind_ok in FR. destruct FR as ((sv & p4) & _ & FR). apply bind_ok in FR.
    destruct FR as (sub & _ & FR). injection FR as <-. cbn [fr_vlas]. rewrite count_vlas_filter. apply Nat2Z.id. }
  (* each of them is a region *)
  assert (VLOC : forall i, In i (seq 0 (Z.to_nat (fr_vlas fr))) -> exists j loc, region l preamble fr (VlaSlot j) loc 8 /\
     bp - fr_vla_offset fr + Z.of_nat i * 8 = bp - loc).
  { intros i I. apply in_seq in I. exists i, (fr_vla_offset fr - 8 * Z.of_nat i). split; [|lia].
    cbn [region]. split; [lia|]. split; [reflexivity|reflexivity]. }
  destruct (zero_slots_ok F (fr_vla_offset fr) (seq 0 (Z.to_nat (fr_vlas fr))) s4 M4) as (s5 & X5 & M5 & G5 & XX5 & K5).
  { intros i I. destruct (VLOC i I) as (j & loc & RG & EQ). apply INS in RG. rewrite G4, B3'. unfold bp in *. lia. }
  rewrite G4, B3' in K5.
  assert (CONT : forall p, p <> GP RBP -> p <> GP RSP -> content s5 p = content s1 p).
  { intros [r|x] N1 N2; cbn [content].
    - rewrite G5, G4, G3 by congruence. unfold s2, push_return. cbn [gpr set_mem]. apply gpr_other. congruence.
    - rewrite XX5, XX4, X3x. reflexivity. }
  assert (B5 : gpr s5 RBP = bp) by (rewrite G5, G4; exact B3').
  assert (S5 : gpr s5 RSP = bp - fr_sub fr) by (rewrite G5, G4, SP3, B3'; reflexivity).
  assert (UP5 : forall x, bp <= x -> mem s5 x = mem s3 x).
  { intros x X. rewrite K5; [apply K4; exact X|]. intros i I. destruct (VLOC i I) as (j & loc & RG & EQ). apply INS in RG. lia. }
  assert (SAV5 : forall position k r j, variadic = true -> fr_preamble fr = Some position -> nth_error abi_gp k = Some r -> 0 <= j < 8 ->
     mem s5 (bp - position + 8 * Z.of_nat k + j) = byte_of (gpr s1 r) j).
  { intros position k r j V EP EK J. specialize (PRE V). assert (RG : region l preamble fr SaveArea position preamble) by (split; [lia|]; split; [reflexivity|exact EP]).
    assert (KB : (k < 6)%nat) by (change 6%nat with (length abi_gp); apply nth_error_Some; congruence).
    rewrite K5.
    - rewrite (A4 position k r j V EP EK J). f_equal.
      assert (r <> RBP /\ r <> RSP) as (N1 & N2).
      { apply nth_error_In in EK. cbn in EK. split; intros ->; intuition discriminate. }
      rewrite <- (G4 r), <- (G5 r). apply (CONT (GP r)); congruence.
    - intros i I. destruct (VLOC i I) as (jj & loc & RV & EQ). intros X. rewrite EQ in X.
      apply (DIS SaveArea position preamble (VlaSlot jj) loc 8 RG RV ltac:(discriminate) (bp - position + 8 * Z.of_nat k + j)); lia. }
  (* registers into their nodes *)
  assert (SA : forall st v, gpr st RBP = bp -> slot_address st v = bp - s_loc v) by (intros st v E; unfold slot_address; rewrite E; reflexivity).
  assert (NOTGP : forall q, ~ In q abi_gp -> ~ In (GP q) (map r_place (c_regs c))).
  { intros q NQ I. apply NQ. apply (cf_gp _ _ CF). exact I. }
  assert (GPL : map fst gl = GP RBX :: map r_place (c_regs c)).
  { unfold gl. cbn [map fst]. f_equal. rewrite map_map. cbn [fst].
    rewrite <- (combine_fst (c_regs c) (n_pieces n) LP). fold pcs. rewrite map_map. reflexivity. }
  assert (GREG : forall p v, In (p, v) gl -> exists i, In i (rbx :: pieces) /\ region l preamble fr (Slot i) (s_loc v) (s_size v)).
  { intros p v [E|I].
    - injection E as <- <-. exists rbx. split; [left; reflexivity|exact PRBX].
    - apply in_map_iff in I. destruct I as ([r loc] & E & I). cbn [fst snd] in E. injection E as <- <-.
      destruct (PIECE r loc I) as (i & II & RI). exists i. split; [right; exact II|exact RI]. }
  destruct (get_regs_ok F gl s5 M5) as (s6 & X6 & M6 & B6 & S6 & K6 & V6).
  { apply Forall_forall. intros [p v] I. cbn [fst snd]. destruct (GREG p v I) as (i & _ & RG). apply INS in RG.
    split; [unfold in_memory; rewrite SA by exact B5; unfold bp in *; lia|].
    destruct I as [E|I].
    - injection E as <- <-. cbn [s_size]. split; [lia|]. discriminate.
    - apply in_map_iff in I. destruct I as ([r loc] & E & I). cbn [fst snd] in E. injection E as <- <-. cbn [piece_slot s_size].
      assert (IR : In r (c_regs c)) by (eapply in_combine_l; exact I).
      split; [apply (cf_size _ _ CF r IR)|]. intros x EX. apply (SSE r x IR EX). }
  { rewrite GPL. constructor; [apply NOTGP; cbn; intuition discriminate|apply (cf_nodup _ _ CF)]. }
  { rewrite GPL. intros [I|I]; [discriminate|]. apply (NOTGP RBP) in I; [exact I|]. cbn. intuition discriminate. }
  { rewrite GPL. intros [I|I]; [discriminate|]. apply (NOTGP RSP) in I; [exact I|]. cbn. intuition discriminate. }
  { unfold gl. constructor.
    - apply Forall_forall. intros q I. apply in_map_iff in I. destruct I as ([r loc] & <- & I). cbn [fst snd].
      destruct (PIECE r loc I) as (i & II & RI). intros x X1 X2. unfold in_slot in X1, X2. rewrite SA in X1, X2 by exact B5.
      cbn [piece_slot s_loc s_size] in X1, X2.
      apply (DIS (Slot rbx) (n_rbx n) 8 (Slot i) loc (r_size r) PRBX RI) with (x := x); [|exact X1|exact X2].
      intros E. injection E as ->. apply NRBX, in_or_app. left. exact II.
    - apply (ordpairs_map (fun a b => forall x, bp - snd a <= x < bp - snd a + r_size (fst a) -> bp - snd b <= x < bp - snd b + r_size (fst b) -> False)).
      + apply (forall2_ordpairs _ _ pieces pcs PP NDP). intros i j [r loc] [r' loc'] R1 R2 NE. cbn [fst snd] in *.
        apply (DIS (Slot i) loc _ (Slot j) loc' _ R1 R2). congruence.
      + intros [r loc] [r' loc'] _ _ D x. specialize (D x). cbn [fst snd] in *. unfold in_slot. rewrite !SA by exact B5.
        cbn [piece_slot s_loc s_size]. exact D. }
  rewrite B5 in B6. rewrite S5 in S6.
  (* the addresses of the parameters *)
  assert (PSL : forall p loc, In (p, loc) (n_params n) -> forall st, gpr st RBP = bp -> in_memory st p).
  { intros p loc I st BS. destruct (PNI p loc I) as (k & i & t & _ & _ & _ & H8 & R1 & _). apply INS in R1.
    unfold in_memory. rewrite SA by exact BS. rewrite H8. unfold bp in *. lia. }
  destruct (allocs_ok F (n_params n) s6 M6) as (s7 & X7 & M7 & B7 & S7 & H7 & K7).
  { apply Forall_forall. intros [p loc] I. cbn [fst snd]. destruct (PNI p loc I) as (k & i & t & _ & _ & _ & H8 & R1 & R2).
    apply INS in R2. split; [exact H8|]. split; [apply (PSL p loc I); exact B6|]. rewrite B6. unfold bp in *. lia. }
  { assert (OP : ForallOrdPairs (fun a b : atype * (slot * Z) => forall x, bp - s_loc (fst (snd a)) <= x < bp - s_loc (fst (snd a)) + 8 ->
        bp - s_loc (fst (snd b)) <= x < bp - s_loc (fst (snd b)) + 8 -> False) (combine types (n_params n))).
    { apply (forall2_ordpairs _ _ params _ PN NDN). intros i j a b (_ & R1 & _) (_ & R2 & _) NE.
      apply (DIS (Slot i) _ 8 (Slot j) _ 8 R1 R2). congruence. }
    assert (EQ : n_params n = map snd (combine types (n_params n))).
    { clear -LN. revert LN. generalize (n_params n). induction types as [|t ty IH]; intros [|q ql] LN; try discriminate; cbn [combine map snd]; [reflexivity|].
      f_equal. apply IH. cbn in LN. lia. }
    rewrite EQ. apply (ordpairs_map _ _ snd _ OP). intros [t [p loc]] [t' [p' loc']] I I' D x. cbn [fst snd] in *.
    apply in_combine_r in I. apply in_combine_r in I'. unfold in_slot. rewrite !SA by exact B6.
    destruct (PNI p loc I) as (_ & _ & _ & _ & _ & _ & -> & _). destruct (PNI p' loc' I') as (_ & _ & _ & _ & _ & _ & -> & _). apply D. }
  rewrite B6 in B7, H7. rewrite S6 in S7.
  (* what is still as after the prologue *)
  assert (UP6 : forall x, bp <= x -> mem s6 x = mem s5 x).
  { intros x X. apply K6. intros p v I XI. destruct (GREG p v I) as (i & _ & RG). apply INS in RG.
    unfold in_slot in XI. rewrite SA in XI by exact B5. lia. }
  assert (UP7 : forall x, bp <= x -> mem s7 x = mem s6 x).
  { intros x X. apply K7. intros p loc I XI. destruct (PNI p loc I) as (k & i & t & _ & _ & _ & H8 & R1 & R2). apply INS in R1.
    unfold in_slot in XI. rewrite SA in XI by exact B6. lia. }
  assert (REG7 : forall p v x, In (p, v) gl -> bp - s_loc v <= x < bp - s_loc v + s_size v -> mem s7 x = mem s6 x).
  { intros p v x I X. destruct (GREG p v I) as (i & II & RG). apply K7. intros q loc J XI.
    destruct (PNI q loc J) as (k & ii & t & KI & _ & _ & H8 & R1 & R2). unfold in_slot in XI. rewrite SA in XI by exact B6. rewrite H8 in XI.
    apply (DIS (Slot i) _ _ (Slot k) _ _ RG R1) with (x := x); [|exact X|exact XI]. intros E. injection E as ->.
    destruct II as [->|II]; [apply NRBX, in_or_app; right; exact KI|apply (NPN k II KI)]. }
  (* stack arguments *)
  set (W := fun x => exists i t p loc, nth_error types i = Some t /\ nth_error (n_params n) i = Some (p, loc) /\ bp - loc <= x < bp - loc + a_size t).
  assert (WLOW : forall x, W x -> x < bp).
  { intros x (i & t & p & loc & ET & E & X). destruct (PNN i t p loc ET E) as (k & _ & _ & _ & R2). apply INS in R2. lia. }
  assert (WSLOT : forall i loc k x, region l preamble fr (Slot i) loc k -> bp - loc <= x < bp - loc + k -> ~ W x).
  { intros i loc k x RG X (j & t & p & loc' & ET & E & X'). destruct (PNN j t p loc' ET E) as (kk & _ & _ & _ & R2).
    apply (DIS (Slot i) _ _ (Object kk) _ _ RG R2 ltac:(discriminate) x X X'). }
  assert (HOLD : forall m0 st p loc, (forall x, ~ W x -> m0 x = mem s7 x) -> stable bp (bp - fr_sub fr) m0 W st -> In (p, loc) (n_params n) ->
     holds_address st p (bp - loc)).
  { intros m0 st p loc E0 (MS & BS & SS & K) I. destruct (H7 p loc I) as (H8 & IM & SBT).
    split; [exact H8|]. split; [apply (PSL p loc I); exact BS|]. rewrite <- SBT. apply slot_stable; [|rewrite B7; exact BS|lia].
    intros x X. destruct (PNI p loc I) as (k & i & t & _ & _ & _ & _ & R1 & _).
    unfold in_slot in X. rewrite SA in X by exact B7. rewrite H8 in X.
    assert (NW := WSLOT k _ _ x R1 X). rewrite K by exact NW. apply E0. exact NW. }
  set (triple := fun q : nat * Z * Z => let '(i, off, size) := q in
                 (bp + (off + 16), match nth_error (n_params n) i with Some (_, loc) => bp - loc | None => 0 end, size)).
  assert (ST7 : stable bp (bp - fr_sub fr) (mem s7) W s7) by (split; [exact M7|]; split; [exact B7|]; split; [exact S7|reflexivity]).
  destruct (copies_ok F bp (bp - fr_sub fr) (mem s7) W loads (map triple layout)) with (st := s7) as (s8 & X8 & (M8 & B8 & S8 & K8) & R8 & N8).
  { apply (forall2_map_in (load_argument (n_params n))); [apply all_code_forall; exact E1|].
    intros [[i off] size] code I EQ. unfold load_argument in EQ. unfold triple.
    destruct (lf_in _ _ _ _ _ LF i off size I) as (O0 & O1 & _ & t & ET & ->).
    destruct (IPAR i t ET) as (p & loc & EN & _). rewrite EN in *. destruct (PNN i t p loc ET EN) as (k & _ & H8 & RS & RO). apply INS in RO.
    assert (T : 0 < a_size t) by (rewrite Forall_forall in P; apply P; eapply nth_error_In; exact ET).
    split; [intros x X; exists i, t, p, loc; auto|]. split; [intros x X WX; apply WLOW in WX; lia|].
    intros st ST. assert (HA := HOLD (mem s7) st p loc (fun _ _ => eq_refl) ST (nth_error_In _ _ EN)).
    destruct ST as (MS & BS & SS & K).
    destruct (load_base_copied F st p (off + 16) (a_size t) (bp - loc) code MS HA) as (st' & X & C);
      try (rewrite ?BS; unfold bp in *; lia); try exact EQ.
    - unfold apart. rewrite BS. lia.
    - exists st'. split; [exact X|]. rewrite BS in C. exact C. }
  { assert (NI : ForallOrdPairs (fun a b : nat * Z * Z => fst (fst a) <> fst (fst b)) layout).
    { assert (SO := cf_sorted _ _ CF). rewrite <- (lf_idx _ _ _ _ _ LF) in SO. clear -SO. induction layout as [|a lay IH]; constructor.
      - cbn [map] in SO. inversion SO as [|? ? _ FA]; subst. apply Forall_forall. intros b I. rewrite Forall_forall in FA.
        specialize (FA _ (in_map (fun a => fst (fst a)) _ _ I)). lia.
      - apply IH. cbn [map] in SO. inversion SO; assumption. }
    apply (ordpairs_map _ _ triple _ NI). intros [[i off] size] [[i' off'] size'] I I' NE x. cbn [fst] in NE. unfold triple. cbn [within].
    destruct (lf_in _ _ _ _ _ LF i off size I) as (_ & _ & _ & t & ET & ->).
    destruct (lf_in _ _ _ _ _ LF i' off' size' I') as (_ & _ & _ & t' & ET' & ->).
    destruct (IPAR i t ET) as (p & loc & EN & _). destruct (IPAR i' t' ET') as (p' & loc' & EN' & _). rewrite EN, EN'.
    apply (OBD i i' t t' p loc p' loc' ET EN ET' EN' NE). }
  { exact ST7. }
  (* pieces *)
  set (triple2 := fun q : reg_info * Z => match r_merged (fst q) with
                 | Some (i, pos) => (bp - snd q, match nth_error (n_params n) i with Some (_, loc) => bp - loc + pos | None => 0 end, r_size (fst q))
                 | None => (0, 0, 0) end).
  assert (ST8 : stable bp (bp - fr_sub fr) (mem s8) W s8) by (split; [exact M8|]; split; [exact B8|]; split; [exact S8|reflexivity]).
  destruct (copies_ok F bp (bp - fr_sub fr) (mem s8) W stores (map triple2 pcs)) with (st := s8) as (s9 & X9 & (M9 & B9 & S9 & K9) & R9 & N9).
  { apply (forall2_map_in (store_piece (n_params n))); [apply all_code_forall; exact E2|].
    intros [r loc] code I EQ. unfold store_piece in EQ. unfold triple2. cbn [fst snd] in *.
    destruct (r_merged r) as [[i pos]|] eqn:EM.
    2: { injection EQ as <-. split; [intros x X; lia|]. split; [intros x X; lia|]. intros st (MS & _).
         exists st. split; [reflexivity|]. split; [|split; [reflexivity|split; [reflexivity|exact MS]]].
         intros x. destruct (Z.leb_spec 0 x); [|reflexivity]. destruct (Z.ltb_spec x (0 + 0)); [lia|reflexivity]. }
    assert (IR : In r (c_regs c)) by (eapply in_combine_l; exact I).
    destruct (cf_merged _ _ CF r i pos IR EM) as (t & ET & PO & PS). pose proof (cf_size _ _ CF r IR) as SZ.
    destruct (IPAR i t ET) as (p & loc' & EN & _). rewrite EN in *. destruct (PNN i t p loc' ET EN) as (k & _ & H8 & RS & RO).
    pose proof (INS _ _ _ RO) as RO'.
    destruct (PIECE r loc I) as (ii & II & RI). pose proof (INS _ _ _ RI) as RI'.
    split; [intros x X; exists i, t, p, loc'; split; [exact ET|]; split; [exact EN|lia]|].
    split; [intros x X; apply (WSLOT ii loc (r_size r) x RI X)|].
    intros st ST. assert (HA := HOLD (mem s8) st p loc' K8 ST (nth_error_In _ _ EN)).
    destruct ST as (MS & BS & SS & K).
    assert (SAE : slot_address st (piece_slot r loc) = bp - loc) by (rewrite SA by exact BS; reflexivity).
    destruct (store_part_copied F st p (piece_slot r loc) pos (bp - loc') code MS HA) as (st' & X & C);
      try (cbn [piece_slot s_size]; unfold bp in *; lia); try (rewrite SAE; cbn [piece_slot s_size]; unfold bp in *; lia); try exact EQ.
    - unfold in_memory. rewrite SAE. cbn [piece_slot s_size]. unfold bp in *. lia.
    - rewrite SAE. cbn [piece_slot s_size]. unfold apart.
      destruct (Z.le_gt_cases (bp - loc' + pos + r_size r) (bp - loc)) as [|Q1]; [left; assumption|].
      destruct (Z.le_gt_cases (bp - loc + r_size r) (bp - loc' + pos)) as [|Q2]; [right; assumption|]. exfalso.
      apply (DIS (Slot ii) loc (r_size r) (Object k) loc' (a_size t) RI RO ltac:(discriminate) (Z.max (bp - loc' + pos) (bp - loc))); lia.
    - exists st'. split; [exact X|]. rewrite SAE in C. exact C. }
  { assert (CFA : ForallOrdPairs (fun a b : reg_info * Z => forall i p p', r_merged (fst a) = Some (i, p) -> r_merged (fst b) = Some (i, p') ->
        p + r_size (fst a) <= p') pcs).
    { assert (CA := cf_apart _ _ CF). rewrite <- (combine_fst (c_regs c) (n_pieces n) LP) in CA. fold pcs in CA.
      clear -CA. induction pcs as [|a ps IH]; constructor; cbn [map] in CA; inversion CA as [|? ? FA CA']; subst.
      - apply Forall_forall. intros b I. rewrite Forall_forall in FA. apply FA. apply in_map. exact I.
      - apply IH. exact CA'. }
    apply (ordpairs_map _ _ triple2 _ CFA). intros [r loc] [r' loc'] I I' D x. cbn [fst snd] in D. unfold triple2. cbn [fst snd].
    destruct (r_merged r) as [[i pos]|] eqn:EM; [|cbn [within]; lia].
    destruct (r_merged r') as [[i' pos']|] eqn:EM'; [|cbn [within]; lia]. cbn [within].
    destruct (cf_merged _ _ CF r i pos) as (t & ET & PO & PS); [eapply in_combine_l; exact I|exact EM|].
    destruct (cf_merged _ _ CF r' i' pos') as (t' & ET' & PO' & PS'); [eapply in_combine_l; exact I'|exact EM'|].
    destruct (IPAR i t ET) as (p & lo & EN & _). destruct (IPAR i' t' ET') as (p' & lo' & EN' & _). rewrite EN, EN'.
    destruct (Nat.eq_dec i i') as [<-|NE].
    - rewrite EN in EN'. injection EN' as <- <-. specialize (D i pos pos' eq_refl eq_refl). lia.
    - intros X1 X2. apply (OBD i i' t t' p lo p' lo' ET EN ET' EN' NE x); lia. }
  { exact ST8. }
  exists s9. split; [reflexivity|]. split.
  { rewrite !exec_all_app, X3. cbn [bind]. rewrite exec_all_app, X4. cbn [bind]. rewrite exec_all_app. unfold zero_vla_slots. rewrite X5. cbn [bind].
    rewrite exec_all_app, X6. cbn [bind]. rewrite exec_all_app, X7. cbn [bind]. rewrite exec_all_app, X8. cbn [bind]. exact X9. }
  (* pieces in the end *)
  assert (UP9 : forall x, bp <= x -> mem s9 x = mem s3 x).
  { intros x X. assert (NW : ~ W x) by (intros WX; apply WLOW in WX; lia).
    rewrite K9, K8, UP7, UP6, UP5 by assumption. reflexivity. }
  assert (S3A : forall x, sp - 8 <= x -> mem s3 x = mem s2 x) by exact MEM3.
  assert (PUSH : forall x, sp <= x -> mem s2 x = mem s1 x).
  { intros x X. unfold s2, push_return. cbn [mem set_mem]. rewrite store_out; [reflexivity|]. fold sp. lia. }
  assert (NODE : forall p v j, In (p, v) gl -> p <> GP RBP -> p <> GP RSP -> 0 <= j < s_size v -> mem s9 (bp - s_loc v + j) = byte_of (content s1 p) j /\
            mem s8 (bp - s_loc v + j) = byte_of (content s1 p) j).
  { intros p v j I N1 N2 J. destruct (GREG p v I) as (i & _ & RG).
    assert (NW : ~ W (bp - s_loc v + j)) by (apply (WSLOT i (s_loc v) (s_size v)); [exact RG|lia]).
    assert (E8 : mem s8 (bp - s_loc v + j) = byte_of (content s1 p) j).
    { rewrite K8 by exact NW. rewrite (REG7 p v) by (auto; lia). rewrite <- CONT by assumption.
      rewrite <- (V6 p v j I J). rewrite SA by exact B5. reflexivity. }
    split; [rewrite K9 by exact NW|]; exact E8. }
  assert (RNE : forall r, In r (c_regs c) -> r_place r <> GP RBP /\ r_place r <> GP RSP).
  { intros r IR. split; intros E; [apply (NOTGP RBP)|apply (NOTGP RSP)]; try (rewrite <- E; apply in_map; exact IR); cbn; intuition discriminate. }
  constructor; rewrite ?B9; fold sp.
  - exact M9.
  - reflexivity.
  - exact S9.
  - intros i off size p loc j I EN J.
    rewrite N9.
    2: { intros q IQ WQ. apply in_map_iff in IQ. destruct IQ as ([r lo] & <- & IQ). unfold triple2 in WQ. cbn [fst snd] in WQ.
         destruct (r_merged r) as [[i' pos]|] eqn:EM; cbn [within] in WQ; [|lia].
         assert (IR : In r (c_regs c)) by (eapply in_combine_l; exact IQ).
         destruct (cf_merged _ _ CF r i' pos IR EM) as (t' & ET' & PO & PS).
         destruct (IPAR i' t' ET') as (p' & lo' & EN' & _). rewrite EN' in WQ.
         destruct (lf_in _ _ _ _ _ LF i off size I) as (_ & _ & _ & t & ET & ->).
         assert (IC : In i (c_stack c)) by (rewrite <- (lf_idx _ _ _ _ _ LF); apply in_map_iff; exists (i, off, a_size t); auto).
         assert (NE : i <> i') by (intros ->; apply (cf_either _ _ CF i' r pos IC IR EM)).
         apply (OBD i i' t t' p loc p' lo' ET EN ET' EN' NE (bp - loc + j)); lia. }
    rewrite (R8 (bp + (off + 16)) (bp - loc) size j); [| |exact J].
    2: { apply in_map_iff. exists (i, off, size). split; [|exact I]. unfold triple. rewrite EN. reflexivity. }
    destruct (lf_in _ _ _ _ _ LF i off size I) as (O0 & _).
    rewrite UP7, UP6, UP5, S3A, PUSH by (unfold bp; lia). f_equal. unfold bp. lia.
  - intros r i pos p loc j IR EM EN J.
    assert (IL : exists lo, In (r, lo) pcs).
    { rewrite <- (combine_fst (c_regs c) (n_pieces n) LP) in IR. apply in_map_iff in IR.
      destruct IR as ([r' lo] & <- & I). exists lo. exact I. }
    destruct IL as (lo & IL).
    rewrite (R9 (bp - lo) (bp - loc + pos) (r_size r) j); [| |exact J].
    2: { apply in_map_iff. exists (r, lo). split; [|exact IL]. unfold triple2. cbn [fst snd]. rewrite EM, EN. reflexivity. }
    destruct (RNE r IR) as (N1 & N2).
    apply (NODE (r_place r) (piece_slot r lo) j); [right; apply in_map_iff; exists (r, lo); auto|exact N1|exact N2|exact J].
  - intros r loc j IL J. assert (IR : In r (c_regs c)) by (eapply in_combine_l; exact IL). destruct (RNE r IR) as (N1 & N2).
    apply (NODE (r_place r) (piece_slot r loc) j); [right; apply in_map_iff; exists (r, loc); auto|exact N1|exact N2|exact J].
  - intros j J. apply (NODE (GP RBX) {| s_size := 8; s_loc := n_rbx n |} j); [left; reflexivity|discriminate|discriminate|exact J].
  - intros position k r j V EP EK J. rewrite <- (SAV5 position k r j V EP EK J).
    specialize (PRE V). assert (RG : region l preamble fr SaveArea position preamble) by (split; [lia|]; split; [reflexivity|exact EP]).
    assert (KB : (k < 6)%nat) by (change 6%nat with (length abi_gp); apply nth_error_Some; congruence).
    set (x := bp - position + 8 * Z.of_nat k + j) in *. assert (XB : bp - position <= x < bp - position + preamble) by (unfold x; lia).
    assert (NW : ~ W x).
    { intros (i & t & p & loc & ET & EN & X). destruct (PNN i t p loc ET EN) as (kk & _ & _ & _ & R2).
      apply (DIS SaveArea _ _ (Object kk) _ _ RG R2 ltac:(discriminate) x XB X). }
    rewrite K9, K8 by exact NW. rewrite K7.
    + apply K6. intros p v I XI. destruct (GREG p v I) as (i & _ & R2). unfold in_slot in XI. rewrite SA in XI by exact B5.
      apply (DIS SaveArea _ _ (Slot i) _ _ RG R2 ltac:(discriminate) x XB XI).
    + intros p loc I XI. destruct (PNI p loc I) as (kk & i & t & _ & _ & _ & H8 & R1 & _). unfold in_slot in XI. rewrite SA in XI by exact B6. rewrite H8 in XI.
      apply (DIS SaveArea _ _ (Slot kk) _ _ RG R1 ltac:(discriminate) x XB XI).
  - intros p loc I. apply (HOLD (mem s8) s9 p loc K8); [|exact I]. split; [exact M9|]. split; [exact B9|]. split; [exact S9|exact K9].
  - rewrite (load_ext (mem s2)).
    + unfold s2, push_return. cbn [mem set_mem]. fold sp. rewrite load_store. apply Z.mod_small. exact RET.
    + intros x X. cbn [Z.of_nat Pos.of_succ_nat Pos.succ] in X. rewrite UP9 by (unfold bp; lia). apply S3A. lia.
  - rewrite (load_ext (mem s3)).
    + replace (sp - 16) with (sp - 8 - 8) by lia. rewrite OLD. reflexivity.
    + intros x X. apply UP9. unfold bp. lia.
  - intros x X. rewrite UP9 by (unfold bp; lia). rewrite S3A by lia. apply PUSH. exact X.
Qed.
