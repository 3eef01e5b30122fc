(** Return sequences. *)
From Verif Require Import Base Bytes Common CommonProofs Arch X86 Codegen AsmSpec X86Proofs X86Preserve CodegenProofs Frame FrameSpec FrameProofs SysV SysVSpec Passing PassingSpec PassingProofs PassingRegs PassingLayout PassingCall PassingEntry Returning ReturningSpec.
Ltac Zify.zify_post_hook ::= idtac.

Record frame_kept (n : function_nodes) (back : Z) (s1 sb : machine) : Prop := {
  fk_ok : machine_ok sb;
  fk_rbp : gpr sb RBP = gpr s1 RSP - 16;
  fk_low : 16 <= gpr s1 RSP;
  fk_slot : 0 <= gpr sb RBP - n_rbx n /\ gpr sb RBP - n_rbx n + 8 <= 2 ^ 64;
  fk_rbx : slot_bits sb (eight (n_rbx n)) = gpr s1 RBX;
  fk_caller : load (mem sb) (gpr sb RBP) 8 = gpr s1 RBP;
  fk_back : load (mem sb) (gpr sb RBP + 8) 8 = back
}.

Lemma in_function_kept F ret types variadic c l preamble fr n back s1 sb :
  in_function F ret types variadic c l preamble fr n back s1 sb -> fr_save fr = None /\ frame_kept n back s1 sb.
Proof.
  intros H. destruct H as [EC P VP (rbx & pieces & params & PL) AL PRE M BK SM ROOM TOP (entry & s2 & EE & X & MB & BB & KA & KR)].
  assert (CF := convention_gives ret _ c EC P).
  destruct (frame_chain _ _ _ (pl_requests _ _ _ _ _ _ _ _ _ PL) (pl_preamble _ _ _ _ _ _ _ _ _ PL) (pl_frame _ _ _ _ _ _ _ _ _ PL))
    as (CH & _ & _ & _ & _ & _ & _ & SVE).
  assert (SV : fr_save fr = None) by (apply SVE; exact AL).
  assert (IB := index_bytes_le types P (c_stack c) (cf_sorted _ _ CF) (cf_bound _ _ CF)).
  destruct (layout_total types P (c_stack c) 0 (cf_bound _ _ CF)) as (layout & total & EL & LE); [lia|lia|].
  destruct (entry_code_ok F l preamble types variadic c fr n rbx pieces params layout total back s1 CF P PL SV VP) as (code & s' & E' & X' & ED);
    try assumption; try lia.
  rewrite EE in E'. injection E' as <-. rewrite X in X'. injection X' as <-.
  assert (RG := pl_rbx _ _ _ _ _ _ _ _ _ PL). apply region_entry in RG. pose proof (chain_in _ _ _ _ _ _ CH RG) as IN.
  pose proof (chain_le _ _ _ CH) as SUB0.
  assert (B : gpr sb RBP = gpr s1 RSP - 16) by (rewrite BB; apply (ed_rbp _ _ _ _ _ _ _ _ _ ED)).
  pose proof (proj1 M RSP) as GS.
  split; [exact SV|]. constructor.
  - exact MB.
  - exact B.
  - lia.
  - rewrite B. lia.
  - pose proof (proj1 M RBX) as GB. unfold slot_bits, eight. cbn [s_size]. change (Z.to_nat 8) with 8%nat.
    rewrite (load_digits _ _ 8 (gpr s1 RBX)); [change (256 ^ Z.of_nat 8) with (2 ^ 64); apply Z.mod_small; exact GB|].
    intros x XR. unfold slot_address in *. cbn [s_loc] in *. rewrite BB in *. change (Z.of_nat 8) with 8 in XR.
    rewrite KR by (unfold in_slot, slot_address; cbn [eight s_size s_loc]; exact XR).
    replace x with (gpr s2 RBP - n_rbx n + (x - (gpr s2 RBP - n_rbx n))) at 1 by lia.
    apply (ed_rbx _ _ _ _ _ _ _ _ _ ED). lia.
  - rewrite BB. rewrite (load_ext (mem s2)) by (intros x XR; apply KA; lia).
    rewrite (ed_rbp _ _ _ _ _ _ _ _ _ ED). apply (ed_caller _ _ _ _ _ _ _ _ _ ED).
  - rewrite BB. rewrite (load_ext (mem s2)) by (intros x XR; apply KA; lia).
    rewrite (ed_rbp _ _ _ _ _ _ _ _ _ ED). replace (gpr s1 RSP - 16 + 8) with (gpr s1 RSP - 8) by lia.
    apply (ed_return _ _ _ _ _ _ _ _ _ ED).
Qed.

(** Setting the result registers and leaving. *)
Lemma return_regs_ok F n back s1 s (sets : list (slot * place)) fr codes :
  frame_kept n back s1 s -> fr_save fr = None -> machine_ok s1 ->
  Forall (fun q => readable s (fst q) /\ 1 <= s_size (fst q) <= 8) sets ->
  NoDup (map snd sets) -> (forall r, In (GP r) (map snd sets) -> r = RAX \/ r = RDX) ->
  all_code (fun p => codegen_set_reg (fst p) (snd p)) ((eight (n_rbx n), GP RBX) :: rev sets) = Ok codes ->
  exists s', exec_all F (concat codes ++ epilogue fr) s = Ok s' /\ machine_ok s' /\ mem s' = mem s /\
    gpr s' RSP = gpr s1 RSP - 8 /\ gpr s' RBP = gpr s1 RBP /\ gpr s' RBX = gpr s1 RBX /\
    load (mem s') (gpr s' RSP) 8 = back /\
    (forall v p k, In (v, p) sets -> 0 <= k < s_size v -> byte_of (content s' p) k = mem s (slot_address s v + k)).
Proof.
  intros [M B LOW SL RBXV CAL BCK] SV M1 FA ND GPS E.
  set (ls := (eight (n_rbx n), GP RBX) :: rev sets) in *.
  assert (MS : map snd ls = GP RBX :: rev (map snd sets)) by (unfold ls; cbn [map snd]; rewrite map_rev; reflexivity).
  assert (RBXS : readable s (eight (n_rbx n))) by (unfold readable, slot_address; cbn [eight s_loc]; exact SL).
  destruct (set_regs_ok F ls codes s M) as (s4 & X4 & M4 & ME4 & G4 & R4).
  { unfold ls. constructor; [cbn [fst eight s_size]; split; [exact RBXS|lia]|].
    apply Forall_forall. intros q I. apply in_rev in I. rewrite Forall_forall in FA. apply FA. exact I. }
  { rewrite MS. constructor; [|apply NoDup_rev; exact ND]. intros I. apply in_rev in I. apply GPS in I. destruct I; discriminate. }
  { rewrite MS. intros [I|I]; [discriminate|]. apply in_rev in I. apply GPS in I. destruct I; discriminate. }
  { exact E. }
  assert (NB : ~ In (GP RBP) (map snd ls)).
  { rewrite MS. intros [I|I]; [discriminate|]. apply in_rev in I. apply GPS in I. destruct I; discriminate. }
  assert (B4 : gpr s4 RBP = gpr s RBP) by (exact (G4 (GP RBP) NB)).
  assert (RB4 : gpr s4 RBX = gpr s1 RBX).
  { rewrite <- RBXV.
    assert (BY : forall k, 0 <= k < 8 -> byte_of (gpr s4 RBX) k = mem s (slot_address s (eight (n_rbx n)) + k)).
    { intros k K. apply (R4 (eight (n_rbx n)) (GP RBX) k); [left; reflexivity|exact K]. }
    unfold slot_bits. cbn [eight s_size]. change (Z.to_nat 8) with 8%nat.
    rewrite (load_digits _ _ 8 (gpr s4 RBX)); [change (256 ^ Z.of_nat 8) with (2 ^ 64); symmetry; apply Z.mod_small; apply M4|].
    intros x XR. change (Z.of_nat 8) with 8 in XR. specialize (BY (x - slot_address s (eight (n_rbx n)))).
    unfold byte_of in BY. rewrite BY by (unfold eight in *; lia). f_equal. unfold eight. lia. }
  rewrite exec_all_app, X4. cbn [bind]. unfold epilogue. rewrite SV. cbn [app exec_all exec].
  pose proof (proj1 M1 RSP) as GS.
  destruct (Z.leb_spec (gpr s4 RBP + 8) (2 ^ 64)) as [LE|GT]; [|rewrite B4, B in GT; lia]. cbn [bind].
  rewrite B4, ME4, CAL, B. rewrite (wrap_small 64) by lia.
  eexists. split; [reflexivity|]. split; [apply machine_gpr; [apply machine_gpr; [exact M4|apply M1]|lia]|].
  split; [exact ME4|]. split; [rewrite gpr_same; lia|]. split; [rewrite gpr_other, gpr_same by discriminate; reflexivity|].
  split; [rewrite !gpr_other by discriminate; exact RB4|]. split.
  - rewrite gpr_same. cbn [mem set_gpr]. rewrite ME4. replace (gpr s1 RSP - 16 + 8) with (gpr s RBP + 8) by lia. exact BCK.
  - intros v p k I K. rewrite <- (R4 v p k); [|right; rewrite <- in_rev; exact I|exact K]. f_equal.
    assert (NP : p <> GP RBP /\ p <> GP RSP).
    { split; intros ->; apply (in_map snd) in I; cbn [snd] in I; apply GPS in I; destruct I; discriminate. }
    transitivity (content (set_gpr s4 RBP (gpr s1 RBP)) p).
    + apply (content_other _ (GP RSP)). apply NP.
    + apply (content_other _ (GP RBP)). apply NP.
Qed.

(** What every return statement does. *)
Record came_back (back : Z) (s1 s3 : machine) : Prop := {
  cb_ok : machine_ok s3;
  cb_address : load (mem s3) (gpr s3 RSP) 8 = back;
  cb_rsp : gpr (pop_return s3) RSP = gpr s1 RSP;
  cb_rbp : gpr (pop_return s3) RBP = gpr s1 RBP;
  cb_rbx : gpr (pop_return s3) RBX = gpr s1 RBX
}.

Lemma came_back_from back s1 s' : machine_ok s' -> gpr s' RSP = gpr s1 RSP - 8 -> gpr s' RBP = gpr s1 RBP ->
  gpr s' RBX = gpr s1 RBX -> load (mem s') (gpr s' RSP) 8 = back -> came_back back s1 s'.
Proof.
  intros M SP BP BX BK. constructor; [exact M|exact BK| | |]; unfold pop_return.
  - rewrite gpr_same. lia.
  - rewrite gpr_other by discriminate. exact BP.
  - rewrite gpr_other by discriminate. exact BX.
Qed.

(** The result registers of a convention. *)
Lemma convention_result t args c classes : get_calling_convention t args = Ok c -> classify t = Ok classes -> t <> ASimple ST_VOID ->
  nth_error classes 0 <> Some CLASS_MEMORY ->
  return_parts classes 0 0 = Ok (c_ret_regs c) /\ c_returns_address c = false.
Proof.
  intros E CL NV NM. unfold get_calling_convention in E. apply bind_ok in E. destruct E as (head & EH & E).
  assert (H : exists l, return_parts classes 0 0 = Ok l /\ head = ([], l, false, 0)).
  { assert (G : (let* classes := classify t in
        match classes with
        | [] => Undef
        | c0 :: _ =>
            if class_eqb c0 CLASS_MEMORY then
              Ok ([{| r_place := GP RDI; r_merged := None; r_size := 8 |}], [], true, 1)
            else let* l := return_parts classes 0 0 in Ok ([], l, false, 0)
        end) = Ok head).
    { destruct t as [[]| | | |]; try exact EH; congruence. }
    clear EH. rewrite CL in G. cbn [bind] in G. destruct classes as [|c0 cl]; [discriminate|].
    destruct c0; try (cbn in NM; congruence); cbn [class_eqb] in G; apply bind_ok in G; destruct G as (l & EL & G);
      injection G as <-; exists l; (split; [exact EL|reflexivity]). }
  destruct H as (l & EL & ->). apply bind_ok in E. destruct E as ([[[regs stack] gp'] sse'] & EA & E). injection E as <-.
  cbn [c_ret_regs c_returns_address]. split; [exact EL|reflexivity].
Qed.

(** The part of the caller up to the nodes of the result registers. *)
Lemma after_call_ok F s sub gets : machine_ok s -> 0 <= sub < 2 ^ 31 -> sub <= gpr s RSP ->
  Forall (fun q : place * slot => in_memory s (snd q) /\ s_size (snd q) = 8) gets ->
  NoDup (map fst gets) -> ~ In (GP RBP) (map fst gets) -> ~ In (GP RSP) (map fst gets) ->
  ForallOrdPairs (fun a b => forall x, in_slot s (snd a) x -> in_slot s (snd b) x -> False) gets ->
  exists s', exec_all F (after_call sub gets) s = Ok s' /\ machine_ok s' /\
    gpr s' RBP = gpr s RBP /\ gpr s' RSP = gpr s RSP - sub /\
    (forall x, (forall p v, In (p, v) gets -> ~ in_slot s v x) -> mem s' x = mem s x) /\
    (forall p v k, In (p, v) gets -> 0 <= k < 8 -> mem s' (slot_address s v + k) = byte_of (content s p) k).
Proof.
  intros M SB LE FA ND NB NS OP. unfold after_call. cbn [exec_all]. rewrite (exec_add_neg F s sub RSP M SB LE). cbn [bind].
  set (s0 := set_flag _ None). pose proof (proj1 M RSP) as GS.
  assert (M0 : machine_ok s0) by (apply machine_flag; apply machine_gpr; [exact M|lia]).
  assert (B0 : gpr s0 RBP = gpr s RBP) by (unfold s0; change (gpr (set_gpr s RSP (gpr s RSP - sub)) RBP = gpr s RBP); apply gpr_other; discriminate).
  assert (P0 : gpr s0 RSP = gpr s RSP - sub) by (unfold s0; change (gpr (set_gpr s RSP (gpr s RSP - sub)) RSP = gpr s RSP - sub); apply gpr_same).
  assert (SA : forall v, slot_address s0 v = slot_address s v) by (intros v; unfold slot_address; rewrite B0; reflexivity).
  destruct (get_regs_ok F gets s0 M0) as (s' & X & M' & B' & P' & K & R); try assumption.
  - apply Forall_forall. intros q I. rewrite Forall_forall in FA. destruct (FA q I) as (IM & S8).
    split; [unfold in_memory; rewrite SA; exact IM|]. split; [lia|]. intros x _. right. exact S8.
  - exists s'. split; [exact X|]. split; [exact M'|]. split; [congruence|]. split; [congruence|]. split.
    + intros x H. rewrite K; [reflexivity|]. intros p v I. unfold in_slot. rewrite SA. apply H with p. exact I.
    + intros p v k I KR. rewrite Forall_forall in FA. destruct (FA _ I) as (_ & S8). cbn [snd] in S8.
      rewrite <- (SA v), (R p v k I) by lia. f_equal.
      unfold s0. change (content (set_place s (GP RSP) (gpr s RSP - sub)) p = content s p). apply content_other.
      intros ->. apply NS. apply in_map_iff. exists (GP RSP, v). split; [reflexivity|exact I].
Qed.

Lemma eight_size l : s_size (eight l) = 8.
Proof. reflexivity. Qed.

Lemma frame_kept_ext n back s1 sb st : frame_kept n back s1 sb -> machine_ok st -> gpr st RBP = gpr sb RBP ->
  (forall x, in_slot sb (eight (n_rbx n)) x -> mem st x = mem sb x) ->
  (forall x, gpr sb RBP <= x < gpr sb RBP + 16 -> mem st x = mem sb x) -> frame_kept n back s1 st.
Proof.
  intros [M B LOW SL RBXV CAL BCK] M' B' K1 K2. constructor; [exact M'|congruence|exact LOW|rewrite B'; exact SL| | |].
  - rewrite <- RBXV. unfold slot_bits, slot_address. rewrite B'. apply load_ext. intros x X. apply K1.
    unfold in_slot, slot_address. cbn [eight s_size s_loc] in *. lia.
  - rewrite B', <- CAL. apply load_ext. intros x X. apply K2. lia.
  - rewrite B', <- BCK. apply load_ext. intros x X. apply K2. lia.
Qed.

Lemma address_ext s s' p a : holds_address s p a -> gpr s' RBP = gpr s RBP ->
  (forall x, in_slot s p x -> mem s' x = mem s x) -> holds_address s' p a.
Proof.
  intros (S8 & IM & E) B K. split; [exact S8|]. split; [unfold in_memory, slot_address in *; rewrite B; exact IM|].
  rewrite <- E. unfold slot_bits, slot_address. rewrite B. apply load_ext. intros x X. apply K.
  unfold in_slot, slot_address. rewrite S8 in *. change (Z.of_nat (Z.to_nat 8)) with 8 in X. lia.
Qed.

Lemma scalar8_total p r : s_size p = 8 -> exists code, scalar_to_reg p r = Ok code.
Proof. intros S8. unfold scalar_to_reg. rewrite S8. eauto. Qed.

(** The callee's side of a result in two registers. *)
Lemma two_return F t c2 n back s1 sb q a fr :
  frame_kept n back s1 sb -> fr_save fr = None -> machine_ok s1 -> q_rbx q = n_rbx n ->
  classify t = Ok [CLASS_INTEGER; c2] -> parts_ready sb n q a ->
  exists code s3, return_sequence (Some t) fr q = Ok code /\ exec_all F code sb = Ok s3 /\ came_back back s1 s3 /\
    (forall k, 0 <= k < 8 -> byte_of (gpr s3 RAX) k = mem sb (a + k)) /\
    (forall k, 0 <= k < 8 -> byte_of (gpr s3 RDX) k = mem sb (a + 8 + k)) /\
    (forall x, ~ in_slot sb (eight (q_part0 q)) x -> ~ in_slot sb (eight (q_part1 q)) x -> mem s3 x = mem sb x).
Proof.
  intros FK SV M1 Q CL [HA OB (I0 & I1) DIS AP].
  assert (M := fk_ok _ _ _ _ FK).
  set (W := fun x => in_slot sb (eight (q_part0 q)) x \/ in_slot sb (eight (q_part1 q)) x).
  unfold return_sequence, return_value. rewrite CL. cbn [bind].
  assert (ZL : exists p0, codegen_load_part (q_value q) (eight (q_part0 q)) 0 = Ok p0).
  { unfold codegen_load_part. destruct (scalar8_total (q_value q) RDI (proj1 HA)) as (lp & ->). cbn [bind]. eauto. }
  assert (ZH : exists p1, codegen_load_part (q_value q) (eight (q_part1 q)) 8 = Ok p1).
  { unfold codegen_load_part. destruct (scalar8_total (q_value q) RDI (proj1 HA)) as (lp & ->). cbn [bind]. eauto. }
  destruct ZL as (p0 & E0). destruct ZH as (p1 & E1). rewrite E0. cbn [bind]. rewrite E1. cbn [bind].
  cbn [rev app]. rewrite Q.
  set (sets := [(eight (q_part0 q), GP RAX); (eight (q_part1 q), GP RDX)]).
  destruct (all_code_total (fun p => codegen_set_reg (fst p) (snd p)) ((eight (n_rbx n), GP RBX) :: rev sets)) as (codes & E).
  { intros x [<-|[<-|[<-|[]]]]; apply set_reg_total; cbn [fst eight s_size]; lia. }
  assert (E' := E). cbn [sets rev app] in E'. rewrite E'. cbn [bind].
  (* the two loads *)
  assert (PERF : forall part off code, (part = q_part0 q /\ off = 0) \/ (part = q_part1 q /\ off = 8) ->
     codegen_load_part (q_value q) (eight part) off = Ok code ->
     performs F (gpr sb RBP) (gpr sb RSP) (mem sb) W code (a + off, slot_address sb (eight part), 8)).
  { intros part off code PO EC.
    assert (IP : in_memory sb (eight part)) by (destruct PO as [(-> & _)|(-> & _)]; assumption).
    assert (WP : forall x, slot_address sb (eight part) <= x < slot_address sb (eight part) + 8 -> W x).
    { intros x X. destruct PO as [(-> & _)|(-> & _)]; [left|right]; unfold in_slot; exact X. }
    assert (OFF : 0 <= off <= 8) by lia.
    split; [exact WP|]. split.
    - intros x X WX. apply (proj1 (AP x WX)). lia.
    - intros st (MS & BS & SS & KS).
      assert (SAS : slot_address st (eight part) = slot_address sb (eight part)) by (unfold slot_address; rewrite BS; reflexivity).
      assert (HAS : holds_address st (q_value q) a).
      { apply (address_ext sb); [exact HA|exact BS|]. intros x X. apply KS. intros WX. apply (proj1 (proj2 (AP x WX))). exact X. }
      unfold in_memory in IP. rewrite eight_size in IP.
      assert (AA : 0 <= a).
      { destruct HA as (S8 & _ & <-). apply (load_range (mem sb) _ _ (proj2 (proj2 M))). }
      destruct (load_part_copied F st (q_value q) (eight part) off a code MS HAS) as (st' & X & C);
        rewrite ?eight_size; try (rewrite SAS); try lia.
      + unfold in_memory. rewrite eight_size, SAS. exact IP.
      + unfold apart. destruct (Z.le_gt_cases (a + off + 8) (slot_address sb (eight part))) as [L|G]; [left; exact L|].
        destruct (Z.le_gt_cases (slot_address sb (eight part) + 8) (a + off)) as [L2|G2]; [right; exact L2|]. exfalso.
        destruct (Z.le_gt_cases (a + off) (slot_address sb (eight part))).
        * apply (proj1 (AP (slot_address sb (eight part)) (WP (slot_address sb (eight part)) ltac:(lia)))). lia.
        * apply (proj1 (AP (a + off) (WP (a + off) ltac:(lia)))). lia.
      + exact EC.
      + exists st'. split; [exact X|]. rewrite eight_size, SAS in C. exact C. }
  destruct (copies_ok F (gpr sb RBP) (gpr sb RSP) (mem sb) W [p0; p1]
      [(a + 0, slot_address sb (eight (q_part0 q)), 8); (a + 8, slot_address sb (eight (q_part1 q)), 8)]) with (st := sb)
    as (st & XC & (MS & BS & SS & KS) & VC & _).
  { constructor; [apply (PERF (q_part0 q) 0); [left; split; reflexivity|exact E0]|].
    constructor; [apply (PERF (q_part1 q) 8); [right; split; reflexivity|exact E1]|constructor]. }
  { constructor; [|constructor; [constructor|constructor]]. constructor; [|constructor]. intros x. cbn [within]. apply DIS. }
  { split; [exact M|]. split; [reflexivity|]. split; [reflexivity|]. reflexivity. }
  cbn [concat] in XC. rewrite app_nil_r in XC.
  assert (FK' : frame_kept n back s1 st).
  { apply (frame_kept_ext n back s1 sb); [exact FK|exact MS|exact BS| |]; intros x X; apply KS; intros WX;
      destruct (AP x WX) as (_ & _ & A1 & A2); auto. }
  assert (SAP : forall w, slot_address st w = slot_address sb w) by (intros w; unfold slot_address; rewrite BS; reflexivity).
  destruct (return_regs_ok F n back s1 st sets fr codes FK' SV M1) as (s3 & X & M3 & ME & SP & BP & BX & BK & VAL).
  { unfold in_memory in I0, I1. rewrite eight_size in I0, I1.
    unfold sets. constructor; [|constructor; [|constructor]]; cbn [fst eight s_size]; (split; [|lia]);
      unfold readable; rewrite SAP; assumption. }
  { unfold sets. cbn [map snd]. constructor; [intros [H|[]]; discriminate|constructor; [intros []|constructor]]. }
  { unfold sets. cbn [map snd]. intros r [H|[H|[]]]; injection H as <-; auto. }
  { exact E. }
  exists ((p0 ++ p1) ++ concat codes ++ epilogue fr), s3. split; [reflexivity|].
  split; [rewrite exec_all_app, XC; cbn [bind]; exact X|].
  split; [apply came_back_from; assumption|]. split; [|split].
  - intros k K. change (gpr s3 RAX) with (content s3 (GP RAX)). rewrite (VAL (eight (q_part0 q)) (GP RAX) k) by (try (left; reflexivity); exact K). rewrite SAP.
    rewrite (VC (a + 0) _ 8 k) by (try (left; reflexivity); exact K). f_equal. lia.
  - intros k K. change (gpr s3 RDX) with (content s3 (GP RDX)). rewrite (VAL (eight (q_part1 q)) (GP RDX) k) by (try (right; left; reflexivity); exact K). rewrite SAP.
    rewrite (VC (a + 8) _ 8 k) by (try (right; left; reflexivity); exact K). reflexivity.
  - intros x N0 N1. rewrite ME. apply KS. intros [H|H]; auto.
Qed.

(** The caller's side. *)
Lemma two_receive F back s1 s3 sub size v g0 g1 o r0 r1 cc :
  came_back back s1 s3 -> machine_ok s1 -> 0 <= sub < 2 ^ 31 -> sub <= gpr s1 RSP ->
  c_ret_regs cc = [r0; r1] -> c_returns_address cc = false -> r_size r0 = 8 -> r_size r1 = 8 -> r_place r0 <> r_place r1 ->
  (forall r, In r [r0; r1] -> r_place r <> GP RBP /\ r_place r <> GP RSP) ->
  object_ready s1 v g0 g1 o ->
  exists rest s4, receive_result cc sub size v = Ok rest /\ exec_all F rest (pop_return s3) = Ok s4 /\
    gpr s4 RBP = gpr s1 RBP /\ holds_address s4 (v_out v) o /\
    (forall j, 0 <= j < 8 -> mem s4 (o + j) = byte_of (content s3 (r_place r0)) j) /\
    (forall j, 0 <= j < 8 -> mem s4 (o + 8 + j) = byte_of (content s3 (r_place r1)) j) /\
    (forall x, ~ in_slot s1 (eight g0) x -> ~ in_slot s1 (eight g1) x -> ~ in_slot s1 (v_out v) x -> ~ o <= x < o + 16 ->
       mem s4 x = mem s3 x).
Proof.
  intros [M A B C D] M1 SB SBL ERR ERA Z0 Z1 NE NB [VR (EO & O0 & O1) V8 (I0 & I1 & IO) D0 D1 DO].
  unfold receive_result. rewrite ERR, ERA, VR. cbn [combine map fst snd].
  assert (PS : forall r g, r_size r = 8 -> piece_slot r g = eight g) by (intros r g E; unfold piece_slot, eight; rewrite E; reflexivity).
  rewrite (PS r0 g0 Z0), (PS r1 g1 Z1).
  destruct (scalar8_total (v_out v) RSI V8) as (lp & EL).
  assert (E0 : exists c0, codegen_store_part (v_out v) (eight g0) 0 = Ok c0) by (unfold codegen_store_part; rewrite EL; cbn [bind]; eauto).
  assert (E1 : exists c1, codegen_store_part (v_out v) (eight g1) 8 = Ok c1) by (unfold codegen_store_part; rewrite EL; cbn [bind]; eauto).
  destruct E0 as (c0 & E0). destruct E1 as (c1 & E1). rewrite E0. cbn [bind]. rewrite E1. cbn [bind].
  set (sp := pop_return s3) in *.
  assert (MP : machine_ok sp).
  { unfold sp, pop_return. apply machine_gpr; [exact M|]. pose proof (proj1 M1 RSP) as G. rewrite <- B in G. unfold sp, pop_return in G.
    rewrite gpr_same in G. exact G. }
  assert (SA : forall w, slot_address sp w = slot_address s1 w) by (intros w; unfold slot_address; rewrite C; reflexivity).
  destruct (after_call_ok F sp sub [(r_place r0, eight g0); (r_place r1, eight g1)] MP SB) as (s5 & X5 & M5 & B5 & P5 & K5 & R5).
  { rewrite B. exact SBL. }
  { constructor; [|constructor; [|constructor]]; cbn [snd eight s_size]; (split; [unfold in_memory; rewrite SA; assumption|reflexivity]). }
  { cbn [map fst]. constructor; [intros [H|[]]; congruence|constructor; [intros []|constructor]]. }
  { cbn [map fst]. intros [H|[H|[]]]; [apply (proj1 (NB r0 (or_introl eq_refl))); exact H|apply (proj1 (NB r1 (or_intror (or_introl eq_refl)))); exact H]. }
  { cbn [map fst]. intros [H|[H|[]]]; [apply (proj2 (NB r0 (or_introl eq_refl))); exact H|apply (proj2 (NB r1 (or_intror (or_introl eq_refl)))); exact H]. }
  { constructor; [|constructor; constructor]. constructor; [|constructor]. intros x. cbn [snd]. unfold in_slot. rewrite !SA.
    intros H0 H1. apply (proj1 (D0 x H0)). exact H1. }
  assert (CS : forall r, In r [r0; r1] -> content sp (r_place r) = content s3 (r_place r)).
  { intros r I. change (content (set_place s3 (GP RSP) (gpr s3 RSP + 8)) (r_place r) = content s3 (r_place r)). apply content_other. apply NB. exact I. }
  assert (SA5 : forall w, slot_address s5 w = slot_address s1 w) by (intros w; unfold slot_address; rewrite B5, C; reflexivity).
  destruct (alloc_ok F s5 (v_out v) (v_object v) M5 V8) as (s6 & X6 & M6 & B6 & P6 & HA6 & K6).
  { unfold in_memory. rewrite SA5. exact IO. }
  { rewrite B5, C. lia. }
  rewrite B5, C, <- EO in HA6.
  assert (SA6 : forall w, slot_address s6 w = slot_address s1 w) by (intros w; unfold slot_address; rewrite B6, B5, C; reflexivity).
  unfold in_memory in I0, I1. rewrite eight_size in I0, I1.
  assert (DIS : forall g, (forall x, in_slot s1 (eight g) x -> ~ o <= x < o + 16) -> forall k, 0 <= k <= 8 ->
     apart (o + k) 8 (slot_address s1 (eight g)) 8).
  { intros g H k K. unfold apart. destruct (Z.le_gt_cases (o + k + 8) (slot_address s1 (eight g))) as [L|G]; [left; exact L|].
    destruct (Z.le_gt_cases (slot_address s1 (eight g) + 8) (o + k)) as [L2|G2]; [right; exact L2|]. exfalso.
    destruct (Z.le_gt_cases (o + k) (slot_address s1 (eight g))).
    - apply (H (slot_address s1 (eight g))); [unfold in_slot; rewrite eight_size|]; lia.
    - apply (H (o + k)); [unfold in_slot; rewrite eight_size|]; lia. }
  destruct (store_part_copied F s6 (v_out v) (eight g0) 0 o c0 M6 HA6) as (s7 & X7 & C7 & B7 & P7 & M7);
    rewrite ?eight_size; try (rewrite SA6); try lia.
  { unfold in_memory. rewrite eight_size, SA6. exact I0. }
  { apply (DIS g0); [|lia]. intros x X. apply D0. exact X. }
  { exact E0. }
  rewrite eight_size, SA6 in C7.
  assert (SA7 : forall w, slot_address s7 w = slot_address s1 w) by (intros w; unfold slot_address; rewrite B7, B6, B5, C; reflexivity).
  assert (NS : forall x, ~ o <= x < o + 8 -> mem s7 x = mem s6 x).
  { intros x X. rewrite C7. destruct (Z.leb_spec (o + 0) x); [|reflexivity]. destruct (Z.ltb_spec x (o + 0 + 8)); [lia|reflexivity]. }
  assert (HA7 : holds_address s7 (v_out v) o).
  { apply (address_ext s6); [exact HA6|exact B7|]. intros x X. apply NS. unfold in_slot in X. rewrite SA6 in X.
    intros Y. apply (DO x X). lia. }
  destruct (store_part_copied F s7 (v_out v) (eight g1) 8 o c1 M7 HA7) as (s8 & X8 & C8 & B8 & P8 & M8);
    rewrite ?eight_size; try (rewrite SA7); try lia.
  { unfold in_memory. rewrite eight_size, SA7. exact I1. }
  { apply (DIS g1); [|lia]. intros x X. apply D1. exact X. }
  { exact E1. }
  rewrite eight_size, SA7 in C8.
  assert (NS8 : forall x, ~ o + 8 <= x < o + 16 -> mem s8 x = mem s7 x).
  { intros x X. rewrite C8. destruct (Z.leb_spec (o + 8) x); [|reflexivity]. destruct (Z.ltb_spec x (o + 8 + 8)); [lia|reflexivity]. }
  eexists. exists s8. split; [reflexivity|].
  split; [rewrite exec_all_app, X5; cbn [bind]; rewrite exec_all_app, X6; cbn [bind]; rewrite exec_all_app, X7; cbn [bind]; exact X8|].
  split; [congruence|]. split.
  { apply (address_ext s7); [exact HA7|exact B8|]. intros x X. apply NS8. unfold in_slot in X. rewrite SA7 in X.
    intros Y. apply (DO x X). lia. }
  split; [|split].
  - intros j J. rewrite NS8 by lia. rewrite C7. destruct (Z.leb_spec (o + 0) (o + j)); [|lia].
    destruct (Z.ltb_spec (o + j) (o + 0 + 8)); [|lia]. cbn [andb].
    replace (o + j - (o + 0) + slot_address s1 (eight g0)) with (slot_address s1 (eight g0) + j) by lia.
    assert (SL : in_slot s1 (eight g0) (slot_address s1 (eight g0) + j)) by (unfold in_slot; rewrite eight_size; lia).
    rewrite K6 by (unfold in_slot; rewrite SA5; apply D0; exact SL).
    rewrite <- (SA (eight g0)). rewrite (R5 (r_place r0) (eight g0) j) by (try (left; reflexivity); exact J).
    rewrite CS by (left; reflexivity). reflexivity.
  - intros j J. rewrite C8. destruct (Z.leb_spec (o + 8) (o + 8 + j)); [|lia].
    destruct (Z.ltb_spec (o + 8 + j) (o + 8 + 8)); [|lia]. cbn [andb].
    replace (o + 8 + j - (o + 8) + slot_address s1 (eight g1)) with (slot_address s1 (eight g1) + j) by lia.
    assert (SL : in_slot s1 (eight g1) (slot_address s1 (eight g1) + j)) by (unfold in_slot; rewrite eight_size; lia).
    rewrite NS by (destruct (D1 _ SL); lia).
    rewrite K6 by (unfold in_slot; rewrite SA5; apply D1; exact SL).
    rewrite <- (SA (eight g1)). rewrite (R5 (r_place r1) (eight g1) j) by (try (right; left; reflexivity); exact J).
    rewrite CS by (right; left; reflexivity). reflexivity.
  - intros x N0 N1 NO NX. rewrite NS8 by lia. rewrite NS by lia. rewrite K6 by (unfold in_slot; rewrite SA5; exact NO).
    rewrite K5; [reflexivity|]. intros p w [H|[H|[]]]; injection H as <- <-; unfold in_slot; rewrite SA; assumption.
Qed.

(** A result in memory. *)
Lemma memory_return F t n back s1 sb q a d fr :
  frame_kept n back s1 sb -> fr_save fr = None -> machine_ok s1 -> q_rbx q = n_rbx n ->
  classify t = Ok [CLASS_MEMORY] -> 0 <= a_size t ->
  holds_address sb (q_value q) a -> holds_address sb (q_address q) d -> a + a_size t <= 2 ^ 64 -> d + a_size t <= 2 ^ 64 ->
  apart a (a_size t) d (a_size t) ->
  (forall x, d <= x < d + a_size t -> ~ in_slot sb (eight (n_rbx n)) x /\ ~ gpr sb RBP <= x < gpr sb RBP + 16) ->
  exists code s3, return_sequence (Some t) fr q = Ok code /\ exec_all F code sb = Ok s3 /\ came_back back s1 s3 /\
    forall x, mem s3 x = if (d <=? x) && (x <? d + a_size t) then mem sb (x - d + a) else mem sb x.
Proof.
  intros FK SV M1 Q CL SZ HA HD AE DE AP SAFE. assert (M := fk_ok _ _ _ _ FK).
  unfold return_sequence, return_value. rewrite CL. cbn [bind]. unfold codegen_copy_memory.
  destruct (scalar8_total (q_address q) RSI (proj1 HD)) as (ld & ED). destruct (scalar8_total (q_value q) RDI (proj1 HA)) as (la & EA).
  rewrite ED, EA. cbn [bind rev app]. rewrite Q.
  destruct (all_code_total (fun p => codegen_set_reg (fst p) (snd p)) ((eight (n_rbx n), GP RBX) :: rev [])) as (codes & E).
  { intros x [<-|[]]; apply set_reg_total; cbn [fst eight s_size]; lia. }
  assert (E' := E). cbn [rev app] in E'. rewrite E'. cbn [bind].
  destruct (address_to_reg F sb (q_address q) d RSI ld M HD ED) as (XD & RD).
  set (sa := set_gpr sb RSI d) in *. assert (MA : machine_ok sa) by (apply machine_gpr; assumption).
  assert (BA : gpr sa RBP = gpr sb RBP) by (unfold sa; apply gpr_other; discriminate).
  assert (HA' : holds_address sa (q_value q) a) by (apply (address_ext sb); [exact HA|exact BA|reflexivity]).
  destruct (address_to_reg F sa (q_value q) a RDI la MA HA' EA) as (XA & RA).
  set (sc := set_gpr sa RDI a) in *. assert (MC : machine_ok sc) by (apply machine_gpr; assumption).
  destruct (memcpy_copied F sc a d (a_size t) MC) as (st & XC & CC & BC & PC & MS); try assumption.
  { unfold sc. apply gpr_same. }
  { unfold sc, sa. rewrite gpr_other by discriminate. apply gpr_same. }
  assert (BS : gpr st RBP = gpr sb RBP) by (rewrite BC; unfold sc; rewrite gpr_other by discriminate; exact BA).
  change (mem sc) with (mem sb) in CC.
  assert (KEEP : forall x, ~ d <= x < d + a_size t -> mem st x = mem sb x).
  { intros x X. rewrite CC. destruct (Z.leb_spec d x); [|reflexivity]. destruct (Z.ltb_spec x (d + a_size t)); [lia|reflexivity]. }
  assert (FK' : frame_kept n back s1 st).
  { apply (frame_kept_ext n back s1 sb); [exact FK|exact MS|exact BS| |]; intros x X; apply KEEP; intros Y;
      destruct (SAFE x Y) as (A1 & A2); auto. }
  destruct (return_regs_ok F n back s1 st [] fr codes FK' SV M1) as (s3 & X & M3 & ME & SP & BP & BX & BK & VAL).
  { constructor. }
  { constructor. }
  { intros r []. }
  { exact E. }
  exists ((ld ++ la ++ codegen_memcpy (a_size t)) ++ concat codes ++ epilogue fr), s3. split; [reflexivity|]. split.
  - rewrite exec_all_app.
    assert (XX : exec_all F (ld ++ la ++ codegen_memcpy (a_size t)) sb = Ok st)
      by (rewrite exec_all_app, XD; cbn [bind]; rewrite exec_all_app, XA; cbn [bind]; exact XC).
    rewrite XX. cbn [bind]. exact X.
  - split; [apply came_back_from; assumption|]. intros x. rewrite ME. apply CC.
Qed.
