(** C67: results reach the caller, and the caller's registers survive. *)
From Verif Require Import Base Bytes Common CommonProofs Arch X86 Codegen AsmSpec X86Proofs X86Preserve CodegenProofs Frame FrameSpec FrameProofs SysV SysVSpec SysVProofs C34Props C37Props Passing PassingSpec PassingProofs PassingRegs PassingLayout PassingCall PassingEntry C66Props Returning ReturningSpec ReturningProofs.
Ltac Zify.zify_post_hook ::= idtac.

(** The caller continues: the return address is the one that was pushed, and
    the stack pointer, the frame pointer and rbx are as at the call. *)
Definition continues (back : Z) (s1 s3 : machine) : Prop :=
  load (mem s3) (gpr s3 RSP) 8 = back /\
  let s := pop_return s3 in gpr s RSP = gpr s1 RSP /\ gpr s RBP = gpr s1 RBP /\ gpr s RBX = gpr s1 RBX.

(** A return without a value. *)
Theorem C67_no_value_partial F ret types variadic c l preamble fr n back s1 sb q :
  in_function F ret types variadic c l preamble fr n back s1 sb -> q_rbx q = n_rbx n ->
  exists code s3, return_sequence None fr q = Ok code /\ exec_all F code sb = Ok s3 /\ continues back s1 s3 /\
    mem s3 = mem sb.
Proof.
  intros IF Q. destruct (in_function_kept _ _ _ _ _ _ _ _ _ _ _ _ IF) as (SV & FK).
  unfold return_sequence. cbn [return_value bind app rev]. rewrite Q.
  destruct (all_code_total (fun p => codegen_set_reg (fst p) (snd p)) [(eight (n_rbx n), GP RBX)]) as (codes & E).
  { intros a [<-|[]]. apply set_reg_total. cbn [fst eight s_size]. lia. }
  rewrite E. cbn [bind].
  destruct (return_regs_ok F n back s1 sb [] fr codes FK SV (if_ok _ _ _ _ _ _ _ _ _ _ _ _ IF)) as (s3 & X & M & ME & SP & BP & BX & BK & _).
  - constructor.
  - constructor.
  - intros r [].
  - exact E.
  - exists (concat codes ++ epilogue fr), s3. split; [reflexivity|]. split; [exact X|]. split; [|exact ME].
    destruct (came_back_from back s1 s3 M SP BP BX BK) as [_ A B C D].
    split; [exact A|]. cbv zeta. split; [exact B|]. split; [exact C|exact D].
Qed.
Print Assumptions C67_no_value_partial.

(** A value of one eightbyte. The caller receives it in the node [g0] and then
    in the node of the result; [sub] is the change of the stack pointer which
    the call made. *)
Theorem C67_register_partial F t types variadic c l preamble fr n back s1 sb q args cc sub v g0 :
  in_function F t types variadic c l preamble fr n back s1 sb -> q_rbx q = n_rbx n ->
  t <> ASimple ST_VOID -> classify t = Ok [CLASS_INTEGER] \/ classify t = Ok [CLASS_SSE] ->
  (** the value *)
  1 <= a_size t <= 8 -> s_size (q_value q) = a_size t -> readable sb (q_value q) ->
  (** the caller *)
  get_calling_convention t args = Ok cc -> 0 <= sub < 2 ^ 31 -> sub <= gpr s1 RSP ->
  v_regs v = [g0] -> s_size (v_out v) = a_size t -> in_memory s1 (eight g0) -> in_memory s1 (v_out v) ->
  exists code s3 rest s4,
    return_sequence (Some t) fr q = Ok code /\ exec_all F code sb = Ok s3 /\ continues back s1 s3 /\
    receive_result cc sub (a_size t) v = Ok rest /\ exec_all F rest (pop_return s3) = Ok s4 /\
    gpr s4 RBP = gpr s1 RBP /\
    (forall j, 0 <= j < a_size t -> mem s4 (slot_address s1 (v_out v) + j) = mem sb (slot_address sb (q_value q) + j)) /\
    (forall x, ~ in_slot s1 (eight g0) x -> ~ in_slot s1 (v_out v) x -> mem s4 x = mem sb x).
Proof.
  intros IF Q NV CL SZ QS RD CC SB SBL VR VS IM0 IMO. destruct (in_function_kept _ _ _ _ _ _ _ _ _ _ _ _ IF) as (SV & FK).
  assert (PL : exists p, return_value (Some t) q = Ok ([], [(q_value q, p)]) /\ (p = GP RAX \/ p = VEC 0) /\
     c_ret_regs cc = [{| r_place := p; r_merged := None; r_size := 8 |}] /\ c_returns_address cc = false).
  { destruct CL as [CL|CL].
    - destruct (convention_result t args cc _ CC CL NV) as (RP & RA); [discriminate|]. exists (GP RAX).
      unfold return_value. rewrite CL. cbn [bind]. split; [reflexivity|]. split; [left; reflexivity|].
      split; [injection RP as <-; reflexivity|exact RA].
    - destruct (convention_result t args cc _ CC CL NV) as (RP & RA); [discriminate|]. exists (VEC 0).
      unfold return_value. rewrite CL. cbn [bind]. split; [reflexivity|]. split; [right; reflexivity|].
      split; [injection RP as <-; reflexivity|exact RA]. }
  destruct PL as (p & ERV & PP & ERR & ERA).
  assert (NB : p <> GP RBP /\ p <> GP RSP) by (destruct PP as [->| ->]; split; discriminate).
  unfold return_sequence. rewrite ERV. cbn [bind app rev]. rewrite Q.
  destruct (all_code_total (fun p => codegen_set_reg (fst p) (snd p)) ((eight (n_rbx n), GP RBX) :: rev [(q_value q, p)])) as (codes & E).
  { intros a [<-|[<-|[]]]; apply set_reg_total; cbn [fst eight s_size]; lia. }
  cbn [rev app] in E. rewrite E. cbn [bind].
  destruct (return_regs_ok F n back s1 sb [(q_value q, p)] fr codes FK SV (if_ok _ _ _ _ _ _ _ _ _ _ _ _ IF)) as (s3 & X & M & ME & SP & BP & BX & BK & VAL).
  - constructor; [|constructor]. cbn [fst]. split; [exact RD|lia].
  - constructor; [intros []|constructor].
  - intros r [H|[]]. cbn [snd] in H. destruct PP as [-> | ->]; [injection H as <-; left; reflexivity|discriminate].
  - exact E.
  - destruct (came_back_from back s1 s3 M SP BP BX BK) as [_ A B C D].
    exists (concat codes ++ epilogue fr), s3. unfold receive_result. rewrite ERR, ERA, VR.
    cbn [combine map fst snd r_place]. change (piece_slot _ g0) with (eight g0).
    destruct (scalar_to_reg (eight g0) RAX) as [la| |] eqn:EL; try discriminate EL.
    unfold codegen_int_cast_zero. rewrite EL. cbn [bind].
    eexists. 
    set (sp := pop_return s3) in *.
    assert (MP : machine_ok sp).
    { unfold sp, pop_return. apply machine_gpr; [exact M|]. rewrite SP. pose proof (proj1 (if_ok _ _ _ _ _ _ _ _ _ _ _ _ IF) RSP). lia. }
    assert (SA : forall w, slot_address sp w = slot_address s1 w) by (intros w; unfold slot_address; rewrite C; reflexivity).
    destruct (after_call_ok F sp sub [(p, eight g0)] MP SB) as (s5 & X5 & M5 & B5 & P5 & K5 & R5).
    { rewrite B. exact SBL. }
    { constructor; [|constructor]. cbn [snd eight s_size]. split; [unfold in_memory; rewrite SA; exact IM0|reflexivity]. }
    { constructor; [intros []|constructor]. }
    { intros [H|[]]. cbn [fst] in H. apply (proj1 NB). exact H. }
    { intros [H|[]]. cbn [fst] in H. apply (proj2 NB). exact H. }
    { constructor; constructor. }
    assert (SA5 : forall w, slot_address s5 w = slot_address s1 w) by (intros w; unfold slot_address; rewrite B5, C; reflexivity).
    assert (BYT : forall j, 0 <= j < a_size t -> mem s5 (slot_address s1 (eight g0) + j) = mem sb (slot_address sb (q_value q) + j)).
    { intros j J. rewrite <- SA. rewrite (R5 p (eight g0) j) by (try (left; reflexivity); lia).
      rewrite <- (VAL (q_value q) p j) by (try (left; reflexivity); lia). f_equal.
      change (content (set_place s3 (GP RSP) (gpr s3 RSP + 8)) p = content s3 p). apply content_other. apply NB. }
    assert (IM5 : in_memory s5 (eight g0)) by (unfold in_memory; rewrite SA5; exact IM0).
    destruct (scalar_to_reg_ok F s5 (eight g0) RAX (reg_to_scalar RAX {| s_size := a_size t; s_loc := s_loc (v_out v) |}) M5 IM5) as (la' & EL' & XL).
    { unfold CodegenProofs.scalar_size. cbn; tauto. }
    rewrite EL in EL'. injection EL' as <-.
    set (out := {| s_size := a_size t; s_loc := s_loc (v_out v) |}) in *.
    assert (OUT : slot_address s1 out = slot_address s1 (v_out v)) by reflexivity.
    set (s6 := set_gpr s5 RAX (slot_bits s5 (eight g0))) in *.
    assert (M6 : machine_ok s6).
    { apply machine_gpr; [exact M5|]. apply (load_range (mem s5) _ 8 (proj2 (proj2 M5))). }
    assert (SA6 : slot_address s6 out = slot_address s1 (v_out v)).
    { unfold slot_address, s6. rewrite gpr_other by discriminate. rewrite B5, C. reflexivity. }
    destruct (reg_to_scalar_ok F s6 RAX out M6) as (s4 & X4 & ME4 & GE4 & _).
    { unfold in_memory in *. rewrite SA6. cbn [out s_size]. rewrite VS in IMO. exact IMO. }
    { cbn [out s_size]. lia. }
    { discriminate. }
    exists s4. split; [reflexivity|]. split; [exact X|]. split; [split; [exact A|]; cbv zeta; split; [exact B|]; split; [exact C|exact D]|].
    split; [reflexivity|]. split; [rewrite exec_all_app, X5; cbn [bind]; etransitivity; [exact XL|exact X4]|].
    split; [rewrite GE4 by discriminate; unfold s6; rewrite gpr_other by discriminate; congruence|].
    split.
    + intros j J. rewrite ME4, SA6. change (s_size out) with (a_size t).
      rewrite (store_in _ _ _ _ (slot_address s1 (v_out v) + j)) by lia.
      rewrite <- BYT by exact J. unfold s6. rewrite gpr_same. unfold slot_bits. rewrite SA5.
      change (s_size (eight g0)) with 8.
      replace (slot_address s1 (v_out v) + j - slot_address s1 (v_out v)) with j by lia.
      apply (load_byte (mem s5)); [apply M5|cbn; lia].
    + intros x N0 NO. rewrite ME4, SA6. change (s_size out) with (a_size t).
      rewrite (store_out _ _ _ _ x).
      * unfold s6. cbn [mem set_gpr]. rewrite K5; [cbn [mem pop_return set_gpr]; unfold sp, pop_return; cbn [mem set_gpr]; rewrite ME; reflexivity|].
        intros p' w [H|[]]. injection H as <- <-. unfold in_slot. rewrite SA. exact N0.
      * unfold in_slot in NO. rewrite VS in NO. lia.
Qed.
Print Assumptions C67_register_partial.

Lemma came_continues back s1 s3 : came_back back s1 s3 -> continues back s1 s3.
Proof. intros [_ A B C D]. split; [exact A|]. cbv zeta. split; [exact B|]. split; [exact C|exact D]. Qed.

(** A value of sixteen bytes, two of class INTEGER. *)
Theorem C67_two_registers_partial F t types variadic c l preamble fr n back s1 sb q a args cc sub v g0 g1 o :
  in_function F t types variadic c l preamble fr n back s1 sb -> q_rbx q = n_rbx n ->
  t <> ASimple ST_VOID -> classify t = Ok [CLASS_INTEGER; CLASS_INTEGER] -> a_size t = 16 ->
  parts_ready sb n q a ->
  get_calling_convention t args = Ok cc -> 0 <= sub < 2 ^ 31 -> sub <= gpr s1 RSP -> object_ready s1 v g0 g1 o ->
  exists code s3 rest s4,
    return_sequence (Some t) fr q = Ok code /\ exec_all F code sb = Ok s3 /\ continues back s1 s3 /\
    receive_result cc sub (a_size t) v = Ok rest /\ exec_all F rest (pop_return s3) = Ok s4 /\
    gpr s4 RBP = gpr s1 RBP /\ holds_address s4 (v_out v) o /\
    (forall j, 0 <= j < a_size t -> mem s4 (o + j) = mem sb (a + j)) /\
    (forall x, ~ in_slot sb (eight (q_part0 q)) x -> ~ in_slot sb (eight (q_part1 q)) x ->
       ~ in_slot s1 (eight g0) x -> ~ in_slot s1 (eight g1) x -> ~ in_slot s1 (v_out v) x -> ~ o <= x < o + a_size t ->
       mem s4 x = mem sb x).
Proof.
  intros IF Q NV CL SZ PR CC SB SBL OR. destruct (in_function_kept _ _ _ _ _ _ _ _ _ _ _ _ IF) as (SV & FK).
  assert (M1 := if_ok _ _ _ _ _ _ _ _ _ _ _ _ IF).
  destruct (convention_result t args cc _ CC CL NV) as (RP & RA); [discriminate|]. injection RP as ERR.
  destruct (two_return F t _ n back s1 sb q a fr FK SV M1 Q CL PR) as (code & s3 & EC & X3 & CB & VA & VD & K3).
  symmetry in ERR.
  destruct (two_receive F back s1 s3 sub (a_size t) v g0 g1 o _ _ cc CB M1 SB SBL ERR RA eq_refl eq_refl) as (rest & s4 & ER & X4 & B4 & HA & H0 & H1 & K4).
  - discriminate.
  - intros r [<-|[<-|[]]]; split; discriminate.
  - exact OR.
  - exists code, s3, rest, s4. split; [exact EC|]. split; [exact X3|]. split; [apply came_continues; exact CB|].
    split; [exact ER|]. split; [exact X4|]. split; [exact B4|]. split; [exact HA|]. rewrite SZ. split.
    + intros j J. destruct (Z.lt_ge_cases j 8) as [L|G].
      * rewrite H0 by lia. apply VA. lia.
      * replace (o + j) with (o + 8 + (j - 8)) by lia. rewrite H1 by lia. cbn [r_place content]. rewrite VD by lia. f_equal. lia.
    + intros x N0 N1 G0 G1 GO NX. rewrite K4 by assumption. apply K3; assumption.
Qed.
Print Assumptions C67_two_registers_partial.

(** ** A value of 9 to 15 bytes *)

(** The caller stores sixteen bytes into the object of the result, which is
    shorter: the bytes after it are overwritten. *)
Theorem C67_short_object_refuted F t types variadic c l preamble fr n back s1 sb q a args cc sub v g0 g1 o :
  in_function F t types variadic c l preamble fr n back s1 sb -> q_rbx q = n_rbx n ->
  t <> ASimple ST_VOID -> classify t = Ok [CLASS_INTEGER; CLASS_INTEGER] -> 8 < a_size t < 16 ->
  parts_ready sb n q a ->
  get_calling_convention t args = Ok cc -> 0 <= sub < 2 ^ 31 -> sub <= gpr s1 RSP -> object_ready s1 v g0 g1 o ->
  exists code s3 rest s4,
    return_sequence (Some t) fr q = Ok code /\ exec_all F code sb = Ok s3 /\
    receive_result cc sub (a_size t) v = Ok rest /\ exec_all F rest (pop_return s3) = Ok s4 /\
    forall j, a_size t <= j < 16 -> mem s4 (o + j) = mem sb (a + j).
Proof.
  intros IF Q NV CL SZ PR CC SB SBL OR. destruct (in_function_kept _ _ _ _ _ _ _ _ _ _ _ _ IF) as (SV & FK).
  assert (M1 := if_ok _ _ _ _ _ _ _ _ _ _ _ _ IF).
  destruct (convention_result t args cc _ CC CL NV) as (RP & RA); [discriminate|]. injection RP as ERR.
  destruct (two_return F t _ n back s1 sb q a fr FK SV M1 Q CL PR) as (code & s3 & EC & X3 & CB & VA & VD & K3).
  symmetry in ERR.
  destruct (two_receive F back s1 s3 sub (a_size t) v g0 g1 o _ _ cc CB M1 SB SBL ERR RA eq_refl eq_refl) as (rest & s4 & ER & X4 & B4 & HA & H0 & H1 & K4).
  - discriminate.
  - intros r [<-|[<-|[]]]; split; discriminate.
  - exact OR.
  - exists code, s3, rest, s4. split; [exact EC|]. split; [exact X3|]. split; [exact ER|]. split; [exact X4|].
    intros j J. replace (o + j) with (o + 8 + (j - 8)) by lia. rewrite H1 by lia. cbn [r_place content]. rewrite VD by lia. f_equal. lia.
Qed.
Print Assumptions C67_short_object_refuted.

(** ** A value whose second eightbyte is of class SSE *)

(** The callee puts the second half into rdx; the caller takes it from xmm0. *)
Theorem C67_mixed_refuted F t types variadic c l preamble fr n back s1 sb q a args cc sub v g0 g1 o :
  in_function F t types variadic c l preamble fr n back s1 sb -> q_rbx q = n_rbx n ->
  t <> ASimple ST_VOID -> classify t = Ok [CLASS_INTEGER; CLASS_SSE] ->
  parts_ready sb n q a ->
  get_calling_convention t args = Ok cc -> 0 <= sub < 2 ^ 31 -> sub <= gpr s1 RSP -> object_ready s1 v g0 g1 o ->
  exists code s3 rest s4,
    return_sequence (Some t) fr q = Ok code /\ exec_all F code sb = Ok s3 /\
    receive_result cc sub (a_size t) v = Ok rest /\ exec_all F rest (pop_return s3) = Ok s4 /\
    (forall j, 0 <= j < 8 -> byte_of (gpr s3 RDX) j = mem sb (a + 8 + j)) /\
    (forall j, 0 <= j < 8 -> mem s4 (o + 8 + j) = byte_of (xmm s3 0) j).
Proof.
  intros IF Q NV CL PR CC SB SBL OR. destruct (in_function_kept _ _ _ _ _ _ _ _ _ _ _ _ IF) as (SV & FK).
  assert (M1 := if_ok _ _ _ _ _ _ _ _ _ _ _ _ IF).
  destruct (convention_result t args cc _ CC CL NV) as (RP & RA); [discriminate|]. injection RP as ERR.
  destruct (two_return F t _ n back s1 sb q a fr FK SV M1 Q CL PR) as (code & s3 & EC & X3 & CB & VA & VD & K3).
  symmetry in ERR.
  destruct (two_receive F back s1 s3 sub (a_size t) v g0 g1 o _ _ cc CB M1 SB SBL ERR RA eq_refl eq_refl) as (rest & s4 & ER & X4 & B4 & HA & H0 & H1 & K4).
  - discriminate.
  - intros r [<-|[<-|[]]]; split; discriminate.
  - exact OR.
  - exists code, s3, rest, s4. split; [exact EC|]. split; [exact X3|]. split; [exact ER|]. split; [exact X4|].
    split; [exact VD|]. intros j J. rewrite H1 by exact J. reflexivity.
Qed.
Print Assumptions C67_mixed_refuted.

(** ** A value in memory: it is copied to the address the caller gave. *)
Theorem C67_memory_partial F t types variadic c l preamble fr n back s1 sb q a d :
  in_function F t types variadic c l preamble fr n back s1 sb -> q_rbx q = n_rbx n ->
  classify t = Ok [CLASS_MEMORY] -> 0 <= a_size t ->
  holds_address sb (q_value q) a -> holds_address sb (q_address q) d ->
  a + a_size t <= 2 ^ 64 -> d + a_size t <= 2 ^ 64 -> (a + a_size t <= d \/ d + a_size t <= a) ->
  (forall x, d <= x < d + a_size t -> ~ in_slot sb (eight (n_rbx n)) x /\ ~ gpr sb RBP <= x < gpr sb RBP + 16) ->
  exists code s3, return_sequence (Some t) fr q = Ok code /\ exec_all F code sb = Ok s3 /\ continues back s1 s3 /\
    (forall j, 0 <= j < a_size t -> mem s3 (d + j) = mem sb (a + j)) /\
    (forall x, ~ d <= x < d + a_size t -> mem s3 x = mem sb x).
Proof.
  intros IF Q CL SZ HA HD AE DE AP SAFE. destruct (in_function_kept _ _ _ _ _ _ _ _ _ _ _ _ IF) as (SV & FK).
  destruct (memory_return F t n back s1 sb q a d fr FK SV (if_ok _ _ _ _ _ _ _ _ _ _ _ _ IF) Q CL SZ HA HD AE DE AP SAFE) as (code & s3 & EC & X3 & CB & V).
  exists code, s3. split; [exact EC|]. split; [exact X3|]. split; [apply came_continues; exact CB|]. split.
  - intros j J. rewrite V. destruct (Z.leb_spec d (d + j)); [|lia]. destruct (Z.ltb_spec (d + j) (d + a_size t)); [|lia].
    cbn [andb]. f_equal. lia.
  - intros x NX. rewrite V. destruct (Z.leb_spec d x); [|reflexivity]. destruct (Z.ltb_spec x (d + a_size t)); [lia|reflexivity].
Qed.
Print Assumptions C67_memory_partial.

(** ** The hypotheses are met *)

(** The variadic function of C66, called from [f_machine], with an empty body. *)
Example C67_function_meets : exists entry s2, function_entry f_named true f_info' f_fr f_nodes = Ok entry /\
  exec_all no_fpu entry (push_return 4242 f_machine) = Ok s2 /\
  in_function no_fpu (ASimple ST_INT) f_named true f_info' f_frame 304 f_fr f_nodes 4242 f_machine s2.
Proof.
  destruct C66_function_meets as (PL & EC & VP & AL & ROOM). destruct C66_call_meets as (CR & _ & _ & P).
  assert (P' : Forall (fun t => 0 < a_size t) f_named) by (apply Forall_app in P; apply P).
  assert (CF := convention_gives _ _ _ EC P').
  destruct (stack_layout f_named (c_stack f_info') 0) as [[layout total]| |] eqn:EL; try (vm_compute in EL; discriminate EL).
  assert (T : total = 24) by (vm_compute in EL; injection EL as _ <-; reflexivity).
  destruct (entry_code_ok no_fpu f_frame 304 f_named true f_info' f_fr f_nodes 0 [1; 2]%nat [3; 4; 5]%nat layout total 4242 f_machine CF P' PL)
    as (entry & s2 & EE & X & ED); try assumption; try apply f_machine_ok; try reflexivity;
    change (gpr f_machine RSP) with 90000; change (fr_sub f_fr) with 384; change (fr_align f_fr) with 8; rewrite ?T; try lia.
  - exists entry, s2. split; [exact EE|]. split; [exact X|]. constructor.
    + exact EC.
    + exact P'.
    + exact VP.
    + exists 0%nat, [1; 2]%nat, [3; 4; 5]%nat. exact PL.
    + exact AL.
    + reflexivity.
    + apply f_machine_ok.
    + lia.
    + vm_compute. reflexivity.
    + vm_compute. discriminate.
    + vm_compute. discriminate.
    + exists entry, s2. split; [exact EE|]. split; [exact X|]. split; [apply (ed_ok _ _ _ _ _ _ _ _ _ ED)|].
      split; [reflexivity|]. split; reflexivity.
Qed.

(** The nodes of return statements in it, and of their results. *)
Definition f_return : return_nodes := {|
  q_value := {| s_size := 4; s_loc := 44 |}; q_part0 := 200; q_part1 := 208; q_address := {| s_size := 8; s_loc := 216 |}; q_rbx := 8 |}.
Definition f_result : result_nodes := {| v_regs := [200]; v_out := {| s_size := 4; s_loc := 208 |}; v_object := 0 |}.

Example C67_register_meets :
  q_rbx f_return = n_rbx f_nodes /\ classify (ASimple ST_INT) = Ok [CLASS_INTEGER] /\ s_size (q_value f_return) = a_size (ASimple ST_INT) /\
  get_calling_convention (ASimple ST_INT) (f_named ++ f_extra) = Ok f_info /\
  in_memory f_machine (eight 200) /\ in_memory f_machine (v_out f_result).
Proof.
  split; [reflexivity|]. split; [reflexivity|]. split; [reflexivity|]. split; [vm_compute; reflexivity|].
  split; split; vm_compute; discriminate.
Qed.

(** The first parameter returned: the four bytes reach the caller's node. *)
Example C67_example :
  match function_entry f_named true f_info' f_fr f_nodes, return_sequence (Some (ASimple ST_INT)) f_fr f_return,
        receive_result f_info 32 4 f_result with
  | Ok entry, Ok code, Ok rest =>
      match exec_all no_fpu entry (push_return 4242 (set_gpr f_machine RDI 305419896)) with
      | Ok s2 =>
          match exec_all no_fpu code s2 with
          | Ok s3 =>
              match exec_all no_fpu rest (pop_return s3) with
              | Ok s4 => load (mem s4) (slot_address f_machine (v_out f_result)) 4 = 305419896 /\
                         gpr s4 RBP = 100000 /\ gpr s4 RBX = 5 /\ load (mem s3) (gpr s3 RSP) 8 = 4242
              | _ => False
              end
          | _ => False
          end
      | _ => False
      end
  | _, _, _ => False
  end.
Proof. vm_compute. split; [reflexivity|]. split; [reflexivity|]. split; reflexivity. Qed.

(** Types of the other cases. *)
Definition two_longs : atype := AStruct 16 [(0, ASimple ST_LONG); (8, ASimple ST_LONG)].
Definition three_ints : atype := AStruct 12 [(0, AArray 3 (ASimple ST_INT))].
Definition int_double : atype := AStruct 16 [(0, ASimple ST_INT); (8, ASimple ST_DOUBLE)].
Example C67_types :
  classify two_longs = Ok [CLASS_INTEGER; CLASS_INTEGER] /\ a_size two_longs = 16 /\
  classify three_ints = Ok [CLASS_INTEGER; CLASS_INTEGER] /\ a_size three_ints = 12 /\
  classify int_double = Ok [CLASS_INTEGER; CLASS_SSE] /\ classify big = Ok [CLASS_MEMORY].
Proof. vm_compute. split; [reflexivity|]. split; [reflexivity|]. split; [reflexivity|]. split; [reflexivity|]. split; reflexivity. Qed.

(** A machine inside the frame of the function, with an object at 300000 whose
    address is in the node of the value, and 400000 in that of the result. *)
Definition f_inside : machine := {|
  gpr := fun r => match r with RBP => 100000 | RSP => 90000 | _ => 5 end;
  xmm := fun _ => 77; flag := None;
  mem := store (store (fun a => a mod 251) 99900 8 300000) 99784 8 400000 |}.
Definition f_pointer : return_nodes := {|
  q_value := {| s_size := 8; s_loc := 100 |}; q_part0 := 200; q_part1 := 208; q_address := {| s_size := 8; s_loc := 216 |}; q_rbx := 8 |}.
Definition f_object : result_nodes := {| v_regs := [300; 308]; v_out := {| s_size := 8; s_loc := 316 |}; v_object := 340 |}.

Example C67_parts_meet : parts_ready f_inside f_nodes f_pointer 300000 /\ object_ready f_machine f_object 300 308 (100000 - 340).
Proof.
  split.
  - constructor.
    + split; [reflexivity|]. split; [split; vm_compute; discriminate|vm_compute; reflexivity].
    + lia.
    + split; split; vm_compute; discriminate.
    + intros x. unfold in_slot, slot_address. cbn [f_inside f_pointer eight gpr s_size s_loc q_part0 q_part1]. lia.
    + intros x. unfold in_slot, slot_address. cbn [f_inside f_pointer f_nodes eight gpr s_size s_loc q_part0 q_part1 q_value n_rbx]. lia.
  - constructor; try reflexivity.
    + split; [reflexivity|]. lia.
    + split; [split; vm_compute; discriminate|]. split; split; vm_compute; discriminate.
    + intros x. unfold in_slot, slot_address. cbn [f_machine f_object eight gpr s_size s_loc v_out]. lia.
    + intros x. unfold in_slot, slot_address. cbn [f_machine f_object eight gpr s_size s_loc v_out]. lia.
    + intros x. unfold in_slot, slot_address. cbn [f_machine f_object eight gpr s_size s_loc v_out]. lia.
Qed.

(** ** The address of a result in memory is not returned *)

(** The ABI wants it in rax; the last eight bytes of the object are there. *)
Theorem C67_memory_address_refuted :
  match return_sequence (Some big) f_fr f_pointer with
  | Ok code =>
      match exec_all no_fpu code f_inside with
      | Ok s3 => slot_bits f_inside (q_address f_pointer) = 400000 /\
                 load (mem s3) 400000 24 = load (mem f_inside) 300000 24 /\
                 gpr s3 RAX = load (mem f_inside) 300016 8 /\ gpr s3 RAX <> 400000
      | _ => False
      end
  | _ => False
  end.
Proof. vm_compute. split; [reflexivity|]. split; [reflexivity|]. split; [reflexivity|]. discriminate. Qed.
Print Assumptions C67_memory_address_refuted.
