(** C68: the stack pointer around calls. *)
From Verif Require Import Base Bytes Common CommonProofs Arch X86 Codegen AsmSpec X86Proofs X86Preserve CodegenProofs Frame FrameSpec FrameProofs SysV SysVSpec SysVProofs C34Props C37Props Passing PassingSpec PassingProofs PassingRegs PassingLayout PassingCall PassingEntry C66Props Returning ReturningSpec ReturningProofs C67Props.
Ltac Zify.zify_post_hook ::= idtac.

(** With an aligned stack pointer before the code of a call, it is aligned at
    the call instruction, and in the callee after its first instructions. *)
Theorem C68_aligned_partial F ret named extra c c' k args room l preamble variadic fr n rbx pieces params s back :
  get_calling_convention ret (named ++ extra) = Ok c -> get_calling_convention ret named = Ok c' ->
  Forall (fun t => 0 < a_size t) (named ++ extra) -> vector_pieces c' ->
  call_ready s (named ++ extra) c k args room ->
  placed l preamble named c' fr n rbx pieces params -> fr_align fr <= 16 ->
  (variadic = true -> preamble = 304) ->
  0 <= back < 2 ^ 64 -> argument_bytes (named ++ extra) + fr_sub fr + 56 <= gpr s RSP ->
  gpr s RSP mod 16 = 0 ->
  exists call_code sub s1 entry_code s2,
    call_sequence (named ++ extra) c k = Ok (call_code, sub) /\ exec_all F call_code s = Ok s1 /\
    gpr s1 RSP mod 16 = 0 /\
    function_entry named variadic c' fr n = Ok entry_code /\ exec_all F entry_code (push_return back s1) = Ok s2 /\
    gpr s2 RSP mod 16 = 0.
Proof.
  intros EC EC' P VP CR PL AL PRE BK ROOM A16.
  assert (P' : Forall (fun t => 0 < a_size t) named) by (apply Forall_app in P; apply P).
  assert (CF := convention_gives ret _ c EC P). assert (CF' := convention_gives ret _ c' EC' P').
  destruct (convention_prefix ret named extra c EC) as (c1 & regs & stk & E1 & ER & EST).
  rewrite EC' in E1. injection E1 as <-.
  destruct (call_code_ok F s _ c k args room CF P CR) as (code & sub & layout & total & s1 & EQ & EL & T0 & SB & S16 & X1 & CD).
  assert (EL' := EL). rewrite EST in EL'. destruct (layout_app _ _ _ _ _ _ EL') as (l1 & l2 & mid & L1 & L2 & ->).
  rewrite (layout_types named extra) in L1 by (apply (cf_bound _ _ CF')).
  assert (LFM : 0 <= mid <= total).
  { assert (A := layout_gives named _ 0 l1 mid P' L1). assert (B := layout_gives _ _ mid l2 total P L2).
    pose proof (lf_total _ _ _ _ _ A). pose proof (lf_total _ _ _ _ _ B). lia. }
  pose proof (proj1 (cr_ok _ _ _ _ _ _ CR) RSP) as GSP.
  destruct (frame_chain _ _ _ (pl_requests _ _ _ _ _ _ _ _ _ PL) (pl_preamble _ _ _ _ _ _ _ _ _ PL) (pl_frame _ _ _ _ _ _ _ _ _ PL))
    as (_ & (w & W) & _ & _ & _ & _ & _ & SVE).
  destruct (entry_code_ok F l preamble named variadic c' fr n rbx pieces params l1 mid back s1 CF' P' PL) as (entry & s2 & EE & X2 & ED);
    try assumption.
  - apply SVE. exact AL.
  - intros V. rewrite (PRE V). lia.
  - apply (cd_ok _ _ _ _ _ _ _ _ CD).
  - rewrite (cd_rsp _ _ _ _ _ _ _ _ CD). lia.
  - rewrite (cd_rsp _ _ _ _ _ _ _ _ CD). lia.
  - assert (A1 : gpr s1 RSP mod 16 = 0).
    { rewrite (cd_rsp _ _ _ _ _ _ _ _ CD). rewrite Zminus_mod, A16, S16. reflexivity. }
    exists code, sub, s1, entry, s2. split; [exact EQ|]. split; [exact X1|]. split; [exact A1|]. split; [exact EE|]. split; [exact X2|].
    rewrite (ed_rsp _ _ _ _ _ _ _ _ _ ED), (ed_rbp _ _ _ _ _ _ _ _ _ ED), W.
    replace (gpr s1 RSP - 16 - w * 16) with (gpr s1 RSP + (- 1 - w) * 16) by lia. rewrite Z.mod_add by lia. exact A1.
Qed.
Print Assumptions C68_aligned_partial.

(** The nodes that receive the result registers. *)
Definition results_ready (s : machine) (gets : list (place * slot)) : Prop :=
  Forall (fun q : place * slot => in_memory s (snd q) /\ s_size (snd q) = 8) gets /\
  NoDup (map fst gets) /\ ~ In (GP RBP) (map fst gets) /\ ~ In (GP RSP) (map fst gets) /\
  ForallOrdPairs (fun a b => forall x, in_slot s (snd a) x -> in_slot s (snd b) x -> False) gets.

(** The callee returns to the caller with the registers of the call. *)
Lemma around F s types c k args room gets ret :
  get_calling_convention ret types = Ok c -> Forall (fun t => 0 < a_size t) types ->
  call_ready s types c k args room -> results_ready s gets ->
  exists code sub layout total s1, call_sequence types c k = Ok (code, sub) /\ exec_all F code s = Ok s1 /\
    stack_layout types (c_stack c) 0 = Ok (layout, total) /\ round_up_to_nearest total 16 = Ok sub /\ 0 <= total <= sub /\ sub mod 16 = 0 /\
    forall s3 back, machine_ok s3 -> continues back s1 s3 -> sub <= gpr s1 RSP ->
    exists s4, exec_all F (after_call sub gets) (pop_return s3) = Ok s4 /\ gpr s4 RBP = gpr s RBP /\ gpr s4 RSP = gpr s RSP - 2 * sub.
Proof.
  intros EC P CR (FA & ND & NB & NS & OP).
  assert (CF := convention_gives ret _ c EC P).
  destruct (call_code_ok F s _ c k args room CF P CR) as (code & sub & layout & total & s1 & EQ & EL & T0 & SB & S16 & X1 & CD).
  exists code, sub, layout, total, s1. split; [exact EQ|]. split; [exact X1|]. split; [exact EL|].
  assert (ER : round_up_to_nearest total 16 = Ok sub).
  { unfold call_sequence in EQ. apply bind_ok in EQ. destruct EQ as (loads & _ & EQ). rewrite EL in EQ. cbn [bind] in EQ.
    apply bind_ok in EQ. destruct EQ as (sub' & E & EQ).
    destruct (all_code (store_argument (k_addresses k)) (rev layout)); try discriminate EQ. cbn [bind] in EQ.
    destruct (codegen_set_reg (k_rax k) (GP RAX)); try discriminate EQ. cbn [bind] in EQ.
    destruct (all_code _ (rev (combine (c_regs c) (k_pieces k)))); try discriminate EQ. cbn [bind] in EQ.
    destruct (scalar_to_reg (k_callee k) RBX); try discriminate EQ. cbn [bind] in EQ. injection EQ as _ <-. exact E. }
  split; [exact ER|]. split; [exact T0|]. split; [exact S16|].
  intros s3 back M3 (BK & SP & BP & BX) LE.
  pose proof (cr_small _ _ _ _ _ _ CR) as SM.
  assert (B : gpr (pop_return s3) RBP = gpr s RBP) by (rewrite BP; apply (cd_rbp _ _ _ _ _ _ _ _ CD)).
  assert (SA : forall w, slot_address (pop_return s3) w = slot_address s w) by (intros w; unfold slot_address; rewrite B; reflexivity).
  assert (MP : machine_ok (pop_return s3)).
  { unfold pop_return in *. rewrite gpr_same in SP. apply machine_gpr; [exact M3|]. rewrite SP. apply (cd_ok _ _ _ _ _ _ _ _ CD). }
  destruct (after_call_ok F (pop_return s3) sub gets MP) as (s4 & X4 & M4 & B4 & P4 & _); try assumption.
  - lia.
  - rewrite SP. exact LE.
  - eapply Forall_impl; [|exact FA]. intros q (I & S8). split; [unfold in_memory; rewrite SA; exact I|exact S8].
  - eapply ordpairs_impl; [|exact OP]. intros a b H x. unfold in_slot. rewrite !SA. apply H.
  - exists s4. split; [exact X4|]. split; [congruence|]. rewrite P4, SP, (cd_rsp _ _ _ _ _ _ _ _ CD). lia.
Qed.

(** Without arguments on the stack, the stack pointer after the call is the
    one before it. *)
Theorem C68_restored_partial F s types c k args room gets ret :
  get_calling_convention ret types = Ok c -> Forall (fun t => 0 < a_size t) types -> c_stack c = [] ->
  call_ready s types c k args room -> results_ready s gets ->
  exists code sub s1, call_sequence types c k = Ok (code, sub) /\ exec_all F code s = Ok s1 /\
    gpr s1 RSP = gpr s RSP /\
    forall s3 back, machine_ok s3 -> continues back s1 s3 ->
    exists s4, exec_all F (after_call sub gets) (pop_return s3) = Ok s4 /\ gpr s4 RBP = gpr s RBP /\ gpr s4 RSP = gpr s RSP.
Proof.
  intros EC P NS CR RR. assert (CF := convention_gives ret _ c EC P).
  destruct (around F s types c k args room gets ret EC P CR RR) as (code & sub & layout & total & s1 & EQ & X1 & EL & ER & T0 & S16 & REST).
  rewrite NS in EL. cbn [stack_layout] in EL. injection EL as _ <-.
  assert (sub = 0) by (vm_compute in ER; injection ER as <-; reflexivity). subst sub.
  exists code, 0, s1. split; [exact EQ|]. split; [exact X1|].
  destruct (call_code_ok F s _ c k args room CF P CR) as (code' & sub' & layout' & total' & s1' & EQ' & _ & _ & _ & _ & X1' & CD).
  rewrite EQ in EQ'. injection EQ' as <- <-. rewrite X1 in X1'. injection X1' as <-.
  split; [rewrite (cd_rsp _ _ _ _ _ _ _ _ CD); lia|].
  intros s3 back M3 CO. destruct (REST s3 back M3 CO) as (s4 & X4 & B4 & P4).
  - apply (cd_ok _ _ _ _ _ _ _ _ CD).
  - exists s4. split; [exact X4|]. split; [exact B4|]. lia.
Qed.
Print Assumptions C68_restored_partial.

(** With arguments on the stack it is not: the space for them is subtracted
    again instead of being given back, and every call takes twice the space. *)
Theorem C68_leak_refuted F s types c k args room gets ret :
  get_calling_convention ret types = Ok c -> Forall (fun t => 0 < a_size t) types -> c_stack c <> [] ->
  call_ready s types c k args room -> results_ready s gets -> 2 * room <= gpr s RSP ->
  exists code sub s1, call_sequence types c k = Ok (code, sub) /\ exec_all F code s = Ok s1 /\ 16 <= sub /\
    forall s3 back, machine_ok s3 -> continues back s1 s3 ->
    exists s4, exec_all F (after_call sub gets) (pop_return s3) = Ok s4 /\ gpr s4 RBP = gpr s RBP /\ gpr s4 RSP = gpr s RSP - 2 * sub.
Proof.
  intros EC P NS CR RR RM. assert (CF := convention_gives ret _ c EC P).
  destruct (around F s types c k args room gets ret EC P CR RR) as (code & sub & layout & total & s1 & EQ & X1 & EL & ER & T0 & S16 & REST).
  destruct (call_code_ok F s _ c k args room CF P CR) as (code' & sub' & layout' & total' & s1' & EQ' & _ & _ & SB & _ & X1' & CD).
  rewrite EQ in EQ'. injection EQ' as <- <-. rewrite X1 in X1'. injection X1' as <-.
  exists code, sub, s1. split; [exact EQ|]. split; [exact X1|].
  assert (TP : 0 < total).
  { assert (LF := layout_gives types _ 0 layout total P EL).
    destruct (c_stack c) as [|i idx]; [contradiction|].
    destruct layout as [|[[i0 off] size] layout]; [pose proof (lf_idx _ _ _ _ _ LF) as H; discriminate H|].
    destruct (lf_in _ _ _ _ _ LF i0 off size (or_introl eq_refl)) as (A1 & A2 & _ & t & ET & ->).
    apply nth_error_In in ET. rewrite Forall_forall in P. specialize (P t ET). cbv beta in P. lia. }
  split.
  - destruct (Z.lt_ge_cases sub 16) as [L|G]; [|exact G]. exfalso.
    rewrite Z.mod_small in S16 by lia. lia.
  - intros s3 back M3 CO. apply (REST s3 back M3 CO). rewrite (cd_rsp _ _ _ _ _ _ _ _ CD).
    pose proof (cr_room _ _ _ _ _ _ CR). lia.
Qed.
Print Assumptions C68_leak_refuted.

(** The call of C66 has arguments on the stack, and room. *)
Example C68_leak_meets : c_stack f_info <> [] /\ 2 * 1000 <= gpr f_machine RSP /\ gpr f_machine RSP mod 16 = 0 /\
  results_ready f_machine [(GP RAX, eight 300)].
Proof.
  split; [vm_compute; discriminate|]. split; [vm_compute; discriminate|]. split; [reflexivity|].
  split; [constructor; [|constructor]; split; [split; vm_compute; discriminate|reflexivity]|].
  split; [constructor; [intros []|constructor]|]. split; [intros [H|[]]; discriminate|]. split; [intros [H|[]]; discriminate|].
  constructor; constructor.
Qed.

(** A call f(i) with an int and the room of that machine. *)
Definition one_site : call_site := {|
  k_addresses := [{| s_size := 8; s_loc := 8 |}]; k_pieces := [40];
  k_rax := {| s_size := 8; s_loc := 64 |}; k_callee := {| s_size := 8; s_loc := 72 |} |}.
Example C68_restored_meets :
  match get_calling_convention (ASimple ST_INT) [ASimple ST_INT] with
  | Ok c => c_stack c = [] /\ call_ready f_machine [ASimple ST_INT] c one_site [200000] 1000
  | _ => False
  end.
Proof.
  set (g := get_calling_convention _ _). vm_compute in g. subst g. cbn [c_stack]. split; [reflexivity|].
  set (c := {| c_regs := _ |}).
  assert (SC : forall x, scratch f_machine c one_site 1000 x -> 99960 <= x < 99964 \/ 89000 <= x < 90000).
  { intros x [(r & loc & I & _ & X)|X]; [|cbn in X; lia]. cbn [c one_site c_regs k_pieces combine] in I.
    unfold in_slot, slot_address in X. cbn [f_machine gpr] in X.
    destruct I as [E|[]]; injection E as <- <-; cbn [piece_slot r_size s_size s_loc] in X; lia. }
  constructor.
  - apply f_machine_ok.
  - reflexivity.
  - reflexivity.
  - cbn [one_site k_addresses]. constructor; [|constructor].
    split; [reflexivity|]. split; [split; vm_compute; discriminate|vm_compute; reflexivity].
  - intros p x I X S. apply SC in S. unfold in_slot, slot_address in X. cbn [f_machine gpr] in X. cbn [one_site k_addresses] in I.
    destruct I as [<-|[]]; cbn [s_size s_loc] in X; lia.
  - intros i t a ET EA. destruct i as [|i]; [|destruct i; discriminate]. cbn in ET, EA. injection ET as <-. injection EA as <-.
    change (a_size (ASimple ST_INT)) with 4. split; [lia|]. intros x X S. apply SC in S. lia.
  - intros r loc I. cbn [c one_site c_regs k_pieces combine] in I. unfold readable, in_slot, slot_address. cbn [f_machine gpr].
    destruct I as [E|[]]; injection E as <- <-; cbn [piece_slot r_size s_size s_loc]; split; lia.
  - cbn [c one_site c_regs k_pieces combine]. constructor; constructor.
  - split; [reflexivity|]. split; [unfold readable, slot_address; cbn [f_machine one_site k_callee s_loc gpr]; lia|].
    intros x X S. apply SC in S. unfold in_slot, slot_address in X. cbn [f_machine one_site k_callee s_size s_loc gpr] in X. lia.
  - split; [reflexivity|]. split; [unfold readable, slot_address; cbn [f_machine one_site k_rax s_loc gpr]; lia|].
    intros x X S. apply SC in S. unfold in_slot, slot_address in X. cbn [f_machine one_site k_rax s_size s_loc gpr] in X. lia.
  - split; vm_compute; intros H; discriminate.
  - vm_compute. reflexivity.
Qed.

(** The stack pointer of [f_machine] after the call of C66: 64 bytes lower. *)
Example C68_example :
  match call_sequence (f_named ++ f_extra) f_info f_site with
  | Ok (code, sub) =>
      match exec_all no_fpu code f_machine with
      | Ok s1 =>
          match exec_all no_fpu (after_call sub [(GP RAX, eight 300)]) (pop_return (push_return 4242 s1)) with
          | Ok s4 => sub = 32 /\ gpr s1 RSP = 89968 /\ gpr s4 RSP = 89936
          | _ => False
          end
      | _ => False
      end
  | _ => False
  end.
Proof. vm_compute. split; [reflexivity|]. split; reflexivity. Qed.
