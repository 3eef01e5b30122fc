(** C66: arguments reach the parameters of the callee. *)
From Verif Require Import Base Bytes Common CommonProofs Arch X86 Codegen AsmSpec X86Proofs X86Preserve CodegenProofs Frame FrameSpec FrameProofs SysV SysVSpec SysVProofs C34Props C37Props Passing PassingSpec PassingProofs PassingRegs PassingLayout PassingCall PassingEntry.
From Coq Require Import Sorted.
Ltac Zify.zify_post_hook ::= idtac.

(** A piece in a vector register is a float, a double or two floats. *)
Definition vector_pieces (c : call_info) : Prop :=
  forall r x, In r (c_regs c) -> r_place r = VEC x -> r_size r = 4 \/ r_size r = 8.

(** A call of a function with parameters [named], with further arguments
    [extra] if it is variadic: after the code of the call, the call
    instruction and the code at the start of the function, every byte of
    every parameter is that of the argument. rbx holds the address that was
    called, and the caller's memory at and above its stack pointer is as
    before, except for the nodes of the pieces. *)
Theorem C66_arguments_partial F ret named extra c c' k args room l preamble variadic fr n rbx pieces params s back :
  get_calling_convention ret (named ++ extra) = Ok c -> get_calling_convention ret named = Ok c' ->
  reg_variables_fit c = true ->
  Forall (fun t => 0 < a_size t) (named ++ extra) -> vector_pieces c' ->
  call_ready s (named ++ extra) c k args room ->
  placed l preamble named c' fr n rbx pieces params -> fr_align fr <= 16 ->
  (variadic = true -> preamble = 304) ->
  0 <= back < 2 ^ 64 -> argument_bytes (named ++ extra) + fr_sub fr + 56 <= gpr s RSP ->
  exists call_code sub s1 entry_code s2,
    call_sequence (named ++ extra) c k = Ok (call_code, sub) /\ exec_all F call_code s = Ok s1 /\
    function_entry named variadic c' fr n = Ok entry_code /\ exec_all F entry_code (push_return back s1) = Ok s2 /\
    gpr s1 RBX = slot_bits s (k_callee k) /\ gpr s1 RAX = slot_bits s (k_rax k) /\
    (forall i t a p loc j, nth_error named i = Some t -> nth_error args i = Some a ->
       nth_error (n_params n) i = Some (p, loc) -> 0 <= j < a_size t ->
       mem s2 (gpr s2 RBP - loc + j) = mem s (a + j)) /\
    (forall x, gpr s RSP <= x ->
       (forall r loc, In (r, loc) (combine (c_regs c) (k_pieces k)) -> ~ in_slot s (piece_slot r loc) x) ->
       mem s2 x = mem s x).
Proof.
  intros EC EC' _ P VP CR PL AL PRE BK ROOM.
  assert (P' : Forall (fun t => 0 < a_size t) named) by (apply Forall_app in P; apply P).
  assert (CF := convention_gives ret _ c EC P). assert (CF' := convention_gives ret _ c' EC' P').
  destruct (convention_prefix ret named extra c EC) as (c1 & regs & stk & E1 & ER & EST).
  rewrite EC' in E1. injection E1 as <-.
  destruct (call_code_ok F s _ c k args room CF P CR) as (code & sub & layout & total & s1 & EQ & EL & T0 & SB & S16 & X1 & CD).
  assert (EL' := EL). rewrite EST in EL'. destruct (layout_app _ _ _ _ _ _ EL') as (l1 & l2 & mid & L1 & L2 & ->).
  rewrite (layout_types named extra) in L1 by (apply (cf_bound _ _ CF')).
  assert (LFM : 0 <= mid <= total).
  { assert (A := layout_gives named _ 0 l1 mid P' L1). assert (B := layout_gives _ _ mid l2 total P L2).
    pose proof (lf_total _ _ _ _ _ A). pose proof (lf_total _ _ _ _ _ B). lia. }
  pose proof (proj1 (cr_ok _ _ _ _ _ _ CR) RSP) as GSP.
  destruct (frame_chain _ _ _ (pl_requests _ _ _ _ _ _ _ _ _ PL) (pl_preamble _ _ _ _ _ _ _ _ _ PL) (pl_frame _ _ _ _ _ _ _ _ _ PL))
    as (_ & _ & _ & _ & _ & _ & _ & SVE).
  destruct (entry_code_ok F l preamble named variadic c' fr n rbx pieces params l1 mid back s1 CF' P' PL) as (entry & s2 & EE & X2 & ED);
    try assumption.
  - apply SVE. exact AL.
  - intros V. rewrite (PRE V). lia.
  - apply (cd_ok _ _ _ _ _ _ _ _ CD).
  - rewrite (cd_rsp _ _ _ _ _ _ _ _ CD). lia.
  - rewrite (cd_rsp _ _ _ _ _ _ _ _ CD). lia.
  - exists code, sub, s1, entry, s2. split; [exact EQ|]. split; [exact X1|]. split; [exact EE|]. split; [exact X2|].
    split; [apply (cd_rbx _ _ _ _ _ _ _ _ CD)|]. split; [apply (cd_rax _ _ _ _ _ _ _ _ CD)|]. split.
    + intros i t a p loc j ET EA EN J.
      destruct (cf_cover _ _ CF' i t ET) as [IS|IR].
      * assert (A := layout_gives named _ 0 l1 mid P' L1). rewrite <- (lf_idx _ _ _ _ _ A) in IS. apply in_map_iff in IS.
        destruct IS as ([[i' off] size] & EI & IL). cbn [fst] in EI. subst i'.
        destruct (lf_in _ _ _ _ _ A i off size IL) as (_ & _ & _ & t' & ET' & ->). rewrite ET in ET'. injection ET' as <-.
        rewrite (ed_stack _ _ _ _ _ _ _ _ _ ED i off (a_size t) p loc j IL EN J).
        apply (cd_stack _ _ _ _ _ _ _ _ CD i off (a_size t) a j); [apply in_or_app; left; exact IL|exact EA|exact J].
      * destruct (IR j J) as (r & pos & I & EM & K).
        replace (gpr s2 RBP - loc + j) with (gpr s2 RBP - loc + pos + (j - pos)) by lia.
        rewrite (ed_regs _ _ _ _ _ _ _ _ _ ED r i pos p loc (j - pos) I EM EN) by lia.
        rewrite (cd_regs _ _ _ _ _ _ _ _ CD r i pos a (j - pos)); [f_equal; lia|rewrite ER; apply in_or_app; left; exact I|exact EM|exact EA|lia].
    + intros x X NS. rewrite (ed_above _ _ _ _ _ _ _ _ _ ED) by (rewrite (cd_rsp _ _ _ _ _ _ _ _ CD); lia).
      apply (cd_kept _ _ _ _ _ _ _ _ CD); [|lia]. intros r loc I _. apply NS. exact I.
Qed.
Print Assumptions C66_arguments_partial.

(** The address for a result in memory is passed as well: the callee's node
    for it holds what the caller's node held. *)
Theorem C66_hidden_argument_partial F ret named extra c c' k args room l preamble variadic fr n rbx pieces params s back r :
  get_calling_convention ret (named ++ extra) = Ok c -> get_calling_convention ret named = Ok c' ->
  reg_variables_fit c = true ->
  Forall (fun t => 0 < a_size t) (named ++ extra) -> vector_pieces c' ->
  call_ready s (named ++ extra) c k args room ->
  placed l preamble named c' fr n rbx pieces params -> fr_align fr <= 16 ->
  (variadic = true -> preamble = 304) ->
  0 <= back < 2 ^ 64 -> argument_bytes (named ++ extra) + fr_sub fr + 56 <= gpr s RSP ->
  In r (c_regs c') -> r_merged r = None ->
  exists call_code sub s1 entry_code s2 loc loc',
    call_sequence (named ++ extra) c k = Ok (call_code, sub) /\ exec_all F call_code s = Ok s1 /\
    function_entry named variadic c' fr n = Ok entry_code /\ exec_all F entry_code (push_return back s1) = Ok s2 /\
    In (r, loc) (combine (c_regs c) (k_pieces k)) /\ In (r, loc') (combine (c_regs c') (n_pieces n)) /\
    r_size r = 8 /\ slot_bits s2 (piece_slot r loc') = slot_bits s (piece_slot r loc).
Proof.
  intros EC EC' _ P VP CR PL AL PRE BK ROOM IR EM.
  assert (P' : Forall (fun t => 0 < a_size t) named) by (apply Forall_app in P; apply P).
  assert (CF := convention_gives ret _ c EC P). assert (CF' := convention_gives ret _ c' EC' P').
  destruct (convention_prefix ret named extra c EC) as (c1 & regs & stk & E1 & ER & EST).
  rewrite EC' in E1. injection E1 as <-.
  destruct (call_code_ok F s _ c k args room CF P CR) as (code & sub & layout & total & s1 & EQ & EL & T0 & SB & S16 & X1 & CD).
  assert (EL' := EL). rewrite EST in EL'. destruct (layout_app _ _ _ _ _ _ EL') as (l1 & l2 & mid & L1 & L2 & ->).
  rewrite (layout_types named extra) in L1 by (apply (cf_bound _ _ CF')).
  assert (LFM : 0 <= mid <= total).
  { assert (A := layout_gives named _ 0 l1 mid P' L1). assert (B := layout_gives _ _ mid l2 total P L2).
    pose proof (lf_total _ _ _ _ _ A). pose proof (lf_total _ _ _ _ _ B). lia. }
  pose proof (proj1 (cr_ok _ _ _ _ _ _ CR) RSP) as GSP.
  destruct (frame_chain _ _ _ (pl_requests _ _ _ _ _ _ _ _ _ PL) (pl_preamble _ _ _ _ _ _ _ _ _ PL) (pl_frame _ _ _ _ _ _ _ _ _ PL))
    as (_ & _ & _ & _ & _ & _ & _ & SVE).
  destruct (entry_code_ok F l preamble named variadic c' fr n rbx pieces params l1 mid back s1 CF' P' PL) as (entry & s2 & EE & X2 & ED);
    try assumption.
  - apply SVE. exact AL.
  - intros V. rewrite (PRE V). lia.
  - apply (cd_ok _ _ _ _ _ _ _ _ CD).
  - rewrite (cd_rsp _ _ _ _ _ _ _ _ CD). lia.
  - rewrite (cd_rsp _ _ _ _ _ _ _ _ CD). lia.
  - assert (FIND : forall regs (ps : list Z), length ps = length regs -> In r regs -> exists loc, In (r, loc) (combine regs ps)).
    { clear. intros regs ps L I. rewrite <- (combine_fst regs ps L) in I. apply in_map_iff in I.
      destruct I as ([r' loc] & <- & I). exists loc. exact I. }
    destruct (FIND (c_regs c) (k_pieces k) (cr_pieces _ _ _ _ _ _ CR)) as (loc & IL); [rewrite ER; apply in_or_app; left; exact IR|].
    destruct (FIND (c_regs c') (n_pieces n) (proj1 (pl_len _ _ _ _ _ _ _ _ _ PL)) IR) as (loc' & IL').
    assert (R8 : r_size r = 8) by (apply (cf_hidden _ _ CF' r IR EM)).
    exists code, sub, s1, entry, s2, loc, loc'. split; [exact EQ|]. split; [exact X1|]. split; [exact EE|]. split; [exact X2|].
    split; [exact IL|]. split; [exact IL'|]. split; [exact R8|].
    unfold slot_bits. cbn [piece_slot s_size]. rewrite R8. change (Z.to_nat 8) with 8%nat.
    pose proof (cr_ok _ _ _ _ _ _ CR) as M. destruct M as (_ & _ & MB).
    pose proof (load_range (mem s) (slot_address s (piece_slot r loc)) 8 MB) as LR.
    rewrite <- (Z.mod_small _ _ LR). apply load_digits.
    intros x X. cbn [Z.of_nat Pos.of_succ_nat Pos.succ] in X.
    fold (byte_of (load (mem s) (slot_address s (piece_slot r loc)) 8) (x - slot_address s2 (piece_slot r loc'))).
    rewrite load_byte by (auto; lia).
    set (j := x - slot_address s2 (piece_slot r loc')) in *.
    assert (EX : x = gpr s2 RBP - loc' + j) by (unfold j, slot_address; cbn [piece_slot s_loc]; lia).
    rewrite EX. rewrite (ed_hidden _ _ _ _ _ _ _ _ _ ED r loc' j IL') by (unfold j; lia).
    apply (cd_hidden _ _ _ _ _ _ _ _ CD r loc j IL EM). unfold j. lia.
Qed.
Print Assumptions C66_hidden_argument_partial.

(** In a function with an over-aligned local object the arguments on the stack
    are read from the wrong place: the frame pointer is rounded down, but the
    code still takes it for the old stack pointer less 16. *)
Theorem C66_aligned_frame_refuted F l preamble fr s1 back :
  Forall request_ok l -> 0 <= preamble -> allocate_frame l preamble = Ok fr -> 16 < fr_align fr ->
  machine_ok s1 -> 0 <= back < 2 ^ 64 -> fr_sub fr + fr_align fr + 24 <= gpr s1 RSP ->
  exists s', exec_all F (prologue fr) (push_return back s1) = Ok s' /\
    ((gpr s1 RSP - 16) mod fr_align fr <> 0 -> forall off, gpr s' RBP + (off + 16) < gpr s1 RSP + off).
Proof.
  intros RQ P0 FR BIG M BK ROOM.
  destruct (frame_chain _ _ _ RQ P0 FR) as (_ & _ & _ & _ & _ & _ & _ & SVE).
  destruct (frame_suits _ _ _ RQ P0 FR) as (SUB & AL & SAVE).
  assert (M2 : machine_ok (push_return back s1)).
  { unfold push_return. apply (machine_mem (set_gpr s1 RSP (gpr s1 RSP - 8))). apply machine_gpr; [exact M|].
    pose proof (proj1 M RSP). lia. }
  assert (SP2 : gpr (push_return back s1) RSP = gpr s1 RSP - 8) by reflexivity.
  destruct (prologue_enters F (push_return back s1) fr M2) as (s3 & X3 & EN); [rewrite SP2; lia|exact SUB|exact AL| |].
  { intros off O. destruct (SAVE off O) as (A & _ & B). auto. }
  exists s3. split; [exact X3|]. intros NZ off. pose proof (en_rbp _ _ _ EN) as B. rewrite SP2 in B.
  destruct (fr_save fr) as [o|]; [|destruct SVE as (SVE & _); specialize (SVE eq_refl); lia].
  replace (gpr s1 RSP - 8 - 8) with (gpr s1 RSP - 16) in B by lia.
  pose proof (Z.mod_pos_bound (gpr s1 RSP - 16) (fr_align fr) ltac:(lia)). lia.
Qed.
Print Assumptions C66_aligned_frame_refuted.

(** ** A call that meets the hypotheses: f(int, struct of 24 bytes, char), a
    variadic function called with one more long. *)
Definition big : atype := AStruct 24 [(0, AArray 3 (ASimple ST_LONG))].
Definition f_named : list atype := [ASimple ST_INT; big; ASimple ST_CHAR].
Definition f_extra : list atype := [ASimple ST_LONG].
Definition f_args : list Z := [200000; 200100; 200200; 200300].
Definition f_site : call_site := {|
  k_addresses := [{| s_size := 8; s_loc := 8 |}; {| s_size := 8; s_loc := 16 |}; {| s_size := 8; s_loc := 24 |}; {| s_size := 8; s_loc := 32 |}];
  k_pieces := [40; 48; 56]; k_rax := {| s_size := 8; s_loc := 64 |}; k_callee := {| s_size := 8; s_loc := 72 |} |}.
Definition f_machine : machine := {|
  gpr := fun r => match r with RBP => 100000 | RSP => 90000 | _ => 5 end;
  xmm := fun _ => 0; flag := None;
  mem := store (store (store (store (fun a => a mod 251) 99992 8 200000) 99984 8 200100) 99976 8 200200) 99968 8 200300 |}.
Definition f_frame : list frame_ins :=
  [{| f_size := 8; f_vla := false; f_alloc := None |}; {| f_size := 4; f_vla := false; f_alloc := None |};
   {| f_size := 1; f_vla := false; f_alloc := None |}; {| f_size := 8; f_vla := false; f_alloc := Some (4, 4) |};
   {| f_size := 8; f_vla := false; f_alloc := Some (24, 8) |}; {| f_size := 8; f_vla := false; f_alloc := Some (1, 1) |}].
Definition f_nodes : function_nodes := {|
  n_rbx := 8; n_pieces := [12; 13];
  n_params := [({| s_size := 8; s_loc := 21 |}, 44); ({| s_size := 8; s_loc := 29 |}, 72); ({| s_size := 8; s_loc := 37 |}, 73)] |}.

Definition f_info : call_info := Eval vm_compute in
  match get_calling_convention (ASimple ST_INT) (f_named ++ f_extra) with Ok c => c | _ => {| c_regs := []; c_ret_regs := []; c_stack := []; c_returns_address := false; c_gp_offset := 0; c_rax := 0 |} end.
Definition f_info' : call_info := Eval vm_compute in
  match get_calling_convention (ASimple ST_INT) f_named with Ok c => c | _ => {| c_regs := []; c_ret_regs := []; c_stack := []; c_returns_address := false; c_gp_offset := 0; c_rax := 0 |} end.
Definition f_fr : frame := Eval vm_compute in
  match allocate_frame f_frame 304 with Ok fr => fr | _ => {| fr_slots := []; fr_vlas := 0; fr_vla_offset := 0; fr_objects := []; fr_align := 0; fr_preamble := None; fr_save := None; fr_sub := 0 |} end.

Lemma f_machine_ok : machine_ok f_machine.
Proof.
  split; [|split].
  - intros []; cbn; lia.
  - intros x; cbn; lia.
  - cbn [f_machine mem]. intros x. apply store_bytes. apply store_bytes. apply store_bytes. apply store_bytes.
    intros y. pose proof (Z.mod_pos_bound y 251 ltac:(lia)). lia.
Qed.

Lemma f_scratch x : scratch f_machine f_info f_site 1000 x ->
  99960 <= x < 99964 \/ 99952 <= x < 99953 \/ 99944 <= x < 99952 \/ 89000 <= x < 90000.
Proof.
  intros [(r & loc & I & _ & X)|X]; [|cbn in X; lia]. cbn [f_info f_site c_regs k_pieces combine] in I.
  unfold in_slot, slot_address in X. cbn [f_machine gpr] in X.
  destruct I as [E|[E|[E|[]]]]; injection E as <- <-; cbn [piece_slot r_size s_size s_loc] in X; lia.
Qed.

Example C66_call_meets : call_ready f_machine (f_named ++ f_extra) f_info f_site f_args 1000 /\
  get_calling_convention (ASimple ST_INT) (f_named ++ f_extra) = Ok f_info /\ reg_variables_fit f_info = true /\
  Forall (fun t => 0 < a_size t) (f_named ++ f_extra).
Proof.
  split.
  { constructor.
    - apply f_machine_ok.
    - reflexivity.
    - reflexivity.
    - unfold f_args. cbn [f_site k_addresses]. constructor; [|constructor; [|constructor; [|constructor; [|constructor]]]];
        (split; [reflexivity|]; split; [split; vm_compute; intros H; discriminate|vm_compute; reflexivity]).
    - intros p x I X SC. apply f_scratch in SC. unfold in_slot, slot_address in X. cbn [f_machine gpr] in X. cbn [f_site k_addresses] in I.
      destruct I as [<-|[<-|[<-|[<-|[]]]]]; cbn [s_size s_loc] in X; lia.
    - intros i t a ET EA.
      assert (B : 200000 <= a /\ a + a_size t <= 201000).
      { destruct i as [|[|[|[|i]]]]; cbn in ET, EA; [| | | |destruct i; discriminate]; injection ET as <-; injection EA as <-; vm_compute; split; intros H; discriminate. }
      split; [lia|]. intros x X SC. apply f_scratch in SC. lia.
    - intros r loc I. cbn [f_info f_site c_regs k_pieces combine] in I. unfold readable, in_slot, slot_address. cbn [f_machine gpr].
      destruct I as [E|[E|[E|[]]]]; injection E as <- <-; cbn [piece_slot r_size s_size s_loc]; split; lia.
    - cbn [f_info f_site c_regs k_pieces combine]. constructor; [|constructor; [|constructor; [|constructor]]];
        repeat constructor; cbn [fst snd]; intros x; unfold in_slot, slot_address; cbn [f_machine gpr piece_slot r_size s_size s_loc]; lia.
    - split; [reflexivity|]. split; [unfold readable, slot_address; cbn [f_machine f_site k_callee s_loc gpr]; lia|].
      intros x X SC. apply f_scratch in SC. unfold in_slot, slot_address in X. cbn [f_machine f_site k_callee s_size s_loc gpr] in X. lia.
    - split; [reflexivity|]. split; [unfold readable, slot_address; cbn [f_machine f_site k_rax s_loc gpr]; lia|].
      intros x X SC. apply f_scratch in SC. unfold in_slot, slot_address in X. cbn [f_machine f_site k_rax s_size s_loc gpr] in X. lia.
    - split; vm_compute; intros H; discriminate.
    - vm_compute. reflexivity. }
  split; [vm_compute; reflexivity|]. split; [reflexivity|]. repeat constructor; vm_compute; reflexivity.
Qed.

Example C66_function_meets : placed f_frame 304 f_named f_info' f_fr f_nodes 0 [1; 2]%nat [3; 4; 5]%nat /\
  get_calling_convention (ASimple ST_INT) f_named = Ok f_info' /\ vector_pieces f_info' /\ fr_align f_fr <= 16 /\
  argument_bytes (f_named ++ f_extra) + fr_sub f_fr + 56 <= gpr f_machine RSP.
Proof.
  split.
  { constructor.
    - unfold f_frame. repeat apply Forall_cons; try apply Forall_nil; (split; [cbn [f_size]; lia|]); cbn [f_alloc]; try exact Logic.I;
        (split; [lia|right]); [exists 2|exists 3|exists 0]; (split; [lia|reflexivity]).
    - lia.
    - vm_compute. reflexivity.
    - repeat constructor; cbn; intuition discriminate.
    - eexists. split; [reflexivity|]. split; [discriminate|]. split; reflexivity.
    - split; reflexivity.
    - cbn [f_info' f_nodes c_regs n_pieces combine]. constructor; [|constructor; [|constructor]];
        (eexists; split; [reflexivity|]; split; [discriminate|]; split; reflexivity).
    - cbn [f_nodes n_params combine f_named]. constructor; [|constructor; [|constructor; [|constructor]]];
        (split; [reflexivity|]; split; [eexists; split; [reflexivity|]; split; [discriminate|]; split; reflexivity|
           eexists _, _; split; [reflexivity|]; split; reflexivity]). }
  split; [vm_compute; reflexivity|]. split; [|split; vm_compute; intros H; discriminate].
  intros r x I E. cbn [f_info' c_regs] in I. destruct I as [<-|[<-|[]]]; discriminate.
Qed.

(** The whole run: the third parameter, a char, is the byte at 200200. *)
Example C66_example :
  match call_sequence (f_named ++ f_extra) f_info f_site, function_entry f_named true f_info' f_fr f_nodes with
  | Ok (code, sub), Ok entry =>
      match exec_all no_fpu code f_machine with
      | Ok s1 =>
          match exec_all no_fpu entry (push_return 4242 s1) with
          | Ok s2 => sub = 32 /\ gpr s2 RBP = 89952 /\ mem s2 (gpr s2 RBP - 73) = 200200 mod 251 /\
                     load (mem s2) (gpr s2 RBP - 44) 4 = load (mem f_machine) 200000 4 /\
                     load (mem s2) (gpr s2 RBP - 72 + 16) 8 = load (mem f_machine) 200116 8
          | _ => False
          end
      | _ => False
      end
  | _, _ => False
  end.
Proof. vm_compute. split; [reflexivity|]. split; [reflexivity|]. split; [reflexivity|]. split; reflexivity. Qed.

(** With an object aligned to 64 bytes in the frame, parameter 2 is wrong. *)
Example C66_aligned_frame_example :
  match call_sequence (f_named ++ f_extra) f_info f_site,
        allocate_frame (f_frame ++ [{| f_size := 8; f_vla := false; f_alloc := Some (4, 64) |}]) 304 with
  | Ok (code, sub), Ok fr =>
      match function_entry f_named true f_info' fr f_nodes, exec_all no_fpu code f_machine with
      | Ok entry, Ok s1 =>
          match exec_all no_fpu entry (push_return 4242 s1) with
          | Ok s2 => fr_align fr = 64 /\ gpr s2 RBP + 16 <> gpr s1 RSP
          | _ => False
          end
      | _, _ => False
      end
  | _, _ => False
  end.
Proof. vm_compute. split; [reflexivity|discriminate]. Qed.
