(** C38: va_arg finds the unnamed arguments. *)
From Verif Require Import Base Bytes Common CommonProofs Arch X86 Codegen AsmSpec X86Proofs X86Preserve CodegenProofs Frame FrameSpec FrameProofs SysV SysVSpec SysVProofs C34Props C37Props Passing PassingSpec PassingProofs PassingRegs PassingLayout PassingCall PassingEntry Returning ReturningSpec ReturningProofs VaArg VaArgProofs VaArgSpec VaArgWalk C66Props.
Ltac Zify.zify_post_hook ::= idtac.

(** A variadic function with parameters [named] is called with the unnamed
    arguments [extra ++ rest], of which those in [extra] are passed in general
    registers or in memory. The code of the call, the call instruction, the
    code at the start of the function and va_start all run, and then
    successive va_arg deliver the arguments [extra] from the places where the
    caller had them: whatever the number of arguments, and whatever the program
    does in between that leaves the va_list and the unnamed arguments alone. *)
Theorem C38_va_arg_partial F ret named extra rest c c' k args room l fr n rbx pieces params s back :
  get_calling_convention ret (named ++ extra ++ rest) = Ok c -> get_calling_convention ret named = Ok c' ->
  reg_variables_fit c = true ->
  Forall (fun t => 0 < a_size t) (named ++ extra ++ rest) -> vector_pieces c' ->
  Forall integer_argument extra ->
  call_ready s (named ++ extra ++ rest) c k args room ->
  placed l 304 named c' fr n rbx pieces params -> fr_align fr <= 16 ->
  0 <= back < 2 ^ 64 -> argument_bytes (named ++ extra ++ rest) + fr_sub fr + 56 <= gpr s RSP ->
  exists call_code sub s1 entry_code s2 position gp_offset overflow,
    call_sequence (named ++ extra ++ rest) c k = Ok (call_code, sub) /\ exec_all F call_code s = Ok s1 /\
    function_entry named true c' fr n = Ok entry_code /\ exec_all F entry_code (push_return back s1) = Ok s2 /\
    fr_preamble fr = Some position /\ variadic_data named c' = Ok (gp_offset, overflow) /\
    let live := unnamed_memory (gpr s2 RBP) position sub in
    forall va V st,
      machine_ok st -> gpr st RBP = gpr s2 RBP -> (forall x, live x -> mem st x = mem s2 x) ->
      holds_address st va V -> V + 24 <= 2 ^ 64 -> (forall x, V <= x < V + 24 -> ~ live x) ->
      exists start st',
        emit_va_start va gp_offset overflow position = Ok start /\ exec_all F start st = Ok st' /\
        (forall x, ~ V <= x < V + 24 -> mem st' x = mem st x) /\
        gpr st' RBP = gpr st RBP /\ gpr st' RSP = gpr st RSP /\ machine_ok st' /\
        serves F live V s st' (combine extra (firstn (length extra) (skipn (length named) args))).
Proof.
  intros EC EC' _ P VP IA CR PL AL BK ROOM.
  assert (P' : Forall (fun t => 0 < a_size t) named) by (apply Forall_app in P; apply P).
  assert (CF := convention_gives ret _ c EC P). assert (CF' := convention_gives ret _ c' EC' P').
  assert (AS : exists hid gp sse regs stk gpe ssee, c_gp_offset c' = gp * 8 /\ 0 <= gp <= 6 /\ 0 <= sse <= 8 /\
     assign_arguments (length named) (extra ++ rest) gp sse = Ok (regs, stk, gpe, ssee) /\
     c_regs c = hid ++ regs /\ c_stack c = c_stack c' ++ stk).
  { clear -EC EC'. unfold get_calling_convention in EC, EC'.
    match type of EC with bind ?h _ = _ => assert (HD : forall hidden ret_regs address gp, h = Ok (hidden, ret_regs, address, gp) -> 0 <= gp <= 1) end.
    { intros hidden ret_regs address gp.
      assert (GEN : (let* classes := classify ret in
          match classes with
          | [] => Undef
          | c0 :: _ =>
              if class_eqb c0 CLASS_MEMORY then
                Ok ([{| r_place := GP RDI; r_merged := None; r_size := 8 |}], [], true, 1)
              else let* l := return_parts classes 0 0 in Ok ([], l, false, 0)
          end) = Ok (hidden, ret_regs, address, gp) -> 0 <= gp <= 1).
      { destruct (classify ret) as [[|c0 l]| |]; cbn [bind]; try discriminate.
        destruct (class_eqb c0 CLASS_MEMORY); [intros X; injection X as <- <- <- <-; lia|].
        destruct (return_parts _ 0 0); cbn [bind]; try discriminate. intros X; injection X as <- <- <- <-; lia. }
      destruct ret as [s| | | |]; try exact GEN. destruct s; try exact GEN. intros X; injection X as <- <- <- <-; lia. }
    destruct (match ret with ASimple ST_VOID => _ | _ => _ end) as [[[[hidden ret_regs] address] gp]| |]; cbn [bind] in EC, EC'; try discriminate.
    specialize (HD _ _ _ _ eq_refl).
    destruct (assign_arguments 0 (named ++ extra ++ rest) gp 0) as [[[[a b] d] e]| |] eqn:EA; cbn [bind] in EC; try discriminate.
    injection EC as <-. destruct (assign_app _ _ _ _ _ _ EA) as (r1 & s1 & g1 & e1 & r2 & s2 & g2 & e2 & A & B & C).
    injection C as -> -> -> ->. rewrite A in EC'. cbn [bind] in EC'. injection EC' as <-. cbn [c_regs c_stack c_gp_offset].
    destruct (assign_represents named _ _ _ _ A) as (ps & F2).
    destruct (assign_spec named ps F2 0%nat gp 0) as (gp1 & AS & G1 & V1); [lia|lia|]. cbv zeta in AS. rewrite A in AS.
    injection AS as -> -> -> ->.
    eexists (hidden ++ _), gp1, _, r2, s2, g2, e2. split; [reflexivity|]. split; [exact G1|]. split; [|split; [exact B|split; [rewrite app_assoc; reflexivity|reflexivity]]].
    split; [|exact V1]. rewrite Z.add_0_l. unfold vec_count. lia. }
  destruct AS as (hid & gp & sse & regs & stk & gpe & ssee & EG & GR & SR & EA & ER & EST).
  destruct (call_code_ok F s _ c k args room CF P CR) as (code & sub & layout & total & s1 & EQ & EL & T0 & SB & S16 & X1 & CD).
  assert (EL' := EL). rewrite EST in EL'. destruct (layout_app _ _ _ _ _ _ EL') as (l1 & l2 & mid & L1 & L2 & ELL).
  rewrite (layout_types named (extra ++ rest)) in L1 by (apply (cf_bound _ _ CF')).
  assert (LFM : 0 <= mid <= total).
  { assert (A := layout_gives named _ 0 l1 mid P' L1). assert (B := layout_gives _ _ mid l2 total P L2).
    pose proof (lf_total _ _ _ _ _ A). pose proof (lf_total _ _ _ _ _ B). lia. }
  pose proof (proj1 (cr_ok _ _ _ _ _ _ CR) RSP) as GSP.
  destruct (frame_chain _ _ _ (pl_requests _ _ _ _ _ _ _ _ _ PL) (pl_preamble _ _ _ _ _ _ _ _ _ PL) (pl_frame _ _ _ _ _ _ _ _ _ PL))
    as (CH & _ & _ & _ & _ & PRS & _ & SVE).
  destruct PRS as (position & EPOS); [discriminate|].
  assert (INS : 304 <= position <= fr_sub fr).
  { assert (I : In (SaveArea, position, 304) (entries l 304 fr)) by (apply region_entry; cbn; rewrite EPOS; auto using Z.lt_0_1 || (split; [discriminate|auto])).
    pose proof (chain_in _ _ _ _ _ _ CH I). lia. }
  destruct (entry_code_ok F l 304 named true c' fr n rbx pieces params l1 mid back s1 CF' P' PL) as (entry & s2 & EE & X2 & ED);
    try assumption.
  - apply SVE. exact AL.
  - intros _. lia.
  - apply (cd_ok _ _ _ _ _ _ _ _ CD).
  - rewrite (cd_rsp _ _ _ _ _ _ _ _ CD). lia.
  - rewrite (cd_rsp _ _ _ _ _ _ _ _ CD). lia.
  - assert (OVM : mid + 16 < 2 ^ 31).
    { pose proof (cr_small _ _ _ _ _ _ CR) as SM. destruct (call_total _ c k CF P) as (? & ? & lay' & tot' & _ & ELT & _ & _ & TB & _);
        [| |  | | | |].
      - rewrite <- (cr_args _ _ _ _ _ _ CR). clear -CR. destruct CR as [_ _ _ A _ _ _ _ _ _ _ _]. induction A; cbn [length]; congruence.
      - apply (cr_pieces _ _ _ _ _ _ CR).
      - clear -CR. destruct CR as [_ _ _ A _ _ _ _ _ _ _ _]. induction A as [|p a m m' (H & _) _ IH]; constructor; auto.
      - apply (proj1 (cr_callee _ _ _ _ _ _ CR)).
      - apply (proj1 (cr_rax _ _ _ _ _ _ CR)).
      - exact SM.
      - rewrite EL in ELT. injection ELT as <- <-. lia. }
    exists code, sub, s1, entry, s2, position, (gp * 8), (mid + 16).
    split; [exact EQ|]. split; [exact X1|]. split; [exact EE|]. split; [exact X2|]. split; [exact EPOS|]. split.
    { unfold variadic_data. rewrite L1. cbn [bind]. rewrite add_int_fits by lia. cbn [bind]. rewrite EG. reflexivity. }
    cbv zeta. intros va V st MS BS LV HV VT VL.
    pose proof (ed_rbp _ _ _ _ _ _ _ _ _ ED) as BP. pose proof (cd_rsp _ _ _ _ _ _ _ _ CD) as SPE.
    set (sp := gpr s1 RSP) in *. set (sv := gpr s2 RBP - position) in *.
    assert (SVB : 0 <= sv /\ sv + 48 <= sp) by (unfold sv; lia).
    destruct (scalar8_total va RAX (proj1 HV)) as (lv & ELV).
    destruct (va_start_ok F st va V (gp * 8) (mid + 16) position
      (lv ++ [I2 (Mov W4) (IMM (gp * 8)) (MEM gp_offset_offset RAX); I2 (Mov W4) (IMM 0) (MEM fp_offset_offset RAX);
              I2 (Lea W8) (MEM (mid + 16) RBP) (R8 RDI); I2 (Mov W8) (R8 RDI) (MEM overflow_arg_area_offset RAX);
              I2 (Lea W8) (MEM (- position) RBP) (R8 RDI); I2 (Mov W8) (R8 RDI) (MEM reg_save_area_offset RAX)]))
      as (st' & XS & MS' & BS' & SS' & VF & KS); try assumption; try lia.
    { unfold emit_va_start. rewrite ELV. reflexivity. }
    exists (lv ++ [I2 (Mov W4) (IMM (gp * 8)) (MEM gp_offset_offset RAX); I2 (Mov W4) (IMM 0) (MEM fp_offset_offset RAX);
              I2 (Lea W8) (MEM (mid + 16) RBP) (R8 RDI); I2 (Mov W8) (R8 RDI) (MEM overflow_arg_area_offset RAX);
              I2 (Lea W8) (MEM (- position) RBP) (R8 RDI); I2 (Mov W8) (R8 RDI) (MEM reg_save_area_offset RAX)]), st'.
    split; [unfold emit_va_start; rewrite ELV; reflexivity|]. split; [exact XS|]. split; [exact KS|]. split; [exact BS'|].
    split; [exact SS'|]. split; [exact MS'|].
    unfold unnamed_memory. fold sv. unfold unnamed_memory in LV, VL. fold sv in LV, VL. rewrite BS, BP in VF. rewrite BP in LV, VL |- *.
    replace (sp - 16 + 16) with sp in * by lia.
    apply (walk_ok F (named ++ extra ++ rest) c s s2 args layout total sub sv sp V P) with
      (post := rest) (i := length named) (gp := gp) (sse := sse) (regs := regs) (stk := stk) (gp' := gpe) (sse' := ssee) (l2 := l2)
      (cur := mid) (pre := named); try assumption; try reflexivity.
    + intros r reg q i pos a j I EP EN EM NA J.
      assert (J8 : 0 <= j < 8) by (pose proof (cf_size _ _ CF r I); lia).
      unfold sv. rewrite (ed_saved _ _ _ _ _ _ _ _ _ ED position q reg j eq_refl EPOS EN J8).
      change (gpr s1 reg) with (content s1 (GP reg)). rewrite <- EP.
      apply (cd_regs _ _ _ _ _ _ _ _ CD r i pos a j I EM NA J).
    + intros i off size a j I NA J. pose proof (lf_in _ _ _ _ _ (layout_gives _ _ _ _ _ P EL) i off size I) as (O1 & _).
      unfold sp. rewrite (ed_above _ _ _ _ _ _ _ _ _ ED) by (fold sp; lia).
      apply (cd_stack _ _ _ _ _ _ _ _ CD i off size a j I NA J).
    + lia.
    + lia.
    + intros r I. rewrite ER. apply in_or_app. right. exact I.
    + intros q I. rewrite ELL. apply in_or_app. right. exact I.
    + intros x X. rewrite KS; [apply LV; exact X|]. intros Y. apply (VL x Y). exact X.
    + replace (8 * gp) with (gp * 8) by lia. replace (sp + mid) with (sp - 16 + (mid + 16)) by lia.
      replace (sp - 16 - position) with sv in VF by (unfold sv; lia). exact VF.
    + rewrite firstn_length, skipn_length, (cr_args _ _ _ _ _ _ CR), !app_length. lia.
    + intros j a E. assert (J : (j < length extra)%nat).
      { assert (j < length (firstn (length extra) (skipn (length named) args)))%nat by (apply nth_error_Some; congruence).
        rewrite firstn_length in H. lia. }
      assert (NF : forall (q : list Z) m i, (i < m)%nat -> nth_error (firstn m q) i = nth_error q i).
      { clear. induction q as [|x q IH]; intros [|m] [|i] L; cbn [firstn nth_error]; try reflexivity; try lia. apply IH. lia. }
      assert (NS : forall (q : list Z) m i, nth_error (skipn m q) i = nth_error q (m + i)).
      { clear. induction q as [|x q IH]; intros [|m] i; cbn [skipn nth_error Nat.add]; try reflexivity; [destruct i; reflexivity|apply IH]. }
      rewrite NF, NS in E by exact J. exact E.
Qed.
Print Assumptions C38_va_arg_partial.

(** ** What is missing *)

(** va_arg of a double, or of any argument with a vector register, is
    rejected: the compiler stops with an error. *)
Theorem C38_vector_refuted t l p va code :
  conforming t -> abi_classes t (Some l) -> In SSE l -> emit_va_arg p va t <> Ok code.
Proof.
  intros C A I E. destruct (C37_classes_partial t C) as (q & A' & EC). assert (q = Some l) by (apply (C37_abi_unique t); assumption).
  subst q. unfold emit_va_arg in E. rewrite EC in E. cbn [bind] in E. apply bind_ok in E. destruct E as (lv & _ & E).
  apply bind_ok in E. destruct E as (fr & EF & _).
  assert (NG : forall l, In SSE l -> num_gp (map class_of l) = Fail).
  { clear. induction l as [|e l IH]; intros I; [destruct I|]. destruct e; cbn [map class_of num_gp class_eqb]; [|reflexivity].
    rewrite IH; [reflexivity|]. destruct I as [H|H]; [discriminate|exact H]. }
  destruct l as [|e l]; [destruct I|]. cbn [map] in EF. replace (class_eqb (class_of e) CLASS_MEMORY) with false in EF by (destruct e; reflexivity).
  change (class_of e :: map class_of l) with (map class_of (e :: l)) in EF. rewrite (NG _ I) in EF. discriminate.
Qed.
Print Assumptions C38_vector_refuted.

Lemma double_conforming : conforming (ASimple ST_DOUBLE).
Proof.
  assert (SA : forall o s, scalar_at (ASimple ST_DOUBLE) o s -> o = 0 /\ s = ASimple ST_DOUBLE) by (intros o s H; inversion H; auto).
  constructor; try exact Logic.I; cbn [a_size]; try (vm_compute; reflexivity).
  - intros o s H. destruct (SA _ _ H) as (-> & ->). discriminate.
  - intros o s H. destruct (SA _ _ H) as (-> & ->). reflexivity.
  - intros i I L. change (sizeof_simple SYSV ST_DOUBLE) with 8 in L. right. exists 0, (ASimple ST_DOUBLE).
    split; [constructor|]. split; [reflexivity|]. cbn [a_size]. change (sizeof_simple SYSV ST_DOUBLE) with 8. lia.
  - change (sizeof_simple SYSV ST_DOUBLE) with 8. lia.
  - change (sizeof_simple SYSV ST_DOUBLE) with 8. lia.
Qed.
Example C38_vector_meets : conforming (ASimple ST_DOUBLE) /\ abi_classes (ASimple ST_DOUBLE) (Some [SSE]).
Proof.
  split; [apply double_conforming|]. split; [|split; [reflexivity|]].
  - intros [H|(o & s & H & N)]; [cbn in H; lia|]. inversion H; subst. apply N. reflexivity.
  - intros [|i] c E; [|destruct i; discriminate]. injection E as <-. split.
    + exists 0, (ASimple ST_DOUBLE). split; [constructor|]. split; [reflexivity|]. cbn. lia.
    + intros (o & s & H & K & _). inversion H; subst. discriminate.
Qed.

(** ** A call that meets the hypotheses: that of C66, whose last argument, a
    long, is unnamed. *)
Lemma long_integer : integer_argument (ASimple ST_LONG).
Proof.
  assert (SA : forall o s, scalar_at (ASimple ST_LONG) o s -> o = 0 /\ s = ASimple ST_LONG) by (intros o s H; inversion H; auto).
  assert (OC : forall i, 0 <= i -> 8 * i < 8 -> occupies (ASimple ST_LONG) i INTEGER).
  { intros i I L. exists 0, (ASimple ST_LONG). split; [constructor|]. split; [reflexivity|]. cbn [a_size]. change (sizeof_simple SYSV ST_LONG) with 8. lia. }
  split.
  - constructor; try exact Logic.I; cbn [a_size]; try (vm_compute; reflexivity).
    + intros o s H. destruct (SA _ _ H) as (-> & ->). discriminate.
    + intros o s H. destruct (SA _ _ H) as (-> & ->). reflexivity.
    + intros i I L. left. apply OC; assumption.
    + change (sizeof_simple SYSV ST_LONG) with 8. lia.
    + change (sizeof_simple SYSV ST_LONG) with 8. lia.
  - exists (Some [INTEGER]). split; [|constructor; [reflexivity|constructor]]. split; [|split; [reflexivity|]].
    + intros [H|(o & s & H & N)]; [cbn in H; lia|]. destruct (SA _ _ H) as (-> & ->). apply N. reflexivity.
    + intros [|i] c E; [|destruct i; discriminate]. injection E as <-. apply OC; lia.
Qed.
Example C38_meets : exists sub s2 position, 
  let live := unnamed_memory (gpr s2 RBP) position sub in
  forall V, V = 300000 -> (forall x, V <= x < V + 24 -> ~ live x) ->
  (exists va st, machine_ok st /\ gpr st RBP = gpr s2 RBP /\ (forall x, live x -> mem st x = mem s2 x) /\ holds_address st va V) ->
  exists st', serves no_fpu live V f_machine st' [(ASimple ST_LONG, 200300)].
Proof.
  destruct C66_call_meets as (CR & E1 & FIT & P). destruct C66_function_meets as (PL & E2 & VP & AL & ROOM).
  destruct (C38_va_arg_partial no_fpu (ASimple ST_INT) f_named f_extra [] f_info f_info' f_site f_args 1000 f_frame f_fr f_nodes
    0 [1; 2]%nat [3; 4; 5]%nat f_machine 4242) as (code & sub & s1 & entry & s2 & position & gp & ov & _ & _ & _ & _ & _ & _ & H);
    try assumption.
  - constructor; [apply long_integer|constructor].
  - lia.
  - exists sub, s2, position. cbv zeta in H |- *. intros V -> VL (va & st & M & B & L & HV).
    destruct (H va 300000 st M B L HV ltac:(lia) VL) as (start & st' & _ & _ & _ & _ & _ & _ & SV). exists st'. exact SV.
Qed.

(** A whole run: int f(int, ...) called with an int, a struct of 24 bytes, six longs and a
    pointer; the arguments are fetched one after the other to 400000, 400100
    and so on. *)
Definition v_named : list atype := [ASimple ST_INT].
Definition v_extra : list atype :=
  [ASimple ST_INT; big] ++ repeat (ASimple ST_LONG) 6 ++ [APointer].
Definition v_slot (i : nat) : slot := {| s_size := 8; s_loc := 8 * Z.of_nat (S i) |}.
Definition v_site : call_site := {|
  k_addresses := map v_slot (seq 0 10); k_pieces := map (fun i => s_loc (v_slot i)) (seq 10 6);
  k_rax := v_slot 20; k_callee := v_slot 21 |}.
Definition v_machine : machine := {|
  gpr := fun r => match r with RBP => 100000 | RSP => 90000 | _ => 5 end;
  xmm := fun _ => 0; flag := None;
  mem := fold_right (fun i m => store m (100000 - s_loc (v_slot i)) 8 (200000 + 100 * Z.of_nat i)) (fun a => a mod 251) (seq 0 10) |}.
Definition v_frame : list frame_ins :=
  [{| f_size := 8; f_vla := false; f_alloc := None |}; {| f_size := 4; f_vla := false; f_alloc := None |};
   {| f_size := 8; f_vla := false; f_alloc := Some (4, 4) |}].
Definition v_nodes : function_nodes := {| n_rbx := 8; n_pieces := [12]; n_params := [({| s_size := 8; s_loc := 20 |}, 24)] |}.
(** One va_arg: the addresses of the va_list and of the result are put into
    two slots below the frame. *)
Definition v_fetch (acc : res machine) (i : nat) : res machine :=
  let* st := acc in
  let va := {| s_size := 8; s_loc := 20008 |} in let p := {| s_size := 8; s_loc := 20016 |} in
  let st := set_mem st (store (store (mem st) (gpr st RBP - 20008) 8 300000) (gpr st RBP - 20016) 8 (400000 + 100 * Z.of_nat i)) in
  match nth_error v_extra i with
  | Some t => let* code := emit_va_arg p va t in run no_fpu code None st
  | None => Undef
  end.
Example C38_example :
  match get_calling_convention (ASimple ST_INT) (v_named ++ v_extra), get_calling_convention (ASimple ST_INT) v_named,
        allocate_frame v_frame 304 with
  | Ok c, Ok c', Ok fr =>
      match call_sequence (v_named ++ v_extra) c v_site, function_entry v_named true c' fr v_nodes, variadic_data v_named c', fr_preamble fr with
      | Ok (code, sub), Ok entry, Ok (gp, ov), Some position =>
          let r :=
            let* s1 := exec_all no_fpu code v_machine in
            let* s2 := exec_all no_fpu entry (push_return 4242 s1) in
            let va := {| s_size := 8; s_loc := 20008 |} in
            let st := set_mem s2 (store (mem s2) (gpr s2 RBP - 20008) 8 300000) in
            let* start := emit_va_start va gp ov position in
            let* st := exec_all no_fpu start st in
            fold_left v_fetch (seq 0 9) (Ok st) in
          match r with
          | Ok st =>
              map (fun i => load (mem st) (400000 + 100 * Z.of_nat i) 4) (seq 0 9) =
              map (fun i => load (mem v_machine) (200000 + 100 * Z.of_nat (S i)) 4) (seq 0 9) /\
              load (mem st) (400000 + 100 + 16) 8 = load (mem v_machine) (200200 + 16) 8 /\
              load (mem st) 300000 4 = 48
          | _ => False
          end
      | _, _, _, _ => False
      end
  | _, _, _ => False
  end.
Proof. vm_compute. split; [reflexivity|]. split; reflexivity. Qed.
