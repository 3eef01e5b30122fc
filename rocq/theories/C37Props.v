(** C37: register argument assignment of the System V convention. *)
From Verif Require Import Base Common Arch X86 SysV SysVSpec SysVProofs.

(** The ABI gives a type one class list at most. *)
Theorem C37_abi_unique t p q : abi_classes t p -> abi_classes t q -> p = q.
Proof.
  destruct p as [l|], q as [m|]; cbn [abi_classes]; try (intros; tauto).
  intros (_ & L & H) (_ & L' & H'). f_equal. apply nth_error_ext. intros i.
  assert (LL : length l = length m) by lia.
  destruct (nth_error l i) as [c|] eqn:E, (nth_error m i) as [d|] eqn:E'; try reflexivity.
  - apply H in E. apply H' in E'. destruct c, d; cbn [eightbyte_class] in *; tauto.
  - apply nth_error_None in E'. assert (i < length l)%nat by (apply nth_error_Some; congruence). lia.
  - apply nth_error_None in E. assert (i < length m)%nat by (apply nth_error_Some; congruence). lia.
Qed.
Print Assumptions C37_abi_unique.

(** Every conforming type is classified as the ABI prescribes. *)
Theorem C37_classes_partial t : conforming t ->
  exists p, abi_classes t p /\ classify t = Ok (match p with None => [CLASS_MEMORY] | Some l => map class_of l end).
Proof. intros C. destruct (classify_conforming t C) as (p & A & B & _). eauto. Qed.
Print Assumptions C37_classes_partial.

Lemma conforming_represents t : conforming t -> exists p, abi_classes t p /\ exists l, classify t = Ok l /\ represents l p.
Proof.
  intros C. destruct (classify_conforming t C) as (p & A & B & D). exists p. split; [exact A|]. eexists. split; [exact B|].
  destruct p as [l|]; cbn [represents]; [|reflexivity]. split; [reflexivity|]. destruct l; [contradiction|discriminate].
Qed.

(** The result of a call: [None] for void, otherwise what the ABI says. *)
Definition result_classes (ret : atype) (r : option (list eightbyte)) : Prop :=
  match ret with ASimple ST_VOID => r = Some [] | _ => conforming ret /\ abi_classes ret r end.

(** For a function whose result and arguments are conforming, every argument is
    where the ABI puts it: whole arguments in registers, eightbyte by eightbyte
    and from left to right, or on the stack in order; a result in memory takes
    rdi; rax gets the number of vector registers. *)
Theorem C37_convention_partial ret args rp ps :
  result_classes ret rp -> Forall2 (fun t p => conforming t /\ abi_classes t p) args ps ->
  exists c, get_calling_convention ret args = Ok c /\
    let w := abi_assign ps (abi_argument_registers rp) abi_vec in
    c_regs c = (match rp with None => [{| r_place := GP RDI; r_merged := None; r_size := 8 |}] | Some _ => [] end)
               ++ register_pieces 0 args w /\
    c_stack c = stack_arguments 0 w /\
    c_returns_address c = (match rp with None => true | Some _ => false end) /\
    (forall l, rp = Some l -> abi_result rp = Some (map r_place (c_ret_regs c))) /\
    c_rax c = vec_count w.
Proof.
  intros RC FA.
  assert (F2 : Forall2 (fun t p => exists l, classify t = Ok l /\ represents l p) args ps).
  { induction FA as [|t p args ps (C & A) _ IH]; constructor; [|exact IH].
    destruct (conforming_represents t C) as (q & A' & R). rewrite (C37_abi_unique t p q A A'). exact R. }
  assert (HD : exists ret_regs, (match ret with
      | ASimple ST_VOID => Ok ([], [], false, 0)
      | _ =>
          let* classes := classify ret in
          match classes with
          | [] => Undef
          | c0 :: _ =>
              if class_eqb c0 CLASS_MEMORY then
                Ok ([{| r_place := GP RDI; r_merged := None; r_size := 8 |}], [], true, 1)
              else let* l := return_parts classes 0 0 in Ok ([], l, false, 0)
          end
      end) = Ok (match rp with None => [{| r_place := GP RDI; r_merged := None; r_size := 8 |}] | Some _ => [] end,
                 ret_regs, match rp with None => true | Some _ => false end, match rp with None => 1 | Some _ => 0 end) /\
      forall l, rp = Some l -> abi_result rp = Some (map r_place ret_regs)).
  { assert (VOID : rp = Some [] -> forall l, rp = Some l -> abi_result rp = Some (map r_place [])) by (intros -> l _; reflexivity).
    assert (GEN : conforming ret /\ abi_classes ret rp -> exists ret_regs,
      (let* classes := classify ret in
          match classes with
          | [] => Undef
          | c0 :: _ =>
              if class_eqb c0 CLASS_MEMORY then
                Ok ([{| r_place := GP RDI; r_merged := None; r_size := 8 |}], [], true, 1)
              else let* l := return_parts classes 0 0 in Ok ([], l, false, 0)
          end) = Ok (match rp with None => [{| r_place := GP RDI; r_merged := None; r_size := 8 |}] | Some _ => [] end,
                 ret_regs, match rp with None => true | Some _ => false end, match rp with None => 1 | Some _ => 0 end) /\
      forall l, rp = Some l -> abi_result rp = Some (map r_place ret_regs)).
    { intros (C & A). destruct (conforming_represents ret C) as (q & A' & l & -> & R).
      rewrite <- (C37_abi_unique ret rp q A A') in R. cbn [bind]. destruct rp as [el|]; cbn [represents] in R.
      - destruct R as (-> & NE). cbn [abi_classes] in A. destruct A as (NM & LE & _).
        assert (L2 : (length el <= 2)%nat).
        { apply Nat2Z.inj_le. rewrite LE. change (Z.of_nat 2) with 2.
          assert (a_size ret <= 16). { destruct (Z.le_gt_cases (a_size ret) 16); [assumption|]. destruct NM. left. lia. }
          Z.div_mod_to_equations. lia. }
        destruct (return_spec el NE L2) as (pl & E & RP).
        exists (map (fun p => {| r_place := p; r_merged := None; r_size := 8 |}) pl). split.
        + destruct (map class_of el) as [|c0 rest] eqn:EM; [destruct el; [congruence|discriminate]|].
          assert (ME : class_eqb c0 CLASS_MEMORY = false).
          { destruct el as [|e el]; [discriminate|]. cbn in EM. injection EM as <- _. destruct e; reflexivity. }
          rewrite ME. rewrite RP. reflexivity.
        + intros l0 El. rewrite E. f_equal. rewrite map_map. cbn. rewrite map_id. reflexivity.
      - subst l. exists []. split; [reflexivity|]. intros l0; discriminate. }
    unfold result_classes in RC. destruct ret as [s| | | |]; try (apply GEN; exact RC).
    destruct s; try (apply GEN; exact RC). exists []. split; [rewrite RC; reflexivity|apply VOID; exact RC]. }
  destruct HD as (ret_regs & HD & HR).
  assert (GP0 : abi_argument_registers rp = gp_left (match rp with None => 1 | Some _ => 0 end)) by (destruct rp; reflexivity).
  destruct (assign_spec args ps F2 0%nat (match rp with None => 1 | Some _ => 0 end) 0) as (gp' & AS & _ & _);
    [destruct rp; lia|lia|].
  cbv zeta in AS. rewrite <- GP0 in AS. change (vec_left 0) with abi_vec in AS. rewrite Z.add_0_l in AS.
  unfold get_calling_convention. rewrite HD. cbn [bind]. rewrite AS. cbn [bind].
  eexists. split; [reflexivity|]. cbn [c_regs c_stack c_returns_address c_ret_regs c_rax].
  repeat (split; [reflexivity|]). split; [exact HR|reflexivity].
Qed.
Print Assumptions C37_convention_partial.

(** For every result and argument types whatever: no register is used twice,
    registers are handed out in the ABI's order, and each argument is either
    wholly in registers, one per eightbyte, or wholly on the stack. *)
Theorem C37_distinct_registers ret args c : get_calling_convention ret args = Ok c ->
  NoDup (map r_place (c_regs c)) /\
  exists ps w, w = abi_assign ps (if c_returns_address c then tl abi_gp else abi_gp) abi_vec /\ length w = length args /\
    c_regs c = (if c_returns_address c then [{| r_place := GP RDI; r_merged := None; r_size := 8 |}] else []) ++ register_pieces 0 args w /\
    c_stack c = stack_arguments 0 w /\
    (forall i t places, nth_error args i = Some t -> nth_error w i = Some (Some places) -> 0 < a_size t ->
       Z.of_nat (length places) = (a_size t + 7) / 8).
Proof.
  unfold get_calling_convention. intros E.
  match type of E with bind ?h _ = _ => assert (HD : forall hidden ret_regs address gp, h = Ok (hidden, ret_regs, address, gp) ->
      hidden = (if address then [{| r_place := GP RDI; r_merged := None; r_size := 8 |}] else []) /\ gp = (if address then 1 else 0)) end.
  { intros hidden ret_regs address gp.
    assert (GEN : (let* classes := classify ret in
          match classes with
          | [] => Undef
          | c0 :: _ =>
              if class_eqb c0 CLASS_MEMORY then
                Ok ([{| r_place := GP RDI; r_merged := None; r_size := 8 |}], [], true, 1)
              else let* l := return_parts classes 0 0 in Ok ([], l, false, 0)
          end) = Ok (hidden, ret_regs, address, gp) ->
      hidden = (if address then [{| r_place := GP RDI; r_merged := None; r_size := 8 |}] else []) /\ gp = (if address then 1 else 0)).
    { destruct (classify ret) as [[|c0 l]| |]; cbn [bind]; try discriminate.
      destruct (class_eqb c0 CLASS_MEMORY); [intros F; injection F as <- <- <- <-; auto|].
      destruct (return_parts _ 0 0); cbn [bind]; try discriminate. intros F; injection F as <- <- <- <-; auto. }
    destruct ret as [s| | | |]; try exact GEN. destruct s; try exact GEN. intros F; injection F as <- <- <- <-; auto. }
  destruct (match ret with ASimple ST_VOID => _ | _ => _ end) as [[[[hidden ret_regs] address] gp]| |] eqn:EH; cbn [bind] in E; try discriminate.
  destruct (HD _ _ _ _ eq_refl) as (-> & ->). clear HD EH.
  destruct (assign_arguments 0 args (if address then 1 else 0) 0) as [[[[regs stack] gp'] sse']| |] eqn:EA; cbn [bind] in E; try discriminate.
  injection E as <-. cbn [c_regs c_stack c_returns_address].
  destruct (assign_represents args _ _ _ _ EA) as (ps & F2).
  destruct (assign_spec args ps F2 0%nat (if address then 1 else 0) 0) as (gp1 & AS & _ & _); [destruct address; lia|lia|].
  cbv zeta in AS. change (vec_left 0) with abi_vec in AS.
  assert (GP0 : gp_left (if address then 1 else 0) = if address then tl abi_gp else abi_gp) by (destruct address; reflexivity).
  rewrite GP0 in AS. rewrite EA in AS. injection AS as -> -> _ _.
  set (w := abi_assign ps (if address then tl abi_gp else abi_gp) abi_vec).
  assert (LW : length w = length args).
  { unfold w. rewrite abi_assign_length. symmetry. clear -F2. induction F2; cbn; congruence. }
  assert (ND : NoDup (if address then tl abi_gp else abi_gp)) by (destruct address; repeat constructor; cbn; intuition discriminate).
  assert (NV : NoDup abi_vec) by (repeat constructor; cbn; intuition discriminate).
  destruct (abi_assign_nodup ps _ _ ND NV) as (N1 & N2 & _). fold w in N1, N2. split.
  - rewrite map_app, register_pieces_places by exact LW. destruct address; cbn [map r_place app]; [|exact N1].
    constructor; [|exact N1]. intros I. apply N2 in I. cbn in I. intuition discriminate.
  - exists ps, w. split; [reflexivity|]. split; [exact LW|]. split; [reflexivity|]. split; [reflexivity|].
    intros i t places ET EW S0.
    assert (G : forall args ps, Forall2 (fun t p => exists l, classify t = Ok l /\ represents l p) args ps ->
       forall gp vec i, nth_error args i = Some t -> nth_error (abi_assign ps gp vec) i = Some (Some places) ->
       Z.of_nat (length places) = (a_size t + 7) / 8).
    { clear -S0. induction 1 as [|t0 p args ps (l & CL & RP) _ IH]; intros gp vec [|i] ET EW; try discriminate; cbn [abi_assign nth_error] in *.
      - injection ET as ->. destruct p as [el|]; [|discriminate]. cbn [represents] in RP. destruct RP as (-> & NE).
        destruct (take el gp vec) as [[[pl g'] v']|] eqn:ETK; [|discriminate]. cbn in EW. injection EW as ->.
        destruct (take_split _ _ _ _ _ _ ETK) as (_ & _ & _ & _ & _ & _ & _ & LL). rewrite LL.
        destruct (classify_shape _ _ CL) as [EM|(_ & H)].
        + destruct el as [|[|] el]; discriminate.
        + rewrite map_length in H. apply H. right. exact S0.
      - destruct p as [el|]; [destruct (take el gp vec) as [[[pl g'] v']|]|]; cbn [nth_error] in EW; eapply IH; eauto. }
    eapply G; [exact F2|exact ET|exact EW].
Qed.
Print Assumptions C37_distinct_registers.

(** ** What is false *)

(** An integer that ends at byte 8 turns a floating second eightbyte into an
    integer one: struct { long a; double d; } travels in rdi and rsi instead
    of rdi and xmm0. *)
Theorem C37_boundary_refuted size fs (t := AStruct size fs) o s :
  wf t -> (forall o s, scalar_at t o s -> scalar_class s <> None) -> (forall o s, scalar_at t o s -> o mod a_size s = 0) ->
  8 < size <= 16 ->
  scalar_at t o s -> scalar_class s = Some INTEGER -> o + a_size s = 8 ->
  occupies t 1 SSE -> ~ occupies t 1 INTEGER ->
  classify t = Ok [CLASS_INTEGER; CLASS_INTEGER] /\ abi_classes t (Some [INTEGER; SSE]).
Proof.
  intros W SO AL SZ SA SC EN O1 N1.
  assert (SS := class_size s ltac:(congruence)).
  assert (O0 : occupies t 0 INTEGER).
  { exists o, s. split; [exact SA|]. split; [exact SC|]. pose proof (scalar_inside _ _ _ W SA). lia. }
  split.
  - unfold classify. rewrite non_recursive_other by reflexivity. cbn [bind]. subst t.
    cbv beta iota. destruct (Z.ltb_spec 32 size) as [L32|L32]; [lia|]. rewrite round8 by lia. cbn [bind].
    assert (K : (size + 7) / 8 = 2) by (Z.div_mod_to_equations; lia).
    rewrite K. change (Z.to_nat (8 * 2 / 8)) with 2%nat.
    destruct (eightbytes_spec (AStruct size fs) W SO eq_refl 2 0) as (l & -> & LL & H). cbn [bind].
    destruct l as [|a [|b [|]]]; try discriminate.
    assert (CA := H 0%nat a eq_refl). assert (CB := H 1%nat b eq_refl). cbn in CA, CB.
    assert (a = CLASS_INTEGER) as ->.
    { destruct CA as [(-> & _)|[(_ & N & _)|(_ & N & _)]]; [reflexivity|..]; destruct N;
        destruct O0 as (o0 & s0 & X & Y & Z0 & Z1); exists o0, s0; repeat split; auto; lia. }
    assert (b = CLASS_INTEGER) as ->.
    { destruct CB as [(-> & _)|[(_ & N & _)|(_ & N & _)]]; [reflexivity|..]; destruct N;
        exists o, s; repeat split; auto; lia. }
    reflexivity.
  - split; [|split].
    + intros [H|(o0 & s0 & H & N)]; [cbn in H; lia|]. apply N, AL. exact H.
    + cbn [length a_size t]. subst t. cbn [a_size]. Z.div_mod_to_equations. lia.
    + intros [|[|[|i]]] c E; try discriminate; injection E as <-; cbn [eightbyte_class]; [exact O0|split; assumption].
Qed.
Print Assumptions C37_boundary_refuted.

(** A structure of 17 to 32 bytes that starts with a floating eightbyte is
    spread over three or four registers; the ABI passes it in memory. *)
Theorem C37_large_refuted size fs (t := AStruct size fs) :
  wf t -> (forall o s, scalar_at t o s -> scalar_class s <> None) -> 16 < size <= 32 ->
  occupies t 0 SSE -> ~ counted t 0 INTEGER ->
  abi_classes t None /\ exists l, classify t = Ok (CLASS_SSE :: l) /\ (2 <= length l)%nat.
Proof.
  intros W SO SZ O0 N0. split; [left; cbn; lia|].
  unfold classify. rewrite non_recursive_other by reflexivity. cbn [bind]. subst t.
  cbv beta iota. destruct (Z.ltb_spec 32 size) as [L32|L32]; [lia|]. rewrite round8 by lia. cbn [bind].
  replace (8 * ((size + 7) / 8) / 8) with ((size + 7) / 8) by (rewrite Z.mul_comm, Z.div_mul; lia).
  assert (K : (3 <= Z.to_nat ((size + 7) / 8))%nat).
  { apply Nat2Z.inj_le. rewrite Z2Nat.id by (apply Z.div_pos; lia). change (Z.of_nat 3) with 3. Z.div_mod_to_equations. lia. }
  destruct (eightbytes_spec (AStruct size fs) W SO eq_refl (Z.to_nat ((size + 7) / 8)) 0) as (l & E & LL & H). rewrite E. cbn [bind].
  pose proof (eightbytes_plain _ _ _ _ E) as (PL & _).
  destruct l as [|a l]; [cbn in LL; lia|].
  assert (a = CLASS_SSE) as ->.
  { destruct (H 0%nat a eq_refl) as [(_ & C)|[(-> & _)|(_ & _ & N)]]; [contradiction|reflexivity|].
    destruct N. destruct O0 as (o0 & s0 & X & Y & Z0 & Z1). exists o0, s0. cbn. repeat split; auto; lia. }
  rewrite plain_not_mem by exact PL. cbn [orb negb class_eqb]. rewrite andb_false_r. exists l. split; [reflexivity|]. cbn in LL. lia.
Qed.
Print Assumptions C37_large_refuted.

(** A packed structure of at most 16 bytes is put in registers; the ABI passes
    an object with an unaligned member in memory. *)
Theorem C37_packed_refuted size fs (t := AStruct size fs) o s l :
  wf t -> 0 < size <= 16 -> scalar_at t o s -> o mod a_size s <> 0 ->
  classify t = Ok l -> abi_classes t None /\ l <> [CLASS_MEMORY].
Proof.
  intros W SZ SA NA E. split; [right; eauto|]. revert E.
  unfold classify. rewrite non_recursive_other by reflexivity. cbn [bind]. subst t.
  cbv beta iota. destruct (Z.ltb_spec 32 size) as [L32|L32]; [lia|]. rewrite round8 by lia. cbn [bind].
  destruct (eightbytes _ _ 0) as [l0| |] eqn:E; cbn [bind]; try discriminate.
  destruct (eightbytes_plain _ _ _ _ E) as (PL & LL). rewrite plain_not_mem by exact PL. cbn [orb].
  replace (2 <? Z.of_nat (length l0)) with false.
  2:{ symmetry. apply Z.ltb_ge. rewrite LL. rewrite Z.mul_comm, Z.div_mul by lia.
      rewrite Z2Nat.id by (apply Z.div_pos; lia). Z.div_mod_to_equations. lia. }
  cbn [andb]. intros F. injection F as <-. intros ->. inversion PL as [|? ? [P|[P|P]]]; discriminate.
Qed.
Print Assumptions C37_packed_refuted.

(** More than six arguments in registers overrun the compiler's own table:
    for any list of conforming scalars that leaves none on the stack, as soon
    as there are more than six. *)
Lemma register_pieces_length args : forall i w, length w = length args ->
  Forall (fun o => match o with Some ps => ps <> [] | None => False end) w -> (length args <= length (register_pieces i args w))%nat.
Proof.
  induction args as [|t args IH]; intros i [|[ps|] w] L F; try discriminate; cbn [register_pieces length]; try lia.
  - inversion F as [|? ? NE F']; subst. rewrite app_length. specialize (IH (S i) w ltac:(cbn in L; lia) F').
    destruct ps; [congruence|]. cbn [pieces length]. lia.
  - inversion F; contradiction.
Qed.
Lemma stack_empty w : forall i, stack_arguments i w = [] -> Forall (fun o => match o with Some _ => True | None => False end) w.
Proof.
  induction w as [|[ps|] w IH]; intros i E; [constructor| |discriminate].
  constructor; [exact Logic.I|]. apply (IH (S i)). exact E.
Qed.

Theorem C37_register_table_refuted ret args c :
  get_calling_convention ret args = Ok c -> c_stack c = [] -> (forall t, In t args -> 0 < a_size t) ->
  (6 < length args)%nat -> reg_variables_fit c = false.
Proof.
  intros E ST SZ L. destruct (C37_distinct_registers ret args c E) as (_ & ps & w & _ & LW & R & S & P).
  rewrite ST in S. symmetry in S. apply stack_empty in S.
  assert (F : Forall (fun o => match o with Some ps => ps <> [] | None => False end) w).
  { apply Forall_forall. intros o I. rewrite Forall_forall in S. specialize (S o I). destruct o as [places|]; [|contradiction].
    apply In_nth_error in I as (i & I). destruct (nth_error args i) as [t|] eqn:ET.
    - specialize (SZ t (nth_error_In _ _ ET)). specialize (P i t places ET I SZ). intros ->. cbn in P.
      assert (1 <= (a_size t + 7) / 8) by (Z.div_mod_to_equations; lia). lia.
    - apply nth_error_None in ET. assert (i < length w)%nat by (apply nth_error_Some; congruence). lia. }
  pose proof (register_pieces_length args 0 w LW F) as RL.
  unfold reg_variables_fit. rewrite R, app_length. apply Nat.leb_gt. cbn [length calling_convention]. lia.
Qed.
Print Assumptions C37_register_table_refuted.

(** ** Examples *)

(** struct { double d; int a[2]; } is conforming. *)
Definition mixed : atype := AStruct 16 [(0, ASimple ST_DOUBLE); (8, AArray 2 (ASimple ST_INT))].
Lemma mixed_scalars o s : scalar_at mixed o s ->
  (o = 0 /\ s = ASimple ST_DOUBLE) \/ (o = 8 /\ s = ASimple ST_INT) \/ (o = 12 /\ s = ASimple ST_INT).
Proof.
  intros H. inversion H as [| |n fs o0 m o' s0 I SA|]; subst. destruct I as [I|[I|[]]]; injection I as <- <-.
  - inversion SA; subst. left. auto.
  - inversion SA as [| | |n m i o1 s1 R SB]; subst. inversion SB; subst. assert (i = 0 \/ i = 1) as [-> | ->] by lia; auto.
Qed.
Example C37_meets : conforming mixed /\ classify mixed = Ok [CLASS_SSE; CLASS_INTEGER].
Proof.
  split; [|reflexivity].
  assert (D : scalar_at mixed (0 + 0) (ASimple ST_DOUBLE)) by (eapply scalar_field; [left; reflexivity|constructor]).
  assert (I : scalar_at mixed (8 + (0 * 4 + 0)) (ASimple ST_INT)).
  { eapply scalar_field; [right; left; reflexivity|]. apply (scalar_element 2 (ASimple ST_INT) 0); [lia|constructor]. }
  constructor.
  - exact Logic.I.
  - vm_compute. repeat split; congruence.
  - vm_compute. congruence.
  - intros o s H. apply mixed_scalars in H as [(-> & ->)|[(-> & ->)|(-> & ->)]]; discriminate.
  - intros o s H. apply mixed_scalars in H as [(-> & ->)|[(-> & ->)|(-> & ->)]]; reflexivity.
  - intros i I0 I1. cbn [a_size mixed] in I1. assert (i = 0 \/ i = 1) as [-> | ->] by lia.
    + right. exists 0, (ASimple ST_DOUBLE). split; [exact D|]. split; [reflexivity|]. cbn. lia.
    + left. exists 8, (ASimple ST_INT). split; [exact I|]. split; [reflexivity|]. cbn. lia.
  - cbn. lia.
  - intros _ o s H SC E. apply mixed_scalars in H as [(-> & ->)|[(-> & ->)|(-> & ->)]]; cbn in E; try discriminate; lia.
Qed.

(** int, that structure, five longs, a char: the last long goes on the stack,
    the char too, and nothing is shared. *)
Example C37_example :
  match get_calling_convention (ASimple ST_INT)
          ([ASimple ST_INT; mixed] ++ repeat (ASimple ST_LONG) 5 ++ [ASimple ST_CHAR; ASimple ST_DOUBLE]) with
  | Ok c => map r_place (c_regs c) = [GP RDI; VEC 0; GP RSI; GP RDX; GP RCX; GP R_8; GP R_9; VEC 1] /\
            map r_size (c_regs c) = [4; 8; 8; 8; 8; 8; 8; 8] /\ c_stack c = [6; 7]%nat /\ c_rax c = 2
  | _ => False
  end.
Proof. vm_compute. auto. Qed.

(** The refuted cases exist: { long; double }, { double[3] }, packed
    { char; long }, and six longs with a double. *)
Definition long_double_pair : atype := AStruct 16 [(0, ASimple ST_LONG); (8, ASimple ST_DOUBLE)].
Example C37_boundary_meets : classify long_double_pair = Ok [CLASS_INTEGER; CLASS_INTEGER] /\ abi_classes long_double_pair (Some [INTEGER; SSE]).
Proof.
  assert (SC : forall o s, scalar_at long_double_pair o s -> (o = 0 /\ s = ASimple ST_LONG) \/ (o = 8 /\ s = ASimple ST_DOUBLE)).
  { intros o s H. inversion H as [| |n fs o0 m o' s0 I SA|]; subst. destruct I as [I|[I|[]]]; injection I as <- <-; inversion SA; subst; auto. }
  apply (C37_boundary_refuted 16 _ 0 (ASimple ST_LONG)).
  - vm_compute. repeat split; congruence.
  - intros o s H. apply SC in H as [(-> & ->)|(-> & ->)]; discriminate.
  - intros o s H. apply SC in H as [(-> & ->)|(-> & ->)]; reflexivity.
  - lia.
  - change 0 with (0 + 0). eapply scalar_field; [left; reflexivity|constructor].
  - reflexivity.
  - reflexivity.
  - exists (8 + 0), (ASimple ST_DOUBLE). split; [eapply scalar_field; [right; left; reflexivity|constructor]|].
    split; [reflexivity|]. cbn. lia.
  - intros (o & s & H & I & J). apply SC in H as [(-> & ->)|(-> & ->)]; [|discriminate]. cbn in J. lia.
Qed.
Example C37_large_meets : classify (AStruct 24 [(0, AArray 3 (ASimple ST_DOUBLE))]) = Ok [CLASS_SSE; CLASS_SSE; CLASS_SSE].
Proof. reflexivity. Qed.
Example C37_packed_meets : classify (AStruct 9 [(0, ASimple ST_CHAR); (1, ASimple ST_LONG)]) = Ok [CLASS_INTEGER; CLASS_INTEGER].
Proof. reflexivity. Qed.
Example C37_register_table_meets :
  match get_calling_convention (ASimple ST_VOID) (repeat (ASimple ST_LONG) 6 ++ [ASimple ST_DOUBLE]) with
  | Ok c => c_stack c = [] /\ reg_variables_fit c = false
  | _ => False
  end.
Proof. vm_compute. auto. Qed.
