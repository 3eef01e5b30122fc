(** C65: an expression over integer variables, compiled end to end, computes
    its C value and has exactly its C effect. *)
From Verif Require Import Base Bytes Arch CTypesSpec ConstFold ConstFoldSpec X86 Codegen AsmSpec OpSelect CastSelect C33Props
  CExprSpec CExpr CExprElab CExprMachine CExprProofs CExprEval.

(** Slots are handed out in order: the n-th node built is at [loc n]. *)
Definition numbered (loc : nat -> Z) (n : nat) (L : list slot) : Prop :=
  forall i sl, nth_error L i = Some sl -> s_loc sl = loc (n + i)%nat.
Definition in_order {A} (loc : nat -> Z) (g : gen A) : Prop :=
  forall n a code L, g n = Ok (a, (code, L)) -> numbered loc n L.

Lemma one_numbered loc n out : s_loc out = loc n -> numbered loc n [out].
Proof.
  intros E [|i] sl H; cbn in H; [inversion H; subst; rewrite Nat.add_0_r; exact E|].
  destruct i; discriminate.
Qed.
Lemma none_numbered loc n : numbered loc n [].
Proof. intros [|i] sl H; discriminate. Qed.
Lemma ret_order {A} loc (a : A) : in_order loc (ret a).
Proof. intros n b code L E. inversion E. apply none_numbered. Qed.
Lemma bind_order {A B} loc (g : gen A) (f : A -> gen B) : in_order loc g -> (forall a, in_order loc (f a)) -> in_order loc (gbind g f).
Proof.
  intros HG HF n b code L E. unfold gbind in E. destruct (g n) as [[a [c l]]| |] eqn:EG; try discriminate. cbn [bind fst snd] in E.
  destruct (f a (n + length l)%nat) as [[b' [c' l']]| |] eqn:EF; try discriminate. cbn [bind fst snd] in E.
  inversion E; subst. intros i sl H. destruct (Nat.lt_ge_cases i (length l)) as [LT|GE].
  - rewrite nth_error_app1 in H by exact LT. apply (HG _ _ _ _ EG _ _ H).
  - rewrite nth_error_app2 in H by exact GE. rewrite (HF a _ _ _ _ EF _ _ H). f_equal. lia.
Qed.
Lemma node_order loc size f : in_order loc (node loc size f).
Proof.
  intros n a code L E. unfold node in E. destruct (f _); try discriminate. cbn [bind] in E. inversion E.
  apply one_numbered. reflexivity.
Qed.
Lemma to_var_order m loc e : in_order loc (to_var m loc e).
Proof. destruct e; [apply node_order|apply ret_order|apply node_order]. Qed.
Lemma variable_cast_order m loc v from to : in_order loc (variable_cast m loc v from to).
Proof.
  intros n a code L E. unfold variable_cast in E.
  destruct (compile_cast m from to v (loc n)) as [[o c]| |] eqn:C; try discriminate. cbn [bind fst snd] in E. inversion E; subst.
  destruct code as [|i code]; [apply none_numbered|]. apply one_numbered.
  unfold compile_cast in C.
  assert (ND : forall size (f : slot -> slot -> res (list instr)),
    (let* code := f v {| s_size := size; s_loc := loc n |} in Ok ({| s_size := size; s_loc := loc n |}, code)) = Ok (a, i :: code) -> s_loc a = loc n).
  { intros size f H. destruct (f v _); try discriminate. inversion H. reflexivity. }
  repeat (match type of C with
          | (if ?b then _ else _) = _ => destruct b
          | (let* _ := ?b in _) = _ => destruct b; cbn [bind] in C
          | _ => idtac
          end; try discriminate; try (apply ND in C; exact C)).
Qed.
Lemma cast_order m loc e t : in_order loc (evaluated_cast m loc e t).
Proof.
  unfold evaluated_cast. destruct (st_eqb _ _); [apply ret_order|].
  apply bind_order; [apply to_var_order|]. intros. apply bind_order; [apply variable_cast_order|]. intros. apply ret_order.
Qed.
Lemma binary_order loc t op a b : in_order loc (binary_node loc t op a b).
Proof.
  intros n o code L E. unfold binary_node in E. destruct (compile_binary _ _ _ _ _); try discriminate. cbn [bind] in E.
  inversion E. apply one_numbered. reflexivity.
Qed.
Lemma assign_order loc l v : in_order loc (assign_to l v).
Proof.
  intros n o code L E. unfold assign_to in E. destruct l; try discriminate. destruct (codegen_store _ _); try discriminate.
  inversion E. apply none_numbered.
Qed.
Lemma evaluate_order m ptr loc e : in_order loc (evaluate m ptr loc e).
Proof.
  induction e; cbn [evaluate]; try apply ret_order;
    repeat (apply bind_order; [first [assumption|apply to_var_order|apply binary_order|apply variable_cast_order|apply cast_order|apply assign_order]|intros]);
    try apply ret_order.
  destruct op; [apply ret_order| |];
    (apply bind_order; [apply to_var_order|intros]; apply bind_order; [apply node_order|intros]; apply ret_order).
Qed.

(** Every well-typed, supported and properly sequenced expression, whose
    variables are objects apart from each other, compiles; and the code, where
    the node slots lie apart from the variables and each other, runs to the
    end, leaves the C value in the result slot, leaves in the variables what C
    says, and changes nothing else. *)
Theorem C65_integer_expressions_partial : forall F W loc e st v st',
  world_ok W -> well_typed SYSV (w_type W) e -> supported SYSV (w_type W) e -> sequenced e ->
  (forall x, In x (reads e) \/ In x (writes e) -> w_used W x) ->
  (forall x, integer_type (w_type W x) -> representable SYSV (w_type W x) (st x)) ->
  c_eval SYSV (w_type W) e st = Some (v, st') ->
  exists out code L,
    compile_expression SYSV (w_type W) (w_ptr W) loc e = Ok (out, (code, L)) /\
    s_size out = object_bytes SYSV (c_type SYSV (w_type W) e) /\
    (forall i sl, nth_error L i = Some sl -> s_loc sl = loc i /\ 0 <= s_size sl <= 8) /\
    forall s, slots_ok W L -> represents W st s ->
      exists s', exec_all F code s = Ok s' /\ In out L /\ holds_value s' out v /\ represents W st' s' /\ quiet W L s s'.
Proof.
  intros F W loc e st v st' WOK WT SU SQ US FI E.
  destruct (elaborate_right (w_type W) e st v st' WT SU SQ FI E) as (t & EL & OK & TY & TE & TR & TW).
  assert (UT : forall x, In x (t_reads t) \/ In x (t_writes t) -> w_used W x) by (rewrite TR, TW; exact US).
  destruct (expression_spec F W WOK loc t st v st' 0%nat OK FI TE UT) as (out & code & L & G & SZ & ZL & RUN).
  exists out, code, L. unfold compile_expression. rewrite EL. cbn [bind]. rewrite G, <- TY.
  split; [reflexivity|]. split; [exact SZ|]. split.
  - intros i sl H. split; [|apply ZL, (nth_error_In _ _ H)].
    apply (bind_order loc _ _ (evaluate_order SYSV (w_ptr W) loc t) (to_var_order SYSV loc) 0%nat _ _ _ G i sl H).
  - intros s SO R.
    destruct (RUN [] s SO ltac:(intros k []) R I) as (s' & X & R' & _ & Q & [IO H]). exists s'. auto 6.
Qed.
Print Assumptions C65_integer_expressions_partial.

(** Slots as a frame lays them out, eight bytes each below [base], meet the
    requirement on the slots. *)
Theorem C65_frame_slots : forall W base L,
  (forall i sl, nth_error L i = Some sl -> s_loc sl = base + 8 * (Z.of_nat i + 1) /\ 0 <= s_size sl <= 8) ->
  0 <= base -> base + 8 * Z.of_nat (length L) <= w_rbp W -> w_rbp W < 2 ^ 64 ->
  (forall x, w_used W x ->
     clear (w_rbp W - base - 8 * Z.of_nat (length L), 8 * Z.of_nat (length L)) (var_area W x) /\
     clear (w_rbp W - base - 8 * Z.of_nat (length L), 8 * Z.of_nat (length L)) (slot_area W (w_ptr W x))) ->
  slots_ok W L.
Proof.
  intros W base L NUM B0 B1 B2 CL. split.
  - assert (SEP : forall K k, (forall i sl, nth_error K i = Some sl -> s_loc sl = base + 8 * (Z.of_nat (k + i) + 1) /\ 0 <= s_size sl <= 8) -> separate W K).
    { induction K as [|a K IH]; intros k H; cbn [separate]; [exact I|]. split.
      - intros b IB. apply In_nth_error in IB. destruct IB as [i IB].
        destruct (H 0%nat a eq_refl) as [A1 A2]. destruct (H (S i) b IB) as [C1 C2].
        unfold clear, slot_area. cbn [fst snd]. lia.
      - apply (IH (S k)). intros i sl X. replace (S k + i)%nat with (k + S i)%nat by lia. apply H. exact X. }
    apply (SEP L 0%nat). exact NUM.
  - intros a IA. apply In_nth_error in IA. destruct IA as [i IA]. destruct (NUM i a IA) as [A1 A2].
    assert (LI : Z.of_nat i < Z.of_nat (length L)) by (apply Nat2Z.inj_lt, nth_error_Some; congruence).
    split; [unfold in_space, slot_area; cbn [fst snd]; lia|].
    intros x U. destruct (CL x U) as [C1 C2]. unfold clear, slot_area, var_area in *. cbn [fst snd] in *. split; lia.
Qed.
Print Assumptions C65_frame_slots.

(** The hypotheses are met: int a = -7, signed char c = -5, unsigned u = 2,
    long l; the expression [l = a + c * 3, a -= u]. *)
Definition ex_world : world :=
  {| w_type := fun x => match x with 0 => ST_INT | 1 => ST_SCHAR | 2 => ST_UINT | _ => ST_LONG end%nat;
     w_ptr := fun x => {| s_size := 8; s_loc := 8 * (Z.of_nat x + 1) |};
     w_addr := fun x => 500 + 8 * Z.of_nat x;
     w_used := fun x => (x < 4)%nat;
     w_rbp := 1000 |}.
Definition ex_loc (n : nat) : Z := 40 + 8 * (Z.of_nat n + 1).
Definition ex_expr : cexpr :=
  CComma (CAssign 3 (CBin OP_ADD (CVar 0) (CBin OP_MUL (CVar 1) (CLit ST_INT 3))))
         (CAssignOp OP_SUB false 0 (CVar 2)).
Definition ex_store (x : nat) : Z := match x with 0%nat => -7 | 1%nat => -5 | 2%nat => 2 | _ => 0 end.
Definition ex_machine : machine :=
  {| gpr := fun r => match r with RBP => 1000 | RSP => 200 | _ => 0 end; xmm := fun _ => 0; flag := None;
     mem := store (store (store (store (store (store (store (fun _ => 0)
              992 8 500) 984 8 508) 976 8 516) 968 8 524) 500 4 (-7)) 508 1 (-5)) 516 4 2 |}.

Lemma ex_world_ok : world_ok ex_world.
Proof.
  split.
  - intros x U. cbn [ex_world w_used] in U. assert (x = 0 \/ x = 1 \/ x = 2 \/ x = 3)%nat as [->|[->|[->| ->]]] by lia;
      (split; [cbn; tauto|]); (split; [reflexivity|]); (split; vm_compute; split; discriminate).
  - intros x y UX UY. cbn [ex_world w_used] in UX, UY.
    assert (x = 0 \/ x = 1 \/ x = 2 \/ x = 3)%nat as [->|[->|[->| ->]]] by lia;
    assert (y = 0 \/ y = 1 \/ y = 2 \/ y = 3)%nat as [->|[->|[->| ->]]] by lia;
      unfold clear; cbn; (split; [lia|intros N; try (exfalso; apply N; reflexivity); lia]).
Qed.
Lemma ex_represents : represents ex_world ex_store ex_machine.
Proof.
  split; [|split; [reflexivity|]].
  - split; [intros r; destruct r; vm_compute; split; congruence|]. split; [intros x; vm_compute; split; congruence|].
    cbn [ex_machine mem]. intros x. repeat apply X86Proofs.store_bytes. intros _. lia.
  - intros x U. cbn [ex_world w_used] in U. assert (x = 0 \/ x = 1 \/ x = 2 \/ x = 3)%nat as [->|[->|[->| ->]]] by lia;
      (split; [vm_compute; reflexivity|]); (split; [vm_compute; reflexivity|]); vm_compute; split; discriminate.
Qed.

Example C65_example :
  exists out code L s', compile_expression SYSV (w_type ex_world) (w_ptr ex_world) ex_loc ex_expr = Ok (out, (code, L)) /\
    exec_all (C34Props.no_fpu) code ex_machine = Ok s' /\ holds_value s' out (-9) /\
    load (mem s') 500 4 = 2 ^ 32 - 9 /\ load (mem s') 524 8 = 2 ^ 64 - 22 /\ quiet ex_world L ex_machine s'.
Proof.
  destruct (C65_integer_expressions_partial C34Props.no_fpu ex_world ex_loc ex_expr ex_store (-9)
     (update (update ex_store 3%nat (-22)) 0%nat (-9))) as (out & code & L & E & SZ & NUM & RUN).
  - apply ex_world_ok.
  - cbn [ex_expr well_typed ex_world w_type integer_type]. unfold integer_type, representable.
    repeat match goal with |- _ /\ _ => split end; vm_compute; tauto || (split; discriminate) || discriminate.
  - cbn [ex_expr supported]. repeat match goal with |- _ /\ _ => split end; try exact I; vm_compute; discriminate.
  - cbn [ex_expr sequenced reads writes app]. unfold apart. cbn [In].
    repeat match goal with |- _ /\ _ => split end; try exact I; try tauto.
  - cbn [ex_expr reads writes app In ex_world w_used]. intros x H.
    repeat match goal with H : _ \/ _ |- _ => destruct H as [H|H] end; try contradiction; subst x; lia.
  - intros x _. destruct x as [|[|[|x]]]; vm_compute; split; discriminate.
  - reflexivity.
  - assert (LEN : match compile_expression SYSV (w_type ex_world) (w_ptr ex_world) ex_loc ex_expr with
                  | Ok (_, (_, l)) => Z.of_nat (length l) <= 50 | _ => False end) by (vm_compute; discriminate).
    rewrite E in LEN.
    assert (SO : slots_ok ex_world L).
    { apply (C65_frame_slots ex_world 40); [exact NUM|lia|cbn [ex_world w_rbp]; lia|reflexivity|].
      intros x U. cbn [ex_world w_used] in U. unfold clear, var_area, slot_area. revert LEN. generalize (Z.of_nat (length L)). intros n LEN.
      assert (x = 0 \/ x = 1 \/ x = 2 \/ x = 3)%nat as [->|[->|[->| ->]]] by lia;
        cbn -[Z.mul Z.sub Z.add]; unfold object_bytes; change (spec_width SYSV ST_INT / 8) with 4; change (spec_width SYSV ST_UINT / 8) with 4;
        change (spec_width SYSV ST_SCHAR / 8) with 1; change (spec_width SYSV ST_LONG / 8) with 8; split; lia. }
    destruct (RUN ex_machine SO ex_represents) as (s' & X & _ & H & (_ & _ & R) & Q).
    exists out, code, L, s'. split; [exact E|]. split; [exact X|]. split; [exact H|].
    destruct (R 0%nat ltac:(cbn; lia)) as (_ & R0 & _). destruct (R 3%nat ltac:(cbn; lia)) as (_ & R3 & _).
    split; [exact R0|]. split; [exact R3|exact Q].
Qed.
