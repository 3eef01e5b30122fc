(** C51: compound assignment [x op= e] is [x = x op e] with x taken once. *)
From Verif Require Import Base Bytes Arch CTypesSpec ArithConvSpec ConstFold ConstFoldSpec X86 Codegen AsmSpec C30Props C33Props
  CExprSpec CExpr CExprElab CExprMachine CExprProofs CExprEval C65Props.

Lemma unwritten m G e : forall st v st', c_eval m G e st = Some (v, st') -> forall x, ~ In x (writes e) -> st' x = st x.
Proof.
  induction e; intros st v0 st' E y N; cbn [c_eval writes] in *.
  - inversion E; reflexivity.
  - inversion E; reflexivity.
  - destruct (c_eval m G e1 st) as [[va st1]|] eqn:EA; [|discriminate].
    destruct (c_eval m G e2 st1) as [[vb st2]|] eqn:EB; [|discriminate].
    destruct (c_operator _ _ _ _ _ _); [|discriminate]. inversion E; subst.
    rewrite (IHe2 _ _ _ EB y), (IHe1 _ _ _ EA y); auto; intros H; apply N, in_or_app; auto.
  - destruct (c_eval m G e st) as [[va st1]|] eqn:EA; [|discriminate]. destruct (c_unop _ _ _ _); [|discriminate].
    inversion E; subst. eauto.
  - destruct (c_eval m G e st) as [[va st1]|] eqn:EA; [|discriminate]. inversion E; subst. eauto.
  - destruct (c_eval m G e st) as [[va st1]|] eqn:EA; [|discriminate]. inversion E; subst.
    unfold update. destruct (Nat.eqb_spec y x) as [->|]; [exfalso; apply N; left; reflexivity|].
    apply (IHe _ _ _ EA). intros H. apply N. right. exact H.
  - destruct (c_eval m G e st) as [[va st1]|] eqn:EA; [|discriminate].
    destruct (c_operator _ _ _ _ _ _); [|discriminate]. inversion E; subst.
    unfold update. destruct (Nat.eqb_spec y x) as [->|]; [exfalso; apply N; left; reflexivity|].
    apply (IHe _ _ _ EA). intros H. apply N. right. exact H.
  - destruct (c_eval m G e1 st) as [[va st1]|] eqn:EA; [|discriminate].
    rewrite (IHe2 _ _ _ E y), (IHe1 _ _ _ EA y); auto; intros H; apply N, in_or_app; auto.
Qed.

(** Whatever C says [x = x op e] does, the code for [x op= e] does, and its
    result is the new value; for the postfix form the result is the value x
    had. The right side's own effects happen once. *)
Theorem C51_compound_assignment_partial : forall F W loc op postfix x e st v st',
  world_ok W -> w_used W x -> (forall y, In y (reads e) \/ In y (writes e) -> w_used W y) ->
  well_typed SYSV (w_type W) e -> supported SYSV (w_type W) (CAssignOp op postfix x e) -> is_comparison op = false ->
  sequenced e -> ~ In x (writes e) ->
  (forall y, integer_type (w_type W y) -> representable SYSV (w_type W y) (st y)) ->
  c_eval SYSV (w_type W) (CAssign x (CBin op (CVar x) e)) st = Some (v, st') ->
  exists out code L,
    compile_expression SYSV (w_type W) (w_ptr W) loc (CAssignOp op postfix x e) = Ok (out, (code, L)) /\
    s_size out = object_bytes SYSV (w_type W x) /\
    forall s, slots_ok W L -> represents W st s ->
      exists s', exec_all F code s = Ok s' /\ holds_value s' out (if postfix then st x else v) /\
        represents W st' s' /\ quiet W L s s'.
Proof.
  intros F W loc op postfix x e st v st' WOK UX US WT SU NC SQ NW FI E.
  assert (I : integer_type (w_type W x)) by apply (proj1 WOK x UX).
  assert (E' : c_eval SYSV (w_type W) (CAssignOp op postfix x e) st = Some (if postfix then st x else v, st')).
  { cbn [c_eval c_type] in E |- *. destruct (c_eval SYSV (w_type W) e st) as [[ve st1]|] eqn:EE; [|discriminate].
    rewrite (unwritten _ _ _ _ _ _ EE x NW).
    destruct (c_operator SYSV op (w_type W x) (c_type SYSV (w_type W) e) (st x) ve) as [w|]; [|discriminate].
    inversion E; subst. destruct postfix; reflexivity. }
  destruct (C65_integer_expressions_partial F W loc (CAssignOp op postfix x e) st (if postfix then st x else v) st')
    as (out & code & L & EC & SZ & _ & RUN); auto.
  - cbn [well_typed]. auto.
  - cbn [sequenced]. auto.
  - cbn [reads writes In]. intros y [[<-|H]|[<-|H]]; auto.
  - exists out, code, L. split; [exact EC|]. split; [exact SZ|]. intros s SO R.
    destruct (RUN s SO R) as (s' & X & _ & H & R' & Q). exists s'. auto.
Qed.
Print Assumptions C51_compound_assignment_partial.

(** What is missing is false: for int x and unsigned y, [x >>= y] shifts in the
    common type, unsigned, so zeros come in at the top; whenever x is negative
    and y is not 0 the variable ends up with another value than x >> y. *)
Theorem C51_right_shift_refuted : forall F W loc x y st,
  world_ok W -> w_used W x -> w_used W y -> w_type W x = ST_INT -> w_type W y = ST_UINT ->
  (forall z, integer_type (w_type W z) -> representable SYSV (w_type W z) (st z)) ->
  st x < 0 -> 0 < st y < 32 ->
  exists v st', c_eval SYSV (w_type W) (CAssign x (CBin OP_RSHIFT (CVar x) (CVar y))) st = Some (v, st') /\
  v = st x / 2 ^ st y /\
  exists out code L v', compile_expression SYSV (w_type W) (w_ptr W) loc (CAssignOp OP_RSHIFT false x (CVar y)) = Ok (out, (code, L)) /\
    v' = (st x + 2 ^ 32) / 2 ^ st y /\ v' <> v /\
    forall s, slots_ok W L -> represents W st s ->
      exists s', exec_all F code s = Ok s' /\ holds_value s' out v' /\ represents W (update st x v') s'.
Proof.
  intros F W loc x y st WOK UX UY TX TY FI NEG CNT.
  assert (RX : - 2 ^ 31 <= st x) by (specialize (FI x); rewrite TX in FI; destruct (FI ltac:(cbn; tauto)) as [A _]; exact A).
  assert (P31 : 2 ^ 31 = 2147483648) by reflexivity. assert (P32 : 2 ^ 32 = 4294967296) by reflexivity.
  assert (P2 : 2 <= 2 ^ st y) by (change 2 with (2 ^ 1) at 1; apply Z.pow_le_mono_r; lia).
  assert (SMALL : - 2 ^ 31 <= st x / 2 ^ st y < 0).
  { split; [apply Z.div_le_lower_bound; nia|apply Z.div_lt_upper_bound; lia]. }
  assert (BIG : 0 <= (st x + 2 ^ 32) / 2 ^ st y < 2 ^ 31).
  { split; [apply Z.div_pos; lia|apply Z.div_lt_upper_bound; nia]. }
  set (v' := (st x + 2 ^ 32) / 2 ^ st y) in *.
  assert (IDX : convert SYSV ST_INT (st x) = st x) by (apply convert_id; [cbn; tauto|]; unfold representable, spec_min, spec_max; cbn; lia).
  exists (st x / 2 ^ st y), (update st x (st x / 2 ^ st y)). split; [|split; [reflexivity|]].
  { cbn [c_eval c_type]. rewrite TX. unfold c_operator, working_type. rewrite ?TY. cbn [is_shift]. change (spec_promote SYSV ST_INT) with ST_INT.
    rewrite IDX. unfold c_binop, math_binop. change (spec_width SYSV ST_INT) with 32.
    rewrite (proj2 (Z.leb_le 0 (st y))), (proj2 (Z.ltb_lt (st y) 32)) by lia. cbn [andb]. unfold fit. cbn [spec_signed]. 
    unfold spec_min, spec_max. cbn [spec_signed]. change (spec_width SYSV ST_INT) with 32.
    change (2 ^ (32 - 1)) with (2 ^ 31). rewrite (proj2 (Z.leb_le _ _)), (proj2 (Z.leb_le _ _)) by lia. cbn [andb].
    rewrite convert_id; [reflexivity|cbn; tauto|]. unfold representable, spec_min, spec_max; cbn; lia. }
  set (t := TAssignOp OP_RSHIFT false (TVar (w_type W x) x) (TVar (w_type W y) y)).
  assert (EL : elaborate SYSV (w_type W) (CAssignOp OP_RSHIFT false x (CVar y)) = Ok t).
  { unfold t. cbn [elaborate bind]. unfold promote. cbn [type_of]. rewrite TX, TY. reflexivity. }
  assert (OK : t_ok (w_type W) t).
  { cbn [t t_ok t_writes type_of]. rewrite TY, TX. split; [split; [reflexivity|cbn; tauto]|]. split; [exists x; rewrite TX; split; [reflexivity|cbn; tauto]|].
    split; [cbn; tauto|]. split; [split; [cbn; tauto|left; reflexivity]|]. split; [discriminate|reflexivity]. }
  assert (TE : t_eval t st = Some (v', update st x v')).
  { cbn [t t_eval type_of]. rewrite TX, TY.
    assert (CU : convert SYSV ST_UINT (st x) = st x + 2 ^ 32).
    { unfold convert. cbn [spec_signed]. change (spec_width SYSV ST_UINT) with 32. symmetry. apply (Z.mod_unique_pos _ _ (-1)); lia. }
    rewrite CU. unfold c_binop, math_binop. change (spec_width SYSV ST_UINT) with 32.
    rewrite (proj2 (Z.leb_le 0 (st y))), (proj2 (Z.ltb_lt (st y) 32)) by lia. cbn [andb]. unfold fit. cbn [spec_signed].
    change (spec_width SYSV ST_UINT) with 32. fold v'. rewrite Z.mod_small by lia.
    rewrite convert_id; [reflexivity|cbn; tauto|]. unfold representable, spec_min, spec_max; cbn; lia. }
  assert (US : forall z, In z (t_reads t) \/ In z (t_writes t) -> w_used W z).
  { cbn [t t_reads t_writes t_target app In]. intros z [[<-|[<-|[]]]|[<-|[]]]; auto. }
  destruct (expression_spec F W WOK loc t st v' (update st x v') 0%nat OK FI TE US) as (out & code & L & G & _ & _ & RUN).
  exists out, code, L, v'. unfold compile_expression. rewrite EL. cbn [bind]. split; [exact G|]. split; [reflexivity|]. split; [lia|].
  intros s SO R. destruct (RUN [] s SO ltac:(intros k []) R I) as (s' & X & R' & _ & _ & [_ H]). exists s'. auto.
Qed.
Print Assumptions C51_right_shift_refuted.

(** Met by [c += a], a signed char and an int, and by [a >>= u]. *)
Example C51_meets :
  supported SYSV (w_type ex_world) (CAssignOp OP_ADD true 1 (CVar 0)) /\
  c_eval SYSV (w_type ex_world) (CAssign 1 (CBin OP_ADD (CVar 1) (CVar 0))) ex_store = Some (-12, update ex_store 1%nat (-12)) /\
  w_type ex_world 0 = ST_INT /\ w_type ex_world 2 = ST_UINT /\ ex_store 0 = -7 /\ ex_store 2 = 2.
Proof.
  split; [cbn [supported]; split; [exact I|split; vm_compute; discriminate]|].
  split; [reflexivity|]. auto.
Qed.
