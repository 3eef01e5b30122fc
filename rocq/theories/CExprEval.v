(** The code for a whole typed tree, by induction over the tree. *)
From Verif Require Import Base Bytes Arch CTypesSpec ConstConv ConstConvProofs ConstFold ConstFoldSpec ConstFoldProofs
  X86 X86Proofs Codegen CodegenProofs AsmSpec OpSelect CastSelect C30Props C33Props
  CExprSpec CExpr CExprElab CExprMachine CExprProofs.

Ltac Zify.zify_post_hook ::= idtac.
Local Notation m := SYSV.

Section Typed.
Variable G : nat -> simple_type.

Lemma result_facts T op a b v : arithmetic_int m T -> c_binop m T op a b = Some v ->
  (is_comparison op = true -> spec_width m T = 32) ->
  integer_type (operators_get_result_type op T) /\ representable m (operators_get_result_type op T) v /\
  object_bytes m (operators_get_result_type op T) = spec_width m T / 8.
Proof.
  intros A C CM. destruct (arith_wide m T A) as [I N].
  assert (OB : object_bytes m T = spec_width m T / 8) by (destruct T; reflexivity || contradiction).
  destruct (is_comparison op) eqn:IC.
  - replace (operators_get_result_type op T) with ST_INT by (destruct op; try discriminate IC; reflexivity).
    split; [cbn; tauto|]. split; [|rewrite CM by reflexivity; reflexivity].
    destruct (compare_rep _ _ _ _ _ IC I N C) as [-> | ->]; vm_compute; split; discriminate.
  - replace (operators_get_result_type op T) with T by (destruct op; try discriminate IC; reflexivity).
    split; [exact I|]. split; [|exact OB]. apply (c_binop_rep m T op a b v (conj I N) C).
Qed.

Lemma t_facts e : forall st v st', t_ok G e -> fine G st -> t_eval e st = Some (v, st') ->
  integer_type (type_of e) /\ representable m (type_of e) v /\ fine G st' /\
  (forall x, ~ In x (t_writes e) -> st' x = st x).
Proof.
  induction e as [t b|t x|op a IHa b IHb|op a IHa|t a IHa|a IHa b IHb|op pf a IHa b IHb|a IHa b IHb];
    intros st v st' OK FI E.
  - cbn [t_ok] in OK. destruct OK as [I (u & R & ->)]. cbn [t_eval] in E. rewrite (value_of_rep m) in E by auto.
    inversion E; subst. auto.
  - cbn [t_ok] in OK. destruct OK as [-> I]. cbn [t_eval] in E. inversion E; subst. split; [exact I|]. split; [|split; [exact FI|reflexivity]].
    cbn [type_of]. apply FI. exact I.
  - cbn [t_ok] in OK. destruct OK as (OA & OB & A & TB & DV & CM & D1 & D2 & D3). cbn [t_eval] in E.
    destruct (t_eval a st) as [[va st1]|] eqn:EA; [|discriminate].
    destruct (t_eval b st1) as [[vb st2]|] eqn:EB; [|discriminate].
    destruct (c_binop m (type_of a) op va vb) as [w|] eqn:C; [|discriminate]. inversion E; subst.
    destruct (IHa _ _ _ OA FI EA) as (_ & _ & F1 & U1). destruct (IHb _ _ _ OB F1 EB) as (_ & _ & F2 & U2).
    destruct (result_facts _ _ _ _ _ A C CM) as (I & R & _). cbn [type_of]. split; [exact I|]. split; [exact R|]. split; [exact F2|].
    cbn [t_writes]. intros x N. rewrite U2, U1; auto; intros H; apply N, in_or_app; auto.
  - cbn [t_ok] in OK. destruct OK as [OA A]. cbn [t_eval] in E. destruct (t_eval a st) as [[va st1]|] eqn:EA; [|discriminate].
    destruct (c_unop m (type_of a) op va) as [w|] eqn:C; [|discriminate]. inversion E; subst.
    destruct (IHa _ _ _ OA FI EA) as (_ & _ & F1 & U1). destruct (arith_wide m _ A) as [I N].
    cbn [type_of t_writes]. split; [exact I|]. split; [apply (c_unop_rep _ op va); auto|]. auto.
  - cbn [t_ok] in OK. destruct OK as [OA I]. cbn [t_eval] in E. destruct (t_eval a st) as [[va st1]|] eqn:EA; [|discriminate].
    inversion E; subst. destruct (IHa _ _ _ OA FI EA) as (_ & _ & F1 & U1). cbn [type_of t_writes].
    split; [exact I|]. split; [apply convert_rep; exact I|]. auto.
  - cbn [t_ok] in OK. destruct OK as (OB & (x & -> & NI) & I). cbn [t_eval] in E.
    destruct (t_eval b st) as [[vb st1]|] eqn:EB; [|discriminate]. inversion E; subst.
    destruct (IHb _ _ _ OB FI EB) as (_ & _ & F1 & U1). cbn [type_of] in *.
    assert (RC : representable m (G x) (convert m (G x) vb)) by (apply convert_rep; exact I).
    split; [exact I|]. split; [exact RC|]. split; [apply fine_update; auto|].
    cbn [t_writes t_target app]. intros y N. unfold update. destruct (Nat.eqb_spec y x) as [->|]; [exfalso; apply N; left; reflexivity|].
    apply U1. intros H. apply N. right. exact H.
  - cbn [t_ok] in OK. destruct OK as (OB & (x & -> & NI) & I & A & DV & NC). cbn [t_eval] in E.
    destruct (t_eval b st) as [[vb st1]|] eqn:EB; [|discriminate].
    destruct (c_binop m (type_of b) op (convert m (type_of b) (st1 x)) vb) as [w|] eqn:C; [|discriminate]. inversion E; subst.
    destruct (IHb _ _ _ OB FI EB) as (_ & _ & F1 & U1). cbn [type_of] in *.
    assert (RC : representable m (G x) (convert m (G x) w)) by (apply convert_rep; exact I).
    split; [exact I|]. split; [destruct pf; [apply F1; exact I|exact RC]|]. split; [apply fine_update; auto|].
    cbn [t_writes t_target app]. intros y N. unfold update. destruct (Nat.eqb_spec y x) as [->|]; [exfalso; apply N; left; reflexivity|].
    apply U1. intros H. apply N. right. exact H.
  - cbn [t_ok] in OK. destruct OK as [OA OB]. cbn [t_eval] in E.
    destruct (t_eval a st) as [[va st1]|] eqn:EA; [|discriminate].
    destruct (IHa _ _ _ OA FI EA) as (_ & _ & F1 & U1). destruct (IHb _ _ _ OB F1 E) as (I2 & R2 & F2 & U2).
    cbn [type_of t_writes]. split; [exact I2|]. split; [exact R2|]. split; [exact F2|].
    intros x N. rewrite U2, U1; auto; intros H; apply N, in_or_app; auto.
Qed.
End Typed.

Section Machine.
Variables (F : fpu) (W : world).
Hypothesis WOK : world_ok W.
Variable loc : nat -> Z.
Local Notation G := (w_type W).
Local Notation Spec := (spec F W).
Local Notation Stands := (stands W).

Lemma hold_stable a v : forall K L s s', hold a v K s -> keeps K s s' -> hold a v (K ++ L) s'.
Proof. intros. apply (hold_frame _ _ _ _ s); auto. Qed.

Lemma arith_bytes T : arithmetic_int m T -> object_bytes m T = spec_width m T / 8.
Proof. intros A. destruct (arith_wide m T A) as [I N]. destruct T; reflexivity || contradiction. Qed.

Lemma with_same t e : data_type e = t -> with_type t e = e.
Proof. intros <-. destruct e; reflexivity. Qed.

Theorem evaluate_spec e : forall st v st' n,
  t_ok G e -> fine G st -> t_eval e st = Some (v, st') ->
  (forall x, In x (t_reads e) \/ In x (t_writes e) -> w_used W x) ->
  Spec (evaluate m (w_ptr W) loc e) n (shaped W (type_of e)) st (fun _ _ => True) st'
    (fun ee => Stands (t_reads e) st' ee v).
Proof.
  induction e as [t b|t x|op a IHa b IHb|op a IHa|t a IHa|a IHa b IHb|op pf a IHa b IHb|a IHa b IHb];
    intros st v st' n OK FI E US; cbn [evaluate].
  - cbn [t_ok] in OK. destruct OK as [I (u & R & ->)]. cbn [t_eval] in E. rewrite (value_of_rep m) in E by auto.
    inversion E; subst. apply spec_ret; [split; [reflexivity|exact Logic.I]|]. intros; reflexivity.
  - cbn [t_ok] in OK. destruct OK as [-> I]. cbn [t_eval] in E. inversion E; subst.
    assert (U : w_used W x) by (apply US; left; left; reflexivity).
    apply spec_ret; [split; [reflexivity|]; exists x; auto|].
    intros K s _ _. exists x. cbn [t_reads]. split; [left; reflexivity|]. auto.
  - cbn [t_ok] in OK. destruct OK as (OA & OB & A & TB & DV & CM & D1 & D2 & D3). cbn [t_eval] in E.
    destruct (t_eval a st) as [[va st1]|] eqn:EA; [|discriminate].
    destruct (t_eval b st1) as [[vb st2]|] eqn:EB; [|discriminate].
    destruct (c_binop m (type_of a) op va vb) as [w|] eqn:C; [|discriminate]. inversion E; subst.
    destruct (t_facts G a _ _ _ OA FI EA) as (IA & RA & F1 & U1). destruct (t_facts G b _ _ _ OB F1 EB) as (IB & RB & F2 & U2).
    destruct (result_facts _ _ _ _ _ A C CM) as (I & R & OBY).
    assert (UA : forall x, In x (t_reads a) \/ In x (t_writes a) -> w_used W x).
    { intros x H. apply US. cbn [t_reads t_writes]. rewrite !in_app_iff. tauto. }
    assert (UB : forall x, In x (t_reads b) \/ In x (t_writes b) -> w_used W x).
    { intros x H. apply US. cbn [t_reads t_writes]. rewrite !in_app_iff. tauto. }
    eapply spec_bind; [exact (IHa st va st1 n OA FI EA UA)|]. intros l n1 SL.
    eapply spec_bind.
    { apply (spec_weaken F W _ n1 (shaped W (type_of b)) (shaped W (type_of b)) st1 st' (fun K s => True /\ Stands (t_reads a) st1 l va K s)
        (Stands (t_reads a) st1 l va) (fun ee K s => Stands (t_reads b) st' ee vb K s /\ Stands (t_reads a) st' l va K s)
        (fun ee K s => Stands (t_reads a) st' l va K s /\ Stands (t_reads b) st' ee vb K s)); try tauto.
      apply spec_frame; [exact (IHb st1 vb st' n1 OB F1 EB UB)|].
      intros K L s s' H KE. apply (stands_frame W _ st1 st' _ _ _ _ s); auto. intros x X. apply U2. intros Y. apply (D3 x Y X). }
    intros r n2 SR. cbn beta.
    eapply spec_bind.
    { apply spec_frame with (I' := fun K s => Stands (t_reads b) st' r vb K s).
      - apply (to_var_spec F W WOK loc l n2 st' va (type_of a) (t_reads a)); auto.
      - intros K L s s' H KE. apply (stands_frame W _ st' st' _ _ _ _ s); auto. }
    intros lv n3 ZL. cbn beta. rewrite TB in *.
    eapply spec_bind.
    { apply (spec_weaken F W _ n3 (fun sl => s_size sl = object_bytes m (type_of a)) (fun sl => s_size sl = object_bytes m (type_of a)) st' st'
        (fun K s => Stands (t_reads b) st' r vb K s /\ hold lv va K s) (fun K s => hold lv va K s /\ Stands (t_reads b) st' r vb K s)
        (fun rv K s => hold rv vb K s /\ hold lv va K s) (fun rv K s => hold rv vb K s /\ hold lv va K s)); try tauto.
      apply spec_frame; [|apply hold_stable].
      apply (to_var_spec F W WOK loc r n3 st' vb (type_of a) (t_reads b)); auto. }
    intros rv n4 ZR. cbn beta.
    rewrite (arith_bytes _ A) in ZL, ZR.
    eapply spec_bind; [apply (binary_spec F W WOK loc (type_of a) op lv rv n4 st' va vb v); auto|].
    intros o n5 ZO. apply spec_ret; [split; [reflexivity|]; rewrite ZO; symmetry; exact OBY|]. auto.
  - cbn [t_ok] in OK. destruct OK as [OA A]. cbn [t_eval] in E. destruct (t_eval a st) as [[va st1]|] eqn:EA; [|discriminate].
    destruct (c_unop m (type_of a) op va) as [w|] eqn:C; [|discriminate]. inversion E; subst.
    destruct (t_facts G a _ _ _ OA FI EA) as (IA & RA & F1 & U1). destruct (arith_wide m _ A) as [I N].
    eapply spec_bind; [exact (IHa st va st' n OA FI EA US)|]. intros r n1 SR. cbn beta.
    assert (NEG : forall f, op <> UOP_PLUS -> f = (fun rv => match op with UOP_BNOT => codegen_binary_not rv | _ => codegen_negate_int rv end) ->
      Spec (do rv <- to_var m loc r; do v <- node loc (s_size rv) (f rv); ret (EE_VARIABLE (type_of (TUn op a)) v)) n1
        (shaped W (type_of (TUn op a))) st' (fun K s => Stands (t_reads a) st' r va K s) st' (fun ee => Stands (t_reads (TUn op a)) st' ee v)).
    { intros f NP ->. eapply spec_bind; [apply (to_var_spec F W WOK loc r n1 st' va (type_of a) (t_reads a)); auto|].
      intros rv n2 ZR. cbn beta. rewrite (arith_bytes _ A) in ZR.
      eapply spec_bind; [apply (unary_spec F W WOK loc (type_of a) op rv n2 st' va v A ZR C NP)|].
      intros o n3 ZO. apply spec_ret; [split; [reflexivity|]; rewrite ZO; symmetry; apply (arith_bytes _ A)|]. auto. }
    destruct op.
    + cbn [c_unop] in C. unfold fit in C.
      assert (v = va) as ->.
      { unfold representable, spec_min, spec_max in RA. unfold spec_min, spec_max in C. destruct (spec_signed (type_of a)).
        - destruct (_ && _); inversion C; reflexivity.
        - rewrite Z.mod_small in C by lia. inversion C; reflexivity. }
      cbn [type_of t_reads]. rewrite (with_same _ _ (proj1 SR)). apply spec_ret; auto.
    + apply (NEG codegen_negate_int); [discriminate|reflexivity].
    + apply (NEG codegen_binary_not); [discriminate|reflexivity].
  - cbn [t_ok] in OK. destruct OK as [OA I]. cbn [t_eval] in E. destruct (t_eval a st) as [[va st1]|] eqn:EA; [|discriminate].
    inversion E; subst. destruct (t_facts G a _ _ _ OA FI EA) as (IA & RA & F1 & U1).
    eapply spec_bind; [exact (IHa st va st' n OA FI EA US)|]. intros r n1 SR. cbn beta.
    eapply spec_bind; [apply (evaluated_cast_spec F W WOK loc r n1 st' va (type_of a) t (t_reads a)); auto|].
    intros c n2 SC. cbn [type_of t_reads]. rewrite (with_same _ _ (proj1 SC)). apply spec_ret; auto.
  - cbn [t_ok] in OK. destruct OK as (OB & (x & -> & NI) & I). cbn [t_eval] in E.
    destruct (t_eval b st) as [[vb st1]|] eqn:EB; [|discriminate]. inversion E; subst.
    destruct (t_facts G b _ _ _ OB FI EB) as (IB & RB & F1 & U1). cbn [type_of] in I.
    assert (UX : w_used W x) by (apply US; right; left; reflexivity).
    assert (UB : forall y, In y (t_reads b) \/ In y (t_writes b) -> w_used W y).
    { intros y H. apply US. cbn [t_reads t_writes t_target]. rewrite in_app_iff. tauto. }
    cbn [evaluate type_of t_reads].
    eapply spec_bind; [apply (spec_ret F W (EE_POINTER (G x) (w_ptr W x)) n (fun l => l = EE_POINTER (G x) (w_ptr W x)) st (fun _ _ => True) (fun _ _ _ => True)); auto|].
    intros l n0 ->. eapply spec_bind; [exact (IHb st vb st1 n0 OB FI EB UB)|]. intros r n1 SR. cbn beta.
    eapply spec_bind; [apply (evaluated_cast_spec F W WOK loc r n1 st1 vb (type_of b) (G x) (t_reads b)); auto|].
    intros c n2 SC. cbn beta. set (cv := convert m (G x) vb).
    assert (RC : representable m (G x) cv) by (apply convert_rep; exact I).
    eapply spec_bind.
    { apply (spec_weaken F W _ n2 (fun sl => s_size sl = object_bytes m (G x)) (fun sl => s_size sl = object_bytes m (G x)) st1 st1
        (fun K s => Stands (t_reads b) st1 c cv K s /\ Stands (t_reads b) st1 c cv K s) (fun K s => Stands (t_reads b) st1 c cv K s)
        (fun rv K s => hold rv cv K s /\ Stands (t_reads b) st1 c cv K s) (fun rv K s => hold rv cv K s /\ Stands (t_reads b) st1 c cv K s)); try tauto.
      apply spec_frame; [apply (to_var_spec F W WOK loc c n2 st1 cv (G x) (t_reads b)); auto|].
      intros K L s s' H KE. apply (stands_frame W _ st1 st1 _ _ _ _ s); auto. }
    intros rv n3 ZR. cbn beta.
    eapply spec_bind.
    { apply (spec_frame F W) with (I' := fun K s => Stands (t_reads b) (update st1 x cv) c cv K s).
      - apply (assign_spec F W WOK loc x rv n3 st1 cv); auto.
      - intros K L s s' H KE. destruct c; cbn [stands] in *; [|apply (hold_frame _ _ _ _ s); auto|exact H].
        destruct H as (y & IY & UY & P & T & EV). exists y. split; [exact IY|]. split; [exact UY|]. split; [exact P|]. split; [exact T|].
        unfold update. destruct (Nat.eqb_spec y x); [reflexivity|exact EV]. }
    intros u n4 _. cbn beta. rewrite (with_same _ _ (proj1 SC)). apply spec_ret; [exact SC|]. tauto.
  - cbn [t_ok] in OK. destruct OK as (OB & (x & -> & NI) & I & A & DV & NC). cbn [t_eval] in E.
    destruct (t_eval b st) as [[vb st1]|] eqn:EB; [|discriminate].
    destruct (c_binop m (type_of b) op (convert m (type_of b) (st1 x)) vb) as [w|] eqn:C; [|discriminate]. inversion E; subst.
    destruct (t_facts G b _ _ _ OB FI EB) as (IB & RB & F1 & U1). cbn [type_of] in I.
    assert (UX : w_used W x) by (apply US; left; left; reflexivity).
    assert (UB : forall y, In y (t_reads b) \/ In y (t_writes b) -> w_used W y).
    { intros y H. apply US. cbn [t_reads t_writes t_target]. rewrite !in_app_iff. tauto. }
    cbn [evaluate type_of t_reads data_type].
    assert (RX : representable m (G x) (st1 x)) by (apply F1; exact I).
    set (u := convert m (type_of b) (st1 x)) in *. set (nv := convert m (G x) w).
    assert (RU : representable m (type_of b) u) by (apply convert_rep; exact IB).
    assert (RN : representable m (G x) nv) by (apply convert_rep; exact I).
    destruct (result_facts _ _ _ _ _ A C) as (_ & RW & _); [rewrite NC; discriminate|].
    assert (RT : operators_get_result_type op (type_of b) = type_of b) by (destruct op; try discriminate NC; reflexivity).
    rewrite RT in RW.
    eapply spec_bind; [apply (spec_ret F W (EE_POINTER (G x) (w_ptr W x)) n (fun l => l = EE_POINTER (G x) (w_ptr W x)) st (fun _ _ => True) (fun _ _ _ => True)); auto|].
    intros l n0 ->. eapply spec_bind; [exact (IHb st vb st1 n0 OB FI EB UB)|]. intros r n1 SR. cbn beta.
    (* the old value *)
    eapply spec_bind.
    { apply (spec_weaken F W _ n1 (fun sl => s_size sl = object_bytes m (G x)) (fun sl => s_size sl = object_bytes m (G x)) st1 st1
        (fun K s => Stands [x] st1 (EE_POINTER (G x) (w_ptr W x)) (st1 x) K s /\ Stands (t_reads b) st1 r vb K s)
        (fun K s => Stands (t_reads b) st1 r vb K s)
        (fun old K s => hold old (st1 x) K s /\ Stands (t_reads b) st1 r vb K s)
        (fun old K s => Stands (t_reads b) st1 r vb K s /\ hold old (st1 x) K s)); try tauto.
      - apply spec_frame; [apply (to_var_spec F W WOK loc _ n1 st1 (st1 x) (G x) [x]); auto|].
        + split; [reflexivity|]. exists x. auto.
        + intros K L s s' H KE. apply (stands_frame W _ st1 st1 _ _ _ _ s); auto.
      - intros K s H. split; [|exact H]. exists x. split; [left; reflexivity|]. auto. }
    intros old n2 ZOLD. cbn beta.
    eapply spec_bind.
    { apply (spec_weaken F W _ n2 (fun sl => s_size sl = object_bytes m (type_of b)) (fun sl => s_size sl = object_bytes m (type_of b)) st1 st1
        (fun K s => Stands (t_reads b) st1 r vb K s /\ hold old (st1 x) K s)
        (fun K s => Stands (t_reads b) st1 r vb K s /\ hold old (st1 x) K s)
        (fun rv K s => hold rv vb K s /\ hold old (st1 x) K s)
        (fun rv K s => hold old (st1 x) K s /\ (hold rv vb K s /\ hold old (st1 x) K s))); try tauto.
      apply spec_frame; [|apply hold_stable]. apply (to_var_spec F W WOK loc r n2 st1 vb (type_of b) (t_reads b)); auto. }
    intros rv n3 ZR. cbn beta.
    eapply spec_bind.
    { apply (spec_weaken F W _ n3 (fun sl => s_size sl = object_bytes m (type_of b)) (fun sl => s_size sl = object_bytes m (type_of b)) st1 st1
        (fun K s => hold old (st1 x) K s /\ (hold rv vb K s /\ hold old (st1 x) K s))
        (fun K s => hold old (st1 x) K s /\ (hold rv vb K s /\ hold old (st1 x) K s))
        (fun lv K s => hold lv u K s /\ (hold rv vb K s /\ hold old (st1 x) K s))
        (fun lv K s => (hold rv vb K s /\ hold lv u K s) /\ hold old (st1 x) K s)); try tauto.
      apply spec_frame.
      - apply (variable_cast_spec F W WOK loc old n3 st1 (st1 x) (G x) (type_of b)); auto.
      - intros K L s s' [H1 H2] KE. split; apply (hold_frame _ _ _ _ s); auto. }
    intros lv n4 ZL. cbn beta. rewrite (arith_bytes _ A) in ZL, ZR.
    eapply spec_bind.
    { apply spec_frame; [|apply (hold_stable old (st1 x))].
      apply (binary_spec F W WOK loc (type_of b) op lv rv n4 st1 u vb w); auto. }
    intros o n5 ZO. cbn beta. rewrite <- (arith_bytes _ A) in ZO.
    eapply spec_bind.
    { apply spec_frame; [|apply (hold_stable old (st1 x))].
      apply (variable_cast_spec F W WOK loc o n5 st1 w (type_of b) (G x)); auto. }
    intros new n6 ZN. cbn beta. fold nv.
    eapply spec_bind.
    { apply spec_frame; [|apply (hold_stable old (st1 x))].
      apply (assign_spec F W WOK loc x new n6 st1 nv); auto. }
    intros uu n7 _. cbn beta. apply spec_ret.
    + split; [reflexivity|]. destruct pf; assumption.
    + intros K s _ [H1 H2]. cbn [stands]. destruct pf; assumption.
  - cbn [t_ok] in OK. destruct OK as [OA OB]. cbn [t_eval] in E.
    destruct (t_eval a st) as [[va st1]|] eqn:EA; [|discriminate].
    destruct (t_facts G a _ _ _ OA FI EA) as (_ & _ & F1 & U1).
    assert (UA : forall x, In x (t_reads a) \/ In x (t_writes a) -> w_used W x).
    { intros x H. apply US. cbn [t_reads t_writes]. rewrite !in_app_iff. tauto. }
    assert (UB : forall x, In x (t_reads b) \/ In x (t_writes b) -> w_used W x).
    { intros x H. apply US. cbn [t_reads t_writes]. rewrite !in_app_iff. tauto. }
    eapply spec_bind; [exact (IHa st va st1 n OA FI EA UA)|]. intros l n1 SL.
    eapply spec_bind.
    { eapply spec_weaken; [exact (IHb st1 v st' n1 OB F1 E UB)|intros q Q; exact Q|intros; exact Logic.I|intros q K s _ Q; exact Q]. }
    intros r n2 SR. cbn [type_of]. rewrite (with_same _ _ (proj1 SR)). apply spec_ret; [exact SR|].
    intros K s _ H. destruct r; cbn [stands t_reads] in *; auto. destruct H as (x & IX & H). exists x. split; [apply in_or_app; auto|exact H].
Qed.

(** ... and with the value in a slot. *)
Theorem expression_spec e st v st' n :
  t_ok G e -> fine G st -> t_eval e st = Some (v, st') ->
  (forall x, In x (t_reads e) \/ In x (t_writes e) -> w_used W x) ->
  Spec (expression_to_ir m (w_ptr W) loc e) n (fun sl => s_size sl = object_bytes m (type_of e)) st (fun _ _ => True) st'
    (fun sl => hold sl v).
Proof.
  intros OK FI E US. destruct (t_facts G e _ _ _ OK FI E) as (I & R & _). unfold expression_to_ir.
  eapply spec_bind; [exact (evaluate_spec e st v st' n OK FI E US)|]. intros r n1 SR.
  apply (to_var_spec F W WOK loc r n1 st' v (type_of e) (t_reads e)); auto.
Qed.
End Machine.
