From Verif Require Import Base Tokens Fuel Precedence ConstFold Pratt PrattSpec PrattProofs.

(** * The grammar of C is part of the wider one *)
Definition below (b : nonterminal) : nonterminal :=
  match b with
  | Primary => Postfix | Postfix => Unary | Unary => CastExpr | CastExpr => Multiplicative | Multiplicative => Additive | Additive => Shift
  | Shift => Relational | Relational => Equality | Equality => AndExpr | AndExpr => ExclusiveOr | ExclusiveOr => InclusiveOr
  | InclusiveOr => LogicalAnd | LogicalAnd => LogicalOr | LogicalOr => ConditionalExpr | ConditionalExpr => AssignmentExpr | _ => Expression
  end.
Lemma below_unit b : b <> Expression -> In (below b, b) units /\ level (below b) = level b - 1.
Proof. destruct b; intros H; try congruence; (split; [cbn; tauto|reflexivity]). Qed.
Lemma level_inj a b : level a = level b -> a = b.
Proof. destruct a, b; intros E; try reflexivity; discriminate E. Qed.
Lemma level_pos a : 0 <= level a <= 16.
Proof. destruct a; cbn; lia. Qed.
Lemma up c a b l e : level a <= level b -> derives c b l e -> derives c a l e.
Proof.
  intros L. remember (Z.to_nat (level b - level a)) as n eqn:En. revert b L En. induction n as [|n IH]; intros b L En D.
  - assert (a = b) as -> by (apply level_inj; lia). exact D.
  - destruct (below_unit b) as [I E]; [intros ->; assert (H := level_pos a); cbn in *; lia|].
    apply (IH (below b)); try lia. eapply d_unit; eauto.
Qed.
Lemma strict_not_cast a l e : derives true a l e -> 14 <= level a -> not_cast l.
Proof.
  assert (Nc : forall (t : tok) l, fst t <> T_LPAR -> not_cast (t :: l)) by (intros t l0 N s ty r E; injection E as -> _; apply N; reflexivity).
  induction 1; intros La; cbn [level] in La; try lia.
  - apply Nc. intros E. rewrite E in H. cbn in H. repeat (destruct H as [H|H]; [discriminate H|]). destruct H.
  - destruct (proj1 (starts true) _ _ _ H) as [Ne St]. destruct l as [|t l]; [congruence|]. cbn [app head_type] in *.
    intros s0 ty r E. injection E as _ -> _. apply starter_not in St. cbn in St. destruct St as [St _]. apply St. reflexivity.
  - apply unit_facts in H as (H & _). apply IHderives. lia.
  - destruct (binary_facts _ _ _ _ _ H H0) as [(-> & _)|(Lv & _)]; cbn in *; lia.
  - apply Nc. cbn. intros ->. cbn in H. repeat (destruct H as [H|H]; [discriminate H|]). destruct H.
  - apply Nc. cbn. intros ->. cbn in H. repeat (destruct H as [H|H]; [discriminate H|]). destruct H.
  - apply Nc. discriminate.
  - apply Nc. discriminate.
  - apply Nc. discriminate.
  - eapply not_cast_app; [eassumption|]; match goal with H : 14 <= level Postfix -> _ |- _ => apply H; cbn; lia end.
  - eapply not_cast_app; [eassumption|]; match goal with H : 14 <= level Postfix -> _ |- _ => apply H; cbn; lia end.
  - eapply not_cast_app; [eassumption|]; match goal with H : 14 <= level Postfix -> _ |- _ => apply H; cbn; lia end.
  - eapply not_cast_app; [eassumption|]; match goal with H : 14 <= level Postfix -> _ |- _ => apply H; cbn; lia end.
Qed.
Theorem c_included :
  (forall a l e, derives true a l e -> derives false a l e) /\ (forall l es, arguments true l es -> arguments false l es).
Proof.
  apply derives_arguments; intros.
  - now apply d_primary.
  - now apply d_paren.
  - eapply d_unit; eauto.
  - eapply d_binary; eauto.
  - eapply d_assignment; eauto. apply (up _ _ Unary); auto. cbn. lia.
  - apply d_conditional; auto. apply (up _ _ ConditionalExpr); auto. cbn. lia.
  - now apply d_cast.
  - now apply d_prefix.
  - apply d_increment; auto. apply (up _ _ Unary); auto. cbn. lia.
  - apply d_sizeof; [apply (up _ _ Unary); auto; cbn; lia|]. intros _. eapply strict_not_cast; eauto. cbn. lia.
  - discriminate.
  - apply (up _ _ Primary); [cbn; lia|]. apply (d_sizeof_type false).
  - apply (up _ _ Primary); [cbn; lia|]. apply (d_alignof_type false).
  - now apply d_subscript.
  - now apply d_call.
  - apply d_member; auto; discriminate.
  - now apply d_postfix.
  - apply a_none.
  - now apply a_one.
  - now apply a_more.
Qed.

(** * Everything parsed is derived *)
Definition nt (p : Z) : nonterminal :=
  if p =? 0 then Expression else if p =? 1 then AssignmentExpr else if p =? 2 then LogicalOr else if p =? 3 then LogicalAnd
  else if p =? 4 then InclusiveOr else if p =? 5 then ExclusiveOr else if p =? 6 then AndExpr else if p =? 7 then Equality
  else if p =? 8 then Relational else if p =? 9 then Shift else if p =? 10 then Additive else if p =? 11 then Multiplicative else CastExpr.
Lemma nt_level p : 0 <= p <= 13 -> level (nt p) = (if p <? 2 then p else if p <? 12 then p + 1 else 13).
Proof.
  intros H. assert (p = 0 \/ p = 1 \/ p = 2 \/ p = 3 \/ p = 4 \/ p = 5 \/ p = 6 \/ p = 7 \/ p = 8 \/ p = 9 \/ p = 10 \/ p = 11 \/ p = 12 \/ p = 13) as C by lia.
  repeat (destruct C as [->|C]; [reflexivity|]). subst. reflexivity.
Qed.
Lemma exbind_ok {A B} (x : ex A) (k : A -> ex B) r : exbind x k = Some (Ok r) -> exists a, x = Some (Ok a) /\ k a = Some (Ok r).
Proof. destruct x as [[a| |]|]; cbn; intros E; try discriminate. eauto. Qed.
Lemma operand_ok x e l : operand x = Some (Ok (e, l)) -> x = (Some e, l).
Proof. destruct x as [[y|] m]; cbn; intros E; [injection E as -> ->; auto|discriminate]. Qed.
Lemma deref_ok x e l : deref x = Some (Ok (e, l)) -> x = (Some e, l).
Proof. destruct x as [[y|] m]; cbn; intros E; [injection E as -> ->; auto|discriminate]. Qed.
Lemma expect_ok ty l r : expect ty l = Some (Ok r) -> ty <> T_EOI -> exists s, l = (ty, s) :: r.
Proof.
  unfold expect. destruct l as [|[t s] l]; cbn [head_type fst tl].
  - destruct (Z.eqb_spec T_EOI ty) as [<-|]; [congruence|discriminate].
  - destruct (Z.eqb_spec t ty) as [->|]; [|discriminate]. intros E _. injection E as <-. eauto.
Qed.
Lemma hp_bound l : 0 <= hp l <= 14.
Proof.
  unfold hp, precedence_get. cbn [negb andb]. destruct (find _ _) as [[t p]|] eqn:E; [|lia]. apply find_some in E as [I _].
  assert (F : Forall (fun q => 0 <= snd q <= 14) precedence_table) by (repeat (apply Forall_cons; [cbn; lia|]); apply Forall_nil).
  rewrite Forall_forall in F. apply (F _ I).
Qed.
Ltac in_list := cbv [binaries In]; repeat (first [left; reflexivity|right]); fail.
Lemma op_facts ty o : op_of ty = Some o ->
  ty = T_COMMA /\ o = OComma \/ In (ty, build o) assignments \/
  exists a b ops, In (a, b, ops) binaries /\ In (ty, build o) ops /\ 3 <= level a.
Proof.
  unfold op_of. destruct (find _ ops) as [[t o']|] eqn:E; [|discriminate]. intros H. injection H as <-. apply find_some in E as [I E]. cbn [fst] in E.
  apply Z.eqb_eq in E. subst t. cbn [ops In] in I.
  repeat (destruct I as [I|I]; [injection I as <- <-;
    first [left; split; reflexivity
          |right; left; cbn; tauto
          |right; right; first
            [ exists InclusiveOr, ExclusiveOr; eexists; split; [in_list|split; [in_list|cbn; lia]]
            | exists ExclusiveOr, AndExpr; eexists; split; [in_list|split; [in_list|cbn; lia]]
            | exists AndExpr, Equality; eexists; split; [in_list|split; [in_list|cbn; lia]]
            | exists Equality, Relational; eexists; split; [in_list|split; [in_list|cbn; lia]]
            | exists Relational, Shift; eexists; split; [in_list|split; [in_list|cbn; lia]]
            | exists Shift, Additive; eexists; split; [in_list|split; [in_list|cbn; lia]]
            | exists Additive, Multiplicative; eexists; split; [in_list|split; [in_list|cbn; lia]]
            | exists Multiplicative, CastExpr; eexists; split; [in_list|split; [in_list|cbn; lia]] ] ] |]).
  destruct I.
Qed.
Ltac inv_ex H := let a := fresh "x" in let E := fresh "E" in apply exbind_ok in H; destruct H as (a & E & H).
Definition sound_at (n : nat) : Prop :=
  (forall p l e rest, 0 <= p <= 13 -> parse_pratt n p l = Some (Ok (Some e, rest)) ->
     exists used, l = used ++ rest /\ derives false (nt p) used e /\ hp rest <= p) /\
  (forall l e rest, parse_prefix n l = Some (Ok (Some e, rest)) ->
     exists used k, l = used ++ rest /\ derives false k used e /\ hp rest <= hi k /\ 13 <= level k) /\
  (forall p e l e' rest pre k, 0 <= p <= 13 -> derives false k pre e -> hp l <= hi k -> level (nt p) <= level k ->
     parse_pratt_with_lhs n p e l = Some (Ok (Some e', rest)) ->
     exists used, l = used ++ rest /\ derives false (nt p) (pre ++ used) e' /\ hp rest <= p) /\
  (forall pos l es rest, parse_call_parameters n pos l = Some (Ok (es, rest)) ->
     exists al s, (pos + length es <= 127)%nat /\
       match pos, es with
       | O, _ => l = al ++ (T_RPAR, s) :: rest /\ arguments false al es
       | S _, [] => l = (T_RPAR, s) :: rest
       | S _, _ => exists s', l = (T_COMMA, s') :: al ++ (T_RPAR, s) :: rest /\ arguments false al es
       end).
Lemma hi_level k q : 3 <= q <= 12 -> q <= hi k -> q <= level k.
Proof. destruct k; cbn; lia. Qed.
Lemma leaf_primary ty : is_one_of ty leaf_types = true -> In ty primaries.
Proof.
  unfold is_one_of. intros H. apply existsb_exists in H as (x & I & E). apply Z.eqb_eq in E. subst x.
  cbn [leaf_types In] in I. cbn [primaries In]. tauto.
Qed.
Lemma prefix_operand n l e rest : sound_at n -> parse_pratt n PREFIX_PREC l = Some (Ok (Some e, rest)) ->
  exists used, l = used ++ rest /\ derives false CastExpr used e /\ hp rest <= 13.
Proof. intros (H & _) E. exact (H 13 l e rest ltac:(lia) E). Qed.

Lemma prefix_sound n : sound_at n -> forall l e rest, parse_prefix (S n) l = Some (Ok (Some e, rest)) ->
  exists used k, l = used ++ rest /\ derives false k used e /\ hp rest <= hi k /\ 13 <= level k.
Proof.
  intros I l e rest. cbn [parse_prefix]. destruct l as [|[ty s] r]; [discriminate|]. cbn [head_type fst tl].
  assert (PO : forall op f, In (op, f) (prefixes ++ increments false) ->
    (let! (e, r2) := (let! x := parse_pratt n PREFIX_PREC r in operand x) in ok (Some (f e), r2)) = Some (Ok (Some e, rest)) ->
    exists used k, (op, s) :: r = used ++ rest /\ derives false k used e /\ hp rest <= hi k /\ 13 <= level k).
  { intros op f J H. inv_ex H. destruct x as [e1 r1]. inv_ex E. apply operand_ok in E. subst x. injection H as <- <-.
    destruct (prefix_operand _ _ _ _ I E0) as (u & -> & D & Hr). exists ((op, s) :: u), Unary. split; [reflexivity|]. split; [|cbn; lia].
    apply in_app_or in J as [J|J]; [apply d_prefix; auto|apply d_increment; auto]. }
  assert (SO : forall kw ft fe, (forall u e0, derives false CastExpr u e0 -> not_cast u -> derives false Unary ((kw, s) :: u) (fe e0)) ->
    (forall s1 t s2, derives false Primary [(kw, s); (T_LPAR, s1); (TYPE_NAME, t); (T_RPAR, s2)] (ft t)) ->
    (if (head_type r =? T_LPAR) && (head_type (tl r) =? TYPE_NAME) then
          let! r2 := expect T_RPAR (tl (tl r)) in ok (Some (ft (snd (hd (0, []) (tl r)))), r2)
        else
          let! x := parse_pratt n PREFIX_PREC r in
          let! (e, r2) := deref x in ok (Some (fe e), r2)) = Some (Ok (Some e, rest)) ->
    exists used k, (kw, s) :: r = used ++ rest /\ derives false k used e /\ hp rest <= hi k /\ 13 <= level k).
  { intros kw ft fe De Dt. destruct ((head_type r =? T_LPAR) && (head_type (tl r) =? TYPE_NAME)) eqn:T; intros H.
    - apply andb_prop in T as [T1 T2]. apply Z.eqb_eq in T1, T2. destruct r as [|[t1 s1] [|[t2 s2] r]]; try discriminate T1; try discriminate T2.
      cbn [head_type tl fst hd snd] in *. subst. inv_ex H. apply expect_ok in E as [s3 ->]; [|discriminate]. injection H as <- <-.
      exists [(kw, s); (T_LPAR, s1); (TYPE_NAME, s2); (T_RPAR, s3)], Primary. split; [reflexivity|]. split; [apply Dt|].
      assert (B := hp_bound x). cbn; lia.
    - inv_ex H. inv_ex H. destruct x0 as [e1 r1]. apply deref_ok in E0. subst x. injection H as <- <-.
      destruct (prefix_operand _ _ _ _ I E) as (u & -> & D & Hr). exists ((kw, s) :: u), Unary. split; [reflexivity|]. split; [|cbn; lia].
      apply De; auto. intros q1 q2 q3 ->. cbn in T. discriminate T. }
  destruct (Z.eqb_spec ty T_LPAR) as [->|_].
  - destruct r as [|[t1 s1] r].
    + cbn [head_type]. change (T_EOI =? TYPE_NAME) with false. cbv iota. intros H. inv_ex H. destruct x as [e1 r1]. inv_ex H. injection H as -> <-.
      apply expect_ok in E0 as [s2 ->]; [|discriminate]. destruct I as (I & _).
      destruct (I 0 [] e _ ltac:(lia) E) as (u & Eu & D & Hr). destruct u; discriminate.
    + cbn [head_type fst tl]. destruct (Z.eqb_spec t1 TYPE_NAME) as [->|Nt]; intros H.
      * inv_ex H. apply expect_ok in E as [s2 ->]; [|discriminate]. destruct (_ =? T_LBRACE); [discriminate|].
        inv_ex H. destruct x0 as [e1 r1]. inv_ex E. apply operand_ok in E. subst x0. injection H as <- <-.
        destruct (prefix_operand _ _ _ _ I E0) as (u & -> & D & Hr).
        exists ((T_LPAR, s) :: (TYPE_NAME, s1) :: (T_RPAR, s2) :: u), CastExpr. split; [reflexivity|]. split; [now apply d_cast|cbn; lia].
      * inv_ex H. destruct x as [e1 r1]. inv_ex H. injection H as -> <-. apply expect_ok in E0 as [s2 ->]; [|discriminate].
        destruct I as (I & _). destruct (I 0 _ e _ ltac:(lia) E) as (u & Eu & D & Hr). rewrite Eu.
        exists ((T_LPAR, s) :: u ++ [(T_RPAR, s2)]), Primary. split; [cbn [app]; rewrite <- app_assoc; reflexivity|].
        split; [now apply d_paren|]. assert (B := hp_bound x). cbn; lia.
  - destruct (Z.eqb_spec ty T_INC) as [->|_]; [apply (PO T_INC (fun a => AssignmentOp OP_ADD a (Int 1) false)); cbn; tauto|].
    destruct (Z.eqb_spec ty T_DEC) as [->|_]; [apply (PO T_DEC (fun a => AssignmentOp OP_SUB a (Int 1) false)); cbn; tauto|].
    destruct (Z.eqb_spec ty T_STAR) as [->|_]; [apply (PO T_STAR Indirection); cbn; tauto|].
    destruct (Z.eqb_spec ty T_ADD) as [->|_]; [apply (PO T_ADD (UnaryOp UOP_PLUS)); cbn; tauto|].
    destruct (Z.eqb_spec ty T_SUB) as [->|_]; [apply (PO T_SUB (UnaryOp UOP_NEG)); cbn; tauto|].
    destruct (Z.eqb_spec ty T_NOT) as [->|_]; [apply (PO T_NOT (fun a => Conditional a (Int 0) (Int 1))); cbn; tauto|].
    destruct (Z.eqb_spec ty T_BNOT) as [->|_]; [apply (PO T_BNOT (UnaryOp UOP_BNOT)); cbn; tauto|].
    destruct (Z.eqb_spec ty T_AMP) as [->|_].
    { intros H. inv_ex H. inv_ex H. destruct x0 as [e1 r1]. apply deref_ok in E0. subst x. injection H as <- <-.
      destruct (prefix_operand _ _ _ _ I E) as (u & -> & D & Hr). exists ((T_AMP, s) :: u), Unary. split; [reflexivity|]. split; [|cbn; lia].
      apply d_prefix; auto. cbn; tauto. }
    destruct (Z.eqb_spec ty T_KSIZEOF) as [->|_].
    { apply SO; [intros; apply d_sizeof; auto|intros; apply (d_sizeof_type false)]. }
    destruct (Z.eqb_spec ty T_KALIGNOF) as [->|_].
    { apply SO; [intros; apply d_alignof; auto|intros; apply (d_alignof_type false)]. }
    destruct (is_one_of ty unmodelled); [discriminate|].
    destruct (is_one_of ty leaf_types) eqn:L; [|discriminate]. intros H. injection H as <- <-.
    exists [(ty, s)], Primary. split; [reflexivity|]. split; [apply d_primary; now apply leaf_primary|]. assert (B := hp_bound r). cbn; lia.
Qed.

Lemma loop_sound n : sound_at n -> forall p e l e' rest pre k, 0 <= p <= 13 -> derives false k pre e -> hp l <= hi k -> level (nt p) <= level k ->
     parse_pratt_with_lhs (S n) p e l = Some (Ok (Some e', rest)) ->
     exists used, l = used ++ rest /\ derives false (nt p) (pre ++ used) e' /\ hp rest <= p.
Proof.
  intros (I1 & I2 & I3 & I4) p e l e' rest pre k P D Hl Lk. cbn [parse_pratt_with_lhs].
  assert (Stop : hp l <= p -> Some (Ok (Some e, l)) = Some (Ok (Some e', rest)) -> exists used, l = used ++ rest /\ derives false (nt p) (pre ++ used) e' /\ hp rest <= p).
  { intros Hs H. injection H as <- <-. exists []. rewrite app_nil_r. split; [reflexivity|]. split; [eapply up; eauto|auto]. }
  destruct (Z.ltb_spec p (precedence_get (head_type l) true)) as [Lt|Ge]; [|apply Stop; exact Ge].
  destruct l as [|[ty s] r]; [cbn in Lt; lia|]. cbn [head_type fst tl] in *. unfold hp in Hl. cbn [head_type fst] in Hl. assert (NL := nt_level p P).
  (** Going on with the expression built so far. *)
  assert (Go : forall k2 u e2 r2, derives false k2 (pre ++ u) e2 -> hp r2 <= hi k2 -> level (nt p) <= level k2 -> (ty, s) :: r = u ++ r2 ->
    parse_pratt_with_lhs n p e2 r2 = Some (Ok (Some e', rest)) -> exists used, (ty, s) :: r = used ++ rest /\ derives false (nt p) (pre ++ used) e' /\ hp rest <= p).
  { intros k2 u e2 r2 D2 H2 L2 E2 R. destruct (I3 p e2 r2 e' rest (pre ++ u) k2 P D2 H2 L2 R) as (u2 & -> & D3 & H3).
    exists (u ++ u2). rewrite E2, <- app_assoc. split; [reflexivity|]. split; [|exact H3]. rewrite <- app_assoc in D3. exact D3. }
  destruct (op_of ty) as [o|] eqn:O.
  - intros H. inv_ex H. destruct x as [e1 r1]. inv_ex E. apply operand_ok in E. subst x.
    destruct (op_facts ty o O) as [[-> ->]|[As|(a & b & os & B1 & B2 & B3)]].
    + change (precedence_get T_COMMA true) with 1 in *. change (precedence_get T_COMMA false) with 1 in *. assert (p = 0) as -> by lia.
      destruct (I1 1 r e1 r1 ltac:(lia) E0) as (u & -> & Du & Hu).
      apply (Go Expression ((T_COMMA, s) :: u) _ r1 ltac:(eapply (d_binary false Expression AssignmentExpr); [cbn; tauto|left; reflexivity| |exact Du]; eapply up; [|exact D]; cbn; apply level_pos) Hu ltac:(cbn; lia) eq_refl H).
    + destruct (assignment_facts _ _ As) as (o' & _ & _ & P1 & P2). rewrite P1 in *. rewrite P2 in E0.
      destruct (I1 1 r e1 r1 ltac:(lia) E0) as (u & -> & Du & Hu).
      assert (Lk3 : 3 <= level k) by (destruct k; cbn in *; lia).
      assert (Lp : level (nt p) <= 1) by (rewrite NL; destruct (Z.ltb_spec p 2); lia).
      apply (Go AssignmentExpr ((ty, s) :: u) (build o e e1) r1); [|exact Hu|cbn; lia|reflexivity|exact H].
      apply d_assignment; [exact As|eapply up; [|exact D]; cbn; lia|exact Du].
    + destruct (binary_facts _ _ _ _ _ B1 B2) as [(-> & _)|(La & Lb & P1 & P2 & _)]; [cbn in B3; lia|]. rewrite P1 in *. rewrite P2 in E0.
      destruct (I1 (level a) r e1 r1 ltac:(lia) E0) as (u & -> & Du & Hu).
      assert (Nb : nt (level a) = b). { apply level_inj. rewrite nt_level by lia. destruct (Z.ltb_spec (level a) 2); [lia|]. destruct (Z.ltb_spec (level a) 12); lia. }
      assert (Ha : hi a = level a) by (destruct a; cbn in *; lia).
      apply (Go a ((ty, s) :: u) (build o e e1) r1); auto.
      * eapply d_binary; [exact B1|exact B2| |rewrite <- Nb; exact Du]. eapply up; [|exact D]. apply hi_level; lia.
      * lia.
      * rewrite NL. destruct (Z.ltb_spec p 2); [lia|]. destruct (Z.ltb_spec p 12); lia.
  - destruct (Z.eqb_spec ty T_QUEST) as [->|?].
    { change (precedence_get T_QUEST true) with 2 in *. change (precedence_get T_QUEST false) with 1. intros H.
      inv_ex H. destruct x as [mid r2]. inv_ex H. inv_ex H. inv_ex H. destruct x1 as [m r2']. inv_ex H. destruct x1 as [e1 r4].
      apply operand_ok in E2. injection E2 as -> <-. apply operand_ok in E3. subst x0. apply expect_ok in E0 as [s' ->]; [|discriminate].
      destruct (I1 0 r m _ ltac:(lia) E) as (u & -> & Du & Hu). destruct (I1 1 x e1 r4 ltac:(lia) E1) as (v & -> & Dv & Hv).
      assert (Lk3 : 3 <= level k) by (destruct k; cbn in *; lia).
      apply (Go ConditionalExpr ((T_QUEST, s) :: u ++ (T_COLON, s') :: v) (Conditional e m e1) r4); auto.
      - apply d_conditional; auto. eapply up; [|exact D]. cbn; lia.
      - cbn. rewrite NL. destruct (Z.ltb_spec p 2); lia.
      - cbn [app]. rewrite <- app_assoc. reflexivity. }
    destruct (Z.eqb_spec ty T_OR) as [->|?].
    { change (precedence_get T_OR true) with 3 in *. change (precedence_get T_OR false) with 3. intros H.
      inv_ex H. destruct x as [e1 r1]. inv_ex E. apply operand_ok in E. subst x.
      destruct (I1 3 r e1 r1 ltac:(lia) E0) as (u & -> & Du & Hu).
      apply (Go LogicalOr ((T_OR, s) :: u) (build_or e e1) r1); auto.
      - apply (d_binary false LogicalOr LogicalAnd [(T_OR, build_or)] T_OR build_or); auto; [cbn; tauto|cbn; tauto|]. eapply up; [|exact D]. apply (hi_level k 3); lia.
      - rewrite NL. cbn. destruct (Z.ltb_spec p 2); [lia|]. destruct (Z.ltb_spec p 12); lia. }
    destruct (Z.eqb_spec ty T_AND) as [->|?].
    { change (precedence_get T_AND true) with 4 in *. change (precedence_get T_AND false) with 4. intros H.
      inv_ex H. destruct x as [e1 r1]. inv_ex E. apply operand_ok in E. subst x.
      destruct (I1 4 r e1 r1 ltac:(lia) E0) as (u & -> & Du & Hu).
      apply (Go LogicalAnd ((T_AND, s) :: u) (build_and e e1) r1); auto.
      - apply (d_binary false LogicalAnd InclusiveOr [(T_AND, build_and)] T_AND build_and); auto; [cbn; tauto|cbn; tauto|]. eapply up; [|exact D]. apply (hi_level k 4); lia.
      - rewrite NL. cbn. destruct (Z.ltb_spec p 2); [lia|]. destruct (Z.ltb_spec p 12); lia. }
    assert (Post : precedence_get ty true = 14 -> derives false Postfix pre e /\ level (nt p) <= level Postfix).
    { intros P14. rewrite P14 in Hl. split; [eapply up; [|exact D]; destruct k; cbn in *; lia|]. rewrite NL. cbn. destruct (Z.ltb_spec p 2); [lia|]. destruct (Z.ltb_spec p 12); lia. }
    destruct (Z.eqb_spec ty T_LBRACK) as [->|?].
    { intros H. inv_ex H. destruct x as [i r2]. inv_ex H. inv_ex H. destruct x0 as [e1 r2']. apply operand_ok in E1. injection E1 as -> <-.
      apply expect_ok in E0 as [s' ->]; [|discriminate]. destruct (I1 0 r e1 _ ltac:(lia) E) as (u & -> & Du & Hu). destruct (Post eq_refl) as [Dp Lp].
      assert (B := hp_bound x).
      apply (Go Postfix ((T_LBRACK, s) :: u ++ [(T_RBRACK, s')]) (Indirection (BinaryOp OP_ADD e e1)) x); auto; [now apply d_subscript|cbn; lia|].
      cbn [app]. rewrite <- app_assoc. reflexivity. }
    destruct (Z.eqb_spec ty T_LPAR) as [->|?].
    { intros H. inv_ex H. destruct x as [es r2]. destruct (I4 0%nat r es r2 E) as (al & s' & Ln & -> & Da). destruct (Post eq_refl) as [Dp Lp].
      assert (B := hp_bound r2).
      apply (Go Postfix ((T_LPAR, s) :: al ++ [(T_RPAR, s')]) (Call e es) r2); auto; [now apply d_call|cbn; lia|].
      cbn [app]. rewrite <- app_assoc. reflexivity. }
    destruct (Z.eqb_spec ty T_DOT) as [->|?].
    { destruct r as [|[t nm] r2]; [discriminate|]. intros H. destruct (Post eq_refl) as [Dp Lp]. assert (B := hp_bound r2).
      apply (Go Postfix [(T_DOT, s); (t, nm)] (Dot e nm) r2); auto; [|cbn; lia]. apply (d_member false T_DOT Dot); [cbn; tauto|discriminate|auto]. }
    destruct (Z.eqb_spec ty T_ARROW) as [->|?].
    { destruct r as [|[t nm] r2]; [discriminate|]. intros H. destruct (Post eq_refl) as [Dp Lp]. assert (B := hp_bound r2).
      apply (Go Postfix [(T_ARROW, s); (t, nm)] (Dot (Indirection e) nm) r2); auto; [|cbn; lia].
      apply (d_member false T_ARROW (fun a n => Dot (Indirection a) n)); [cbn; tauto|discriminate|auto]. }
    destruct (Z.eqb_spec ty T_INC) as [->|?].
    { intros H. destruct (Post eq_refl) as [Dp Lp]. assert (B := hp_bound r).
      apply (Go Postfix [(T_INC, s)] (AssignmentOp OP_ADD e (Int 1) true) r); auto; [|cbn; lia].
      apply (d_postfix false T_INC (fun a => AssignmentOp OP_ADD a (Int 1) true)); [cbn; tauto|auto]. }
    destruct (Z.eqb_spec ty T_DEC) as [->|?].
    { intros H. destruct (Post eq_refl) as [Dp Lp]. assert (B := hp_bound r).
      apply (Go Postfix [(T_DEC, s)] (AssignmentOp OP_SUB e (Int 1) true) r); auto; [|cbn; lia].
      apply (d_postfix false T_DEC (fun a => AssignmentOp OP_SUB a (Int 1) true)); [cbn; tauto|auto]. }
    (** No other token has a precedence. *)
    exfalso. unfold precedence_get in Lt. cbn [negb andb] in Lt. destruct (find _ precedence_table) as [[t q]|] eqn:F; [|lia].
    apply find_some in F as [F Et]. cbn [fst] in Et. apply Z.eqb_eq in Et. subst t. cbn [precedence_table In] in F.
    repeat (destruct F as [F|F]; [injection F as <- <-; first [congruence|discriminate O]|]). destruct F.
Qed.
Theorem sound n : sound_at n.
Proof.
  induction n as [|n IH]; [repeat split; intros; discriminate|]. split; [|split; [|split]].
  - intros p l e rest P H. cbn [parse_pratt] in H. inv_ex H. destruct x as [[lhs|] l1]; [|discriminate].
    destruct IH as (I1 & I2 & I3 & I4). destruct (I2 _ _ _ E) as (u & k & -> & D & Hk & Lk).
    assert (NL := nt_level p P).
    destruct (I3 p lhs l1 e rest u k P D Hk) as (u2 & -> & D2 & H2); auto.
    + rewrite NL. destruct (Z.ltb_spec p 2); [lia|]. destruct (Z.ltb_spec p 12); lia.
    + exists (u ++ u2). rewrite <- app_assoc. auto.
  - now apply prefix_sound.
  - now apply loop_sound.
  - intros pos l es rest H. cbn [parse_call_parameters] in H. unfold MAX_ARGUMENTS in H. destruct (Nat.ltb_spec pos 128); [|discriminate].
    destruct (Z.eqb_spec (head_type l) T_RPAR) as [Eh|Nh].
    + injection H as <- <-. destruct l as [|[t s] l]; [discriminate|]. cbn in Eh. subst t. exists [], s. split; [cbn; lia|].
      destruct pos; cbn; auto. split; auto. apply a_none.
    + inv_ex H. inv_ex H. inv_ex H. destruct x1 as [e r2]. inv_ex H. destruct x1 as [es' r3]. injection H as <- <-. apply operand_ok in E1. subst x0.
      destruct IH as (I1 & I2 & I3 & I4). destruct (I1 1 x e r2 ltac:(lia) E0) as (u & -> & D & Hu).
      destruct (I4 _ _ _ _ E2) as (al & s & Ln & A).
      assert (Q : exists al' s', u ++ r2 = al' ++ (T_RPAR, s') :: r3 /\ arguments false al' (e :: es')).
      { destruct es' as [|e2 es'].
        - subst r2. exists u, s. split; auto. now apply a_one.
        - destruct A as (s' & -> & A). exists (u ++ (T_COMMA, s') :: al), s. split; [rewrite <- app_assoc; reflexivity|]. now apply a_more. }
      destruct Q as (al' & s' & Eq & A'). exists al', s'. split; [cbn in *; lia|]. destruct pos as [|pos]; cbn [Nat.eqb] in E.
      * injection E as ->. auto.
      * apply expect_ok in E as [s2 ->]; [|discriminate]. exists s2. split; [f_equal; exact Eq|exact A'].
Qed.
