From Verif Require Import Base Tokens Fuel Precedence ConstFold Pratt PrattSpec.

(** * More fuel gives the same answer *)
Lemma exbind_mono {A B} (x x' : ex A) (k k' : A -> ex B) r :
  (forall y, x = Some y -> x' = Some y) -> (forall a y, k a = Some y -> k' a = Some y) -> exbind x k = Some r -> exbind x' k' = Some r.
Proof.
  intros Hx Hk. destruct x as [[a| |]|]; cbn [exbind]; intros E; [|rewrite (Hx _ eq_refl); exact E|rewrite (Hx _ eq_refl); exact E|discriminate].
  rewrite (Hx _ eq_refl). cbn [exbind]. auto.
Qed.
Definition mono_at (n : nat) : Prop :=
  (forall p l r, parse_pratt n p l = Some r -> parse_pratt (S n) p l = Some r) /\
  (forall l r, parse_prefix n l = Some r -> parse_prefix (S n) l = Some r) /\
  (forall p e l r, parse_pratt_with_lhs n p e l = Some r -> parse_pratt_with_lhs (S n) p e l = Some r) /\
  (forall pos l r, parse_call_parameters n pos l = Some r -> parse_call_parameters (S n) pos l = Some r).
Ltac mono_step I1 I2 I3 I4 :=
  first
  [ discriminate
  | match goal with
    | |- parse_pratt _ _ _ = Some _ -> _ => apply I1
    | |- parse_prefix _ _ = Some _ -> _ => apply I2
    | |- parse_pratt_with_lhs _ _ _ _ = Some _ -> _ => apply I3
    | |- parse_call_parameters _ _ _ = Some _ -> _ => apply I4
    | |- exbind _ _ = Some _ -> _ => apply exbind_mono; [intros ?|intros ? ?]
    | |- (if ?b then _ else _) = _ -> _ => destruct b
    | |- (match ?b with Some _ => _ | None => _ end) = _ -> _ => destruct b
    | |- (match ?b with pair _ _ => _ end) = _ -> _ => destruct b
    | |- (match ?b with nil => _ | cons _ _ => _ end) = _ -> _ => destruct b
    end
  | exact (fun x => x)
  ].
Lemma mono n : mono_at n.
Proof.
  induction n as [|n (I1 & I2 & I3 & I4)]; [repeat split; intros; discriminate|].
  repeat split.
  - intros p l r. remember (S n) as m. cbn [parse_pratt]. rewrite Heqm at 1. cbn [parse_pratt]. subst m. repeat (mono_step I1 I2 I3 I4).
  - intros l r. remember (S n) as m. cbn [parse_prefix]. rewrite Heqm at 1. cbn [parse_prefix]. subst m. repeat (mono_step I1 I2 I3 I4).
  - intros p e l r. remember (S n) as m. cbn [parse_pratt_with_lhs]. rewrite Heqm at 1. cbn [parse_pratt_with_lhs]. subst m. repeat (mono_step I1 I2 I3 I4).
  - intros p l r. remember (S n) as m. cbn [parse_call_parameters]. rewrite Heqm at 1. cbn [parse_call_parameters]. subst m. repeat (mono_step I1 I2 I3 I4).
Qed.
Lemma pratt_le n m p l r : (n <= m)%nat -> parse_pratt n p l = Some r -> parse_pratt m p l = Some r.
Proof. induction 1; auto. intros E. apply (mono m). auto. Qed.
Lemma prefix_le n m l r : (n <= m)%nat -> parse_prefix n l = Some r -> parse_prefix m l = Some r.
Proof. induction 1; auto. intros E. apply (mono m). auto. Qed.
Lemma loop_le n m p e l r : (n <= m)%nat -> parse_pratt_with_lhs n p e l = Some r -> parse_pratt_with_lhs m p e l = Some r.
Proof. induction 1; auto. intros E. apply (mono m). auto. Qed.
Lemma args_le n m p l r : (n <= m)%nat -> parse_call_parameters n p l = Some r -> parse_call_parameters m p l = Some r.
Proof. induction 1; auto. intros E. apply (mono m). auto. Qed.

Definition parses p l r := exists n, parse_pratt n p l = Some (Ok r).
Definition prefixed l r := exists n, parse_prefix n l = Some (Ok r).
Definition loops p e l r := exists n, parse_pratt_with_lhs n p e l = Some (Ok r).
Definition args pos l r := exists n, parse_call_parameters n pos l = Some (Ok r).

(** The next operator of the rest. *)
Definition hp (l : list tok) : Z := precedence_get (head_type l) true.
Arguments hp : simpl never.

(** Bring all runs to one fuel. *)
Ltac same_fuel :=
  repeat match goal with
  | H : parses _ _ _ |- _ => destruct H as [? H]
  | H : prefixed _ _ |- _ => destruct H as [? H]
  | H : loops _ _ _ _ |- _ => destruct H as [? H]
  | H : args _ _ _ |- _ => destruct H as [? H]
  end.

Lemma parses_prefix p l e l1 r : prefixed l (Some e, l1) -> loops p e l1 r -> parses p l r.
Proof.
  intros [a A] [b B]. exists (S (Nat.max a b)). cbn [parse_pratt]. rewrite (fun h => prefix_le a _ _ _ h A) by lia. cbn [exbind].
  apply (loop_le b); auto. lia.
Qed.
Lemma loops_stop p e l : hp l <= p -> loops p e l (Some e, l).
Proof. intros H. exists 1%nat. cbn [parse_pratt_with_lhs]. unfold hp in H. destruct (Z.ltb_spec p (precedence_get (head_type l) true)); [lia|]. reflexivity. Qed.
Lemma loops_op p e ty s r o e' r2 res : op_of ty = Some o -> p < precedence_get ty true ->
  parses (precedence_get ty false) r (Some e', r2) -> loops p (build o e e') r2 res -> loops p e ((ty, s) :: r) res.
Proof.
  intros O P [a A] [b B]. exists (S (Nat.max a b)). cbn [parse_pratt_with_lhs head_type fst tl].
  destruct (Z.ltb_spec p (precedence_get ty true)); [|lia]. rewrite O. rewrite (fun h => pratt_le a _ _ _ _ h A) by lia. cbn [exbind operand ok].
  apply (loop_le b); auto. lia.
Qed.
Lemma loops_cond p e s r m s' r2 e' r3 res : p < 2 ->
  parses 0 r (Some m, (T_COLON, s') :: r2) -> parses 1 r2 (Some e', r3) -> loops p (Conditional e m e') r3 res -> loops p e ((T_QUEST, s) :: r) res.
Proof.
  intros P [a A] [b B] [c C]. exists (S (Nat.max a (Nat.max b c))). cbn [parse_pratt_with_lhs head_type fst tl].
  change (precedence_get T_QUEST true) with 2. change (precedence_get T_QUEST false) with 1. change (op_of T_QUEST) with (@None operation).
  destruct (Z.ltb_spec p 2); [|lia]. rewrite Z.eqb_refl. rewrite (fun h => pratt_le a _ _ _ _ h A) by lia. cbn [exbind]. unfold expect. cbn [head_type fst tl].
  rewrite Z.eqb_refl. cbn [exbind ok]. rewrite (fun h => pratt_le b _ _ _ _ h B) by lia. cbn [exbind operand ok]. apply (loop_le c); auto. lia.
Qed.
Lemma loops_or p e s r e' r2 res : p < 3 -> parses 3 r (Some e', r2) -> loops p (build_or e e') r2 res -> loops p e ((T_OR, s) :: r) res.
Proof.
  intros P [a A] [b B]. exists (S (Nat.max a b)). cbn [parse_pratt_with_lhs head_type fst tl].
  change (precedence_get T_OR true) with 3. change (precedence_get T_OR false) with 3. change (op_of T_OR) with (@None operation).
  destruct (Z.ltb_spec p 3); [|lia]. change (T_OR =? T_QUEST) with false. cbv iota. rewrite Z.eqb_refl. rewrite (fun h => pratt_le a _ _ _ _ h A) by lia.
  cbn [exbind operand ok]. apply (loop_le b); auto. lia.
Qed.
Lemma loops_and p e s r e' r2 res : p < 4 -> parses 4 r (Some e', r2) -> loops p (build_and e e') r2 res -> loops p e ((T_AND, s) :: r) res.
Proof.
  intros P [a A] [b B]. exists (S (Nat.max a b)). cbn [parse_pratt_with_lhs head_type fst tl].
  change (precedence_get T_AND true) with 4. change (precedence_get T_AND false) with 4. change (op_of T_AND) with (@None operation).
  destruct (Z.ltb_spec p 4); [|lia]. change (T_AND =? T_QUEST) with false. change (T_AND =? T_OR) with false. cbv iota. rewrite Z.eqb_refl.
  rewrite (fun h => pratt_le a _ _ _ _ h A) by lia. cbn [exbind operand ok]. apply (loop_le b); auto. lia.
Qed.
Ltac decide_tests := repeat match goal with |- context [?x =? ?y] => let b := eval vm_compute in (x =? y) in match b with true => idtac | false => idtac end; change (x =? y) with b; cbv iota end.
Lemma loops_index p e s r i s' r2 res : p < 14 -> parses 0 r (Some i, (T_RBRACK, s') :: r2) ->
  loops p (Indirection (BinaryOp OP_ADD e i)) r2 res -> loops p e ((T_LBRACK, s) :: r) res.
Proof.
  intros P [a A] [b B]. exists (S (Nat.max a b)). cbn [parse_pratt_with_lhs head_type fst tl].
  change (precedence_get T_LBRACK true) with 14. change (op_of T_LBRACK) with (@None operation).
  destruct (Z.ltb_spec p 14); [|lia]. decide_tests.
  rewrite (fun h => pratt_le a _ _ _ _ h A) by lia. cbn [exbind]. unfold expect. cbn [head_type fst tl]. rewrite Z.eqb_refl. cbn [exbind operand ok]. apply (loop_le b); auto. lia.
Qed.
Lemma loops_call p e s r es r2 res : p < 14 -> args 0 r (es, r2) -> loops p (Call e es) r2 res -> loops p e ((T_LPAR, s) :: r) res.
Proof.
  intros P [a A] [b B]. exists (S (Nat.max a b)). cbn [parse_pratt_with_lhs head_type fst tl].
  change (precedence_get T_LPAR true) with 14. change (op_of T_LPAR) with (@None operation).
  destruct (Z.ltb_spec p 14); [|lia]. decide_tests.
  rewrite (fun h => args_le a _ _ _ _ h A) by lia. cbn [exbind]. apply (loop_le b); auto. lia.
Qed.
Lemma loops_member op f p e s ty nm r res : In (op, f) members -> p < 14 -> loops p (f e nm) r res -> loops p e ((op, s) :: (ty, nm) :: r) res.
Proof.
  intros I P [b B]. exists (S b). cbn [parse_pratt_with_lhs head_type fst tl].
  destruct I as [I|[I|[]]]; injection I as <- <-.
  - change (precedence_get T_DOT true) with 14. change (op_of T_DOT) with (@None operation).
    destruct (Z.ltb_spec p 14); [|lia]. decide_tests. exact B.
  - change (precedence_get T_ARROW true) with 14. change (op_of T_ARROW) with (@None operation).
    destruct (Z.ltb_spec p 14); [|lia]. decide_tests. exact B.
Qed.
Lemma loops_postfix op f p e s r res : In (op, f) (increments true) -> p < 14 -> loops p (f e) r res -> loops p e ((op, s) :: r) res.
Proof.
  intros I P [b B]. exists (S b). cbn [parse_pratt_with_lhs head_type fst tl].
  destruct I as [I|[I|[]]]; injection I as <- <-.
  - change (precedence_get T_INC true) with 14. change (op_of T_INC) with (@None operation).
    destruct (Z.ltb_spec p 14); [|lia]. decide_tests. exact B.
  - change (precedence_get T_DEC true) with 14. change (op_of T_DEC) with (@None operation).
    destruct (Z.ltb_spec p 14); [|lia]. decide_tests. exact B.
Qed.

(** Prefixes. *)
Lemma prefixed_leaf t r : In (fst t) primaries -> prefixed (t :: r) (Some (Leaf t), r).
Proof.
  intros I. exists 1%nat. destruct t as [ty s]. cbn [parse_prefix head_type fst tl]. cbn [fst] in I.
  cbn [primaries In] in I. repeat (destruct I as [<-|I]; [reflexivity|]). destruct I.
Qed.
Lemma prefixed_paren s l e s' r : head_type l <> TYPE_NAME -> parses 0 l (Some e, (T_RPAR, s') :: r) -> prefixed ((T_LPAR, s) :: l) (Some e, r).
Proof.
  intros N [a A]. exists (S a). cbn [parse_prefix head_type fst tl]. rewrite Z.eqb_refl. fold (head_type l). rewrite (proj2 (Z.eqb_neq _ _) N).
  rewrite A. cbn [exbind]. unfold expect. cbn [head_type fst tl]. rewrite Z.eqb_refl. reflexivity.
Qed.
Lemma prefixed_cast s ty s' l e r : head_type l <> T_LBRACE -> parses 13 l (Some e, r) ->
  prefixed ((T_LPAR, s) :: (TYPE_NAME, ty) :: (T_RPAR, s') :: l) (Some (Cast ty e), r).
Proof.
  intros N [a A]. exists (S a). cbn [parse_prefix head_type fst tl]. rewrite !Z.eqb_refl. unfold expect. cbn [head_type fst tl]. rewrite Z.eqb_refl. cbn [exbind ok].
  rewrite (proj2 (Z.eqb_neq _ _) N). unfold PREFIX_PREC. rewrite A. reflexivity.
Qed.
Lemma prefixed_op op f s l e r : In (op, f) (prefixes ++ increments false) -> parses 13 l (Some e, r) -> prefixed ((op, s) :: l) (Some (f e), r).
Proof.
  intros I [a A]. exists (S a). cbn [parse_prefix head_type fst tl]. unfold PREFIX_PREC. rewrite A.
  cbn [app prefixes increments In] in I. repeat (destruct I as [I|I]; [injection I as <- <-; reflexivity|]). destruct I.
Qed.
Lemma prefixed_sizeof s l e r : (head_type l =? T_LPAR) && (head_type (tl l) =? TYPE_NAME) = false -> parses 13 l (Some e, r) ->
  prefixed ((T_KSIZEOF, s) :: l) (Some (SizeofExpr e), r) /\ prefixed ((T_KALIGNOF, s) :: l) (Some (AlignofExpr e), r).
Proof.
  intros N [a A]. split; exists (S a); cbn [parse_prefix head_type fst tl]; decide_tests; fold (head_type l); rewrite N; unfold PREFIX_PREC; rewrite A; reflexivity.
Qed.
Lemma prefixed_sizeof_type s s1 ty s2 r :
  prefixed ((T_KSIZEOF, s) :: (T_LPAR, s1) :: (TYPE_NAME, ty) :: (T_RPAR, s2) :: r) (Some (SizeofType ty), r) /\
  prefixed ((T_KALIGNOF, s) :: (T_LPAR, s1) :: (TYPE_NAME, ty) :: (T_RPAR, s2) :: r) (Some (AlignofType ty), r).
Proof. split; exists 1%nat; reflexivity. Qed.

(** Arguments. *)
Lemma args_end pos s r : (pos < 128)%nat -> args pos ((T_RPAR, s) :: r) ([], r).
Proof. intros P. exists 1%nat. cbn [parse_call_parameters]. unfold MAX_ARGUMENTS. destruct (Nat.ltb_spec pos 128); [|lia]. reflexivity. Qed.
Lemma args_first l e r es r2 : head_type l <> T_RPAR -> parses 1 l (Some e, r) -> args 1 r (es, r2) -> args 0 l (e :: es, r2).
Proof.
  intros N [a A] [b B]. exists (S (Nat.max a b)). cbn [parse_call_parameters]. unfold MAX_ARGUMENTS. destruct (Nat.ltb_spec 0 128); [|lia].
  rewrite (proj2 (Z.eqb_neq _ _) N). cbn [Nat.eqb exbind ok]. unfold ASSIGNMENT_PREC. rewrite (fun h => pratt_le a _ _ _ _ h A) by lia. cbn [exbind operand ok].
  rewrite (fun h => args_le b _ _ _ _ h B) by lia. reflexivity.
Qed.
Lemma args_next pos s l e r es r2 : (S pos < 128)%nat -> parses 1 l (Some e, r) -> args (S (S pos)) r (es, r2) -> args (S pos) ((T_COMMA, s) :: l) (e :: es, r2).
Proof.
  intros P [a A] [b B]. exists (S (Nat.max a b)). cbn [parse_call_parameters]. unfold MAX_ARGUMENTS. destruct (Nat.ltb_spec (S pos) 128); [|lia].
  cbn [head_type fst]. change (T_COMMA =? T_RPAR) with false. cbv iota. cbn [Nat.eqb]. unfold expect. cbn [head_type fst tl]. rewrite Z.eqb_refl. cbn [exbind ok].
  unfold ASSIGNMENT_PREC. rewrite (fun h => pratt_le a _ _ _ _ h A) by lia. cbn [exbind operand ok].
  rewrite (fun h => args_le b _ _ _ _ h B) by lia. reflexivity.
Qed.

(** * Every derivation is parsed *)
Scheme derives_mut := Induction for derives Sort Prop with arguments_mut := Induction for arguments Sort Prop.
Combined Scheme derives_arguments from derives_mut, arguments_mut.

Definition level (a : nonterminal) : Z :=
  match a with
  | Expression => 0 | AssignmentExpr => 1 | ConditionalExpr => 2 | LogicalOr => 3 | LogicalAnd => 4 | InclusiveOr => 5 | ExclusiveOr => 6
  | AndExpr => 7 | Equality => 8 | Relational => 9 | Shift => 10 | Additive => 11 | Multiplicative => 12 | CastExpr => 13 | Unary => 14
  | Postfix => 15 | Primary => 16
  end.
Definition lo (a : nonterminal) : Z := match a with Expression => 1 | AssignmentExpr => 2 | ConditionalExpr => 2 | CastExpr | Unary | Postfix | Primary => 14 | _ => level a end.
Definition hi (a : nonterminal) : Z := match a with Expression | AssignmentExpr | ConditionalExpr => 1 | CastExpr | Unary => 13 | Postfix | Primary => 14 | _ => level a end.

(** Tokens a derivation can start with. *)
Definition starters : list Z := T_LPAR :: T_KSIZEOF :: T_KALIGNOF :: primaries ++ map fst prefixes ++ map fst (increments false).
Lemma starts c : (forall a l e, derives c a l e -> l <> [] /\ In (head_type l) starters) /\ (forall l es, arguments c l es -> es <> [] -> l <> [] /\ In (head_type l) starters).
Proof.
  apply derives_arguments; intros;
    repeat match goal with
    | H : ?l <> [] /\ In (head_type ?l) starters |- _ => let t := fresh "t" in destruct l as [|t ?]; [destruct H; congruence|destruct H as [_ H]]
    | H : _ -> _ -> ?l <> [] /\ _ |- _ => clear H
    end; try (split; [discriminate|]); cbn [app head_type fst] in *; auto.
  - unfold starters. right; right; right. apply in_or_app. auto.
  - cbn; auto.
  - cbn; auto.
  - unfold starters. right; right; right. apply in_or_app. right. apply in_or_app. left. now apply (in_map fst _ (op, f)).
  - unfold starters. right; right; right. apply in_or_app. right. apply in_or_app. right. now apply (in_map fst _ (op, f)).
  - cbn; auto.
  - cbn; auto.
  - cbn; auto.
  - cbn; auto.
  - congruence.
Qed.
Lemma starter_not ty : In ty starters -> ty <> TYPE_NAME /\ ty <> T_RPAR /\ ty <> T_LBRACE.
Proof. cbn. intros H. repeat (destruct H as [<-|H]; [repeat split; discriminate|]). destruct H. Qed.
Lemma head_app l r : l <> [] -> head_type (l ++ r) = head_type l.
Proof. destruct l; [congruence|reflexivity]. Qed.

Lemma binary_facts a b ops op f : In (a, b, ops) binaries -> In (op, f) ops ->
  a = Expression /\ op = T_COMMA /\ f = Comma /\ b = AssignmentExpr \/
  3 <= level a <= 12 /\ level b = level a + 1 /\ precedence_get op true = level a /\ precedence_get op false = level a /\
  (op = T_OR /\ f = build_or \/ op = T_AND /\ f = build_and \/ exists o, op_of op = Some (OBinary o) /\ f = BinaryOp o).
Proof.
  cbn [binaries In]. intros I J. repeat (destruct I as [I|I]; [injection I as <- <- <-; cbn [In] in J;
    repeat (destruct J as [J|J]; [injection J as <- <-; first [left; auto; fail|right; split; [cbn; lia|split; [reflexivity|split; [reflexivity|split; [reflexivity|]]]]; first [left; split; reflexivity|right; left; split; reflexivity|right; right; eexists; split; reflexivity]]|]); destruct J|]).
  destruct I.
Qed.
Lemma assignment_facts op f : In (op, f) assignments -> exists o, op_of op = Some o /\ f = build o /\ precedence_get op true = 2 /\ precedence_get op false = 1.
Proof. cbn [assignments In]. intros I. repeat (destruct I as [I|I]; [injection I as <- <-; eexists; repeat split; reflexivity|]). destruct I. Qed.
Lemma unit_facts a b : In (a, b) units -> level b = level a + 1 /\ lo a <= lo b /\ hi a <= hi b.
Proof. cbn [units In]. intros I. repeat (destruct I as [I|I]; [injection I as <- <-; cbn; lia|]). destruct I. Qed.
Lemma not_cast_test l : not_cast l -> (head_type l =? T_LPAR) && (head_type (tl l) =? TYPE_NAME) = false.
Proof.
  intros N. destruct l as [|[t s] [|[u ty] r]]; [reflexivity|cbn; now rewrite andb_false_r|]. cbn [head_type tl fst].
  destruct (Z.eqb_spec t T_LPAR) as [->|]; [|reflexivity]. destruct (Z.eqb_spec u TYPE_NAME) as [->|]; [|reflexivity].
  exfalso. eapply N. reflexivity.
Qed.
(** Two tokens of lookahead, beyond the derivation: it has two tokens if it starts with a parenthesis. *)
Lemma two_tokens c a l e : derives c a l e -> forall s, l <> [(T_LPAR, s)].
Proof.
  induction 1; intros s0; try discriminate;
    try (match goal with H : derives c _ ?l _ |- ?l ++ _ <> _ => destruct (proj1 (starts c) _ _ _ H) as [N _]; destruct l as [|? [|? ?]]; [congruence|discriminate|discriminate] end);
    auto.
  all: intros E; first [injection E as E _; destruct t as [? ?]; cbn in *; subst | inversion E; subst];
    try (destruct l; discriminate);
    try (match goal with H : In _ _ |- _ => cbn in H; repeat (destruct H as [H|H]; [discriminate H|]); destruct H end).

Qed.
Lemma not_cast_app c a l e r : derives c a l e -> not_cast l -> not_cast (l ++ r).
Proof.
  intros D N s ty q E. destruct (proj1 (starts c) _ _ _ D) as [Ne _]. assert (T := two_tokens _ _ _ _ D s).
  destruct l as [|x [|y l]]; [congruence| |]; cbn in E.
  - inversion E; subst. now apply T.
  - inversion E; subst. eapply N. reflexivity.
Qed.

Theorem complete :
  (forall a l e, derives false a l e -> forall p rest r, p < lo a -> hp rest <= hi a -> loops p e rest r -> parses p (l ++ rest) r) /\
  (forall l es, arguments false l es -> forall rest s, 
     ((length es <= 127)%nat -> args 0 (l ++ (T_RPAR, s) :: rest) (es, rest)) /\
     (forall pos s', (S pos + length es <= 127)%nat -> es <> [] -> args (S pos) ((T_COMMA, s') :: l ++ (T_RPAR, s) :: rest) (es, rest))).
Proof.
  apply derives_arguments.
  - (* primary *) intros t I p rest r P H L. eapply parses_prefix; [apply prefixed_leaf; exact I|exact L].
  - (* paren *) intros s s' l e D IH p rest r P H L. cbn [app]. rewrite <- app_assoc. cbn [app].
    destruct (proj1 (starts _) _ _ _ D) as [Ne St]. eapply parses_prefix; [|exact L].
    apply (prefixed_paren s _ e s' rest).
    + rewrite head_app by auto. now apply starter_not.
    + apply IH; [cbn; lia|cbn; unfold hp; cbn; lia|]. apply loops_stop. unfold hp. cbn. lia.
  - (* unit *) intros a b l e I D IH p rest r P H L. destruct (unit_facts _ _ I) as (_ & U1 & U2). apply IH; auto; lia.
  - (* binary *) intros a b ops op f s l r e e' I J D IH D' IH' p rest res P H L. rewrite <- app_assoc. cbn [app].
    destruct (binary_facts _ _ _ _ _ I J) as [(-> & -> & -> & ->)|(Lv & Lb & P1 & P2 & K)].
    + apply IH; [auto|unfold hp; cbn; lia|]. apply (loops_op _ _ _ _ _ OComma e' rest); [reflexivity|cbn in *; lia| |exact L].
      change (precedence_get T_COMMA false) with 1. apply IH'; [cbn; lia|cbn in *; lia|]. apply loops_stop. cbn in H. lia.
    + assert (hi a = level a /\ lo a = level a /\ level a < lo b /\ hi a <= hi b) as (Ha & La & Hb & Hhi) by (destruct a, b; cbn in *; lia).
      assert (R : parses (level a) (r ++ rest) (Some e', rest)) by (apply IH'; [lia|lia|apply loops_stop; lia]).
      apply IH; [auto|unfold hp; cbn [head_type fst]; lia|].
      destruct K as [[-> ->]|[[-> ->]|(o & O & ->)]].
      * apply (loops_or _ _ _ _ e' rest); [cbn in P1; lia| |exact L]. change 3 with (precedence_get T_OR true). now rewrite P1.
      * apply (loops_and _ _ _ _ e' rest); [cbn in P1; lia| |exact L]. change 4 with (precedence_get T_AND true). now rewrite P1.
      * apply (loops_op _ _ _ _ _ (OBinary o) e' rest); [exact O|lia| |exact L]. now rewrite P2.
  - (* assignment *) intros op f s l r e e' I D IH D' IH' p rest res P H L. rewrite <- app_assoc. cbn [app].
    destruct (assignment_facts _ _ I) as (o & O & -> & P1 & P2).
    apply IH; [cbn in *; lia|unfold hp; cbn [head_type fst]; rewrite P1; cbn; lia|].
    apply (loops_op _ _ _ _ _ o e' rest); [exact O|cbn in P; lia| |exact L]. rewrite P2. apply IH'; [cbn; lia|auto|]. apply loops_stop. cbn in H. lia.
  - (* conditional *) intros s s' l m r e e' e'' D IH D' IH' D'' IH'' p rest res P H L. rewrite <- app_assoc. cbn [app]. rewrite <- app_assoc. cbn [app].
    apply IH; [cbn in *; lia|unfold hp; cbn; lia|].
    apply (loops_cond _ _ _ _ e' s' (r ++ rest) e'' rest); [cbn in P; lia| | |exact L].
    + apply IH'; [cbn; lia|unfold hp; cbn; lia|]. apply loops_stop. unfold hp. cbn. lia.
    + apply IH''; [cbn; lia|cbn in *; lia|]. apply loops_stop. cbn in H. lia.
  - (* cast *) intros s ty s' l e D IH p rest r P H L. cbn [app]. destruct (proj1 (starts _) _ _ _ D) as [Ne St].
    eapply parses_prefix; [|exact L]. apply prefixed_cast; [rewrite head_app by auto; now apply starter_not|].
    apply IH; [cbn; lia|auto|]. apply loops_stop. cbn in H. lia.
  - (* prefix *) intros op f s l e I D IH p rest r P H L. cbn [app]. eapply parses_prefix; [|exact L]. apply prefixed_op; [apply in_or_app; auto|].
    apply IH; [cbn; lia|auto|]. apply loops_stop. cbn in H. lia.
  - (* increment *) intros op f s l e I D IH p rest r P H L. cbn [app]. eapply parses_prefix; [|exact L]. apply prefixed_op; [apply in_or_app; auto|].
    apply IH; [cbn; lia|auto|]. apply loops_stop. cbn in H. lia.
  - (* sizeof *) intros s l e D IH N p rest r P H L. cbn [app]. eapply parses_prefix; [|exact L]. apply prefixed_sizeof.
    + apply not_cast_test. eapply not_cast_app; eauto.
    + apply IH; [cbn; lia|auto|]. apply loops_stop. cbn in H. lia.
  - (* alignof *) intros s l e _ D IH N p rest r P H L. cbn [app]. eapply parses_prefix; [|exact L]. apply prefixed_sizeof.
    + apply not_cast_test. eapply not_cast_app; eauto.
    + apply IH; [cbn; lia|auto|]. apply loops_stop. cbn in H. lia.
  - (* sizeof type *) intros s s1 ty s2 p rest r P H L. cbn [app]. eapply parses_prefix; [|exact L]. apply prefixed_sizeof_type.
  - intros s s1 ty s2 p rest r P H L. cbn [app]. eapply parses_prefix; [|exact L]. apply prefixed_sizeof_type.
  - (* subscript *) intros s s' l i e e' D IH D' IH' p rest r P H L. rewrite <- app_assoc. cbn [app]. rewrite <- app_assoc. cbn [app].
    apply IH; [auto|unfold hp; cbn; lia|]. apply (loops_index _ _ _ _ e' s' rest); [cbn in P; lia| |exact L].
    apply IH'; [cbn; lia|unfold hp; cbn; lia|]. apply loops_stop. unfold hp. cbn. lia.
  - (* call *) intros s s' l al e es D IH D' IH' Ln p rest r P H L. rewrite <- app_assoc. cbn [app]. rewrite <- app_assoc. cbn [app].
    apply IH; [auto|unfold hp; cbn; lia|]. apply (loops_call _ _ _ _ es rest); [cbn in P; lia| |exact L]. now apply IH'.
  - (* member *) intros op f s ty nm l e I _ D IH p rest r P H L. rewrite <- app_assoc. cbn [app].
    apply IH; [auto|unfold hp; cbn [head_type fst]; destruct I as [I|[I|[]]]; injection I as <- <-; cbn; lia|].
    apply (loops_member op f); auto.
  - (* postfix *) intros op f s l e I D IH p rest r P H L. rewrite <- app_assoc. cbn [app].
    apply IH; [auto|unfold hp; cbn [head_type fst]; destruct I as [I|[I|[]]]; injection I as <- <-; cbn; lia|].
    apply (loops_postfix op f); auto.
  - (* no arguments *) intros rest s. split; [|intros; congruence]. intros _. apply args_end. lia.
  - (* one *) intros l e D IH rest s. destruct (proj1 (starts _) _ _ _ D) as [Ne St].
    assert (R : parses 1 (l ++ (T_RPAR, s) :: rest) (Some e, (T_RPAR, s) :: rest)).
    { apply IH; [cbn; lia|unfold hp; cbn; lia|]. apply loops_stop. unfold hp. cbn. lia. }
    split.
    + intros _. eapply args_first; [rewrite head_app by auto; now apply starter_not|exact R|]. apply args_end. lia.
    + intros pos s' Hp _. eapply args_next; [cbn in Hp; lia|exact R|]. apply args_end. cbn in Hp. lia.
  - (* more *) intros s0 l r e e' es D IH D' IH' rest s. destruct (proj1 (starts _) _ _ _ D) as [Ne St].
    rewrite <- app_assoc. cbn [app].
    assert (R : parses 1 (l ++ (T_COMMA, s0) :: r ++ (T_RPAR, s) :: rest) (Some e, (T_COMMA, s0) :: r ++ (T_RPAR, s) :: rest)).
    { apply IH; [cbn; lia|unfold hp; cbn; lia|]. apply loops_stop. unfold hp. cbn. lia. }
    destruct (IH' rest s) as [_ IHn]. split.
    + intros Ln. eapply args_first; [rewrite head_app by auto; now apply starter_not|exact R|]. apply IHn; [cbn in *; lia|discriminate].
    + intros pos s' Hp _. eapply args_next; [cbn in Hp; lia|exact R|]. apply IHn; [cbn in *; lia|discriminate].
Qed.
