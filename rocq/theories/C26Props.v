(** C26: operator precedence parsing. *)
From Verif Require Import Base CharTypes Tokens Fuel Precedence ConstFold Pratt PrattSpec PrattProofs PrattSound PrattTotal.

(** The expression parser, given these tokens, returns [e] and leaves [rest]. *)
Definition reads (l : list tok) (e : expr) (rest : list tok) : Prop := exists n, parse_expression n l = Some (Ok (Some e, rest)).
(** The tokens an expression can go on with. *)
Definition continues : list Z :=
  [T_LBRACK; T_LPAR; T_DOT; T_ARROW; T_INC; T_DEC; T_QUEST] ++ map fst assignments ++ map fst (flat_map snd binaries).

Lemma hp_continues l : hp l <= 0 <-> ~ In (head_type l) continues.
Proof.
  unfold hp, precedence_get. cbn [negb andb].
  assert (A : forall t p, In (t, p) precedence_table -> 0 < p /\ In t continues).
  { intros t p I. cbn [precedence_table In] in I. repeat (destruct I as [I|I]; [injection I as <- <-; split; [lia|cbn; tauto]|]). destruct I. }
  assert (B : forall t, In t continues -> existsb (fun q => t =? fst q) precedence_table = true).
  { assert (F : Forall (fun t => existsb (fun q => t =? fst q) precedence_table = true) continues)
      by (repeat (apply Forall_cons; [reflexivity|]); apply Forall_nil).
    rewrite Forall_forall in F. exact F. }
  destruct (find _ precedence_table) as [[t p]|] eqn:E.
  - apply find_some in E as [I Et]. cbn [fst] in Et. apply Z.eqb_eq in Et. destruct (A t p I) as [P C]. subst t. split; [lia|contradiction].
  - split; [|lia]. intros _ I. apply B in I. apply existsb_exists in I as ([t p] & I & Et).
    assert (X := find_none _ _ E _ I). cbn [fst] in X, Et. rewrite Z.eqb_sym, X in Et. discriminate.
Qed.

(** Parsing ends for every list of tokens, with the one result. *)
Theorem C26_ends (l : list tok) : exists r, forall n, (4 * length l + 2 < n)%nat -> parse_expression n l = Some r.
Proof.
  unfold parse_expression. destruct (parse_pratt (4 * length l + 3) 0 l) as [r|] eqn:E.
  - exists r. intros n H. eapply pratt_le; [|exact E]. lia.
  - exfalso. apply (proj1 (total (4 * length l + 3)) 0 l); [lia|exact E].
Qed.
Print Assumptions C26_ends.

(** Any expression of the C grammar, followed by tokens it cannot go on with, is read as
    the tree the grammar gives it. *)
Theorem C26_c_expressions (l rest : list tok) (e : expr) :
  derives true Expression l e -> ~ In (head_type rest) continues -> reads (l ++ rest) e rest.
Proof.
  intros D H. apply hp_continues in H. apply (proj1 c_included) in D. apply (proj1 complete _ _ _ D); [cbn; lia|cbn; lia|]. apply loops_stop. lia.
Qed.
Print Assumptions C26_c_expressions.

(** The expressions read are exactly those of the wider grammar. *)
Theorem C26_accepted (l rest : list tok) (e : expr) :
  reads l e rest <-> exists used, l = used ++ rest /\ derives false Expression used e /\ ~ In (head_type rest) continues.
Proof.
  split.
  - intros [n H]. destruct (proj1 (sound n) 0 l e rest ltac:(lia) H) as (u & -> & D & Hr). exists u. rewrite <- hp_continues. auto.
  - intros (u & -> & D & H). apply hp_continues in H. apply (proj1 complete _ _ _ D); [cbn; lia|cbn; lia|]. apply loops_stop. lia.
Qed.
Print Assumptions C26_accepted.

(** The grammar gives a sequence of tokens one tree at most. *)
Theorem C26_one_tree (l : list tok) (e e' : expr) : derives true Expression l e -> derives true Expression l e' -> e = e'.
Proof.
  intros D D'. assert (N : ~ In (head_type (@nil tok)) continues) by (apply hp_continues; unfold hp; cbn; lia).
  destruct (C26_c_expressions _ [] _ D N) as [n H]. destruct (C26_c_expressions _ [] _ D' N) as [m H'].
  apply (pratt_le _ (n + m)) in H; [|lia]. apply (pratt_le _ (n + m)) in H'; [|lia]. unfold parse_expression in *. rewrite H in H'. injection H' as ->. reflexivity.
Qed.
Print Assumptions C26_one_tree.

(** a = b - c - d ? e , f : -g * h, followed by ; *)
Definition id (s : list Z) : tok := (T_IDENT, s).
Definition sample : list tok :=
  [id [97]; (T_A, []); id [98]; (T_SUB, []); id [99]; (T_SUB, []); id [100]; (T_QUEST, []); id [101]; (T_COMMA, []); id [102]; (T_COLON, []);
   (T_SUB, []); id [103]; (T_STAR, []); id [104]].
Definition sample_tree : expr :=
  Assignment (Leaf (id [97]))
    (Conditional (BinaryOp OP_SUB (BinaryOp OP_SUB (Leaf (id [98])) (Leaf (id [99]))) (Leaf (id [100])))
       (Comma (Leaf (id [101])) (Leaf (id [102])))
       (BinaryOp OP_MUL (UnaryOp UOP_NEG (Leaf (id [103]))) (Leaf (id [104])))).
Lemma leaf c s a : derives c a [id s] (Leaf (id s)).
Proof. apply (up _ _ Primary); [apply level_pos|]. apply d_primary. cbn. tauto. Qed.
Example sample_derived : derives true Expression sample sample_tree.
Proof.
  apply (up _ _ AssignmentExpr); [cbn; lia|].
  apply (d_assignment true T_A Assignment [] [_]); [cbn; tauto|apply leaf|].
  apply (up _ _ ConditionalExpr); [cbn; lia|].
  apply (d_conditional true [] [] [_; _; _; _; _] [_; _; _] [_; _; _; _]).
  - apply (up _ _ Additive); [cbn; lia|]. apply (d_binary true Additive Multiplicative [(T_ADD, BinaryOp OP_ADD); (T_SUB, BinaryOp OP_SUB)] T_SUB _ [] [_; _; _] [_]); [cbn; tauto|cbn; tauto| |apply leaf].
    apply (d_binary true Additive Multiplicative [(T_ADD, BinaryOp OP_ADD); (T_SUB, BinaryOp OP_SUB)] T_SUB _ [] [_] [_]); [cbn; tauto|cbn; tauto|apply leaf|apply leaf].
  - apply (d_binary true Expression AssignmentExpr [(T_COMMA, Comma)] T_COMMA _ [] [_] [_]); [cbn; tauto|cbn; tauto|apply leaf|apply leaf].
  - apply (up _ _ Multiplicative); [cbn; lia|].
    apply (d_binary true Multiplicative CastExpr [(T_STAR, BinaryOp OP_MUL); (T_DIV, BinaryOp OP_DIV); (T_MOD, BinaryOp OP_MOD)] T_STAR _ [] [_; _] [_]); [cbn; tauto|cbn; tauto| |apply leaf].
    apply (up _ _ Unary); [cbn; lia|]. apply (d_prefix true T_SUB (UnaryOp UOP_NEG) [] [_]); [cbn; tauto|apply leaf].
Qed.
Example sample_read : reads (sample ++ [(T_SEMI_COLON, [])]) sample_tree [(T_SEMI_COLON, [])].
Proof. apply C26_c_expressions; [apply sample_derived|]. cbn. intuition discriminate. Qed.

(** Not every expression read is one of C: a + b = c is taken for an assignment, though the
    left side of an assignment must be a unary expression (a constraint C11 5.1.1.3 asks a
    diagnostic for). *)
Definition sum_assigned : list tok := [id [97]; (T_ADD, []); id [98]; (T_A, []); id [99]].
Definition plain (t : tok) : Prop := fst t = T_IDENT \/ fst t = T_ADD \/ fst t = T_A.
Lemma not_derived a l e : derives true a l e -> Forall plain l ->
  (2 <= level a -> Forall (fun t => fst t <> T_A) l) /\ (14 <= level a -> head_type l = T_ADD \/ length l = 1%nat) /\ l <> sum_assigned.
Proof.
  induction 1 as [t I| | | a b ops op f s l r e e' I J D IH D' IH' | op f s l r e e' I D IH D' IH' | | |op f s l e I D IH|op f s l e I D IH| | | | | | | |]; intros F;
    try (exfalso; rewrite ?Forall_app in F; repeat match goal with
      | H : _ /\ _ |- _ => destruct H
      | H : Forall _ (_ ++ _) |- _ => apply Forall_app in H
      | H : Forall _ (?x :: _) |- _ => inversion H; subst; clear H
      end; match goal with H : plain (_, _) |- _ => destruct H as [H|[H|H]]; discriminate H end).
  - split; [|split; [cbn; auto|discriminate]]. intros _. apply Forall_cons; [|apply Forall_nil]. intros E. rewrite E in I. cbn in I.
    repeat (destruct I as [I|I]; [discriminate I|]). destruct I.
  - destruct (unit_facts _ _ H) as (L & _). destruct (IHderives F) as (A & B & C). split; [intros; apply A; lia|]. split; [intros; apply B; lia|exact C].
  - apply Forall_app in F as [F1 F2]. inversion F2 as [|x y P F3]; subst. destruct (IH F1) as (A & _), (IH' F3) as (A' & _).
    destruct (binary_facts _ _ _ _ _ I J) as [(-> & -> & -> & ->)|(La & Lb & _)]; [destruct P as [P|[P|P]]; discriminate P|].
    assert (O : op <> T_A). { intros ->. cbn [binaries In] in I. repeat (destruct I as [I|I]; [injection I as <- <- <-; cbn [In] in J; repeat (destruct J as [J|J]; [discriminate J|]); destruct J|]). destruct I. }
    assert (Q : Forall (fun t => fst t <> T_A) (l ++ (op, s) :: r)) by (apply Forall_app; split; [apply A; lia|apply Forall_cons; [exact O|apply A'; lia]]).
    split; [auto|]. split; [lia|]. intros E. rewrite E in Q. inversion Q as [|? ? _ Q1]; inversion Q1 as [|? ? _ Q2]; inversion Q2 as [|? ? _ Q3]; inversion Q3 as [|? ? Q4 _]. now apply Q4.
  - apply Forall_app in F as [F1 F2]. inversion F2 as [|x y P F3]; subst. destruct (IH F1) as (A & B & _), (IH' F3) as (A' & _).
    split; [cbn; lia|]. split; [cbn; lia|]. intros E. specialize (A ltac:(cbn; lia)). specialize (B ltac:(cbn; lia)).
    assert (op = T_A) as ->. { cbn in I. repeat (destruct I as [I|I]; [injection I as <- _; first [reflexivity|destruct P as [P|[P|P]]; discriminate P]|]). destruct I. }
    destruct l as [|t1 [|t2 [|t3 [|t4 l]]]]; try discriminate E.
    + injection E as -> -> -> _ _. destruct B as [B|B]; discriminate B.
    + injection E as -> -> -> -> _. inversion A as [|? ? _ Q1]; inversion Q1 as [|? ? _ Q2]; inversion Q2 as [|? ? _ Q3]; inversion Q3 as [|? ? Q4 _]. now apply Q4.
  - inversion F as [|x y P F1]; subst. assert (op = T_ADD) as ->. { cbn in I. repeat (destruct I as [I|I]; [injection I as <- _; first [reflexivity|destruct P as [P|[P|P]]; discriminate P]|]). destruct I. }
    destruct (IH F1) as (A & _). split; [|split; [auto|discriminate]]. intros _. apply Forall_cons; [discriminate|apply A; cbn; lia].
  - inversion F as [|x y P F1]; subst. exfalso. cbn in I. repeat (destruct I as [I|I]; [injection I as <- _; destruct P as [P|[P|P]]; discriminate P|]). destruct I.
  - exfalso. apply Forall_app in F as [_ F]. inversion F as [|x y P _]; subst. destruct H as [H|[H|[]]]; injection H as <- _; destruct P as [P|[P|P]]; discriminate P.
  - exfalso. apply Forall_app in F as [_ F]. inversion F as [|x y P _]; subst. destruct H as [H|[H|[]]]; injection H as <- _; destruct P as [P|[P|P]]; discriminate P.
Qed.
Theorem C26_only_c_refuted : exists l e, reads l e [] /\ forall e', ~ derives true Expression l e'.
Proof.
  exists sum_assigned. eexists. split.
  - exists 30%nat. vm_compute. reflexivity.
  - intros e' D. apply (not_derived _ _ _ D); [|reflexivity]. unfold plain. repeat (apply Forall_cons; [cbn; auto|]). apply Forall_nil.
Qed.
Print Assumptions C26_only_c_refuted.

(** An operand that is missing altogether is dereferenced after &. *)
Theorem C26_missing_operand_refuted : exists l, forall n, (30 < n)%nat -> parse_expression n l = Some Undef.
Proof.
  exists [(T_AMP, []); (T_SEMI_COLON, [])]. intros n H. unfold parse_expression. apply (pratt_le 30); [lia|]. vm_compute. reflexivity.
Qed.
Print Assumptions C26_missing_operand_refuted.
