(** Accepted token sequences begin with an expression; evaluation ends. *)
From Verif Require Import Base Tokens Fuel Precedence PPExpr PPExprSpec PPExprProofs.

Lemma exbind_ok {A B} (x : ex A) (f : A -> ex B) b : exbind x f = Some (Ok b) -> exists a, x = Some (Ok a) /\ f a = Some (Ok b).
Proof. destruct x as [[a| |]|]; cbn [exbind]; try discriminate. eauto. Qed.
Lemma ok_inj {A} (a b : A) : ok a = Some (Ok b) -> a = b.
Proof. unfold ok. congruence. Qed.
Lemma next_zero l t r : buffer_next l = Ok (t, r) -> map zero_ident l = t :: map zero_ident r /\ t <> KIdent /\ length l = S (length r) /\ zero_ident t = t.
Proof.
  destruct l as [|h l]; [discriminate|]. unfold buffer_next. destruct h; intros H; injection H as <- <-; cbn; repeat split; auto; discriminate.
Qed.

(** Termination. *)
Lemma fuel_enough n :
  (forall p ev l, (2 * length l + 1 <= n)%nat -> exists r, evaluate n p ev l = Some r /\ forall v out, r = Ok (v, out) -> (length out < length l)%nat) /\
  (forall p ev e l, (2 * length l + 2 <= n)%nat -> exists r, infix n p ev e l = Some r /\ forall v out, r = Ok (v, out) -> (length out <= length l)%nat).
Proof.
  induction n as [|n [IHe IHi]]; [split; intros; lia|]. split.
  - intros p ev l Hn. cbn [evaluate]. destruct (buffer_next l) as [[t l1]| |] eqn:B; cbn [exbind]; [|eexists; split; [reflexivity|discriminate]..].
    destruct (next_zero _ _ _ B) as (_ & _ & L & _).
    assert (P : exists r, (if ktype t =? T_ADD then evaluate n PREFIX_PREC ev l1
        else if ktype t =? T_SUB then
          let! (r, l2) := evaluate n PREFIX_PREC ev l1 in
          let! v := Some (unary_minus r) in ok (v, l2)
        else if ktype t =? T_NOT then
          let! (r, l2) := evaluate n PREFIX_PREC ev l1 in ok (unary_not r, l2)
        else if ktype t =? T_LPAR then
          let! (r, l2) := evaluate n 0 ev l1 in
          let! (p, l3) := Some (buffer_next l2) in
          if ktype p =? T_RPAR then ok (r, l3) else Some Fail
        else match t with
             | KNum s v => ok ({| sg := s; vl := v |}, l1)
             | KChar v => ok (result_signed v, l1)
             | KWrong _ u => if u then Some Undef else Some Fail
             | _ => Some Fail
             end) = Some r /\ forall v out, r = Ok (v, out) -> (length out < length l)%nat).
    { destruct (IHe PREFIX_PREC ev l1 ltac:(lia)) as (r1 & E1 & H1). destruct (IHe 0 ev l1 ltac:(lia)) as (r2 & E2 & H2).
      rewrite E1, E2. repeat match goal with |- context [if ?c then _ else _] => match type of c with bool => lazymatch c with context [ktype t] => destruct c end end end.
      - eexists; split; [reflexivity|]. intros v out ->. specialize (H1 _ _ eq_refl). lia.
      - destruct r1 as [[r o]| |]; cbn [exbind]; [|eexists; split; [reflexivity|discriminate]..].
        specialize (H1 _ _ eq_refl). destruct (unary_minus r) as [w| |]; cbn [exbind]; unfold ok; eexists; (split; [reflexivity|]); try discriminate.
        intros v out H; injection H as <- <-. lia.
      - destruct r1 as [[r o]| |]; cbn [exbind]; [|eexists; split; [reflexivity|discriminate]..].
        specialize (H1 _ _ eq_refl). unfold ok; eexists; (split; [reflexivity|]).
        intros v out H; injection H as <- <-. lia.
      - destruct r2 as [[r o]| |]; cbn [exbind]; [|eexists; split; [reflexivity|discriminate]..].
        specialize (H2 _ _ eq_refl). destruct (buffer_next o) as [[q o2]| |] eqn:B2; cbn [exbind]; [|eexists; split; [reflexivity|discriminate]..].
        destruct (next_zero _ _ _ B2) as (_ & _ & L2 & _).
        destruct (ktype q =? T_RPAR); unfold ok; eexists; (split; [reflexivity|]); [|discriminate].
        intros v out H; injection H as <- <-. lia.
      - destruct t as [ | | | |? []]; unfold ok; eexists; (split; [reflexivity|]); try discriminate; intros vv out H; injection H as <- <-; lia. }
    destruct P as (r & P & HP). match goal with |- exists _, exbind ?x _ = _ /\ _ => replace x with (Some r) by (symmetry; exact P) end.
    destruct r as [[r l2]| |]; cbn [exbind]; [|eexists; split; [reflexivity|discriminate]..].
    specialize (HP _ _ eq_refl). destruct (IHi p ev r l2 ltac:(lia)) as (r2 & -> & H2). eexists; split; [reflexivity|].
    intros v out ->. specialize (H2 _ _ eq_refl). lia.
  - intros p ev e l Hn. cbn [infix]. destruct (buffer_next l) as [[t l1]| |] eqn:B; cbn [exbind]; [|eexists; split; [reflexivity|discriminate]..].
    destruct (next_zero _ _ _ B) as (_ & _ & L & _).
    destruct (p <? precedence_get (ktype t) true).
    2:{ unfold ok. eexists; split; [reflexivity|]. intros v out H; injection H as <- <-. cbn [length]. lia. }
    assert (EI : forall q ev' (k : result * list pptok -> result),
      exists r, (let! (x, l2) := evaluate n q ev' l1 in infix n p ev (k (x, l2)) l2) = Some r /\ forall v out, r = Ok (v, out) -> (length out <= length l)%nat).
    { intros q ev' k. destruct (IHe q ev' l1 ltac:(lia)) as (r1 & -> & H1).
      destruct r1 as [[r o]| |]; cbn [exbind]; [|eexists; split; [reflexivity|discriminate]..]. specialize (H1 _ _ eq_refl).
      destruct (IHi p ev (k (r, o)) o ltac:(lia)) as (r2 & -> & H2). eexists; split; [reflexivity|].
      intros v out ->. specialize (H2 _ _ eq_refl). lia. }
    destruct (ktype t =? T_QUEST); [|destruct (ktype t =? T_AND); [|destruct (ktype t =? T_OR)]].
    + destruct (IHe 0 (if negb (result_is_zero e) then ev else false) l1 ltac:(lia)) as (r1 & -> & H1).
      destruct r1 as [[r o]| |]; cbn [exbind]; [|eexists; split; [reflexivity|discriminate]..]. specialize (H1 _ _ eq_refl).
      destruct (buffer_next o) as [[q o2]| |] eqn:B2; cbn [exbind]; [|eexists; split; [reflexivity|discriminate]..].
      destruct (next_zero _ _ _ B2) as (_ & _ & L2 & _). destruct (negb (ktype q =? T_COLON)); [eexists; split; [reflexivity|discriminate]|].
      destruct (IHe (precedence_get (ktype t) false) (if negb (result_is_zero e) then false else ev) o2 ltac:(lia)) as (r2 & -> & H2).
      destruct r2 as [[r3 o3]| |]; cbn [exbind]; [|eexists; split; [reflexivity|discriminate]..]. specialize (H2 _ _ eq_refl).
      destruct (IHi p ev (if negb (result_is_zero e) then r else r3) o3 ltac:(lia)) as (r4 & -> & H4). eexists; split; [reflexivity|].
      intros v out ->. specialize (H4 _ _ eq_refl). lia.
    + apply (EI (precedence_get (ktype t) false) (if negb (result_is_zero e) then ev else false)
        (fun x => result_signed (b2z (negb (result_is_zero e) && negb (result_is_zero (fst x)))))).
    + apply (EI (precedence_get (ktype t) false) (if negb (result_is_zero e) then false else ev)
        (fun x => result_signed (b2z (negb (result_is_zero e) || negb (result_is_zero (fst x)))))).
    + destruct (IHe (precedence_get (ktype t) false) ev l1 ltac:(lia)) as (r1 & -> & H1).
      destruct r1 as [[r o]| |]; cbn [exbind]; [|eexists; split; [reflexivity|discriminate]..]. specialize (H1 _ _ eq_refl).
      destruct (convert_operands e r) as [a b].
      assert (Q : exists x, (if ev then Some (binary_op (ktype t) a b) else ok a) = Some x) by (unfold ok; destruct ev; eauto).
      destruct Q as [x Q]. match goal with |- context [exbind ?y _] => replace y with (Some x) by (symmetry; exact Q) end.
      destruct x as [x| |]; cbn [exbind]; [|eexists; split; [reflexivity|discriminate]..].
      destruct (IHi p ev x o ltac:(lia)) as (r2 & -> & H2). eexists; split; [reflexivity|].
      intros v out ->. specialize (H2 _ _ eq_refl). lia.
Qed.

Lemma infix_inv n p ev v l w out : infix (S n) p ev v l = Some (Ok (w, out)) ->
  exists t l1, buffer_next l = Ok (t, l1) /\
  ((precedence_get (ktype t) true <= p /\ out = t :: l1) \/
   (p < precedence_get (ktype t) true /\ ktype t = T_QUEST /\ exists ev1 ev2 mid l2 c l3 rhs l4 x,
      evaluate n 0 ev1 l1 = Some (Ok (mid, l2)) /\ buffer_next l2 = Ok (c, l3) /\ ktype c = T_COLON /\
      evaluate n (precedence_get (ktype t) false) ev2 l3 = Some (Ok (rhs, l4)) /\ infix n p ev x l4 = Some (Ok (w, out))) \/
   (p < precedence_get (ktype t) true /\ ktype t <> T_QUEST /\ exists ev1 rhs l2 x,
      evaluate n (precedence_get (ktype t) false) ev1 l1 = Some (Ok (rhs, l2)) /\ infix n p ev x l2 = Some (Ok (w, out)))).
Proof.
  cbn [infix]. intros H. apply exbind_ok in H. destruct H as ([t l1] & B & H). assert (B2 : buffer_next l = Ok (t, l1)) by congruence.
  exists t, l1. split; auto. destruct (Z.ltb_spec p (precedence_get (ktype t) true)) as [Hp|Hp].
  2:{ left. apply ok_inj in H. injection H as <- <-. auto. }
  right. destruct (Z.eqb_spec (ktype t) T_QUEST) as [Q|Q]; [left|right]; (split; [exact Hp|split; [exact Q|]]).
  - apply exbind_ok in H. destruct H as ([mid l2] & E1 & H). apply exbind_ok in H. destruct H as ([c l3] & E2 & H).
    destruct (Z.eqb_spec (ktype c) T_COLON) as [C|C]; [|discriminate]. cbn [negb] in H.
    apply exbind_ok in H. destruct H as ([rhs l4] & E3 & H).
    do 9 eexists. repeat split; eauto. congruence.
  - destruct (ktype t =? T_AND); [|destruct (ktype t =? T_OR)].
    + apply exbind_ok in H. destruct H as ([rhs l2] & E1 & H). eauto 10.
    + apply exbind_ok in H. destruct H as ([rhs l2] & E1 & H). eauto 10.
    + apply exbind_ok in H. destruct H as ([rhs l2] & E1 & H). destruct (convert_operands v rhs) as [a b].
      apply exbind_ok in H. destruct H as (x & E2 & H). eauto 10.
Qed.

Definition np (l : list pptok) : Z := match l with [] => 0 | h :: _ => precedence_get (ktype (zero_ident h)) true end.
Lemma next_np l t r : buffer_next l = Ok (t, r) -> np l = precedence_get (ktype t) true.
Proof. destruct l as [|h l]; [discriminate|]. unfold buffer_next. destruct h; intros H; injection H as <- <-; reflexivity. Qed.
Lemma np_head t l1 : np (t :: l1) = precedence_get (ktype (zero_ident t)) true. Proof. reflexivity. Qed.

Lemma op_cases ty : operator ty -> 0 < precedence_get ty true -> ty = T_QUEST \/ exists op, ty = bintok op.
Proof.
  intros [H|[H|[H|[H|[[op H]|[op H]]]]]] P; subst; auto; try (cbv in P; discriminate); [|eauto].
  destruct op; [right; exists BAdd; reflexivity|right; exists BSub; reflexivity|cbv in P; discriminate..].
Qed.
Lemma op_prec ty : operator ty -> precedence_get ty true <= 12.
Proof.
  intros [H|[H|[H|[H|[[op H]|[op H]]]]]]; subst; try destruct op; cbv; discriminate.
Qed.
Lemma op_neq ty : operator ty -> ty <> T_LPAR /\ ty <> T_NUM /\ ty <> T_CHARACTER_CONSTANT.
Proof.
  intros [H|[H|[H|[H|[[op H]|[op H]]]]]]; subst; try destruct op; cbv; repeat split; discriminate.
Qed.
Lemma plain_np l : plain_tokens true l -> np l <= 12.
Proof.
  destruct l as [|[s v| |v|ty|ty u] l]; cbn [plain_tokens np zero_ident ktype]; [intros _; vm_compute; discriminate..| |contradiction].
  intros [[H|[_ H]] _]; [apply op_prec; auto|discriminate].
Qed.
Lemma plain_next a l t r : plain_tokens a l -> buffer_next l = Ok (t, r) -> plain_tokens a (t :: r) /\ t <> KIdent.
Proof.
  destruct l as [|[s v| |v|ty|ty u] l]; try discriminate; try contradiction; unfold buffer_next; intros H E; injection E as <- <-;
    (split; [|discriminate]); cbn [plain_tokens] in *; auto.
  split; auto. change (2 ^ 63) with 9223372036854775808. lia.
Qed.

Definition parsed (p : Z) (whole out : list pptok) : Prop :=
  exists e, whole = spell e ++ map zero_ident out /\ derivable e /\ accepts p e /\ plain_tokens true out /\ out <> [] /\ np out <= p /\ np out <= rbp e.

Lemma rbp_level e op : prec_of op <= rbp e -> binlevel op <= level e.
Proof.
  unfold rbp, prec_of. pose proof (binlevel_range op). destruct (Z.leb_spec 14 (level e)); [lia|]. destruct e; cbn [level] in *; lia.
Qed.
Lemma rbp_level4 e : 2 <= rbp e -> 4 <= level e.
Proof.
  unfold rbp. destruct (Z.leb_spec 14 (level e)); [lia|]. destruct e; cbn [level] in *; try lia. pose proof (binlevel_range op). lia.
Qed.
Lemma accepts_level e op : accepts (prec_of op) e -> binlevel op < level e.
Proof. unfold accepts, prec_of. pose proof (binlevel_range op). lia. Qed.

Lemma accepted n :
  (forall p ev l v out, 0 <= p <= 13 -> evaluate n p ev l = Some (Ok (v, out)) -> plain_tokens false l ->
     parsed p (map zero_ident l) out) /\
  (forall p ev v l w out te, 0 <= p <= 13 -> infix n p ev v l = Some (Ok (w, out)) -> plain_tokens true l ->
     derivable te -> accepts p te -> np l <= rbp te -> parsed p (spell te ++ map zero_ident l) out).
Proof.
  induction n as [|n [IHe IHi]]; [split; discriminate|]. split.
  - intros p ev l v out Hp H PL. cbn [evaluate] in H. apply exbind_ok in H. destruct H as ([t l1] & B & H).
    assert (B2 : buffer_next l = Ok (t, l1)) by congruence. clear B.
    destruct (next_zero _ _ _ B2) as (Z1 & NI & _ & Z2). destruct (plain_next _ _ _ _ PL B2) as (PT & _). rewrite Z1.
    apply exbind_ok in H. destruct H as ([x l2] & E & H).
    assert (UN : forall op, op <> UCompl -> t = KOp (untok op) -> (exists x', evaluate n PREFIX_PREC ev l1 = Some (Ok (x', l2))) -> parsed p (t :: map zero_ident l1) out).
    { intros op NC Et [x' E']. subst t. cbn [plain_tokens] in PT. destruct PT as [_ PT].
      replace (untok op =? T_RPAR) with false in PT by (destruct op; reflexivity).
      destruct (IHe PREFIX_PREC _ _ _ _ ltac:(unfold PREFIX_PREC; lia) E' PT) as (e & W & D & A & PO & NE & N1 & N2). rewrite W.
      assert (LE : 14 <= level e) by (unfold accepts, PREFIX_PREC in A; lia).
      change (KOp (untok op) :: spell e ++ map zero_ident l2) with (spell (PUn op e) ++ map zero_ident l2).
      eapply IHi; eauto.
      - cbn [derivable]. auto.
      - right. cbn [level]. lia. }
    destruct (Z.eqb_spec (ktype t) T_ADD) as [T1|T1].
    { apply (UN UPlus); [discriminate| |eauto]. destruct t; try discriminate; try contradiction; cbn in T1; subst; auto. }
    destruct (Z.eqb_spec (ktype t) T_SUB) as [T2|T2].
    { apply (UN UMinus); [discriminate| |]. { destruct t; try discriminate; try contradiction; cbn in T2; subst; auto. }
      apply exbind_ok in E. destruct E as ([x' l2'] & E1 & E). apply exbind_ok in E. destruct E as (x2 & E2 & E).
      apply ok_inj in E. injection E as <- <-. eauto. }
    destruct (Z.eqb_spec (ktype t) T_NOT) as [T3|T3].
    { apply (UN UNot); [discriminate| |]. { destruct t; try discriminate; try contradiction; cbn in T3; subst; auto. }
      apply exbind_ok in E. destruct E as ([x' l2'] & E1 & E). 
      apply ok_inj in E. injection E as <- <-. eauto. }
    destruct (Z.eqb_spec (ktype t) T_LPAR) as [T4|T4].
    { assert (Et : t = KOp T_LPAR) by (destruct t; try discriminate; try contradiction; cbn in T4; subst; auto).
      apply exbind_ok in E. destruct E as ([x' l2'] & E1 & E). apply exbind_ok in E. destruct E as ([q l3] & E2 & E).
      assert (B3 : buffer_next l2' = Ok (q, l3)) by congruence. clear E2.
      destruct (Z.eqb_spec (ktype q) T_RPAR) as [T5|T5]; [|discriminate]. apply ok_inj in E. injection E as <- <-.
      subst t. cbn [plain_tokens] in PT. destruct PT as [_ PT]. change (T_LPAR =? T_RPAR) with false in PT.
      destruct (IHe 0 _ _ _ _ ltac:(lia) E1 PT) as (e & W & D & A & PO & NE & N1 & N2).
      destruct (next_zero _ _ _ B3) as (Z3 & _ & _ & _). destruct (plain_next _ _ _ _ PO B3) as (PQ & _).
      assert (Eq : q = KOp T_RPAR) by (destruct q; try discriminate; try contradiction; cbn in T5; subst; auto). subst q.
      destruct PQ as [_ PQ]. change (T_RPAR =? T_RPAR) with true in PQ.
      rewrite W, Z3. rewrite <- spell_app_paren. eapply IHi; eauto.
      - right. cbn [level]. lia.
      - pose proof (plain_np _ PQ). change (rbp (PParen e)) with 13. lia. }
    destruct t as [s vv| |vv|ty|ty u]; try discriminate E; try contradiction; apply ok_inj in E; injection E as <- <-; destruct PT as [PV PT].
    + change (KNum s vv :: map zero_ident l1) with (spell (PNum s vv) ++ map zero_ident l1). eapply IHi; eauto.
      * right. cbn [level]. lia.
      * pose proof (plain_np _ PT). change (rbp (PNum s vv)) with 13. lia.
    + change (KChar vv :: map zero_ident l1) with (spell (PChar vv) ++ map zero_ident l1). eapply IHi; eauto.
      * right. cbn [level]. lia.
      * pose proof (plain_np _ PT). change (rbp (PChar vv)) with 13. lia.
  - intros p ev v l w out te Hp H PL D A NP. destruct (infix_inv _ _ _ _ _ _ _ H) as (t & l1 & B & C). clear H.
    destruct (next_zero _ _ _ B) as (Z1 & NI & _ & Z2). destruct (plain_next _ _ _ _ PL B) as (PT & _).
    rewrite (next_np _ _ _ B) in NP. rewrite Z1.
    assert (OPT : 0 < precedence_get (ktype t) true -> exists ty, t = KOp ty /\ operator ty /\ plain_tokens (ty =? T_RPAR) l1).
    { destruct t as [s vv| |vv|ty|ty u]; [intros K; vm_compute in K; discriminate K..| |contradiction]. intros _. destruct PT as [[O|[_ O]] PT]; [|discriminate]. eauto. }
    destruct C as [(C & ->)|[(C & Q & ev1 & ev2 & mid & l2 & c & l3 & rhs & l4 & x & E1 & B2 & Tc & E2 & I)|(C & Q & ev1 & rhs & l2 & x & E1 & I)]].
    + exists te. rewrite <- Z2 at 1. change (zero_ident t :: map zero_ident l1) with (map zero_ident (t :: l1)).
      repeat split; auto; [discriminate|..]; rewrite np_head, Z2; auto.
    + destruct (OPT ltac:(lia)) as (ty & -> & O & PT1). cbn [ktype] in *. subst ty. change (T_QUEST =? T_RPAR) with false in PT1.
      destruct (IHe 0 _ _ _ _ ltac:(lia) E1 PT1) as (a & W & Da & Aa & PO & NE & N1 & N2).
      destruct (next_zero _ _ _ B2) as (Z3 & _ & _ & _). destruct (plain_next _ _ _ _ PO B2) as (PQ & _).
      assert (Ec : c = KOp T_COLON) by (destruct c; try discriminate; try contradiction; cbn in Tc; subst; auto). subst c.
      destruct PQ as [_ PQ]. change (T_COLON =? T_RPAR) with false in PQ.
      change (precedence_get T_QUEST false) with 1 in E2. change (precedence_get T_QUEST true) with 2 in *.
      destruct (IHe 1 _ _ _ _ ltac:(lia) E2 PQ) as (b & Wb & Db & Ab & PO2 & NE2 & N3 & N4).
      rewrite W, Z3, Wb, <- spell_app_cond. eapply IHi; eauto.
      * cbn [derivable]. repeat split; auto; [apply rbp_level4; auto|pose proof (level_range b); lia].
      * left. cbn [level]. lia.
    + destruct (OPT ltac:(lia)) as (ty & -> & O & PT1). cbn [ktype] in *.
      destruct (op_cases _ O ltac:(lia)) as [->|[op ->]]; [congruence|]. rewrite prec_of_get in *.
      replace (bintok op =? T_RPAR) with false in PT1 by (destruct op; reflexivity).
      destruct (IHe (prec_of op) _ _ _ _ ltac:(unfold prec_of; pose proof (binlevel_range op); lia) E1 PT1) as (b & W & Db & Ab & PO & NE & N1 & N2).
      rewrite W, <- spell_app_bin. eapply IHi; eauto.
      * cbn [derivable]. repeat split; auto; [apply rbp_level; auto|apply accepts_level; auto].
      * left. exact C.
      * rewrite rbp_bin. exact N1.
Qed.

Lemma plain_eoi l a : plain_tokens a l -> plain_tokens a (l ++ [KOp T_EOI]).
Proof.
  revert a. induction l as [|h l IH]; intros a; cbn [app].
  - intros _. split; [left; right; right; right; left; reflexivity|exact I].
  - destruct h; cbn [plain_tokens]; intuition.
Qed.
Lemma accepted_line n l r out : evaluate n 0 true (l ++ [KOp T_EOI]) = Some (Ok (r, out)) -> plain_tokens false l ->
  exists e rest, derivable e /\ map zero_ident l = spell e ++ rest.
Proof.
  intros H P. destruct (proj1 (accepted n) 0 true _ _ _ ltac:(lia) H (plain_eoi _ _ P)) as (e & W & D & _ & _ & NE & _).
  exists e, (removelast (map zero_ident out)). split; auto. rewrite map_app in W. cbn [map zero_ident] in W.
  assert (NE2 : map zero_ident out <> []) by (destruct out; [congruence|discriminate]).
  pose proof (f_equal (@removelast pptok) W) as R. rewrite removelast_app in R by discriminate. cbn [removelast] in R.
  rewrite app_nil_r in R. rewrite R. apply removelast_app. auto.
Qed.
