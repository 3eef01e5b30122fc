(** Proofs about enumerator lists. *)
From Verif Require Import Base Arch CTypesSpec ArithConv ArithConvSpec ConstConv ConstConvProofs
  ConstFold ConstFoldSpec ConstFoldProofs C08Props C09Props C30Props CExprSpec CExpr CExprElab Enum EnumSpec.
Ltac Zify.zify_post_hook ::= idtac.
Local Open Scope Z_scope.
Local Open Scope list_scope.
Local Notation m := SYSV.

Lemma int_int : integer_type ST_INT. Proof. cbn. tauto. Qed.
Lemma cast_const ty t v : integer_type ty -> integer_type t -> representable m ty v -> (t = ST_BOOL -> ty = ST_BOOL) ->
  expression_cast m (TConst ty (wrap 64 v)) t = Ok (TConst t (wrap 64 (convert m t v))).
Proof.
  intros I J R NB. unfold expression_cast. cbn [type_of]. destruct (st_eqb_spec ty t) as [<-|N].
  - rewrite convert_id by auto. reflexivity.
  - assert (NBT : t <> ST_BOOL) by (intros ->; apply N; rewrite (NB eq_refl); reflexivity).
    cbn [fold_constant]. rewrite cast_reduce by (auto; split; auto). cbn [bind]. rewrite <- convert_reduce by auto. reflexivity.
Qed.
Lemma promote_const ty v : integer_type ty -> representable m ty v ->
  promote m (TConst ty (wrap 64 v)) = Ok (TConst (spec_promote m ty) (wrap 64 v)).
Proof.
  intros I R. unfold promote. cbn [type_of]. rewrite (C09_promotion_sysv ty (or_introl I)). cbn [bind].
  destruct (promote_facts ty I) as (A & _ & _ & NB). rewrite cast_const by (auto; try apply A; intros; contradiction).
  rewrite (proj1 (promoted_value ty v I R)). reflexivity.
Qed.
Lemma i_type_int strict env e : i_ok strict env e -> integer_type (i_type e).
Proof.
  induction e; cbn [i_ok i_type].
  - tauto.
  - intros _. apply int_int.
  - intros [A B]. unfold working_type.
    destruct (promote_facts _ (IHe1 A)) as ([P _] & _). destruct (common_facts _ _ (IHe1 A) (IHe2 B)) as ([C _] & _).
    pose proof int_int. destruct op; cbn [is_shift c_result_type]; auto.
  - intros A. apply promote_facts. auto.
  - tauto.
  - intros (_ & A & B & _). apply (common_facts _ _ (IHe2 A) (IHe3 B)).
Qed.
Lemma binop_const op T x y v : arithmetic_int m T -> representable m T x -> representable m T y -> c_binop m T op x y = Some v ->
  fold_constant m (TBin op (TConst T (wrap 64 x)) (TConst T (wrap 64 y))) = Ok (TConst (c_result_type T op) (wrap 64 v)).
Proof.
  intros A RX RY C. destruct (arith_wide m T A) as [I N]. cbn [fold_constant].
  destruct (fold_spec m T op x y v (conj I N) RX RY C) as (bits & FO & CV). rewrite FO. cbn [bind fst snd].
  assert (IR : integer_type (c_result_type T op)) by (pose proof int_int; destruct op; auto).
  rewrite (constant_bits _ bits v IR (fold_bits m T op _ _ _ _ I N FO) CV). reflexivity.
Qed.
Lemma unop_const op T x v : arithmetic_int m T -> representable m T x -> c_unop m T op x = Some v ->
  fold_constant m (TUn op (TConst T (wrap 64 x))) = Ok (TConst T (wrap 64 v)).
Proof.
  intros A RX C. destruct (arith_wide m T A) as [I N]. cbn [fold_constant].
  destruct (fold_unary_spec m T op x v (conj I N) RX C) as (bits & FO & CV). rewrite FO. cbn [bind fst snd].
  rewrite (constant_bits _ bits v I (fold_unary_bits m T op _ _ _ I N FO) CV). reflexivity.
Qed.

Lemma wrap_zero t v : integer_type t -> representable m t v -> (wrap 64 v =? 0) = (v =? 0).
Proof.
  intros I R. assert (B : - 2 ^ 63 <= v < 2 ^ 64).
  { unfold representable in R. repeat (destruct I as [<-|I]; [cbn in R; lia|]). destruct I. }
  unfold wrap. destruct (Z.eqb_spec v 0) as [->|N]; [reflexivity|]. apply Z.eqb_neq. intros Q.
  apply Z.mod_divide in Q; [|lia]. destruct Q as [k Q]. change (2 ^ 64) with (2 * 2 ^ 63) in *. nia.
Qed.
Lemma tree_const s declared env e : holds s declared env -> forall v, i_ok True env e -> i_value env e = Some v ->
  tree m s e = Ok (TConst (i_type e) (wrap 64 v)) /\ representable m (i_type e) v.
Proof.
  intros (_ & HL & HR). induction e as [t v0|n|op a IHa b IHb|op a IHa|t a IHa|c IHc a IHa b IHb]; intros v OK E; cbn [i_ok i_value i_type tree] in *.
  - injection E as <-. split; [reflexivity|]. apply OK.
  - rewrite HL, E. split; [reflexivity|]. eapply HR; eauto.
  - destruct OK as [OA OB]. destruct (i_value env a) as [x|]; [|discriminate]. destruct (i_value env b) as [y|]; [|discriminate].
    destruct (IHa x OA eq_refl) as [EA RA]. destruct (IHb y OB eq_refl) as [EB RB].
    pose proof (i_type_int _ _ _ OA) as IA. pose proof (i_type_int _ _ _ OB) as IB.
    split; [|apply (operator_rep op _ _ x y); auto].
    rewrite EA. cbn [bind]. rewrite EB. cbn [bind]. rewrite (promote_const _ _ IA RA). cbn [bind]. rewrite (promote_const _ _ IB RB). cbn [bind].
    destruct (promoted_value _ _ IA RA) as [VA RPA]. destruct (promoted_value _ _ IB RB) as [VB RPB].
    destruct (promote_facts _ IA) as (AT1 & _ & _ & NB1). destruct (promote_facts _ IB) as (AT2 & _ & _ & NB2).
    unfold c_operator in E. cbv zeta in E. unfold working_type in *. unfold fix_binary_operator. destruct (is_shift op) eqn:SH.
    + set (T := spec_promote m (i_type a)) in *. rewrite VA in E. cbn [type_of].
      destruct (shift_count_range _ op _ _ _ SH AT1 E) as [CR W64].
      rewrite (cast_const _ T y (proj1 AT2) (proj1 AT1) RPB) by (intros; contradiction). rewrite (count_convert T y AT1) by lia. cbn [bind fst snd].
      apply binop_const; auto. destruct AT1 as [J W]. unfold representable, spec_min, spec_max. clear - J W CR W64.
      repeat (destruct J as [<-|J]; [cbn in W, CR; cbn; lia|]). destruct J.
    + destruct (common_facts _ _ IA IB) as (AU & NBU & _). cbv zeta in AU, NBU.
      unfold convert_arithmetic. cbn [type_of]. rewrite (spec_common_promote _ _ IA IB). cbn [bind].
      rewrite (cast_const _ _ x (proj1 AT1) (proj1 AU) RPA) by (intros; contradiction). cbn [bind].
      rewrite (cast_const _ _ y (proj1 AT2) (proj1 AU) RPB) by (intros; contradiction). cbn [bind fst snd].
      apply binop_const; auto; apply convert_rep; apply AU.
  - destruct (i_value env a) as [x|]; [|discriminate]. destruct (IHa x OK eq_refl) as [EA RA]. pose proof (i_type_int _ _ _ OK) as IA.
    destruct (promoted_value _ _ IA RA) as [VA RPA]. destruct (promote_facts _ IA) as (AT1 & _ & _ & NB1). rewrite VA in E.
    split; [|apply (c_unop_rep _ op x); auto; apply AT1].
    rewrite EA. cbn [bind]. rewrite (promote_const _ _ IA RA). cbn [bind]. apply unop_const; auto.
  - destruct OK as (I & OA & NB). destruct (i_value env a) as [x|]; [|discriminate]. destruct (IHa x OA eq_refl) as [EA RA]. injection E as <-.
    split; [|apply convert_rep; auto]. rewrite EA. cbn [bind]. apply cast_const; auto; [eapply i_type_int; eauto|]. intros X. destruct (NB Logic.I X).
  - destruct OK as (OC & OA & OB & NN). destruct (NN Logic.I) as [NA NB].
    destruct (i_value env c) as [z|]; [|discriminate].
    destruct (i_value env a) as [x|]; [|destruct (NA eq_refl)]. destruct (i_value env b) as [y|]; [|destruct (NB eq_refl)].
    destruct (IHc z OC eq_refl) as [EC RC]. destruct (IHa x OA eq_refl) as [EA RA]. destruct (IHb y OB eq_refl) as [EB RB].
    pose proof (i_type_int _ _ _ OC) as IC. pose proof (i_type_int _ _ _ OA) as IA. pose proof (i_type_int _ _ _ OB) as IB.
    destruct (common_facts _ _ IA IB) as (AU & NBU & _). cbv zeta in AU, NBU.
    assert (V : v = convert m (spec_common m (i_type a) (i_type b)) (if z =? 0 then y else x))
      by (destruct (z =? 0); injection E as <-; reflexivity).
    split; [|rewrite V; apply convert_rep; apply AU].
    rewrite EC, EA, EB. cbn [bind].
    rewrite (promote_const _ _ IC RC), (promote_const _ _ IA RA), (promote_const _ _ IB RB). cbn [bind type_of].
    destruct (promoted_value _ _ IA RA) as [VA RPA]. destruct (promoted_value _ _ IB RB) as [VB RPB].
    destruct (promote_facts _ IA) as (AT1 & _ & _ & NB1). destruct (promote_facts _ IB) as (AT2 & _ & _ & NB2).
    assert (K : (if st_eqb (spec_promote m (i_type a)) (spec_promote m (i_type b))
                 then Ok (TConst (spec_promote m (i_type a)) (wrap 64 x), TConst (spec_promote m (i_type b)) (wrap 64 y))
                 else convert_arithmetic m (TConst (spec_promote m (i_type a)) (wrap 64 x)) (TConst (spec_promote m (i_type b)) (wrap 64 y)))
                = Ok (TConst (spec_common m (i_type a) (i_type b)) (wrap 64 (convert m (spec_common m (i_type a) (i_type b)) x)),
                      TConst (spec_common m (i_type a) (i_type b)) (wrap 64 (convert m (spec_common m (i_type a) (i_type b)) y)))).
    { assert (CA : convert_arithmetic m (TConst (spec_promote m (i_type a)) (wrap 64 x)) (TConst (spec_promote m (i_type b)) (wrap 64 y))
                = Ok (TConst (spec_common m (i_type a) (i_type b)) (wrap 64 (convert m (spec_common m (i_type a) (i_type b)) x)),
                      TConst (spec_common m (i_type a) (i_type b)) (wrap 64 (convert m (spec_common m (i_type a) (i_type b)) y)))).
      { unfold convert_arithmetic. cbn [type_of]. rewrite (spec_common_promote _ _ IA IB). cbn [bind].
        rewrite (cast_const _ _ x (proj1 AT1) (proj1 AU) RPA) by (intros; contradiction). cbn [bind].
        rewrite (cast_const _ _ y (proj1 AT2) (proj1 AU) RPB) by (intros; contradiction). reflexivity. }
      destruct (st_eqb_spec (spec_promote m (i_type a)) (spec_promote m (i_type b))) as [Q|Q]; [|exact CA].
      assert (U : spec_common m (i_type a) (i_type b) = spec_promote m (i_type a)).
      { clear - IA IB Q. unfold spec_common.
        replace (st_eqb (i_type a) ST_LDOUBLE || st_eqb (i_type b) ST_LDOUBLE) with false
          by (repeat (destruct IA as [<-|IA]; [repeat (destruct IB as [<-|IB]; [reflexivity|]); destruct IB|]); destruct IA).
        replace (st_eqb (i_type a) ST_DOUBLE || st_eqb (i_type b) ST_DOUBLE) with false
          by (repeat (destruct IA as [<-|IA]; [repeat (destruct IB as [<-|IB]; [reflexivity|]); destruct IB|]); destruct IA).
        replace (st_eqb (i_type a) ST_FLOAT || st_eqb (i_type b) ST_FLOAT) with false
          by (repeat (destruct IA as [<-|IA]; [repeat (destruct IB as [<-|IB]; [reflexivity|]); destruct IB|]); destruct IA).
        cbv zeta. rewrite <- Q. destruct (st_eqb_spec (spec_promote m (i_type a)) (spec_promote m (i_type a))); [reflexivity|contradiction]. }
      rewrite U, VA. rewrite Q. rewrite VB. reflexivity. }
    rewrite K. cbn [bind]. rewrite (wrap_zero _ z IC RC). rewrite V. destruct (z =? 0); reflexivity.
Qed.
Lemma name_eqb_true a b : name_eqb a b = true <-> a = b.
Proof. unfold name_eqb. destruct (list_eq_dec Z.eq_dec a b); split; congruence. Qed.
Lemma add_holds s declared env n v : holds s declared env -> ~ In n declared -> representable m ST_INT v ->
  exists s1, add_constant n (ST_INT, wrap 64 v) s = Ok s1 /\ holds s1 (n :: declared) (with_value n v env).
Proof.
  intros (HD & HL & HR) N R. unfold add_constant. destruct (find_in n (here s)) eqn:F.
  { destruct N. apply HD. rewrite F. discriminate. }
  eexists. split; [reflexivity|]. split; [|split].
  - intros k. cbn [here find_in]. destruct (name_eqb n k) eqn:E.
    + apply name_eqb_true in E. subst. split; [intros _; left; reflexivity|discriminate].
    + rewrite HD. split; [intros H; right; exact H|]. intros [<-|H]; auto. rewrite (proj2 (name_eqb_true n n) eq_refl) in E. discriminate.
  - intros k. unfold lookup. cbn [here outside find_in]. unfold with_value. destruct (list_eq_dec Z.eq_dec n k) as [<-|NE].
    + rewrite (proj2 (name_eqb_true n n) eq_refl). reflexivity.
    + destruct (name_eqb n k) eqn:E; [apply name_eqb_true in E; contradiction|]. apply HL.
  - intros k w. unfold with_value. destruct (list_eq_dec Z.eq_dec n k); [intros X; injection X as <-; exact R|apply HR].
Qed.
Lemma next_int p : representable m ST_INT p -> constant_increment (ST_INT, wrap 64 p) = Ok (ST_INT, wrap 64 (p + 1)).
Proof.
  intros R. unfold constant_increment. cbn [st_is_integer is_signed negb bind]. rewrite (int_d_rep m ST_INT) by (auto using int_int; reflexivity).
  unfold i64. unfold representable in R. change (spec_min m ST_INT) with (-2147483648) in R. change (spec_max m ST_INT) with 2147483647 in R.
  change (2 ^ 63) with 9223372036854775808. rewrite (proj2 (Z.leb_le _ _)), (proj2 (Z.ltb_lt _ _)) by lia. reflexivity.
Qed.
Definition previous (first : bool) (c : constant) (prev : option Z) : Prop :=
  match prev with None => first = true | Some p => first = false /\ c = (ST_INT, wrap 64 p) /\ representable m ST_INT p end.
Lemma implicit_ok first c prev : previous first c prev ->
  implicit first c = Ok (ST_INT, wrap 64 (match prev with None => 0 | Some p => p + 1 end)).
Proof. destruct prev as [p|]; cbn [previous]; [intros (-> & -> & R)|intros ->]; cbn [implicit]; [apply next_int; auto|reflexivity]. Qed.

Lemma list_ok l : forall prev declared env env', enumerated True prev declared env l env' -> l <> [] ->
  forall first c s comma r, previous first c prev -> holds s declared env ->
  exists s1 all, enumerators m first c s (spell l comma ++ r) = Ok (s1, EEnd :: r) /\ holds s1 all env'.
Proof.
  induction l as [|x l IH]; intros prev declared env env' H NE first c s comma r P HS; [congruence|].
  assert (STEP : exists n v s1, fst x = n /\ representable m ST_INT v /\ enumerated True (Some v) (n :: declared) (with_value n v env) l env' /\
     holds s1 (n :: declared) (with_value n v env) /\
     forall q, (forall e t, q <> EIs e :: t) -> enumerators m first c s (spell1 x ++ q) =
        match q with EComma :: q2 => enumerators m false (ST_INT, wrap 64 v) s1 q2 | _ => Ok (s1, q) end).
  { inversion H as [|pr d en n e v l0 e0 N OK TY V R HR|pr d en n v l0 e0 N V R HR]; subst.
    - destruct (tree_const _ _ _ _ HS v OK V) as [TC _]. rewrite (TY Logic.I) in TC.
      destruct (add_holds _ _ _ n v HS N R) as (s1 & AD & HS1). exists n, v, s1. split; auto. split; auto. split; auto. split; auto.
      intros q _. cbn [spell1 fst snd app enumerators]. unfold initial. rewrite TC. cbn [bind]. rewrite AD. reflexivity.
    - set (v := match prev with None => 0 | Some p => p + 1 end) in *.
      destruct (add_holds _ _ _ n v HS N R) as (s1 & AD & HS1). exists n, v, s1. split; auto. split; auto. split; auto. split; auto.
      intros q NQ. cbn [spell1 fst snd app enumerators]. destruct q as [|[k|e|  |] q]; try (destruct (NQ e q eq_refl));
      rewrite (implicit_ok _ _ _ P); cbn [bind]; fold v; rewrite AD; reflexivity. }
  destruct STEP as (n & v & s1 & FN & R & HR & HS1 & EQ).
  assert (PV : previous false (ST_INT, wrap 64 v) (Some v)) by (split; auto).
  destruct l as [|y l].
  - inversion HR; subst. cbn [spell]. rewrite <- app_assoc. exists s1, (fst x :: declared). split; [|exact HS1].
    rewrite EQ by (destruct comma; discriminate). destruct comma; reflexivity.
  - destruct (IH _ _ _ _ HR ltac:(discriminate) false (ST_INT, wrap 64 v) s1 comma r PV HS1) as (s2 & all & E2 & HS2). exists s2, all. split; [|exact HS2].
    change (spell (x :: y :: l) comma) with (spell1 x ++ EComma :: spell (y :: l) comma). rewrite <- app_assoc. rewrite EQ by discriminate. exact E2.
Qed.
Lemma relaxed_enum prev declared env l env' : enumerated True prev declared env l env' -> enumerated False prev declared env l env'.
Proof.
  assert (OK : forall env e, i_ok True env e -> i_ok False env e) by (intros env0 e0; induction e0; cbn [i_ok]; tauto).
  induction 1; [constructor|eapply en_value; eauto; tauto|eapply en_next; eauto].
Qed.
Lemma declared_ok l : forall prev declared env env' n o, enumerated True prev declared env l env' -> In n (map fst l ++ declared) ->
  (forall e, o = Some e -> i_ok True env' e /\ exists v, i_value env' e = Some v) ->
  forall first c s comma r, previous first c prev -> holds s declared env ->
  enumerators m first c s (spell (l ++ [(n, o)]) comma ++ r) = Fail.
Proof.
  induction l as [|x l IH]; intros prev declared env env' n o H IN OO first c s comma r P HS.
  - inversion H; subst. cbn [app map spell].
    assert (AD : forall k, add_constant n k s = Fail).
    { intros k. unfold add_constant. destruct (find_in n (here s)) eqn:F; auto. apply (proj1 HS) in IN. contradiction. }
    destruct o as [e|].
    + destruct (OO e eq_refl) as (OK & v & V). destruct (tree_const _ _ _ _ HS v OK V) as [TC _].
      cbn [spell1 fst snd app enumerators]. unfold initial. rewrite TC. cbn [bind]. rewrite AD. reflexivity.
    + destruct comma; cbn [spell1 fst snd app enumerators]; rewrite (implicit_ok _ _ _ P); cbn [bind]; rewrite AD; reflexivity.
  - assert (SP : exists q, spell ((x :: l) ++ [(n, o)]) comma = spell1 x ++ EComma :: q /\ q = spell (l ++ [(n, o)]) comma).
    { eexists. split; [|reflexivity]. cbn [app spell]. destruct l; reflexivity. }
    destruct SP as (q & -> & ->). rewrite <- app_assoc. cbn [app].
    inversion H as [|pr d en k e v l0 e0 N OK TY V R HR|pr d en k v l0 e0 N V R HR]; subst.
    + destruct (tree_const _ _ _ _ HS v OK V) as [TC _]. rewrite (TY Logic.I) in TC.
      destruct (add_holds _ _ _ k v HS N R) as (s1 & AD & HS1).
      cbn [spell1 fst snd app enumerators]. unfold initial. rewrite TC. cbn [bind]. rewrite AD. cbn [bind].
      apply (IH _ _ _ _ n o HR); auto; [|split; auto]. cbn [map fst app] in IN. rewrite in_app_iff. cbn [In]. destruct IN as [X|X]; [tauto|]. rewrite in_app_iff in X. tauto.
    + destruct (add_holds _ _ _ k _ HS N R) as (s1 & AD & HS1).
      cbn [spell1 fst snd app enumerators]. rewrite (implicit_ok _ _ _ P). cbn [bind]. rewrite AD. cbn [bind].
      apply (IH _ _ _ _ n o HR); auto; [|split; auto]. cbn [map fst app] in IN. rewrite in_app_iff. cbn [In]. destruct IN as [X|X]; [tauto|]. rewrite in_app_iff in X. tauto.
Qed.
