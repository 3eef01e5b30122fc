(** Proofs about ExprType.v: casts, promotions and the usual arithmetic
    conversions. *)
From Verif Require Import Base Arch CTypesSpec ArithConv ArithConvSpec ExprType ExprTypeSpec ExprTypeProofs.

Ltac Zify.zify_post_hook ::= idtac.
Local Open Scope Z_scope.
Local Open Scope list_scope.

Section Conv.

Variable fold_cast : simple_type -> simple_type -> Z -> Z.
Variable fold_addr : simple_type -> Z -> Z.

Notation simple_cast := (simple_cast fold_cast).
Notation mk_cast := (mk_cast fold_cast fold_addr).
Notation cast := (cast fold_cast fold_addr).
Notation promote := (promote fold_cast fold_addr).
Notation convert := (convert fold_cast fold_addr).
Notation default_promote := (default_promote fold_cast fold_addr).

Lemma simple_cast_ok : forall s r v, (arith s /\ arith r) \/ r = ST_VOID ->
  exists w, simple_cast s r v = Ok w.
Proof.
  intros s r v [[A B]| ->].
  - unfold ExprType.simple_cast.
    destruct A as [A|A]; destruct B as [B|B].
    + rewrite (integer_true s A), (integer_true r B). cbn [andb].
      destruct (st_eqb r ST_VOID || st_eqb r s); eauto.
    + rewrite (integer_true s A). destruct B as [-> | ->]; cbn [st_is_integer andb orb st_eqb];
        destruct (st_eqb _ s); cbn; eauto.
    + rewrite (integer_true r B). destruct A as [-> | ->]; cbn [st_is_integer andb orb];
        destruct (st_eqb r ST_VOID || st_eqb r _); cbn; eauto.
    + destruct A as [-> | ->]; destruct B as [-> | ->]; cbn; eauto.
  - unfold ExprType.simple_cast. cbn. eauto.
Qed.

Inductive castable : ty -> ty -> Prop :=
| castable_void : forall t c, castable t (Simple c ST_VOID)
| castable_arith : forall s c r, arith s -> arith r -> castable (Simple false s) (Simple c r)
| castable_ptr : forall c u d v, castable (Ptr c u) (Ptr d v)
| castable_int_ptr : forall s d v, integer_type s -> castable (Simple false s) (Ptr d v)
| castable_ptr_int : forall c u d s, castable (Ptr c u) (Simple d s).

Lemma mk_cast_ok : forall n tv ex w T,
  has_value n tv ex w -> castable tv T ->
  exists n', mk_cast n T = Ok n' /\ (dt n' = T \/ dt n' = unq T) /\ good_kind n' /\ bits_of n' = -1.
Proof.
  intros n tv ex w T [Ht Hx Hk Hc Hb] C. unfold ExprType.mk_cast. unfold good_kind in Hk.
  destruct (kd n) eqn:K;
    try (eexists; split; [reflexivity|]; split; [left; reflexivity|split; [exact I|reflexivity]]).
  - destruct Hk as [(s & D)|(c & u & D)]; rewrite D in *; cbn [unq] in Ht; subst tv.
    + inversion C as [t c E1 E2|s0 c r As Ar E1 E2| |s0 d u Is E1 E2|]; subst.
      * destruct (simple_cast_ok s ST_VOID v (or_intror eq_refl)) as (z & ->).
        cbn [bind]. eexists; split; [reflexivity|]. split; [right; reflexivity|]. split; [left; eexists; reflexivity|reflexivity].
      * destruct (simple_cast_ok s r v (or_introl (conj As Ar))) as (z & ->).
        cbn [bind]. eexists; split; [reflexivity|]. split; [right; reflexivity|]. split; [left; eexists; reflexivity|reflexivity].
      * rewrite (integer_true s Is). eexists; split; [reflexivity|].
        split; [left; reflexivity|]. split; [right; do 2 eexists; reflexivity|reflexivity].
    + inversion C as [t c' E1 E2| |c' u' d v' E1 E2| |c' u' d s E1 E2]; subst.
      * eexists; split; [reflexivity|]. split; [left; reflexivity|]. split; [exact I|reflexivity].
      * eexists; split; [reflexivity|]. split; [left; reflexivity|]. split; [right; do 2 eexists; reflexivity|reflexivity].
      * eexists; split; [reflexivity|]. split; [left; reflexivity|]. split; [exact I|reflexivity].
  - destruct Hk as (c & u & D); rewrite D in *; cbn [unq] in Ht; subst tv.
    inversion C as [t c' E1 E2| |c' u' d v' E1 E2| |c' u' d s E1 E2]; subst.
    + eexists; split; [reflexivity|]. split; [left; reflexivity|]. split; [exact I|reflexivity].
    + eexists; split; [reflexivity|]. split; [left; reflexivity|]. split; [do 2 eexists; reflexivity|reflexivity].
    + eexists; split; [reflexivity|]. split; [left; reflexivity|]. split; [exact I|reflexivity].
Qed.

Lemma cast_ok : forall n tv ex w T,
  has_value n tv ex w -> plain tv -> castable tv T ->
  exists n', cast n T = Ok n' /\ (dt n' = T \/ dt n' = unq T) /\ good_kind n' /\
    (bits_of n' = -1 \/ (is_const (dt n') = true -> bits_of n' = -1) /\ dt n' = T /\ unq T = tv /\ bits_agree n' w).
Proof.
  intros n tv ex w T H P C. unfold ExprType.cast.
  destruct (decay_value _ _ _ _ H P) as (n1 & -> & H1). cbn [bind].
  destruct (ty_eqb (dt n1) T) eqn:E.
  - apply ty_eqb_spec in E. exists n1. split; [reflexivity|]. split; [left; exact E|].
    destruct H1 as [Ht Hx Hk Hc Hb]. split; [exact Hk|]. right. rewrite E in *. auto.
  - destruct (mk_cast_ok _ _ _ _ _ H1 C) as (n' & En & D & G & B). exists n'. auto 8.
Qed.

(** A cast to an unqualified simple type. *)
Lemma cast_simple : forall n s ex w r,
  has_value n (Simple false s) ex w -> arith s -> arith r ->
  exists n', cast n (Simple false r) = Ok n' /\ dt n' = Simple false r /\ good_kind n' /\
    (bits_of n' = -1 \/ s = r /\ bits_agree n' w).
Proof.
  intros n s ex w r H As Ar.
  destruct (cast_ok n _ ex w (Simple false r) H eq_refl (castable_arith s false r As Ar)) as (n' & E & D & G & B).
  exists n'. split; [exact E|]. split; [destruct D; assumption|]. split; [exact G|].
  destruct B as [B|(_ & _ & U & B)]; [left; exact B|]. cbn in U. injection U as ->. right. auto.
Qed.

Lemma agree_int : forall n w, bits_agree n w -> dt n = Simple false ST_INT ->
  forall v, bits_agree n v.
Proof.
  intros n w B D v c s E. rewrite D in E. injection E as <- <-.
  destruct (B false ST_INT D) as [_ V]. split; [|exact V].
  assert (Q : forall b, promoted b ST_INT = ST_INT) by (intro b; unfold promoted; destruct (b =? -1); reflexivity).
  rewrite !Q. reflexivity.
Qed.

Lemma has_value_simple : forall n s v, dt n = Simple false s -> good_kind n -> bits_agree n v ->
  has_value n (Simple false s) true v.
Proof. intros n s v D G B. constructor; auto; rewrite D; auto; discriminate. Qed.

Lemma not_int_promoted : forall s w, integer_type s -> valid_bits s w ->
  promoted w s <> ST_INT -> promoted w s = s /\ promoted (-1) s = s.
Proof.
  intros s w I [-> |[[-> H]|[[-> H]|[-> ->]]]] P.
  - unfold integer_type in I. cbn [In] in I.
    repeat (destruct I as [I|I]; [subst; first [exfalso; apply P; reflexivity|split; reflexivity]|]). destruct I.
  - exfalso. apply P. unfold promoted. destruct (w =? -1); reflexivity.
  - revert P. unfold promoted. destruct (w =? -1); [split; reflexivity|].
    destruct (w <? 32); [intro P; exfalso; apply P; reflexivity|split; reflexivity].
  - exfalso. apply P. reflexivity.
Qed.

Lemma promoted_float : forall s w, floating s -> promoted w s <> ST_INT -> promoted w s = s.
Proof.
  intros s w [-> | ->] P; unfold promoted in *; destruct (w =? -1); try reflexivity; exfalso; apply P; reflexivity.
Qed.

Lemma float_not_integer : forall s, floating s -> st_is_integer s = false.
Proof. intros s [-> | ->]; reflexivity. Qed.
Lemma not_integer_float : forall s, st_is_integer s = false -> ~ integer_type s.
Proof. intros s H I. rewrite (integer_true s I) in H. discriminate. Qed.

(** The promotions: the type, and the promoted node is settled. *)
Lemma promote_integer : forall n s ex w, has_value n (Simple false s) ex w -> integer_type s ->
  exists n', promote n = Ok n' /\
    has_value n' (Simple false (promoted w s)) (ex || st_eqb (promoted w s) ST_INT) (-1) /\
    settled (promoted w s) (bits_of n').
Proof.
  intros n s ex w H I. pose proof H as [Ht Hx Hk Hc Hb].
  assert (D : exists c, dt n = Simple c s) by (destruct (dt n); cbn in Ht; try discriminate; injection Ht as ->; eauto).
  destruct D as (c & D). destruct (Hb c s D) as [Pb Vb].
  unfold ExprType.promote. rewrite D, (integer_true s I), (contained_int s (bits_of n) I Vb), Pb. cbn [bind].
  destruct (st_eqb (promoted w s) ST_INT) eqn:E.
  - apply st_eqb_iff in E. rewrite E.
    destruct (cast_simple n s ex w ST_INT H (or_introl I)) as (n' & En & Dn & G & B).
    { left. cbn; tauto. }
    exists n'. split; [exact En|].
    assert (B' : bits_agree n' (-1)).
    { destruct B as [B|[Es B]].
      - intros c0 s0 _. rewrite B. split; [reflexivity|left; reflexivity].
      - exact (agree_int n' w B Dn (-1)). }
    split.
    + rewrite orb_true_r. apply has_value_simple; auto.
    + destruct (B' false ST_INT Dn) as [P V]. split; [left; cbn; tauto|]. split; [exact V|].
      rewrite P. reflexivity.
  - assert (NE : promoted (bits_of n) s <> ST_INT).
    { rewrite Pb. intro Q. rewrite Q in E. discriminate. }
    destruct (not_int_promoted s (bits_of n) I Vb NE) as [P1 P2]. rewrite Pb in P1. rewrite P1.
    exists n. split; [reflexivity|]. rewrite orb_false_r. split.
    + constructor; auto. intros c0 s0 E0. rewrite D in E0. injection E0 as <- <-.
      rewrite P2, Pb, P1. auto.
    + split; [left; exact I|]. split; [exact Vb|]. rewrite Pb. exact P1.
Qed.

Lemma promote_arith : forall n s ex w, has_value n (Simple false s) ex w -> arith s ->
  exists n', promote n = Ok n' /\
    has_value n' (Simple false (promoted w s)) (ex || st_eqb (promoted w s) ST_INT) (-1) /\
    settled (promoted w s) (bits_of n').
Proof.
  intros n s ex w H [I|F]; [exact (promote_integer n s ex w H I)|].
  pose proof H as [Ht Hx Hk Hc Hb].
  assert (D : exists c, dt n = Simple c s) by (destruct (dt n); cbn in Ht; try discriminate; injection Ht as ->; eauto).
  destruct D as (c & D). destruct (Hb c s D) as [Pw V].
  assert (Bn : bits_of n = -1) by (destruct V as [V|[[-> _]|[[-> _]|[-> _]]]]; [exact V|destruct F; discriminate..]).
  assert (W : w = -1).
  { rewrite Bn in Pw. destruct (Z.eq_dec w (-1)) as [E|E]; [exact E|]. exfalso. revert Pw. unfold promoted.
    rewrite (proj2 (Z.eqb_neq w (-1)) E). destruct F as [-> | ->]; discriminate. }
  subst w.
  assert (P : promoted (-1) s = s) by (destruct F as [-> | ->]; reflexivity).
  unfold ExprType.promote. rewrite D, (float_not_integer s F). exists n. split; [reflexivity|].
  rewrite P. replace (st_eqb s ST_INT) with false by (destruct F as [-> | ->]; reflexivity).
  rewrite orb_false_r. split; [exact H|]. rewrite Bn. split; [right; exact F|]. split; [left; reflexivity|exact P].
Qed.

(** Promotion does nothing to what is no number. *)
Lemma promote_other : forall n tv ex w, has_value n tv ex w ->
  (forall s, tv = Simple false s -> st_is_integer s = false) -> promote n = Ok n.
Proof.
  intros n tv ex w [Ht Hx Hk Hc Hb] N0. unfold ExprType.promote. destruct (dt n); cbn [unq] in Ht; try reflexivity.
  rewrite (N0 s) by (symmetry; exact Ht). reflexivity.
Qed.

Lemma integer_or : forall s, integer_type s \/ st_is_integer s = false.
Proof. intros []; (left; cbn; tauto) || (right; reflexivity). Qed.

Lemma promote_any : forall n tv ex w, has_value n tv ex w -> plain tv ->
  exists n' tv' ex' w', promote n = Ok n' /\ has_value n' tv' ex' w' /\ plain tv'.
Proof.
  intros n tv ex w H P. destruct tv as [c s|c u|k u|r ps v|c g]; cbn in P; try discriminate P.
  - injection P as <-. destruct (integer_or s) as [I|I].
    + destruct (promote_integer _ _ _ _ H I) as (n' & E & V & _). do 4 eexists. split; [exact E|]. split; [exact V|reflexivity].
    + do 4 eexists. split; [apply (promote_other _ _ _ _ H); intros s0 E0; injection E0 as <-; exact I|]. split; [exact H|reflexivity].
  - do 4 eexists. split; [apply (promote_other _ _ _ _ H); discriminate|]. split; [exact H|exact P].
  - do 4 eexists. split; [apply (promote_other _ _ _ _ H); discriminate|]. split; [exact H|exact P].
Qed.

Lemma default_promote_any : forall n tv ex w, has_value n tv ex w -> plain tv ->
  exists n', default_promote n = Ok n'.
Proof.
  intros n tv ex w H P. unfold ExprType.default_promote.
  destruct (promote_any _ _ _ _ H P) as (n1 & t1 & x1 & w1 & -> & H1 & P1). cbn [bind].
  destruct (ty_eqb (unq (dt n1)) (Simple false ST_FLOAT)) eqn:E; [|eauto].
  apply ty_eqb_spec in E. rewrite (hv_type _ _ _ _ H1) in E. subst t1.
  destruct (cast_simple n1 ST_FLOAT x1 w1 ST_DOUBLE H1) as (n' & -> & _).
  - right; left; reflexivity.
  - right; right; reflexivity.
  - eauto.
Qed.

Lemma value_simple : forall n s ex w, has_value n (Simple false s) ex w -> exists c, dt n = Simple c s.
Proof.
  intros n s ex w [Ht Hx Hk Hc Hb]. destruct (dt n); cbn in Ht; try discriminate; injection Ht as ->; eauto.
Qed.
Lemma value_ptr : forall n c u ex w, has_value n (Ptr c u) ex w -> c = false /\ exists c', dt n = Ptr c' u.
Proof.
  intros n c u ex w [Ht Hx Hk Hc Hb]. destruct (dt n); cbn in Ht; try discriminate; injection Ht as <- ->; eauto.
Qed.

Lemma convert_ok : forall a b s r xa xb,
  has_value a (Simple false s) xa (-1) -> has_value b (Simple false r) xb (-1) ->
  settled s (bits_of a) -> settled r (bits_of b) ->
  exists a' b', convert a b = Ok (a', b') /\
    has_value a' (Simple false (spec_common SYSV s r)) true (-1) /\
    has_value b' (Simple false (spec_common SYSV s r)) true (-1).
Proof.
  intros a b s r xa xb Ha Hb Sa Sb. unfold ExprType.convert.
  destruct (value_simple _ _ _ _ Ha) as (ca & Da). destruct (value_simple _ _ _ _ Hb) as (cb & Db).
  rewrite Da, Db, (arithmetic_bits s _ r _ Sa Sb). cbn [bind].
  pose proof (common_arith s _ r _ Sa Sb) as Ac.
  destruct (cast_simple a s xa (-1) _ Ha (proj1 Sa) Ac) as (a' & -> & Da' & Ga & Ba). cbn [bind].
  destruct (cast_simple b r xb (-1) _ Hb (proj1 Sb) Ac) as (b' & -> & Db' & Gb & Bb). cbn [bind].
  exists a', b'. split; [reflexivity|].
  split; (apply has_value_simple; [assumption..|]).
  - destruct Ba as [Ba|[_ Ba]]; [|exact Ba]. intros c0 s0 _. rewrite Ba. split; [reflexivity|left; reflexivity].
  - destruct Bb as [Bb|[_ Bb]]; [|exact Bb]. intros c0 s0 _. rewrite Bb. split; [reflexivity|left; reflexivity].
Qed.

End Conv.
