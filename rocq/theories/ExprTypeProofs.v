(** Proofs about ExprType.v: the conversions of operands. *)
From Verif Require Import Base Arch CTypesSpec ArithConv ArithConvSpec ExprType ExprTypeSpec.

Ltac Zify.zify_post_hook ::= idtac.
Local Open Scope Z_scope.
Local Open Scope list_scope.

(** * Equality of types *)
Lemma st_eqb_iff : forall a b, st_eqb a b = true <-> a = b.
Proof. intros a b. destruct (st_eqb_spec a b); split; congruence. Qed.
Fixpoint ty_size (t : ty) : nat :=
  match t with
  | Simple _ _ | Struct _ _ => 1
  | Ptr _ u => S (ty_size u)
  | Arr _ u => S (ty_size u)
  | Fn r ps _ => S (ty_size r + (fix all l := match l with [] => O | x :: k => (ty_size x + all k)%nat end) ps)
  end.
Lemma ty_eqb_spec_n : forall n a b, (ty_size a <= n)%nat -> (ty_eqb a b = true <-> a = b).
Proof.
  induction n as [|n IH]; intros a b L.
  - destruct a; cbn in L; lia.
  - destruct a as [c s|c t|k t|r ps v|c g], b as [d s'|d t'|k' t'|r' ps' v'|d g'];
      cbn [ty_eqb]; try (split; [discriminate|congruence]).
    + rewrite andb_true_iff, Bool.eqb_true_iff, st_eqb_iff. split; [intros [-> ->]; auto|].
      intro E; injection E; auto.
    + cbn [ty_size] in L. rewrite andb_true_iff, Bool.eqb_true_iff, (IH t t') by lia.
      split; [intros [-> ->]; auto|]. intro E; injection E; auto.
    + cbn [ty_size] in L. rewrite andb_true_iff, (IH t t') by lia.
      assert (O : opt_eqb k k' = true <-> k = k').
      { destruct k, k'; cbn; try (split; [discriminate|congruence]); [|tauto].
        rewrite Z.eqb_eq. split; [intros ->; auto|intro E; injection E; auto]. }
      rewrite O. split; [intros [-> ->]; auto|]. intro E; injection E; auto.
    + cbn [ty_size] in L. rewrite !andb_true_iff, Bool.eqb_true_iff, (IH r r') by lia.
      assert (A : forall l l', ((fix all l := match l with [] => O | x :: k => (ty_size x + all k)%nat end) l <= n)%nat ->
        ((fix all (l l' : list ty) : bool :=
         match l, l' with
         | [], [] => true
         | x :: k, y :: k' => ty_eqb x y && all k k'
         | _, _ => false
         end) l l' = true <-> l = l')).
      { induction l as [|x l IHl]; intros [|y l'] Ll; try (split; [discriminate|congruence]); [tauto|].
        rewrite andb_true_iff, (IH x y) by lia. rewrite IHl by lia.
        split; [intros [-> ->]; auto|intro E; injection E; auto]. }
      rewrite A by lia. split; [intros [[-> ->] ->]; auto|]. intro E; injection E; auto.
    + rewrite andb_true_iff, Bool.eqb_true_iff, Nat.eqb_eq. split; [intros [-> ->]; auto|].
      intro E; injection E; auto.
Qed.
Lemma ty_eqb_spec : forall a b, ty_eqb a b = true <-> a = b.
Proof. intros a b. exact (ty_eqb_spec_n (ty_size a) a b (Nat.le_refl _)). Qed.
Lemma ty_eqb_refl : forall a, ty_eqb a a = true.
Proof. intro a. apply ty_eqb_spec. reflexivity. Qed.
Lemma ty_eqb_neq : forall a b, a <> b -> ty_eqb a b = false.
Proof. intros a b H. destruct (ty_eqb a b) eqn:E; [|reflexivity]. apply ty_eqb_spec in E. contradiction. Qed.

Lemma unq_unq : forall t, unq (unq t) = unq t.
Proof. intros []; reflexivity. Qed.
Lemma unq_id : forall t, is_const t = false -> unq t = t.
Proof. intros [[] ?|[] ?| | |[] ?]; cbn; congruence. Qed.
Lemma is_const_unq : forall t, is_const (unq t) = false.
Proof. intros []; reflexivity. Qed.

(** * Widths of bit-fields *)
Definition valid_bits (s : simple_type) (w : Z) : Prop :=
  w = -1 \/ (s = ST_INT /\ 0 < w <= 32) \/ (s = ST_UINT /\ 0 < w <= 32) \/ (s = ST_BOOL /\ w = 1).

Lemma integer_true : forall s, integer_type s -> st_is_integer s = true.
Proof. intros s H. unfold integer_type in H. cbn [In] in H. repeat (destruct H as [H|H]; [subst; reflexivity|]). destruct H. Qed.

Lemma contained_int : forall s w, integer_type s -> valid_bits s w ->
  is_contained_in SYSV ST_INT (-1) s w = Ok (st_eqb (promoted w s) ST_INT).
Proof.
  intros s w I [-> |[[-> H]|[[-> H]|[-> ->]]]].
  - unfold integer_type in I. cbn [In] in I.
    repeat (destruct I as [I|I]; [subst; vm_compute; reflexivity|]). destruct I.
  - unfold is_contained_in, get_range, promoted. cbn [is_signed bind sizeof_simple fst snd].
    rewrite (proj2 (Z.eqb_neq w (-1))) by lia. rewrite Z.eqb_refl. cbn [fst snd].
    change (4 * 8 - 1) with 31. rewrite (proj2 (Z.leb_le (w - 1) 31)) by lia. reflexivity.
  - unfold is_contained_in, get_range, promoted. cbn [is_signed bind sizeof_simple fst snd].
    rewrite (proj2 (Z.eqb_neq w (-1))) by lia. rewrite Z.eqb_refl. cbn [fst snd].
    change (4 * 8 - 1) with 31. change (-1 <=? 31) with true. cbn [andb].
    destruct (Z.leb_spec w 31), (Z.ltb_spec w 32); try lia; reflexivity.
  - reflexivity.
Qed.

Lemma arith_promoted : forall s w, arith s -> valid_bits s w -> arith (promoted w s).
Proof.
  intros s w A [-> |[[-> H]|[[-> H]|[-> ->]]]].
  - unfold promoted. rewrite Z.eqb_refl. destruct A as [I|[-> | ->]]; [|right; left; reflexivity|right; right; reflexivity].
    left. unfold integer_type in *. cbn [In] in I.
    repeat (destruct I as [I|I]; [subst; vm_compute; tauto|]). destruct I.
  - unfold promoted. rewrite (proj2 (Z.eqb_neq w (-1))) by lia. exact A.
  - unfold promoted. rewrite (proj2 (Z.eqb_neq w (-1))) by lia.
    destruct (w <? 32); left; cbn; tauto.
  - left; cbn; tauto.
Qed.

(** A promoted type with the bits of a node that has it. *)
Definition settled (s : simple_type) (w : Z) : Prop :=
  arith s /\ valid_bits s w /\ promoted w s = s.

Lemma settled_cases : forall s w, settled s w ->
  (w = -1 /\ In s [ST_INT; ST_UINT; ST_LONG; ST_ULONG; ST_LLONG; ST_ULLONG; ST_FLOAT; ST_DOUBLE]) \/
  (s = ST_INT /\ 0 < w <= 32) \/ (s = ST_UINT /\ w = 32).
Proof.
  intros s w (A & [-> |[[-> H]|[[-> H]|[-> ->]]]] & P).
  - left. split; [reflexivity|]. destruct A as [I|[-> | ->]]; [|cbn; tauto|cbn; tauto].
    unfold integer_type in I. cbn [In] in I.
    repeat (destruct I as [I|I]; [subst; first [discriminate P|cbn; tauto]|]). destruct I.
  - right; left; auto.
  - right; right. split; [reflexivity|]. revert P. unfold promoted.
    rewrite (proj2 (Z.eqb_neq w (-1))) by lia. destruct (Z.ltb_spec w 32); [discriminate|]. lia.
  - discriminate P.
Qed.

Lemma arithmetic_bits : forall s w r v, settled s w -> settled r v ->
  get_arithmetic_type SYSV s w r v = Ok (spec_common SYSV s r).
Proof.
  intros s w r v Hs Hr. apply settled_cases in Hs, Hr.
  destruct Hs as [[-> Is]|[[-> Ws]|[-> ->]]]; destruct Hr as [[-> Ir]|[[-> Wr]|[-> ->]]];
    cbn [In] in *;
    repeat match goal with H : _ \/ _ |- _ => destruct H as [<-|H] | H : False |- _ => destruct H end;
    reflexivity.
Qed.

Lemma common_arith : forall s w r v, settled s w -> settled r v -> arith (spec_common SYSV s r).
Proof.
  intros s w r v Hs Hr. apply settled_cases in Hs, Hr. unfold arith, floating, integer_type.
  destruct Hs as [[-> Is]|[[-> Ws]|[-> ->]]]; destruct Hr as [[-> Ir]|[[-> Wr]|[-> ->]]];
    cbn [In] in *;
    repeat match goal with H : _ \/ _ |- _ => destruct H as [<-|H] | H : False |- _ => destruct H end;
    vm_compute; tauto.
Qed.

(** * Nodes *)
Definition good_kind (n : node) : Prop :=
  match kd n with
  | KVal _ => (exists s, dt n = Simple false s) \/ (exists c u, dt n = Ptr c u)
  | KLabelPtr => exists c u, dt n = Ptr c u
  | _ => True
  end.
Definition bits_agree (n : node) (w : Z) : Prop :=
  forall c s, dt n = Simple c s ->
  promoted (bits_of n) s = promoted w s /\ valid_bits s (bits_of n).

(** The node of a value of type [tv]. *)
Record has_value (n : node) (tv : ty) (ex : bool) (w : Z) : Prop := {
  hv_type : unq (dt n) = tv;
  hv_exact : ex = true -> dt n = tv;
  hv_kind : good_kind n;
  hv_const : is_const (dt n) = true -> bits_of n = -1;
  hv_bits : bits_agree n w }.

(** The node of an expression of type [t]. *)
Record has_type (n : node) (t : ty) (l : look) : Prop := {
  ht_type : unq (dt n) = unq t;
  ht_exact : exact l = true -> dt n = t;
  ht_kind : good_kind n;
  ht_const : is_const (dt n) = true -> bits_of n = -1;
  ht_bits : bits_agree n (width l);
  ht_lvalue : lvalue l = true -> match kd n with KLabel | KOther | KDot _ => True | _ => False end;
  ht_loose : lvalue l = true -> exact l = false ->
             is_const t = true \/ exists r ps v, t = Fn r ps v }.

Lemma bits_agree_other : forall k t w, bits_of (N k t) = -1 -> w = -1 -> bits_agree (N k t) w.
Proof. intros k t w B -> c s _. rewrite B. split; [reflexivity|left; reflexivity]. Qed.

Lemma decay_type : forall n t l, has_type n t l ->
  exists n', decay n = Ok n' /\ has_value n' (value_type t) (value_exact t l) (width l).
Proof.
  intros n t l [T X K C B L Lo]. unfold decay.
  destruct t as [c s|c u|k u|r ps v|c g]; cbn [unq value_type value_exact] in *.
  - assert (Dn : exists c', dt n = Simple c' s) by (destruct (dt n); cbn in T; try discriminate; injection T as ->; eauto).
    destruct Dn as (c' & Dn). rewrite Dn. cbn [bind]. rewrite Dn. cbn [is_const].
    assert (Hx : exact l && negb (is_const (Simple c s)) = true -> c' = false).
    { intro E. apply andb_true_iff in E. destruct E as [E1 E2]. rewrite (X E1) in Dn. injection Dn as <-.
      cbn in E2. destruct c; [discriminate|reflexivity]. }
    destruct c'.
    + rewrite Dn in C. cbn [is_const] in C. specialize (C eq_refl).
      destruct (kd n) eqn:Kn.
      * exists n. split; [reflexivity|]. constructor; auto; intro E; specialize (Hx E); discriminate.
      * exists n. split; [reflexivity|]. constructor; auto; intro E; specialize (Hx E); discriminate.
      * exists n. split; [reflexivity|]. constructor; auto; intro E; specialize (Hx E); discriminate.
      * eexists. split; [reflexivity|]. constructor; try reflexivity; try exact I; cbn [dt unq].
        intros c0 s0 E. cbn in E. injection E as <- <-. destruct (B true s Dn) as [P _]. rewrite C in P. split; [exact P|left; reflexivity].
      * eexists. split; [reflexivity|]. constructor; try reflexivity; try exact I; cbn [dt unq].
        intros c0 s0 E. cbn in E. injection E as <- <-. destruct (B true s Dn) as [P _]. rewrite C in P. split; [exact P|left; reflexivity].
      * eexists. split; [reflexivity|]. constructor; try reflexivity; try exact I; cbn [dt unq].
        intros c0 s0 E. cbn in E. injection E as <- <-. destruct (B true s Dn) as [P _]. rewrite C in P. split; [exact P|left; reflexivity].
    + exists n. split; [reflexivity|]. constructor; auto.
  - assert (Dn : exists c', dt n = Ptr c' u) by (destruct (dt n); cbn in T; try discriminate; injection T as ->; eauto).
    destruct Dn as (c' & Dn). rewrite Dn. cbn [bind]. rewrite Dn. cbn [is_const].
    assert (Hx : exact l && negb (is_const (Ptr c u)) = true -> c' = false).
    { intro E. apply andb_true_iff in E. destruct E as [E1 E2]. rewrite (X E1) in Dn. injection Dn as <-.
      cbn in E2. destruct c; [discriminate|reflexivity]. }
    destruct c'.
    + destruct (kd n) eqn:Kn;
        (eexists; split; [reflexivity|]; constructor; auto; cbn [dt unq];
         try (rewrite Dn; reflexivity); try reflexivity;
         try (intro E; specialize (Hx E); discriminate);
         intros c0 s0 E; cbn in E; rewrite ?Dn in E; discriminate).
    + exists n. split; [reflexivity|]. constructor; auto.
  - assert (Dn : dt n = Arr k u) by (destruct (dt n); cbn in T; try discriminate; exact T).
    rewrite Dn. unfold good_kind in K. rewrite Dn in K.
    destruct (kd n) eqn:Kn; try (destruct K as [[? E]|(? & ? & E)]; discriminate); try (destruct K as (? & ? & E); discriminate);
      cbn [bind dt is_const]; (eexists; split; [reflexivity|]; constructor; cbn [dt unq]; auto; try discriminate;
        solve [unfold good_kind; cbn; eauto|intros c0 s0 E; cbn in E; discriminate]).
  - assert (Dn : dt n = Fn r ps v) by (destruct (dt n); cbn in T; try discriminate; exact T).
    rewrite Dn. unfold good_kind in K. rewrite Dn in K. unfold mk_addr.
    destruct (kd n) eqn:Kn; try (destruct K as [[? E]|(? & ? & E)]; discriminate); try (destruct K as (? & ? & E); discriminate);
      cbn [bind dt is_const]; rewrite Dn; (eexists; split; [reflexivity|]; constructor; cbn [dt unq]; auto; try discriminate;
        solve [unfold good_kind; cbn; eauto|intros c0 s0 E; cbn in E; discriminate]).
  - assert (Dn : exists c', dt n = Struct c' g) by (destruct (dt n); cbn in T; try discriminate; injection T as ->; eauto).
    destruct Dn as (c' & Dn). rewrite Dn. cbn [bind]. rewrite Dn. cbn [is_const].
    assert (Hx : exact l && negb (is_const (Struct c g)) = true -> c' = false).
    { intro E. apply andb_true_iff in E. destruct E as [E1 E2]. rewrite (X E1) in Dn. injection Dn as <-.
      cbn in E2. destruct c; [discriminate|reflexivity]. }
    destruct c'.
    + destruct (kd n) eqn:Kn;
        (eexists; split; [reflexivity|]; constructor; auto; cbn [dt unq];
         try (rewrite Dn; reflexivity); try reflexivity;
         try (intro E; specialize (Hx E); discriminate);
         intros c0 s0 E; cbn in E; rewrite ?Dn in E; discriminate).
    + exists n. split; [reflexivity|]. constructor; auto.
Qed.

(** Types that are the type of a value already. *)
Definition plain (t : ty) : Prop := value_type t = t.

Lemma value_plain : forall t, plain (value_type t).
Proof. intros []; reflexivity. Qed.

Lemma value_as_type : forall n tv ex w, has_value n tv ex w -> plain tv ->
  has_type n tv {| lvalue := false; width := w; exact := ex |}.
Proof.
  intros n tv ex w [T X K C B] P. constructor; auto; cbn [lvalue]; try discriminate.
  rewrite T. destruct tv; cbn in P |- *; try discriminate P; try (injection P as <-); reflexivity.
Qed.

Lemma value_exact_plain : forall t w ex, plain t ->
  value_exact t {| lvalue := false; width := w; exact := ex |} = ex.
Proof.
  intros [[] ?|[] ?|? ?|? ? ?|[] ?] w ex P; cbn in *; try discriminate P; destruct ex; reflexivity.
Qed.

Lemma decay_value : forall n tv ex w, has_value n tv ex w -> plain tv ->
  exists n', decay n = Ok n' /\ has_value n' tv ex w.
Proof.
  intros n tv ex w H P. destruct (decay_type _ _ _ (value_as_type _ _ _ _ H P)) as (n' & E & V).
  exists n'. split; [exact E|]. rewrite P in V. cbn [width] in V. rewrite value_exact_plain in V by exact P. exact V.
Qed.

Lemma node_is_plain : forall n, (forall k u, dt n <> Arr k u) -> (forall r ps v, dt n <> Fn r ps v) ->
  is_const (dt n) = false -> decay n = Ok n.
Proof.
  intros n A F C. unfold decay. destruct (dt n) eqn:D; cbn [bind]; try rewrite D, C; try reflexivity.
  - exfalso. exact (A _ _ eq_refl).
  - exfalso. exact (F _ _ _ eq_refl).
Qed.
