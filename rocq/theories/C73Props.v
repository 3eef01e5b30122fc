(** C73: every expression has the type C gives it. The specification is
    ExprTypeSpec.v. *)
From Verif Require Import Base Arch CTypesSpec ArithConv ArithConvSpec ConstConv.
From Verif Require Import ExprType ExprTypeSpec ExprTypeProofs ExprTypeConv ExprTypeMain.

Ltac Zify.zify_post_hook ::= idtac.
Local Open Scope Z_scope.
Local Open Scope list_scope.

(** The conversion of integer constants (C06) keeps zero, which is all that the
    types depend on. *)
Definition compiler_cast (s r : simple_type) (v : Z) : Z :=
  match ConstConv.simple_cast SYSV s v r with Ok w => w | _ => 0 end.
Theorem C73_fold_zero : forall s r, integer_type s -> integer_type r -> compiler_cast s r 0 = 0.
Proof.
  intros s r Hs Hr. unfold integer_type in *. cbn [In] in Hs, Hr.
  repeat match goal with
         | H : _ \/ _ |- _ => destruct H as [<-|H]
         | H : False |- _ => destruct H
         end; reflexivity.
Qed.
Print Assumptions C73_fold_zero.

(** What the compiler is proved right on is part of what C allows. *)
Theorem C73_standard : forall env e t l, types env true e t l -> types env false e t l.
Proof.
  intro env. apply (types_ind2 env true (fun e t l => types env false e t l) (fun es => types_all env false es));
    intros; solve [econstructor; eauto; intros; discriminate].
Qed.
Print Assumptions C73_standard.

Section Folding.
Variable fold_addr : simple_type -> Z -> Z.
Variable fold_bin : binop -> simple_type -> Z -> Z -> option Z.
Variable fold_un : unop -> simple_type -> Z -> option Z.
Variable size_of : ty -> Z.
Variable fold_cast : simple_type -> simple_type -> Z -> Z.
Hypothesis fold_zero : forall s r, integer_type s -> integer_type r -> fold_cast s r 0 = 0.

Definition built (env : structs) (e : expr) : res node := build env fold_cast fold_addr fold_bin fold_un size_of e.
Definition chosen {A : Type} (env : structs) (e : expr) (l : list (option ty * A)) : res A :=
  generic env fold_cast fold_addr fold_bin fold_un size_of e l.

(** Whatever constants fold to, an expression of C is accepted and has the type
    of C; when the expression is [exact], with its qualifier. *)
Theorem C73_types_partial : forall env e t l, well_formed env -> types env true e t l ->
  exists n, built env e = Ok n /\ unq (dt n) = unq t /\ (exact l = true -> dt n = t).
Proof.
  intros env e t l W H.
  destruct (build_types env W fold_cast fold_addr fold_bin fold_un size_of fold_zero e t l H) as (n & E & [T X _ _ _ _ _]).
  exists n. auto.
Qed.

(** The type of its value, after the conversions of 6.3.2.1. *)
Theorem C73_value_partial : forall env e t l, well_formed env -> types env true e t l ->
  exists n n', built env e = Ok n /\ decay n = Ok n' /\ unq (dt n') = value_type t.
Proof.
  intros env e t l W H.
  destruct (build_types env W fold_cast fold_addr fold_bin fold_un size_of fold_zero e t l H) as (n & E & Ht).
  destruct (decay_type _ _ _ Ht) as (n' & E' & Hv). exists n, n'. split; [exact E|]. split; [exact E'|exact (hv_type _ _ _ _ Hv)].
Qed.

(** 6.5.1.1: the association with the type of the value, whether before or after
    default; default when there is none; an error when there is neither. *)
Theorem C73_generic_partial : forall (A : Type) env e t l (as_ : list (option ty * A)) (a : A),
  well_formed env -> types env true e t l ->
  (forall p q, as_ = p ++ (Some (value_type t), a) :: q ->
     (forall b, ~ In (Some (value_type t), b) (p ++ q)) -> chosen env e as_ = Ok a) /\
  (forall p q, as_ = p ++ (None, a) :: q -> (forall b, ~ In (None, b) p) ->
     (forall b, ~ In (Some (value_type t), b) (p ++ q)) -> chosen env e as_ = Ok a) /\
  ((forall b, ~ In (None, b) as_) -> (forall b, ~ In (Some (value_type t), b) as_) -> chosen env e as_ = Fail) /\
  (forall p q r b, as_ = p ++ (Some (value_type t), a) :: q ++ (Some (value_type t), b) :: r ->
     (forall b, ~ In (None, b) as_) -> chosen env e as_ = Fail).
Proof.
  intros A env e t l as_ a W H.
  destruct (C73_value_partial env e t l W H) as (n & n' & E & E' & T).
  assert (C : chosen env e as_ = associations (value_type t) as_ None false).
  { unfold chosen, generic. unfold built in E. rewrite E. cbn [bind]. rewrite E'. cbn [bind]. rewrite T. reflexivity. }
  rewrite C. set (tv := value_type t). clear C E E' T H. clearbody tv.
  assert (Skip : forall (k : list (option ty * A)) f g, (forall b, ~ In (Some tv, b) k) -> (forall b, ~ In (None, b) k) \/ (f <> None) ->
    forall r, exists g', associations tv (k ++ r) f g = associations tv r f g' /\
      ((forall b, ~ In (None, b) k) -> g' = g)).
  { induction k as [|[[u|] b] k IH]; intros f g N1 N2 r.
    - exists g. auto.
    - cbn [app associations]. rewrite ty_eqb_neq.
      + destruct (IH f g) with (r := r) as (g' & Eg & G).
        * intros b0 I0. exact (N1 b0 (or_intror I0)).
        * destruct N2 as [N2|N2]; [left; intros b0 I0; exact (N2 b0 (or_intror I0))|right; exact N2].
        * exists g'. split; [exact Eg|]. intro N3. apply G. intros b0 I0. exact (N3 b0 (or_intror I0)).
      + intros ->. exact (N1 b (or_introl eq_refl)).
    - cbn [app associations]. destruct N2 as [N2|N2]; [exfalso; exact (N2 b (or_introl eq_refl))|].
      destruct f as [v|]; [|contradiction].
      destruct (IH (Some v) true) with (r := r) as (g' & Eg & G).
      * intros b0 I0. exact (N1 b0 (or_intror I0)).
      * right. discriminate.
      * exists g'. split; [exact Eg|]. intro N3. exfalso. exact (N3 b (or_introl eq_refl)). }
  (* a run without a match keeps or sets the default, and the flag says so *)
  assert (Run : forall (k r : list (option ty * A)) g f, (forall b, ~ In (Some tv, b) k) -> (f <> None -> g = true) ->
    exists f' g', associations tv (k ++ r) f g = associations tv r f' g' /\ (f' <> None -> g' = true)).
  { induction k as [|[[u|] b] k IH]; intros r g f N1 Fg.
    - exists f, g. auto.
    - cbn [app associations]. rewrite ty_eqb_neq.
      + apply IH; [intros b0 I0; exact (N1 b0 (or_intror I0))|exact Fg].
      + intros ->. exact (N1 b (or_introl eq_refl)).
    - cbn [app associations]. apply IH; [intros b0 I0; exact (N1 b0 (or_intror I0))|auto]. }
  split; [|split; [|split]].
  - intros p q -> N1.
    destruct (Run p ((Some tv, a) :: q) false None) as (f' & g' & -> & Fg).
    { intros b I0. apply (N1 b). apply in_or_app. auto. }
    { congruence. }
    cbn [associations]. rewrite ty_eqb_refl.
    assert (K : associations tv q (Some a) g' = Ok a).
    { destruct (Skip q (Some a) g') with (r := @nil (option ty * A)) as (g2 & Eq & _).
      - intros b I0. apply (N1 b). apply in_or_app. auto.
      - right. discriminate.
      - rewrite app_nil_r in Eq. rewrite Eq. reflexivity. }
    destruct f' as [v|]; [rewrite (Fg ltac:(discriminate)) in *|]; exact K.
  - intros p q -> N0 N1.
    destruct (Skip p None false) with (r := (None, a) :: q) as (g' & -> & _).
    { intros b I0. apply (N1 b). apply in_or_app. auto. }
    { left. exact N0. }
    cbn [associations].
    destruct (Skip q (Some a) true) with (r := @nil (option ty * A)) as (g2 & Eq & _).
    { intros b I0. apply (N1 b). apply in_or_app. auto. }
    { right. discriminate. }
    rewrite app_nil_r in Eq. rewrite Eq. reflexivity.
  - intros N0 N1. destruct (Skip as_ None false N1 (or_introl N0) []) as (g' & Eq & _).
    rewrite app_nil_r in Eq. rewrite Eq. reflexivity.
  - intros p q r b Eas N0.
    assert (Twice : forall (k : list (option ty * A)) f, (forall b, ~ In (None, b) k) ->
      (f <> None -> exists b, In (Some tv, b) k) ->
      (f = None -> exists p a q b r, k = p ++ (Some tv, a) :: q ++ (Some tv, b) :: r) ->
      associations tv k f false = Fail).
    { induction k as [|[[u|] c] k IH]; intros f M0 M1 M2.
      - destruct f; [destruct (M1 ltac:(discriminate)) as (? & []) |].
        destruct (M2 eq_refl) as (p0 & ? & ? & ? & ? & Q). destruct p0; discriminate.
      - cbn [associations]. destruct (ty_eqb u tv) eqn:Eu.
        + destruct f; [reflexivity|]. apply IH.
          * intros b0 I0. exact (M0 b0 (or_intror I0)).
          * intros _. destruct (M2 eq_refl) as (p0 & a0 & q0 & b0 & r0 & Q). destruct p0; injection Q as Q1 Q2.
            -- subst k. exists b0. apply in_or_app. right. left. reflexivity.
            -- subst k. exists b0. apply in_or_app. right. right. apply in_or_app. right. left. reflexivity.
          * discriminate.
        + assert (Nu : u <> tv) by (intros ->; rewrite ty_eqb_refl in Eu; discriminate).
          apply IH.
          * intros b0 I0. exact (M0 b0 (or_intror I0)).
          * intro F0. destruct (M1 F0) as (b0 & [Q|I0]); [injection Q as Q _; contradiction|eauto].
          * intro F0. destruct (M2 F0) as (p0 & a0 & q0 & b0 & r0 & Q). destruct p0 as [|x p0]; injection Q as Q1 Q2.
            -- contradiction.
            -- subst k. do 5 eexists. reflexivity.
      - exfalso. exact (M0 c (or_introl eq_refl)). }
    apply Twice; [exact N0|congruence|]. intros _. do 5 eexists. exact Eas.
Qed.

(** ** Where the compiler differs from C *)

(** 6.5.15p6: a pointer to void and a pointer to an object give a pointer to
    void; here the pointer to the object wins. *)
Theorem C73_void_refuted : forall env u, is_const u = false -> unq u <> Simple false ST_VOID ->
  let e := Cond (Local (Simple false ST_INT)) (Local (Ptr false (Simple false ST_VOID))) (Local (Ptr false u)) in
  (exists l, types env false e (Ptr false (Simple false ST_VOID)) l) /\
  built env e = Ok (N KOther (Ptr false u)).
Proof.
  intros env u Cu Nu e. split.
  - eexists.
    replace (Ptr false (Simple false ST_VOID))
      with (Ptr false (Simple (is_const (Simple false ST_VOID) || is_const u) ST_VOID)) by (rewrite Cu; reflexivity).
    eapply types_cond_void_ptr; try apply types_local; try reflexivity.
    + left; cbn; tauto.
    + left; reflexivity.
    + intro Q; inversion Q as [x Z0|]; inversion Z0.
    + intro Q; inversion Q as [x Z0|]; inversion Z0.
    + discriminate.
  - unfold built, e. cbn [build bind]. unfold mk_cond. cbn [decay dt bind is_const].
    assert (PI : promote fold_cast fold_addr (N KOther (Simple false ST_INT)) = Ok (N KOther (Simple false ST_INT))) by reflexivity.
    assert (PP : forall t, promote fold_cast fold_addr (N KOther (Ptr false t)) = Ok (N KOther (Ptr false t))) by reflexivity.
    rewrite PI, !PP.
    cbn [bind]. unfold cast_conditional. cbn [dt].
    rewrite (ty_eqb_neq (Ptr false (Simple false ST_VOID)) (Ptr false u)) by (intro Q; injection Q as <-; apply Nu; reflexivity).
    change (ty_eqb (unq (Simple false ST_VOID)) void) with true. cbn [bind].
    unfold cast. cbn [decay dt bind is_const].
    rewrite (ty_eqb_neq (Ptr false (Simple false ST_VOID)) (Ptr false u)) by (intro Q; injection Q as <-; apply Nu; reflexivity).
    cbn [mk_cast kd bind dt]. rewrite ty_eqb_refl. reflexivity.
Qed.

(** 6.5.15p6: the result points to a type with all qualifiers of both; here const
    is lost, so that a pointer to const becomes one that may be written through. *)
Theorem C73_conditional_const_refuted : forall env s, arith s ->
  let e := Cond (Local (Simple false ST_INT)) (Local (Ptr false (Simple true s))) (Local (Ptr false (Simple false s))) in
  (exists l, types env false e (Ptr false (Simple true s)) l) /\
  exists n, built env e = Ok n /\ dt n = Ptr false (Simple false s).
Proof.
  intros env s As e. split.
  - eexists. change (Ptr false (Simple true s)) with
      (Ptr false (if is_const (Simple true s) || is_const (Simple false s) then qualified (Simple false s) else Simple false s)).
    eapply types_cond_ptr; try apply types_local; try reflexivity.
    + left; cbn; tauto.
    + apply composite_same.
    + discriminate.
  - unfold arith, integer_type in As. cbn [In] in As.
    destruct As as [As|[-> | ->]]; [|eexists; split; reflexivity..].
    repeat (destruct As as [<-|As]; [eexists; split; reflexivity|]). destruct As.
Qed.

(** 6.3.2.3p4 with 6.5.15p6: the null pointer constant takes the type of the other
    operand; here a pointer to const void becomes a pointer to void. *)
Theorem C73_conditional_null_refuted : forall env,
  let e := Cond (Local (Simple false ST_INT)) (Local (Ptr false (Simple true ST_VOID)))
                (Cast (Ptr false (Simple false ST_VOID)) (Num ST_INT 0)) in
  (exists l, types env false e (Ptr false (Simple true ST_VOID)) l) /\
  exists n, built env e = Ok n /\ dt n = Ptr false (Simple false ST_VOID).
Proof.
  intros env e. split; [|eexists; split; reflexivity].
  eexists. eapply types_cond_null; try apply types_local; try reflexivity.
  - eapply types_cast_pointer; [apply types_num; left; cbn; tauto|right]. exists ST_INT. split; [reflexivity|cbn; tauto].
  - left; cbn; tauto.
  - apply null_void. apply zero_num. cbn; tauto.
  - intro Q; inversion Q as [x Z0|]; inversion Z0.
  - discriminate.
Qed.

(** 6.5.2.3p3: a member of a const structure is const. Here it is not: its address
    is a pointer to a type that is not const, and an assignment to it, which
    breaks a constraint, is accepted. *)
Definition one_member (f : field) : structs := [[f]].
Lemma one_member_is : forall f g x p f' c, (forall k h, ftype f <> Struct k h) ->
  member (one_member f) g x p f' c -> g = O /\ f' = f /\ c = false /\ p = [O].
Proof.
  intros f g x p f' c NS M. unfold one_member in M.
  assert (G : forall g fs, fields [[f]] g = Some fs -> g = O /\ fs = [f]).
  { intros [|g0] fs E; [injection E as <-; auto|discriminate]. }
  inversion M as [g0 x0 i fs f0 F1 F2 F3|g0 x0 i fs u h c1 p0 f0 c2 F1 F2 F3 F4 F5]; subst;
    apply G in F1; destruct F1 as [-> ->].
  - destruct i as [|[|i]]; try discriminate. injection F2 as <-. auto.
  - destruct i as [|[|i]]; try discriminate. injection F2 as <-. exfalso. exact (NS _ _ F4).
Qed.
Theorem C73_const_member_refuted : forall x s v, arith s ->
  let env := one_member {| fname := Some x; ftype := Simple false s; fbits := -1 |} in
  let m := Dot (Global (Struct true 0)) x in
  (exists l, types env false (AddrOf m) (Ptr false (Simple true s)) l) /\
  (exists n, built env (AddrOf m) = Ok n /\ dt n = Ptr false (Simple false s)) /\
  (forall t l, ~ types env false (Assign m (Num s v)) t l) /\
  (exists n, built env (Assign m (Num s v)) = Ok n).
Proof.
  intros x s v As env m.
  set (f := {| fname := Some x; ftype := Simple false s; fbits := -1 |}).
  assert (M : member env 0 x [O] f false) by (apply (member_here env 0%nat x 0%nat [f] f); reflexivity).
  assert (Bm : built env m = Ok (N KLabel (Simple false s))).
  { unfold built, m. cbn [build bind]. unfold mk_member, search_member. cbn. rewrite Z.eqb_refl. reflexivity. }
  split; [|split; [|split]].
  - eexists. apply (types_addr env false m (Simple true s) {| lvalue := true; width := -1; exact := false |}); try reflexivity.
    + apply (types_dot env false (Global (Struct true 0)) true 0%nat (designates true) x [O] f false);
        [apply types_global|exact M|discriminate|discriminate].
    + discriminate.
  - unfold built. cbn [build]. unfold built in Bm. rewrite Bm. eexists; split; reflexivity.
  - intros t l H. inversion H; subst.
    match goal with H0 : types _ _ m _ _ |- _ => unfold m in H0; inversion H0; subst end.
    match goal with H0 : types _ _ (Global _) _ _ |- _ => inversion H0; subst end.
    match goal with H0 : member _ _ _ _ _ _ |- _ => apply one_member_is in H0; [destruct H0 as (_ & -> & _)|discriminate] end.
    match goal with H0 : is_const _ = false |- _ => discriminate H0 end.
  - unfold built. cbn [build]. unfold built in Bm. rewrite Bm. cbn [bind].
    unfold mk_assign. cbn [decay dt is_const bind]. eexists; reflexivity.
Qed.

(** 6.3.1.8 with 6.5.4: a cast to unsigned int makes an unsigned int, also of a
    bit-field; here the cast of an unsigned bit-field is dropped, and the value is
    promoted to int. *)
Theorem C73_bit_field_cast_refuted : forall x w, 0 < w < 32 ->
  let env := one_member {| fname := Some x; ftype := Simple false ST_UINT; fbits := w |} in
  let e := Bin OSub (Cast (Simple false ST_UINT) (Dot (Local (Struct false 0)) x)) (Num ST_INT 1) in
  (exists l, types env false e (Simple false ST_UINT) l) /\
  exists n, built env e = Ok n /\ dt n = Simple false ST_INT.
Proof.
  intros x w Hw env e.
  set (f := {| fname := Some x; ftype := Simple false ST_UINT; fbits := w |}).
  assert (M : member env 0 x [O] f false) by (apply (member_here env 0%nat x 0%nat [f] f); reflexivity).
  assert (Dt : types env false (Dot (Local (Struct false 0)) x) (Simple false ST_UINT)
                 {| lvalue := true; width := w; exact := true |}).
  { apply (types_dot env false (Local (Struct false 0)) false 0%nat (designates true) x [O] f false);
      [apply types_local|exact M|discriminate|discriminate]. }
  split.
  - eexists.
    change (Simple false ST_UINT) with
      (Simple false (spec_common SYSV (promoted (width (rvalue (negb false))) ST_UINT) (promoted (width (rvalue true)) ST_INT))).
    refine (types_arith env false OSub _ _ _ _ _ _ ST_UINT ST_INT
      (types_cast_arith env false _ _ _ false ST_UINT ST_UINT Dt eq_refl _ _ _) (types_num env false ST_INT 1 _) eq_refl eq_refl _).
    + left; cbn; tauto.
    + left; cbn; tauto.
    + discriminate.
    + left; cbn; tauto.
    + split; left; cbn; tauto.
  - assert (Bm : build env fold_cast fold_addr fold_bin fold_un size_of (Dot (Local (Struct false 0)) x)
        = Ok (N (KDot w) (Simple false ST_UINT))).
    { cbn [build bind]. unfold mk_member, search_member. cbn. rewrite Z.eqb_refl. reflexivity. }
    unfold built, e. remember (Dot (Local (Struct false 0)) x) as d eqn:Ed. cbn [build]. rewrite Bm. cbn [bind].
    change (cast fold_cast fold_addr (N (KDot w) (Simple false ST_UINT)) (Simple false ST_UINT))
      with (Ok (N (KDot w) (Simple false ST_UINT))). cbn [bind].
    assert (Iu : integer_type ST_UINT) by (cbn; tauto). assert (Ii : integer_type ST_INT) by (cbn; tauto).
    assert (P : promote fold_cast fold_addr (N (KDot w) (Simple false ST_UINT)) =
                Ok (N (KCast (KDot w) (Simple false ST_UINT)) (Simple false ST_INT))).
    { unfold promote. cbn [dt bits_of kd]. change (st_is_integer ST_UINT) with true. cbn [bind].
      rewrite (contained_int ST_UINT w Iu) by (right; right; left; split; [reflexivity|lia]).
      assert (Q : promoted w ST_UINT = ST_INT).
      { unfold promoted. destruct (Z.eqb_spec w (-1)); [lia|]. destruct (Z.ltb_spec w 32); [reflexivity|lia]. }
      rewrite Q. reflexivity. }
    unfold mk_bin. cbn [decay dt is_const bind]. rewrite P. cbn [bind]. eexists. split; reflexivity.
Qed.

(** 6.3.1.1p2: the values of a bit-field that is const promote to int; here they
    promote by the declared type. *)
Theorem C73_const_bit_field_refuted : forall x w, 0 < w < 32 ->
  let env := one_member {| fname := Some x; ftype := Simple true ST_UINT; fbits := w |} in
  let e := Bin OSub (Dot (Local (Struct false 0)) x) (Num ST_INT 1) in
  (exists l, types env false e (Simple false ST_INT) l) /\
  exists n, built env e = Ok n /\ dt n = Simple false ST_UINT.
Proof.
  intros x w Hw env e.
  set (f := {| fname := Some x; ftype := Simple true ST_UINT; fbits := w |}).
  assert (M : member env 0 x [O] f false) by (apply (member_here env 0%nat x 0%nat [f] f); reflexivity).
  assert (Dt : types env false (Dot (Local (Struct false 0)) x) (Simple true ST_UINT)
                 {| lvalue := true; width := w; exact := true |}).
  { apply (types_dot env false (Local (Struct false 0)) false 0%nat (designates true) x [O] f false);
      [apply types_local|exact M|discriminate|discriminate]. }
  split.
  - eexists.
    replace (Simple false ST_INT) with
      (Simple false (spec_common SYSV (promoted (width {| lvalue := true; width := w; exact := true |}) ST_UINT)
                                      (promoted (width (rvalue true)) ST_INT))).
    + refine (types_arith env false OSub _ _ _ _ _ _ ST_UINT ST_INT Dt (types_num env false ST_INT 1 _) eq_refl eq_refl _).
      * left; cbn; tauto.
      * split; left; cbn; tauto.
    + assert (Q : promoted w ST_UINT = ST_INT).
      { unfold promoted. destruct (Z.eqb_spec w (-1)); [lia|]. destruct (Z.ltb_spec w 32); [reflexivity|lia]. }
      cbn [width]. rewrite Q. reflexivity.
  - assert (Bm : build env fold_cast fold_addr fold_bin fold_un size_of (Dot (Local (Struct false 0)) x)
        = Ok (N (KDot w) (Simple true ST_UINT))).
    { cbn [build bind]. unfold mk_member, search_member. cbn. rewrite Z.eqb_refl. reflexivity. }
    unfold built, e. remember (Dot (Local (Struct false 0)) x) as d eqn:Ed. cbn [build]. rewrite Bm. cbn [bind].
    unfold mk_bin. cbn [decay dt is_const bind unq kd]. eexists. split; reflexivity.
Qed.

(** 6.5.7: a const object may be shifted; a static one of type long by a constant
    is refused. *)
Theorem C73_shift_refuted : forall env v,
  let e := Bin OLshift (Global (Simple true ST_LONG)) (Num ST_INT v) in
  (exists l, types env false e (Simple false ST_LONG) l) /\ built env e = Fail.
Proof.
  intros env v e. split; [|reflexivity].
  eexists. change (Simple false ST_LONG) with (Simple false (promoted (width (designates true)) ST_LONG)).
  refine (types_shift env false OLshift _ _ (Simple true ST_LONG) (designates true) (Simple false ST_INT) (rvalue true) ST_LONG ST_INT (types_global env false _) (types_num env false ST_INT v _)
    eq_refl eq_refl _ _ I _).
  - left; cbn; tauto.
  - cbn; tauto.
  - cbn; tauto.
  - discriminate.
Qed.

(** 6.5.15p3: two values of one structure type; refused if one is a const static
    object and the other is not. *)
Theorem C73_const_struct_refuted : forall env g,
  let e := Cond (Local (Simple false ST_INT)) (Global (Struct true g)) (Local (Struct false g)) in
  (exists l, types env false e (Struct false g) l) /\ built env e = Fail.
Proof.
  intros env g e. split.
  - eexists. eapply types_cond_struct; try apply types_local; try apply types_global; try reflexivity.
    + left; cbn; tauto.
    + discriminate.
  - reflexivity.
Qed.

(** 6.5.16p2, 6.5.2.4p1: a const object may not be changed; here compound
    assignments and ++ change it when it is a local of arithmetic type. *)
Theorem C73_const_changed_refuted : forall env v,
  let x := Local (Simple true ST_INT) in
  (forall op t l, ~ types env false (AssignOp op x (Num ST_INT v)) t l) /\
  (forall i t l, ~ types env false (IncDec i x) t l) /\
  (forall op, exists n, built env (AssignOp op x (Num ST_INT v)) = Ok n) /\
  (forall i, exists n, built env (IncDec i x) = Ok n).
Proof.
  intros env v x. split; [|split; [|split]].
  - intros op t l H. inversion H; subst;
      match goal with H0 : types _ _ x _ _ |- _ => inversion H0 end.
  - intros i t l H. inversion H; subst;
      match goal with H0 : types _ _ x _ _ |- _ => inversion H0 end.
  - intro op. eexists. reflexivity.
  - intro i. eexists. reflexivity.
Qed.

(** 6.3.1.4, 6.3.1.8: long double and an integer constant have the common type
    long double; refused. *)
Theorem C73_long_double_refuted : forall env op v, In op [OAdd; OSub; OMul; ODiv; OLess; OEqual] ->
  built env (Bin op (Local (Simple false ST_LDOUBLE)) (Num ST_INT v)) = Fail.
Proof.
  intros env op v H. cbn [In] in H. repeat (destruct H as [<-|H]; [reflexivity|]). destruct H.
Qed.

(** 6.5.3.3p5, 6.5.15p4: a double constant is zero if its value is. Here it is
    taken for zero when the low 31 bits of its representation are: as with 1.0
    (and every number of that many trailing zero bits). *)
Theorem C73_double_zero_refuted : forall env v a b, Z.land v (2 ^ 31 - 1) = 0 ->
  built env (Not (Num ST_DOUBLE v)) = Ok (int_node 1) /\
  built env (Cond (Num ST_DOUBLE v) (Num ST_INT a) (Num ST_INT b)) = Ok (int_node b).
Proof.
  intros env v a b H. unfold built. cbn [build bind]. unfold mk_cond.
  cbn [decay int_node dt kd bind is_const].
  assert (P : forall w, promote fold_cast fold_addr (N (KVal w) (Simple false ST_INT)) = Ok (N (KVal w) (Simple false ST_INT)))
    by reflexivity.
  assert (PD : promote fold_cast fold_addr (N (KVal v) (Simple false ST_DOUBLE)) = Ok (N (KVal v) (Simple false ST_DOUBLE))) by reflexivity.
  unfold int_node. rewrite PD, !P. cbn [bind]. unfold cast_conditional. cbn [dt]. rewrite ty_eqb_refl. cbn [bind dt kd].
  rewrite ty_eqb_refl. cbn [negb]. unfold is_zero. rewrite H. split; reflexivity.
Qed.
Example C73_one_is_zero : Z.land (1023 * 2 ^ 52) (2 ^ 31 - 1) = 0.
Proof. reflexivity. Qed.

End Folding.
Print Assumptions C73_types_partial.
Print Assumptions C73_value_partial.
Print Assumptions C73_generic_partial.
Print Assumptions C73_void_refuted.
Print Assumptions C73_conditional_const_refuted.
Print Assumptions C73_conditional_null_refuted.
Print Assumptions C73_const_member_refuted.
Print Assumptions C73_bit_field_cast_refuted.
Print Assumptions C73_const_bit_field_refuted.
Print Assumptions C73_shift_refuted.
Print Assumptions C73_const_struct_refuted.
Print Assumptions C73_const_changed_refuted.
Print Assumptions C73_long_double_refuted.
Print Assumptions C73_double_zero_refuted.

(** * The hypotheses are met *)

(** struct a { int k; struct { unsigned b : 3; char c[4]; }; }; *)
Definition env0 : structs :=
  [[{| fname := Some 107; ftype := Simple false ST_INT; fbits := -1 |};
    {| fname := None; ftype := Struct false 0; fbits := -1 |}];
   [{| fname := Some 98; ftype := Simple false ST_UINT; fbits := 3 |};
    {| fname := Some 99; ftype := Arr (Some 4) (Simple false ST_CHAR); fbits := -1 |}]].

Lemma env0_fields : forall g fs, fields env0 g = Some fs ->
  (g = 1%nat /\ fs = hd [] env0) \/ (g = 0%nat /\ fs = hd [] (tl env0)).
Proof.
  intros [|[|g]] fs E.
  - injection E as <-. right; auto.
  - injection E as <-. left; auto.
  - cbn in E. destruct g; discriminate.
Qed.
Lemma env0_inner : forall x p f c, member env0 0 x p f c -> (x = 98 /\ p = [0%nat]) \/ (x = 99 /\ p = [1%nat]).
Proof.
  intros x p f c M.
  inversion M as [g0 x0 i fs f0 F1 F2 F3|g0 x0 i fs u h c1 p0 f0 c2 F1 F2 F3 F4 F5]; subst;
    apply env0_fields in F1; destruct F1 as [[Q _]|[_ ->]]; try discriminate; cbn in F2;
    destruct i as [|[|i]]; try (destruct i; discriminate); injection F2 as <-; cbn in F3; try discriminate;
    injection F3 as <-; auto.
Qed.
Lemma env0_outer : forall x p f c, member env0 1 x p f c ->
  (x = 107 /\ p = [0%nat]) \/ (x = 98 /\ p = [1%nat; 0%nat]) \/ (x = 99 /\ p = [1%nat; 1%nat]).
Proof.
  intros x p f c M.
  inversion M as [g0 x0 i fs f0 F1 F2 F3|g0 x0 i fs u h c1 p0 f0 c2 F1 F2 F3 F4 F5]; subst;
    apply env0_fields in F1; destruct F1 as [[_ ->]|[Q _]]; try discriminate; cbn in F2;
    destruct i as [|[|i]]; try (destruct i; discriminate); injection F2 as <-; cbn in F3; try discriminate.
  - injection F3 as <-. auto.
  - cbn in F4. injection F4 as <- <-. apply env0_inner in F5. destruct F5 as [[-> ->]|[-> ->]]; auto.
Qed.
Lemma env0_ok : well_formed env0.
Proof.
  split; [|split].
  - intros g x p f c p' f' c' M M'.
    assert (G : g = 0%nat \/ g = 1%nat).
    { inversion M as [g0 x0 i fs f0 F1 F2 F3|g0 x0 i fs u h c1 p0 f0 c2 F1 F2 F3 F4 F5]; subst;
        apply env0_fields in F1; tauto. }
    destruct G as [-> | ->].
    + apply env0_inner in M. apply env0_inner in M'. destruct M as [[-> ->]|[-> ->]], M' as [[Q ->]|[Q ->]]; congruence.
    + apply env0_outer in M. apply env0_outer in M'.
      destruct M as [[-> ->]|[[-> ->]|[-> ->]]], M' as [[Q ->]|[[Q ->]|[Q ->]]]; congruence.
  - intros g fs f c h E I0 T. apply env0_fields in E. destruct E as [[-> ->]|[-> ->]]; cbn in I0.
    + destruct I0 as [<-|[<-|[]]]; [discriminate|]. injection T as <- <-. auto.
    + destruct I0 as [<-|[<-|[]]]; discriminate.
  - intros g fs f E I0. apply env0_fields in E. destruct E as [[-> ->]|[-> ->]]; cbn in I0.
    + destruct I0 as [<-|[<-|[]]]; left; reflexivity.
    + destruct I0 as [<-|[<-|[]]]; [right; right; left; eexists; split; [reflexivity|cbn; lia]|left; reflexivity].
Qed.

(** p->b - 1.0f ? p->c + 2 : 0, with struct a *p as a parameter: not only
    names and numbers. *)
Definition e0 : expr :=
  Cond (Bin OSub (Arrow (Local (Ptr false (Struct false 1))) 98) (Num ST_FLOAT 1065353216))
       (Bin OAdd (Arrow (Local (Ptr false (Struct false 1))) 99) (Num ST_INT 2))
       (Num ST_INT 0).
Definition inner_b : field := {| fname := Some 98; ftype := Simple false ST_UINT; fbits := 3 |}.
Definition inner_c : field := {| fname := Some 99; ftype := Arr (Some 4) (Simple false ST_CHAR); fbits := -1 |}.
Example C73_e0 : types env0 true e0 (Ptr false (Simple false ST_CHAR)) (rvalue true).
Proof.
  assert (Mb : member env0 1 98 [1%nat; 0%nat] inner_b (false || false)).
  { apply (member_inside env0 1%nat 98 1%nat (hd [] env0) {| fname := None; ftype := Struct false 0; fbits := -1 |} 0%nat false [0%nat]);
      try reflexivity. apply (member_here env0 0%nat 98 0%nat (hd [] (tl env0)) inner_b); reflexivity. }
  assert (Mc : member env0 1 99 [1%nat; 1%nat] inner_c (false || false)).
  { apply (member_inside env0 1%nat 99 1%nat (hd [] env0) {| fname := None; ftype := Struct false 0; fbits := -1 |} 0%nat false [1%nat]);
      try reflexivity. apply (member_here env0 0%nat 99 1%nat (hd [] (tl env0)) inner_c); reflexivity. }
  assert (Tb : types env0 true (Arrow (Local (Ptr false (Struct false 1))) 98) (Simple false ST_UINT)
                 {| lvalue := true; width := 3; exact := true |}).
  { apply (types_arrow env0 true _ (Ptr false (Struct false 1)) (designates true) false false 1%nat 98 _ inner_b _ (types_local _ _ _) eq_refl Mb);
      [discriminate|reflexivity]. }
  assert (Tc : types env0 true (Arrow (Local (Ptr false (Struct false 1))) 99) (Arr (Some 4) (Simple false ST_CHAR))
                 {| lvalue := true; width := -1; exact := true |}).
  { apply (types_arrow env0 true _ (Ptr false (Struct false 1)) (designates true) false false 1%nat 99 _ inner_c _ (types_local _ _ _) eq_refl Mc);
      [discriminate|reflexivity]. }
  assert (Ti : forall v, types env0 true (Num ST_INT v) (Simple false ST_INT) (rvalue true))
    by (intro v; apply types_num; left; cbn; tauto).
  assert (Ts : types env0 true (Bin OSub (Arrow (Local (Ptr false (Struct false 1))) 98) (Num ST_FLOAT 1065353216))
                 (Simple false ST_FLOAT) (rvalue true)).
  { apply (types_arith env0 true OSub _ _ _ _ _ _ ST_UINT ST_FLOAT Tb (types_num env0 true ST_FLOAT _ (or_intror (or_introl eq_refl))) eq_refl eq_refl).
    split; [left; cbn; tauto|right; left; reflexivity]. }
  assert (Tp : types env0 true (Bin OAdd (Arrow (Local (Ptr false (Struct false 1))) 99) (Num ST_INT 2))
                 (Ptr false (Simple false ST_CHAR)) (rvalue true)).
  { apply (types_add env0 true _ _ _ _ _ _ false (Simple false ST_CHAR) ST_INT OAdd Tc (Ti 2) eq_refl eq_refl); [cbn; tauto|left; reflexivity]. }
  apply (types_cond_null env0 true _ _ _ _ _ _ _ _ _ false (Simple false ST_CHAR) Ts Tp (Ti 0)).
  - right; left; reflexivity.
  - reflexivity.
  - apply null_zero, zero_num. cbn; tauto.
  - intro Q; inversion Q as [x Z0|]; inversion Z0.
  - discriminate.
Qed.
(** And what the compiler does with it, with its own conversion of constants. *)
Example C73_e0_built :
  match build env0 compiler_cast (fun _ v => v) (fun _ _ _ _ => None) (fun _ _ _ => None) (fun _ => 0) e0 with
  | Ok n => dt n = Ptr false (Simple false ST_CHAR)
  | _ => False
  end.
Proof. vm_compute. reflexivity. Qed.
(** _Generic on it: the second association. *)
Example C73_e0_generic :
  generic env0 compiler_cast (fun _ v => v) (fun _ _ _ _ => None) (fun _ _ _ => None) (fun _ => 0) e0
    [(Some (Simple false ST_INT), 1); (Some (Ptr false (Simple false ST_CHAR)), 2); (None, 3)] = Ok 2.
Proof. vm_compute. reflexivity. Qed.
