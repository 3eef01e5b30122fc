(** Proofs about ExprType.v: every expression of the specification gets its type. *)
From Verif Require Import Base Arch CTypesSpec ArithConv ArithConvSpec ExprType ExprTypeSpec ExprTypeProofs ExprTypeConv.

Ltac Zify.zify_post_hook ::= idtac.
Local Open Scope Z_scope.
Local Open Scope list_scope.

(** * Members *)
Section Floop.
Variable sub : nat -> option (list nat).
Variable x : Z.
Fixpoint floop (fs : list field) (i : nat) : option (list nat) :=
  match fs with
  | [] => None
  | f :: k =>
      match fname f with
      | Some y => if y =? x then Some [i] else floop k (S i)
      | None =>
          match ftype f with
          | Struct _ h =>
              match sub h with
              | Some st => Some (st ++ [i])
              | None => floop k (S i)
              end
          | _ => floop k (S i)
          end
      end
  end.
End Floop.
Lemma search_cons : forall fs rest g x,
  search_member (fs :: rest) g x =
  if Nat.eqb g (length rest) then floop (fun h => search_member rest h x) x fs O else search_member rest g x.
Proof. reflexivity. Qed.

Lemma fields_cons : forall fs rest g, (g < length rest)%nat -> fields (fs :: rest) g = fields rest g.
Proof. intros fs rest g L. cbn [fields]. destruct (Nat.eqb_spec g (length rest)); [lia|reflexivity]. Qed.
Lemma fields_lt : forall env g fs, fields env g = Some fs -> (g < length env)%nat.
Proof.
  induction env as [|f rest IH]; intros g fs E; cbn in *; [discriminate|].
  destruct (Nat.eqb_spec g (length rest)); [lia|]. apply IH in E. lia.
Qed.

Definition ordered (env : structs) : Prop :=
  forall g fs f c h, fields env g = Some fs -> In f fs -> ftype f = Struct c h -> (h < g)%nat.
Lemma ordered_rest : forall fs rest, ordered (fs :: rest) -> ordered rest.
Proof.
  intros fs rest W g gs f c h E I0 T. apply (W g gs f c h); auto.
  rewrite fields_cons; [exact E|]. exact (fields_lt _ _ _ E).
Qed.
Lemma member_up : forall fs rest h x p f c, member rest h x p f c -> member (fs :: rest) h x p f c.
Proof.
  intros fs rest h x p f c M. induction M.
  - apply (member_here _ g x i fs0 f); auto. rewrite fields_cons; [assumption|]. exact (fields_lt _ _ _ H).
  - apply (member_inside _ g x i fs0 u h c p f c'); auto. rewrite fields_cons; [assumption|]. exact (fields_lt _ _ _ H).
Qed.
Lemma member_down : forall fs rest h x p f c, ordered (fs :: rest) -> (h < length rest)%nat ->
  member (fs :: rest) h x p f c -> member rest h x p f c.
Proof.
  intros fs rest h x p f c W L M. induction M.
  - apply (member_here _ g x i fs0 f); auto. rewrite <- (fields_cons fs rest g L). assumption.
  - apply (member_inside _ g x i fs0 u h c p f c'); auto.
    + rewrite <- (fields_cons fs rest g L). assumption.
    + apply IHM. pose proof (W g fs0 u c h H (nth_error_In _ _ H0) H2). lia.
Qed.

Lemma search_sound : forall env g x st, ordered env -> search_member env g x = Some st ->
  exists f c, member env g x (rev st) f c.
Proof.
  induction env as [|fs rest IH]; intros g x st W E; [discriminate|].
  rewrite search_cons in E. destruct (Nat.eqb_spec g (length rest)) as [Eg|Ng].
  - assert (A : forall k i, floop (fun h => search_member rest h x) x k i = Some st ->
        (forall j u, nth_error k j = Some u -> nth_error fs (i + j) = Some u) ->
        exists f c, member (fs :: rest) g x (rev st) f c).
    { induction k as [|f k IHk]; intros i El N0; [discriminate|]. cbn [floop] in El.
      assert (N1 : nth_error fs i = Some f) by (rewrite <- (Nat.add_0_r i); apply N0; reflexivity).
      assert (N2 : forall j u, nth_error k j = Some u -> nth_error fs (S i + j) = Some u).
      { intros j u Ej. replace (S i + j)%nat with (i + S j)%nat by lia. apply N0. exact Ej. }
      assert (Ef : fields (fs :: rest) g = Some fs) by (cbn [fields]; rewrite Eg, Nat.eqb_refl; reflexivity).
      destruct (fname f) as [y|] eqn:Fn0.
      - destruct (Z.eqb_spec y x) as [-> |].
        + injection El as <-. exists f, false. apply (member_here _ g x i fs f); auto.
        + exact (IHk (S i) El N2).
      - destruct (ftype f) as [| | | |c h] eqn:Ft; try exact (IHk (S i) El N2).
        destruct (search_member rest h x) as [st'|] eqn:Es; [|exact (IHk (S i) El N2)].
        injection El as <-. destruct (IH h x st' (ordered_rest _ _ W) Es) as (f' & c' & M).
        rewrite rev_app_distr. cbn [rev app]. exists f', (c || c').
        apply (member_inside _ g x i fs f h c); auto. apply member_up. exact M. }
    apply (A fs O E). intros j u Ej. exact Ej.
  - destruct (IH g x st (ordered_rest _ _ W) E) as (f & c & M). exists f, c. apply member_up. exact M.
Qed.

Lemma search_complete : forall env g x p f c, ordered env -> member env g x p f c ->
  search_member env g x <> None.
Proof.
  induction env as [|fs rest IH]; intros g x p f c W M.
  - inversion M; discriminate.
  - rewrite search_cons. destruct (Nat.eqb_spec g (length rest)) as [Eg|Ng].
    + assert (Ef : fields (fs :: rest) g = Some fs) by (cbn [fields]; rewrite Eg, Nat.eqb_refl; reflexivity).
      assert (A : forall k i j u, nth_error k j = Some u ->
        (fname u = Some x \/ (fname u = None /\ exists c h, ftype u = Struct c h /\ search_member rest h x <> None)) ->
        floop (fun h => search_member rest h x) x k i <> None).
      { induction k as [|f0 k IHk]; intros i j u Ej Hu; [destruct j; discriminate|]. cbn [floop].
        destruct j as [|j].
        - injection Ej as ->. destruct Hu as [-> |[-> (c1 & h1 & -> & Hs)]].
          + rewrite Z.eqb_refl. discriminate.
          + destruct (search_member rest h1 x); [discriminate|contradiction].
        - cbn in Ej. specialize (IHk (S i) j u Ej Hu).
          destruct (fname f0) as [y|]; [destruct (y =? x); [discriminate|exact IHk]|].
          destruct (ftype f0); try exact IHk. destruct (search_member rest tag x); [discriminate|exact IHk]. }
      inversion M as [g0 x0 i fs0 f0 F1 F2 F3|g0 x0 i fs0 u h c1 p1 f0 c2 F1 F2 F3 F4 M']; subst.
      * rewrite Ef in F1. injection F1 as <-. apply (A fs O i f F2). left; exact F3.
      * rewrite Ef in F1. injection F1 as <-. apply (A fs O i u F2). right. split; [exact F3|].
        exists c1, h. split; [exact F4|].
        apply (IH h x p1 f c2 (ordered_rest _ _ W)). apply (member_down fs); auto.
        exact (W _ fs u c1 h Ef (nth_error_In _ _ F2) F4).
    + assert (L : (g < length rest)%nat).
      { inversion M as [g0 x0 i fs0 f0 F1 F2 F3|g0 x0 i fs0 u h c1 p1 f0 c2 F1 F2 F3 F4 M']; subst;
          apply fields_lt in F1; cbn in F1; lia. }
      exact (IH g x p f c (ordered_rest _ _ W) (member_down _ _ _ _ _ _ _ W L M)).
Qed.

Lemma search_member_ok : forall env g x p f c, well_formed env -> member env g x p f c ->
  exists st, search_member env g x = Some st /\ rev st = p.
Proof.
  intros env g x p f c (U & W & _) M.
  destruct (search_member env g x) as [st|] eqn:E.
  - exists st. split; [reflexivity|]. destruct (search_sound env g x st W E) as (f' & c' & M').
    exact (U _ _ _ _ _ _ _ _ M' M).
  - exfalso. exact (search_complete env g x p f c W M E).
Qed.

Lemma dots_ok : forall env g x p f c, member env g x p f c -> forall n c0, dt n = Struct c0 g ->
  exists n', dots env n p = Ok n' /\ dt n' = ftype f /\
    match kd n' with KLabel => fbits f = -1 | KDot b => b = fbits f | _ => False end.
Proof.
  intros env g x p f c M. induction M; intros n c0 D.
  - cbn [dots]. unfold mk_dot. rewrite D, H, H0. cbn [bind].
    eexists. split; [reflexivity|]. split; [reflexivity|]. cbn [kd].
    destruct (kd n); try reflexivity. destruct (Z.eqb_spec (fbits f) (-1)); [assumption|reflexivity].
  - cbn [dots]. unfold mk_dot at 1. rewrite D, H, H0. cbn [bind].
    apply (IHM _ c). cbn [dt]. exact H2.
Qed.

Section Main.

Variable env : structs.
Hypothesis env_ok : well_formed env.
Variable fold_cast : simple_type -> simple_type -> Z -> Z.
Variable fold_addr : simple_type -> Z -> Z.
Variable fold_bin : binop -> simple_type -> Z -> Z -> option Z.
Variable fold_un : unop -> simple_type -> Z -> option Z.
Variable size_of : ty -> Z.
Hypothesis fold_zero : forall s r, integer_type s -> integer_type r -> fold_cast s r 0 = 0.

Notation cast := (cast fold_cast fold_addr).
Notation promote := (promote fold_cast fold_addr).
Notation convert := (convert fold_cast fold_addr).
Notation cast_conditional := (cast_conditional fold_cast fold_addr).
Notation mk_cond := (mk_cond fold_cast fold_addr).
Notation mk_binary := (mk_binary fold_bin).
Notation mk_bin := (mk_bin fold_cast fold_addr fold_bin).
Notation mk_unary := (mk_unary fold_cast fold_addr fold_un).
Notation mk_assign_op := (mk_assign_op fold_cast fold_addr).
Notation mk_member := (mk_member env).
Notation mk_call := (mk_call fold_cast fold_addr).
Notation build := (build env fold_cast fold_addr fold_bin fold_un size_of).

Lemma rvalue_ok : forall n t ex, unq (dt n) = unq t -> (ex = true -> dt n = t) -> good_kind n ->
  bits_of n = -1 -> has_type n t (rvalue ex).
Proof.
  intros n t ex U X G B. constructor; auto; cbn [lvalue rvalue]; try discriminate.
  intros c s _. cbn [width]. rewrite B. split; [reflexivity|left; reflexivity].
Qed.
Lemma exact_ok : forall n t, dt n = t -> good_kind n -> bits_of n = -1 -> has_type n t (rvalue true).
Proof. intros n t D G B. apply rvalue_ok; auto. rewrite D; reflexivity. Qed.
Lemma designates_ok : forall n t, dt n = t -> (kd n = KLabel \/ kd n = KOther) -> has_type n t (designates true).
Proof.
  intros n t D [K|K]; (constructor; cbn [exact lvalue width designates]; auto;
    [rewrite D; reflexivity|unfold good_kind; rewrite K; exact I|intros _; unfold bits_of; rewrite K; reflexivity
    |intros c s _; unfold bits_of; rewrite K; split; [reflexivity|left; reflexivity]|rewrite K; auto|discriminate]).
Qed.

(** ** Operands *)
Lemma op_arith : forall n t l s, has_type n t l -> value_type t = Simple false s -> arith s ->
  exists n1 n2, decay n = Ok n1 /\ promote n1 = Ok n2 /\
    has_value n2 (Simple false (promoted (width l) s)) (promoted_exact t l s) (-1) /\
    settled (promoted (width l) s) (bits_of n2).
Proof.
  intros n t l s H V A. destruct (decay_type _ _ _ H) as (n1 & E1 & H1). rewrite V in H1.
  destruct (promote_arith fold_cast fold_addr _ _ _ _ H1 A) as (n2 & E2 & H2 & S2).
  exists n1, n2. auto.
Qed.
Lemma op_ptr : forall n t l c u, has_type n t l -> value_type t = Ptr c u ->
  c = false /\ exists n1, decay n = Ok n1 /\ promote n1 = Ok n1 /\
    has_value n1 (Ptr false u) (value_exact t l) (width l).
Proof.
  intros n t l c u H V. assert (c = false) by (destruct t; cbn in V; congruence). subst c.
  split; [reflexivity|]. destruct (decay_type _ _ _ H) as (n1 & E1 & H1). rewrite V in H1.
  exists n1. split; [exact E1|]. split; [|exact H1]. apply (promote_other _ _ _ _ _ _ H1). discriminate.
Qed.
Lemma op_scalar : forall n t l, has_type n t l -> scalar (value_type t) ->
  exists n1 n2, decay n = Ok n1 /\ promote n1 = Ok n2.
Proof.
  intros n t l H S0. destruct (value_type t) as [c s|c u| | |] eqn:V; cbn in S0; try contradiction.
  - assert (c = false) by (destruct t; cbn in V; congruence). subst c.
    destruct (op_arith _ _ _ _ H V S0) as (n1 & n2 & E1 & E2 & _). eauto.
  - destruct (op_ptr _ _ _ _ _ H V) as (_ & n1 & E1 & E2 & _). eauto.
Qed.

(** ** Conditional *)
Lemma cond_end : forall c x y c1 c2 x1 x2 y1 y2 x3 y3,
  decay c = Ok c1 -> decay x = Ok x1 -> decay y = Ok y1 ->
  promote c1 = Ok c2 -> promote x1 = Ok x2 -> promote y1 = Ok y2 ->
  cast_conditional x2 y2 = Ok (x3, y3) -> dt x3 = dt y3 -> good_kind x3 -> good_kind y3 ->
  exists n, mk_cond c x y = Ok n /\ dt n = dt x3 /\ good_kind n /\ bits_of n = -1.
Proof.
  intros c x y c1 c2 x1 x2 y1 y2 x3 y3 E1 E2 E3 E4 E5 E6 E7 D Gx Gy.
  unfold ExprType.mk_cond. rewrite E1. cbn [bind]. rewrite E2. cbn [bind]. rewrite E3. cbn [bind].
  rewrite E4. cbn [bind]. rewrite E5. cbn [bind]. rewrite E6. cbn [bind]. rewrite E7. cbn [bind].
  rewrite D, ty_eqb_refl. cbn [negb].
  destruct (kd c2) as [v| | | | |]; try (eexists; split; [reflexivity|]; split; [reflexivity|]; split; [exact I|reflexivity]).
  destruct (kd x3) as [vx| | | | |] eqn:Kx; try (eexists; split; [reflexivity|]; split; [reflexivity|]; split; [exact I|reflexivity]).
  destruct (kd y3) as [vy| | | | |] eqn:Ky; try (eexists; split; [reflexivity|]; split; [reflexivity|]; split; [exact I|reflexivity]).
  eexists; split; [reflexivity|]. destruct (is_zero (dt c2) v).
  - split; [auto|]. split; [exact Gy|]. unfold bits_of. rewrite Ky. reflexivity.
  - split; [auto|]. split; [exact Gx|]. unfold bits_of. rewrite Kx. reflexivity.
Qed.

Lemma int_decay : forall v, decay (int_node v) = Ok (int_node v).
Proof. reflexivity. Qed.
Lemma int_promote : forall v, promote (int_node v) = Ok (int_node v).
Proof. reflexivity. Qed.
Lemma int_good : forall v, good_kind (int_node v).
Proof. intro v. left. eexists. reflexivity. Qed.
Lemma int_type : forall v, has_type (int_node v) (Simple false ST_INT) (rvalue true).
Proof. intro v. apply exact_ok; [reflexivity|apply int_good|reflexivity]. Qed.

Lemma cond_int : forall c t l x y, has_type c t l -> scalar (value_type t) ->
  has_type x (Simple false ST_INT) (rvalue true) -> has_type y (Simple false ST_INT) (rvalue true) ->
  exists n, mk_cond c x y = Ok n /\ has_type n (Simple false ST_INT) (rvalue true).
Proof.
  intros c t l x y H S0 Hx Hy.
  destruct (op_scalar _ _ _ H S0) as (c1 & c2 & E1 & E2).
  assert (A : arith ST_INT) by (left; cbn; tauto).
  destruct (op_arith _ _ _ ST_INT Hx eq_refl A) as (x1 & x2 & X1 & X2 & X3 & _).
  destruct (op_arith _ _ _ ST_INT Hy eq_refl A) as (y1 & y2 & Y1 & Y2 & Y3 & _).
  pose proof (hv_exact _ _ _ _ X3 eq_refl) as Dx. pose proof (hv_exact _ _ _ _ Y3 eq_refl) as Dy.
  assert (C : cast_conditional x2 y2 = Ok (x2, y2)).
  { unfold ExprType.cast_conditional. rewrite Dx, Dy, ty_eqb_refl. reflexivity. }
  destruct (cond_end c x y c1 c2 x1 x2 y1 y2 x2 y2 E1 X1 Y1 E2 X2 Y2 C) as (n & En & D & G & B).
  - congruence.
  - exact (hv_kind _ _ _ _ X3).
  - exact (hv_kind _ _ _ _ Y3).
  - exists n. split; [exact En|]. apply exact_ok; auto. rewrite D. exact Dx.
Qed.

Lemma common_same : forall s w, settled s w -> spec_common SYSV s s = s.
Proof.
  intros s w H. apply settled_cases in H.
  destruct H as [[_ I0]|[[-> _]|[-> _]]]; [|reflexivity..]. cbn [In] in I0.
  repeat (destruct I0 as [<-|I0]; [reflexivity|]). destruct I0.
Qed.
Lemma arith_true : forall s c, arith s -> is_arithmetic (Simple c s) = true.
Proof. intros s c [I0|[-> | ->]]; cbn; [rewrite (integer_true s I0)|..]; reflexivity. Qed.

Lemma cond_arith : forall c x y tc lc ta la tb lb s r,
  has_type c tc lc -> has_type x ta la -> has_type y tb lb -> scalar (value_type tc) ->
  value_type ta = Simple false s -> value_type tb = Simple false r -> arith s -> arith r ->
  exists n, mk_cond c x y = Ok n /\
    has_type n (Simple false (spec_common SYSV (promoted (width la) s) (promoted (width lb) r)))
      (rvalue (promoted_exact ta la s && promoted_exact tb lb r)).
Proof.
  intros c x y tc lc ta la tb lb s r Hc Hx Hy S0 Vx Vy As Ar.
  destruct (op_scalar _ _ _ Hc S0) as (c1 & c2 & E1 & E2).
  destruct (op_arith _ _ _ _ Hx Vx As) as (x1 & x2 & X1 & X2 & X3 & Sx).
  destruct (op_arith _ _ _ _ Hy Vy Ar) as (y1 & y2 & Y1 & Y2 & Y3 & Sy).
  destruct (value_simple _ _ _ _ X3) as (cx & Dx). destruct (value_simple _ _ _ _ Y3) as (cy & Dy).
  destruct (ty_eqb (dt x2) (dt y2)) eqn:Q.
  - assert (C : cast_conditional x2 y2 = Ok (x2, y2)).
    { unfold ExprType.cast_conditional. rewrite Q. reflexivity. }
    apply ty_eqb_spec in Q.
    destruct (cond_end c x y c1 c2 x1 x2 y1 y2 x2 y2 E1 X1 Y1 E2 X2 Y2 C Q
      (hv_kind _ _ _ _ X3) (hv_kind _ _ _ _ Y3)) as (n & En & D & G & B).
    exists n. split; [exact En|]. rewrite Dx, Dy in Q. injection Q as <- Q.
    rewrite <- Q. rewrite (common_same _ _ Sx). apply rvalue_ok; auto.
    + rewrite D, Dx. reflexivity.
    + intro Ex. apply andb_true_iff in Ex. destruct Ex as [Ex _]. rewrite D. exact (hv_exact _ _ _ _ X3 Ex).
  - destruct (convert_ok fold_cast fold_addr x2 y2 _ _ _ _ X3 Y3 Sx Sy) as (x3 & y3 & Ec & Vx3 & Vy3).
    assert (C : cast_conditional x2 y2 = Ok (x3, y3)).
    { unfold ExprType.cast_conditional. rewrite Q, Dx, Dy. cbn [is_ptr andb].
      rewrite (arith_true _ cx (proj1 Sx)), (arith_true _ cy (proj1 Sy)). exact Ec. }
    pose proof (hv_exact _ _ _ _ Vx3 eq_refl) as Dx3. pose proof (hv_exact _ _ _ _ Vy3 eq_refl) as Dy3.
    destruct (cond_end c x y c1 c2 x1 x2 y1 y2 x3 y3 E1 X1 Y1 E2 X2 Y2 C) as (n & En & D & G & B);
      [congruence|exact (hv_kind _ _ _ _ Vx3)|exact (hv_kind _ _ _ _ Vy3)|].
    exists n. split; [exact En|]. apply rvalue_ok; auto; rewrite D, Dx3; reflexivity.
Qed.

(** Both operands have the same type already. *)
Lemma cond_same : forall c x y tc lc ta la tb lb tv,
  has_type c tc lc -> has_type x ta la -> has_type y tb lb -> scalar (value_type tc) ->
  value_type ta = tv -> value_type tb = tv ->
  (forall s, tv = Simple false s -> st_is_integer s = false) ->
  value_exact ta la = true /\ value_exact tb lb = true ->
  exists n, mk_cond c x y = Ok n /\ has_type n tv (rvalue true).
Proof.
  intros c x y tc lc ta la tb lb tv Hc Hx Hy S0 Vx Vy Ns [Xa Xb].
  destruct (op_scalar _ _ _ Hc S0) as (c1 & c2 & E1 & E2).
  destruct (decay_type _ _ _ Hx) as (x1 & X1 & Hx1). destruct (decay_type _ _ _ Hy) as (y1 & Y1 & Hy1).
  rewrite Vx in Hx1. rewrite Vy in Hy1.
  pose proof (promote_other fold_cast fold_addr _ _ _ _ Hx1 Ns) as X2.
  pose proof (promote_other fold_cast fold_addr _ _ _ _ Hy1 Ns) as Y2.
  pose proof (hv_exact _ _ _ _ Hx1 Xa) as Dx. pose proof (hv_exact _ _ _ _ Hy1 Xb) as Dy.
  assert (C : cast_conditional x1 y1 = Ok (x1, y1)).
  { unfold ExprType.cast_conditional. rewrite Dx, Dy, ty_eqb_refl. reflexivity. }
  destruct (cond_end c x y c1 c2 x1 x1 y1 y1 x1 y1 E1 X1 Y1 E2 X2 Y2 C) as (n & En & D & G & B);
    [congruence|exact (hv_kind _ _ _ _ Hx1)|exact (hv_kind _ _ _ _ Hy1)|].
  exists n. split; [exact En|]. apply exact_ok; auto. congruence.
Qed.

Lemma composite_ok : forall a b v, composite_type a b v -> composite a b = Some v.
Proof.
  intros a b v []; unfold composite.
  - rewrite ty_eqb_refl. reflexivity.
  - rewrite ty_eqb_neq by congruence. reflexivity.
  - rewrite ty_eqb_neq by congruence. reflexivity.
  - destruct (ty_eqb (Fn r ps v0) (Fn r [] true)) eqn:E; [reflexivity|].
    destruct v0; cbn [andb]; [|reflexivity]. destruct ps; [|reflexivity].
    rewrite ty_eqb_refl in E. discriminate.
  - destruct (ty_eqb (Fn r [] true) (Fn r ps v0)) eqn:E; [|reflexivity].
    apply ty_eqb_spec in E. rewrite E. reflexivity.
Qed.
Lemma composite_eq : forall a v, composite_type a a v -> v = a.
Proof. intros a v H. apply composite_ok in H. unfold composite in H. rewrite ty_eqb_refl in H. congruence. Qed.
Lemma composite_void : forall b v, composite_type void b v -> b = void /\ v = void.
Proof. intros b v H. inversion H; auto. Qed.
Lemma composite_void_r : forall a v, composite_type a void v -> a = void /\ v = void.
Proof. intros a v H. inversion H; auto. Qed.

Lemma cast_ptr : forall n u ex w d v, has_value n (Ptr false u) ex w ->
  exists n', cast n (Ptr d v) = Ok n' /\ (dt n' = Ptr d v \/ dt n' = Ptr false v) /\ good_kind n'.
Proof.
  intros n u ex w d v H.
  destruct (cast_ok fold_cast fold_addr n _ ex w (Ptr d v) H eq_refl (castable_ptr _ _ _ _)) as (n' & E & D & G & _).
  exists n'. auto.
Qed.

(** A pointer cast to the type that a node has. *)
Lemma mk_cast_ptr_type : forall n c u T d v n', dt n = Ptr c u -> T = Ptr d v ->
  mk_cast fold_cast fold_addr n T = Ok n' -> dt n' = T.
Proof.
  intros n c u T d v n' D -> E. unfold mk_cast in E. rewrite D in E.
  destruct (kd n); injection E as <-; reflexivity.
Qed.
Lemma cast_ptr_type : forall n u ex w d v, has_value n (Ptr false u) ex w ->
  exists n', cast n (Ptr d v) = Ok n' /\ dt n' = Ptr d v /\ good_kind n'.
Proof.
  intros n u ex w d v H. destruct (cast_ptr n u ex w d v H) as (n' & E & D & G).
  exists n'. split; [exact E|]. split; [|exact G].
  unfold ExprType.cast in E. destruct (decay_value _ _ _ _ H eq_refl) as (n1 & E1 & H1). rewrite E1 in E. cbn [bind] in E.
  destruct (value_ptr _ _ _ _ _ H1) as (_ & c1 & D1).
  destruct (ty_eqb (dt n1) (Ptr d v)) eqn:Q.
  - injection E as <-. apply ty_eqb_spec. exact Q.
  - exact (mk_cast_ptr_type n1 c1 u _ d v n' D1 eq_refl E).
Qed.

Lemma cond_ptr : forall c x y tc lc ta la tb lb c0 d0 t u v,
  has_type c tc lc -> has_type x ta la -> has_type y tb lb -> scalar (value_type tc) ->
  value_type ta = Ptr c0 t -> value_type tb = Ptr d0 u -> composite_type (unq t) (unq u) v ->
  (t = u /\ value_exact ta la = true /\ value_exact tb lb = true) \/ (is_const t = false /\ is_const u = false) ->
  exists n, mk_cond c x y = Ok n /\
    has_type n (Ptr false (if is_const t || is_const u then qualified v else v))
      (rvalue (value_exact ta la && value_exact tb lb)).
Proof.
  intros c x y tc lc ta la tb lb c0 d0 t u v Hc Hx Hy S0 Vx Vy Cv Hs.
  destruct Hs as [(<- & Xa & Xb)|[Ct Cu]].
  - assert (c0 = false) by (destruct ta; cbn in Vx; congruence).
    assert (d0 = false) by (destruct tb; cbn in Vy; congruence). subst c0 d0.
    destruct (cond_same c x y tc lc ta la tb lb (Ptr false t) Hc Hx Hy S0 Vx Vy) as (n & En & Hn);
      [discriminate|auto|].
    exists n. split; [exact En|]. apply composite_eq in Cv. subst v. rewrite Xa, Xb. cbn [andb].
    replace (if is_const t || is_const t then qualified (unq t) else unq t) with t; [exact Hn|].
    rewrite orb_diag. destruct t as [[] ?|[] ?| | |[] ?]; reflexivity.
  - rewrite Ct, Cu. cbn [orb]. rewrite (unq_id t Ct), (unq_id u Cu) in Cv.
    destruct (op_scalar _ _ _ Hc S0) as (c1 & c2 & E1 & E2).
    destruct (op_ptr _ _ _ _ _ Hx Vx) as (_ & x1 & X1 & X2 & Hx1).
    destruct (op_ptr _ _ _ _ _ Hy Vy) as (_ & y1 & Y1 & Y2 & Hy1).
    destruct (value_ptr _ _ _ _ _ Hx1) as (_ & cx & Dx). destruct (value_ptr _ _ _ _ _ Hy1) as (_ & cy & Dy).
    destruct (ty_eqb (dt x1) (dt y1)) eqn:Q.
    + assert (C : cast_conditional x1 y1 = Ok (x1, y1)).
      { unfold ExprType.cast_conditional. rewrite Q. reflexivity. }
      apply ty_eqb_spec in Q.
      destruct (cond_end c x y c1 c2 x1 x1 y1 y1 x1 y1 E1 X1 Y1 E2 X2 Y2 C Q
        (hv_kind _ _ _ _ Hx1) (hv_kind _ _ _ _ Hy1)) as (n & En & D & G & B).
      exists n. split; [exact En|]. rewrite Dx, Dy in Q. injection Q as _ <-.
      apply composite_eq in Cv. subst v. apply rvalue_ok; auto.
      * rewrite D, Dx. reflexivity.
      * intro Ex. apply andb_true_iff in Ex. destruct Ex as [Ex _]. rewrite D. exact (hv_exact _ _ _ _ Hx1 Ex).
    + destruct (ty_eqb t void) eqn:Qt.
      * apply ty_eqb_spec in Qt. subst t. apply composite_void in Cv. destruct Cv as [-> ->].
        destruct (cast_ptr_type x1 void _ _ cy void Hx1) as (x2 & Ex & Dx2 & Gx).
        assert (C : cast_conditional x1 y1 = Ok (x2, y1)).
        { unfold ExprType.cast_conditional. rewrite Q, Dx, Dy. cbn [unq void]. rewrite ty_eqb_refl. fold void. rewrite Ex. reflexivity. }
        destruct (cond_end c x y c1 c2 x1 x1 y1 y1 x2 y1 E1 X1 Y1 E2 X2 Y2 C) as (n & En & D & G & B);
          [congruence|exact Gx|exact (hv_kind _ _ _ _ Hy1)|].
        exists n. split; [exact En|]. apply rvalue_ok; auto.
        -- rewrite D, Dx2. reflexivity.
        -- intro Xx. apply andb_true_iff in Xx. destruct Xx as [_ Xx].
           rewrite D, Dx2, <- Dy. exact (hv_exact _ _ _ _ Hy1 Xx).
      * assert (Qu : ty_eqb u void = false).
        { apply ty_eqb_neq. intros ->. apply composite_void_r in Cv. destruct Cv as [-> _]. rewrite ty_eqb_refl in Qt. discriminate. }
        destruct (cast_ptr_type y1 u _ _ false v Hy1) as (y2 & Ey & Dy2 & Gy).
        destruct (cast_ptr_type x1 t _ _ false v Hx1) as (x2 & Ex & Dx2 & Gx).
        assert (C : cast_conditional x1 y1 = Ok (x2, y2)).
        { unfold ExprType.cast_conditional. rewrite Q, Dx, Dy, (unq_id t Ct), (unq_id u Cu), Qt, Qu, (composite_ok _ _ _ Cv).
          rewrite Ey. cbn [bind]. rewrite Ex. reflexivity. }
        destruct (cond_end c x y c1 c2 x1 x1 y1 y1 x2 y2 E1 X1 Y1 E2 X2 Y2 C) as (n & En & D & G & B);
          [congruence|exact Gx|exact Gy|].
        exists n. split; [exact En|]. apply rvalue_ok; auto; rewrite D, Dx2; reflexivity.
Qed.

(** ** Null pointer constants *)
Lemma zero_cast_simple : forall s r c, integer_type s -> integer_type r ->
  cast (N (KVal 0) (Simple false s)) (Simple c r) = Ok (N (KVal 0) (Simple false r)).
Proof.
  intros s r c Is Ir. unfold ExprType.cast. cbn [decay dt bind is_const].
  destruct (ty_eqb (Simple false s) (Simple c r)) eqn:E.
  - apply ty_eqb_spec in E. injection E as <- ->. reflexivity.
  - cbn [mk_cast kd dt]. unfold simple_cast.
    destruct (st_eqb r ST_VOID || st_eqb r s); [reflexivity|].
    rewrite (integer_true s Is), (integer_true r Ir). cbn [andb bind]. rewrite (fold_zero s r Is Ir). reflexivity.
Qed.
Lemma zero_build : forall e, zero_constant e -> exists s, integer_type s /\ build e = Ok (N (KVal 0) (Simple false s)).
Proof.
  intros e Z0. induction Z0 as [s I0|c s e I0 _ (r & Ir & IH)].
  - exists s. auto.
  - exists s. split; [exact I0|]. cbn [ExprType.build]. rewrite IH. cbn [bind]. exact (zero_cast_simple r s c Ir I0).
Qed.
Lemma zero_promote : forall s, integer_type s -> exists r, integer_type r /\
  promote (N (KVal 0) (Simple false s)) = Ok (N (KVal 0) (Simple false r)).
Proof.
  intros s I0. unfold ExprType.promote. cbn [dt bits_of kd].
  rewrite (integer_true s I0), (contained_int s (-1) I0 (or_introl eq_refl)). cbn [bind].
  destruct (st_eqb (promoted (-1) s) ST_INT).
  - assert (Ii : integer_type ST_INT) by (cbn; tauto).
    exists ST_INT. split; [exact Ii|]. exact (zero_cast_simple s ST_INT false I0 Ii).
  - exists s. auto.
Qed.
Lemma zero_to_ptr : forall s c u, integer_type s ->
  cast (N (KVal 0) (Simple false s)) (Ptr c u) = Ok (N (KVal (fold_addr s 0)) (Ptr c u)).
Proof.
  intros s c u I0. unfold ExprType.cast. cbn [decay dt bind is_const ty_eqb mk_cast kd].
  rewrite (integer_true s I0). reflexivity.
Qed.
Lemma null_build : forall e, null_constant e ->
  (zero_constant e /\ exists s, integer_type s /\ build e = Ok (N (KVal 0) (Simple false s))) \/
  (~ zero_constant e /\ exists v, build e = Ok (N (KVal v) (Ptr false void))).
Proof.
  intros e []; [left; split; [assumption|apply zero_build; assumption]|right].
  split; [intro Q; inversion Q|]. destruct (zero_build e0 H) as (s & I0 & E).
  exists (fold_addr s 0). cbn [ExprType.build]. rewrite E. cbn [bind]. exact (zero_to_ptr s false void I0).
Qed.

Lemma is_null_zero : forall s, integer_type s -> is_null (N (KVal 0) (Simple false s)) = true.
Proof.
  intros s I0. unfold is_null, is_zero. cbn [kd dt]. unfold integer_type in I0. cbn [In] in I0.
  repeat (destruct I0 as [<-|I0]; [reflexivity|]). destruct I0.
Qed.

Lemma const_ptr_cast : forall v d u c t, (exists n, cast (N (KVal v) (Ptr d u)) (Ptr c t) = Ok n /\
  dt n = Ptr c t /\ good_kind n).
Proof.
  intros v d u c t.
  assert (E : decay (N (KVal v) (Ptr d u)) = Ok (N (KVal v) (Ptr d u))) by (destruct d; reflexivity).
  unfold ExprType.cast. rewrite E. cbn [bind dt].
  destruct (ty_eqb (Ptr d u) (Ptr c t)) eqn:Q.
  - apply ty_eqb_spec in Q. eexists. split; [reflexivity|]. split; [exact Q|]. right. cbn. eauto.
  - cbn [mk_cast kd dt]. eexists. split; [reflexivity|]. split; [reflexivity|]. right. cbn. eauto.
Qed.

Lemma cond_null : forall c x b nb tc lc ta la c0 t,
  has_type c tc lc -> has_type x ta la -> scalar (value_type tc) ->
  value_type ta = Ptr c0 t -> null_constant b -> build b = Ok nb ->
  (unq t = void -> zero_constant b) ->
  exists n, mk_cond c x nb = Ok n /\ has_type n (Ptr false t) (rvalue (value_exact ta la)).
Proof.
  intros c x b nb tc lc ta la c0 t Hc Hx S0 Vx Nb Eb Hv.
  destruct (op_scalar _ _ _ Hc S0) as (c1 & c2 & E1 & E2).
  destruct (op_ptr _ _ _ _ _ Hx Vx) as (_ & x1 & X1 & X2 & Hx1).
  destruct (value_ptr _ _ _ _ _ Hx1) as (_ & cx & Dx).
  assert (Fin : forall y2 y3, decay nb = Ok nb -> promote nb = Ok y2 ->
    cast_conditional x1 y2 = Ok (x1, y3) -> dt y3 = Ptr cx t -> good_kind y3 ->
    exists n, mk_cond c x nb = Ok n /\ has_type n (Ptr false t) (rvalue (value_exact ta la))).
  { intros y2 y3 Y1 Y2 C Dy Gy.
    destruct (cond_end c x nb c1 c2 x1 x1 nb y2 x1 y3 E1 X1 Y1 E2 X2 Y2 C) as (n & En & D & G & B);
      [congruence|exact (hv_kind _ _ _ _ Hx1)|exact Gy|].
    exists n. split; [exact En|]. apply rvalue_ok; auto.
    - rewrite D, Dx. reflexivity.
    - intro Ex. rewrite D. exact (hv_exact _ _ _ _ Hx1 Ex). }
  destruct (null_build b Nb) as [(Zb & s & I0 & E)|(Zb & v & E)]; rewrite E in Eb; injection Eb as <-.
  - destruct (zero_promote s I0) as (r & Ir & P).
    apply (Fin _ (N (KVal (fold_addr r 0)) (Ptr cx t)) eq_refl P).
    + unfold ExprType.cast_conditional. rewrite Dx. cbn [dt ty_eqb is_ptr]. rewrite (is_null_zero r Ir). cbn [andb].
      rewrite (zero_to_ptr r cx t Ir). reflexivity.
    + reflexivity.
    + right. cbn. eauto.
  - destruct (ty_eqb (dt x1) (Ptr false void)) eqn:Q.
    + apply (Fin (N (KVal v) (Ptr false void)) (N (KVal v) (Ptr false void)) eq_refl eq_refl).
      * unfold ExprType.cast_conditional. cbn [dt]. rewrite Q. reflexivity.
      * apply ty_eqb_spec in Q. rewrite Dx in Q. symmetry. exact Q.
      * right. cbn. eauto.
    + destruct (const_ptr_cast v false void cx t) as (y3 & Ey & Dy & Gy).
      apply (Fin (N (KVal v) (Ptr false void)) y3 eq_refl eq_refl); auto.
      unfold ExprType.cast_conditional. cbn [dt]. rewrite Q, Dx.
      rewrite (ty_eqb_neq (unq t) void) by (intro Ev; exact (Zb (Hv Ev))).
      change (unq void) with void. rewrite ty_eqb_refl, Ey. reflexivity.
Qed.

Lemma null_cond : forall c y a na tc lc tb lb c0 t,
  has_type c tc lc -> has_type y tb lb -> scalar (value_type tc) ->
  value_type tb = Ptr c0 t -> null_constant a -> build a = Ok na ->
  exists n, mk_cond c na y = Ok n /\ has_type n (Ptr false t) (rvalue (value_exact tb lb)).
Proof.
  intros c y a na tc lc tb lb c0 t Hc Hy S0 Vy Na Ea.
  destruct (op_scalar _ _ _ Hc S0) as (c1 & c2 & E1 & E2).
  destruct (op_ptr _ _ _ _ _ Hy Vy) as (_ & y1 & Y1 & Y2 & Hy1).
  destruct (value_ptr _ _ _ _ _ Hy1) as (_ & cy & Dy).
  assert (Fin : forall x2 x3, decay na = Ok na -> promote na = Ok x2 ->
    cast_conditional x2 y1 = Ok (x3, y1) -> dt x3 = Ptr cy t -> good_kind x3 ->
    exists n, mk_cond c na y = Ok n /\ has_type n (Ptr false t) (rvalue (value_exact tb lb))).
  { intros x2 x3 X1 X2 C Dx Gx.
    destruct (cond_end c na y c1 c2 na x2 y1 y1 x3 y1 E1 X1 Y1 E2 X2 Y2 C) as (n & En & D & G & B);
      [congruence|exact Gx|exact (hv_kind _ _ _ _ Hy1)|].
    exists n. split; [exact En|]. apply rvalue_ok; auto.
    - rewrite D, Dx. reflexivity.
    - intro Ex. rewrite D, Dx, <- Dy. exact (hv_exact _ _ _ _ Hy1 Ex). }
  destruct (null_build a Na) as [(Za & s & I0 & E)|(Za & v & E)]; rewrite E in Ea; injection Ea as <-.
  - destruct (zero_promote s I0) as (r & Ir & P).
    apply (Fin _ (N (KVal (fold_addr r 0)) (Ptr cy t)) eq_refl P).
    + unfold ExprType.cast_conditional. rewrite Dy. cbn [dt ty_eqb is_ptr andb]. rewrite (is_null_zero r Ir).
      rewrite (zero_to_ptr r cy t Ir). reflexivity.
    + reflexivity.
    + right. cbn. eauto.
  - destruct (ty_eqb (Ptr false void) (dt y1)) eqn:Q.
    + apply (Fin (N (KVal v) (Ptr false void)) (N (KVal v) (Ptr false void)) eq_refl eq_refl).
      * unfold ExprType.cast_conditional. cbn [dt]. rewrite Q. reflexivity.
      * apply ty_eqb_spec in Q. rewrite Dy in Q. exact Q.
      * right. cbn. eauto.
    + destruct (const_ptr_cast v false void cy t) as (x3 & Ex & Dx & Gx).
      apply (Fin (N (KVal v) (Ptr false void)) x3 eq_refl eq_refl); auto.
      unfold ExprType.cast_conditional. cbn [dt]. rewrite Q, Dy.
      change (unq void) with void. rewrite ty_eqb_refl, Ex. reflexivity.
Qed.

(** ** Binary operators *)
Lemma binary_simple : forall op x y s, dt x = Simple false s -> dt y = Simple false s ->
  exists n, mk_binary op x y = Ok n /\
    dt n = (if is_comparison op then Simple false ST_INT else Simple false s) /\ good_kind n /\ bits_of n = -1.
Proof.
  intros op x y s Dx Dy. unfold ExprType.mk_binary, result_type. rewrite Dx, Dy, ty_eqb_refl. cbn [negb andb bind].
  destruct (kd x), (kd y); try (eexists; split; [reflexivity|]; split; [reflexivity|]; split; [exact I|reflexivity]).
  destruct (fold_bin op s v v0); eexists; (split; [reflexivity|]); (split; [reflexivity|]); (split; [|reflexivity]).
  - left. destruct (is_comparison op); eexists; reflexivity.
  - exact I.
Qed.
Lemma binary_ptr : forall op x y c t d u, is_comparison op = true -> dt x = Ptr c t -> dt y = Ptr d u ->
  mk_binary op x y = Ok (N KOther (Simple false ST_INT)).
Proof.
  intros op x y c t d u C Dx Dy. unfold ExprType.mk_binary, result_type. rewrite Dx, Dy, C. cbn [is_ptr Bool.eqb negb orb].
  rewrite andb_false_r. cbn [bind]. destruct (kd x), (kd y); reflexivity.
Qed.

Lemma bin_arith : forall op x y ta la tb lb s r,
  has_type x ta la -> has_type y tb lb ->
  value_type ta = Simple false s -> value_type tb = Simple false r -> arith s -> arith r ->
  is_shift op = false ->
  exists n, mk_bin op x y = Ok n /\
    has_type n (if is_comparison op then Simple false ST_INT
                else Simple false (spec_common SYSV (promoted (width la) s) (promoted (width lb) r))) (rvalue true).
Proof.
  intros op x y ta la tb lb s r Hx Hy Vx Vy As Ar Sh.
  destruct (op_arith _ _ _ _ Hx Vx As) as (x1 & x2 & X1 & X2 & X3 & Sx).
  destruct (op_arith _ _ _ _ Hy Vy Ar) as (y1 & y2 & Y1 & Y2 & Y3 & Sy).
  destruct (convert_ok fold_cast fold_addr x2 y2 _ _ _ _ X3 Y3 Sx Sy) as (x3 & y3 & Ec & Vx3 & Vy3).
  pose proof (hv_exact _ _ _ _ Vx3 eq_refl) as Dx3. pose proof (hv_exact _ _ _ _ Vy3 eq_refl) as Dy3.
  destruct (binary_simple op x3 y3 _ Dx3 Dy3) as (n & En & D & G & B).
  exists n. split; [|apply exact_ok; auto].
  unfold ExprType.mk_bin. rewrite X1. cbn [bind]. rewrite Y1. cbn [bind]. rewrite X2. cbn [bind]. rewrite Y2. cbn [bind].
  rewrite Sh, Ec. cbn [bind]. rewrite Dx3, Dy3. destruct op; exact En.
Qed.

Lemma bin_shift : forall op x y ta la tb lb s r,
  has_type x ta la -> has_type y tb lb ->
  value_type ta = Simple false s -> value_type tb = Simple false r -> integer_type s -> integer_type r ->
  shift_op op -> promoted_exact ta la s = true ->
  exists n, mk_bin op x y = Ok n /\ has_type n (Simple false (promoted (width la) s)) (rvalue true).
Proof.
  intros op x y ta la tb lb s r Hx Hy Vx Vy As Ar Sh Ex.
  destruct (op_arith _ _ _ _ Hx Vx (or_introl As)) as (x1 & x2 & X1 & X2 & X3 & Sx).
  destruct (op_arith _ _ _ _ Hy Vy (or_introl Ar)) as (y1 & y2 & Y1 & Y2 & Y3 & Sy).
  pose proof (hv_exact _ _ _ _ X3 Ex) as Dx.
  destruct (cast_simple fold_cast fold_addr y2 _ _ _ _ Y3 (proj1 Sy) (proj1 Sx)) as (y3 & Ey & Dy & _ & _).
  destruct (binary_simple op x2 y3 _ Dx Dy) as (n & En & D & G & B).
  assert (Cm : is_comparison op = false) by (destruct op; cbn in Sh; try contradiction; reflexivity).
  assert (Sf : is_shift op = true) by (destruct op; cbn in Sh; try contradiction; reflexivity).
  rewrite Cm in D. exists n. split; [|apply exact_ok; auto].
  unfold ExprType.mk_bin. rewrite X1. cbn [bind]. rewrite Y1. cbn [bind]. rewrite X2. cbn [bind]. rewrite Y2. cbn [bind].
  rewrite Sf, Dx, Ey. cbn [bind]. destruct op; cbn in Sf; try discriminate; exact En.
Qed.

Lemma convert_ptr_l : forall x y c u, dt x = Ptr c u -> convert x y = Ok (x, y).
Proof. intros x y c u D. unfold ExprType.convert. rewrite D. reflexivity. Qed.
Lemma convert_ptr_r : forall x y c u, dt y = Ptr c u -> convert x y = Ok (x, y).
Proof. intros x y c u D. unfold ExprType.convert. rewrite D. destruct (dt x); reflexivity. Qed.

Lemma padd_ok : forall p i u ex w, has_value p (Ptr false u) ex w ->
  has_type (mk_padd p i) (Ptr false u) (rvalue ex).
Proof.
  intros p i u ex w H. pose proof H as [Ht Hx Hk Hc Hb]. unfold mk_padd.
  destruct (kd p) eqn:Kp; try (apply rvalue_ok; [exact Ht|exact Hx|exact I|reflexivity]).
  destruct (kd i); try (apply rvalue_ok; [exact Ht|exact Hx|exact I|reflexivity]).
  destruct (ty_eqb (unq (dt i)) (Simple false ST_INT)).
  - apply rvalue_ok; [exact Ht|exact Hx|exact Hk|unfold bits_of; rewrite Kp; reflexivity].
  - apply rvalue_ok; [exact Ht|exact Hx|exact I|reflexivity].
Qed.

Lemma bin_add : forall op x y ta la tb lb c t s,
  has_type x ta la -> has_type y tb lb ->
  value_type ta = Ptr c t -> value_type tb = Simple false s -> integer_type s -> (op = OAdd \/ op = OSub) ->
  exists n, mk_bin op x y = Ok n /\ has_type n (Ptr false t) (rvalue (value_exact ta la)).
Proof.
  intros op x y ta la tb lb c t s Hx Hy Vx Vy As O.
  destruct (op_ptr _ _ _ _ _ Hx Vx) as (_ & x1 & X1 & X2 & X3).
  destruct (op_arith _ _ _ _ Hy Vy (or_introl As)) as (y1 & y2 & Y1 & Y2 & Y3 & Sy).
  destruct (value_ptr _ _ _ _ _ X3) as (_ & cx & Dx). destruct (value_simple _ _ _ _ Y3) as (cy & Dy).
  exists (mk_padd x1 y2). split; [|exact (padd_ok _ y2 _ _ _ X3)].
  unfold ExprType.mk_bin. rewrite X1. cbn [bind]. rewrite Y1. cbn [bind]. rewrite X2. cbn [bind]. rewrite Y2. cbn [bind].
  destruct O as [-> | ->]; cbn [is_shift]; rewrite (convert_ptr_l x1 y2 cx t Dx); cbn [bind]; rewrite Dx, Dy; reflexivity.
Qed.
Lemma bin_add_swapped : forall x y ta la tb lb c t s,
  has_type x ta la -> has_type y tb lb ->
  value_type tb = Ptr c t -> value_type ta = Simple false s -> integer_type s ->
  exists n, mk_bin OAdd x y = Ok n /\ has_type n (Ptr false t) (rvalue (value_exact tb lb)).
Proof.
  intros x y ta la tb lb c t s Hx Hy Vy Vx As.
  destruct (op_ptr _ _ _ _ _ Hy Vy) as (_ & y1 & Y1 & Y2 & Y3).
  destruct (op_arith _ _ _ _ Hx Vx (or_introl As)) as (x1 & x2 & X1 & X2 & X3 & Sx).
  destruct (value_ptr _ _ _ _ _ Y3) as (_ & cy & Dy). destruct (value_simple _ _ _ _ X3) as (cx & Dx).
  exists (mk_padd y1 x2). split; [|exact (padd_ok _ x2 _ _ _ Y3)].
  unfold ExprType.mk_bin. rewrite X1. cbn [bind]. rewrite Y1. cbn [bind]. rewrite X2. cbn [bind]. rewrite Y2. cbn [bind].
  cbn [is_shift]. rewrite (convert_ptr_r x2 y1 cy t Dy). cbn [bind]. rewrite Dx, Dy. reflexivity.
Qed.
Lemma bin_two_ptr : forall op x y ta la tb lb c t d u,
  has_type x ta la -> has_type y tb lb ->
  value_type ta = Ptr c t -> value_type tb = Ptr d u -> relation_op op \/ op = OSub ->
  exists n, mk_bin op x y = Ok n /\
    has_type n (if is_comparison op then Simple false ST_INT else Simple false ST_LONG) (rvalue true).
Proof.
  intros op x y ta la tb lb c t d u Hx Hy Vx Vy O.
  destruct (op_ptr _ _ _ _ _ Hx Vx) as (_ & x1 & X1 & X2 & X3).
  destruct (op_ptr _ _ _ _ _ Hy Vy) as (_ & y1 & Y1 & Y2 & Y3).
  destruct (value_ptr _ _ _ _ _ X3) as (_ & cx & Dx). destruct (value_ptr _ _ _ _ _ Y3) as (_ & cy & Dy).
  exists (N KOther (if is_comparison op then Simple false ST_INT else Simple false ST_LONG)).
  split; [|apply exact_ok; [reflexivity|exact I|reflexivity]].
  unfold ExprType.mk_bin. rewrite X1. cbn [bind]. rewrite Y1. cbn [bind]. rewrite X2. cbn [bind]. rewrite Y2. cbn [bind].
  replace (is_shift op) with false by (destruct O as [O| ->]; [destruct op; cbn in O; try contradiction; reflexivity|reflexivity]).
  rewrite (convert_ptr_l x1 y1 cx t Dx). cbn [bind]. rewrite Dx, Dy. cbn [is_ptr andb Bool.eqb].
  destruct O as [O| ->]; [|reflexivity].
  destruct op; cbn in O; try contradiction; cbn [is_comparison];
    refine (binary_ptr _ x1 y1 cx t cy u _ Dx Dy); reflexivity.
Qed.

Lemma equal_null : forall op x b nb ta la c t,
  has_type x ta la -> value_type ta = Ptr c t -> null_constant b -> build b = Ok nb -> equality_op op ->
  exists n, mk_bin op x nb = Ok n /\ has_type n (Simple false ST_INT) (rvalue true).
Proof.
  intros op x b nb ta la c t Hx Vx Nb Eb O.
  assert (Cm : is_comparison op = true) by (destruct op; cbn in O; try contradiction; reflexivity).
  assert (Sf : is_shift op = false) by (destruct op; cbn in O; try contradiction; reflexivity).
  exists (N KOther (Simple false ST_INT)). split; [|apply exact_ok; [reflexivity|exact I|reflexivity]].
  destruct (op_ptr _ _ _ _ _ Hx Vx) as (_ & x1 & X1 & X2 & X3).
  destruct (value_ptr _ _ _ _ _ X3) as (_ & cx & Dx).
  unfold ExprType.mk_bin. rewrite X1. cbn [bind].
  destruct (null_build b Nb) as [(_ & s & I0 & E)|(_ & v & E)]; rewrite E in Eb; injection Eb as <-.
  - destruct (zero_promote s I0) as (r & Ir & P). cbn [decay dt bind is_const]. rewrite X2. cbn [bind]. rewrite P. cbn [bind].
    rewrite Sf, (convert_ptr_l x1 _ cx t Dx). cbn [bind]. rewrite Dx. cbn [dt is_ptr Bool.eqb].
    assert (R : forall k : res node,
      (if negb (is_null (N (KVal 0) (Simple false r))) then Fail else
       let* y := cast (N (KVal 0) (Simple false r)) (Ptr false void) in
       let* z := Ok x1 in mk_binary op z y) = Ok (N KOther (Simple false ST_INT))).
    { intros _. rewrite (is_null_zero r Ir). cbn [negb]. rewrite (zero_to_ptr r false void Ir). cbn [bind].
      apply (binary_ptr op x1 _ cx t false void Cm Dx). reflexivity. }
    destruct op; cbn in O; try contradiction; exact (R Fail).
  - cbn [decay dt bind is_const]. rewrite X2. cbn [bind].
    change (promote (N (KVal v) (Ptr false void))) with (Ok (N (KVal v) (Ptr false void))). cbn [bind].
    rewrite Sf, (convert_ptr_l x1 _ cx t Dx). cbn [bind]. rewrite Dx. cbn [dt is_ptr Bool.eqb].
    destruct op; cbn in O; try contradiction;
      (refine (binary_ptr _ x1 _ cx t false void _ Dx _); reflexivity).
Qed.
Lemma null_equal : forall op y a na tb lb c t,
  has_type y tb lb -> value_type tb = Ptr c t -> null_constant a -> build a = Ok na -> equality_op op ->
  exists n, mk_bin op na y = Ok n /\ has_type n (Simple false ST_INT) (rvalue true).
Proof.
  intros op y a na tb lb c t Hy Vy Na Ea O.
  assert (Cm : is_comparison op = true) by (destruct op; cbn in O; try contradiction; reflexivity).
  assert (Sf : is_shift op = false) by (destruct op; cbn in O; try contradiction; reflexivity).
  exists (N KOther (Simple false ST_INT)). split; [|apply exact_ok; [reflexivity|exact I|reflexivity]].
  destruct (op_ptr _ _ _ _ _ Hy Vy) as (_ & y1 & Y1 & Y2 & Y3).
  destruct (value_ptr _ _ _ _ _ Y3) as (_ & cy & Dy).
  unfold ExprType.mk_bin.
  destruct (null_build a Na) as [(_ & s & I0 & E)|(_ & v & E)]; rewrite E in Ea; injection Ea as <-.
  - destruct (zero_promote s I0) as (r & Ir & P). cbn [decay dt bind is_const]. rewrite Y1. cbn [bind]. rewrite P. cbn [bind].
    rewrite Y2. cbn [bind]. rewrite Sf, (convert_ptr_r _ y1 cy t Dy). cbn [bind]. rewrite Dy. cbn [dt is_ptr Bool.eqb].
    assert (R : forall k : res node,
      (if negb (is_null (N (KVal 0) (Simple false r))) then Fail else
       let* z := Ok y1 in
       let* x := cast (N (KVal 0) (Simple false r)) (Ptr false void) in
       mk_binary op x z) = Ok (N KOther (Simple false ST_INT))).
    { intros _. rewrite (is_null_zero r Ir). cbn [negb bind]. rewrite (zero_to_ptr r false void Ir). cbn [bind].
      apply (binary_ptr op _ y1 false void cy t Cm); [reflexivity|exact Dy]. }
    destruct op; cbn in O; try contradiction; exact (R Fail).
  - cbn [decay dt bind is_const]. rewrite Y1. cbn [bind].
    change (promote (N (KVal v) (Ptr false void))) with (Ok (N (KVal v) (Ptr false void))). cbn [bind].
    rewrite Y2. cbn [bind].
    rewrite Sf, (convert_ptr_r _ y1 cy t Dy). cbn [bind]. rewrite Dy. cbn [dt is_ptr Bool.eqb].
    destruct op; cbn in O; try contradiction;
      (refine (binary_ptr _ _ y1 false void cy t _ _ Dy); reflexivity).
Qed.

(** ** The rest *)
Lemma unary_ok : forall op x t l s, has_type x t l -> value_type t = Simple false s -> arith s ->
  exists n, mk_unary op x = Ok n /\
    has_type n (Simple false (promoted (width l) s)) (rvalue (promoted_exact t l s)).
Proof.
  intros op x t l s H V A. destruct (op_arith _ _ _ _ H V A) as (x1 & x2 & X1 & X2 & X3 & Sx).
  unfold ExprType.mk_unary. rewrite X1. cbn [bind]. rewrite X2. cbn [bind].
  pose proof X3 as [Ht Hx Hk Hc Hb]. destruct (value_simple _ _ _ _ X3) as (c & D).
  assert (Fin : has_type (N KOther (dt x2)) (Simple false (promoted (width l) s)) (rvalue (promoted_exact t l s))).
  { apply rvalue_ok; [cbn [dt]; rewrite Ht; reflexivity|exact Hx|exact I|reflexivity]. }
  rewrite D in *. destruct (kd x2) eqn:K; try (eexists; split; [reflexivity|exact Fin]).
  destruct (fold_un op (promoted (width l) s) v); [|eexists; split; [reflexivity|exact Fin]].
  eexists; split; [reflexivity|].
  apply rvalue_ok; [cbn [dt]; rewrite Ht; reflexivity|exact Hx| |reflexivity].
  unfold good_kind in *. rewrite K, D in Hk. cbn [kd dt]. exact Hk.
Qed.

Lemma deref_ok : forall x t l c u, has_type x t l -> value_type t = Ptr c u ->
  exists n, mk_deref x = Ok n /\ has_type n u (designates true).
Proof.
  intros x t l c u H V. destruct (op_ptr _ _ _ _ _ H V) as (_ & x1 & X1 & _ & X3).
  destruct (value_ptr _ _ _ _ _ X3) as (_ & cx & Dx).
  unfold mk_deref. rewrite X1. cbn [bind]. rewrite Dx. eexists; split; [reflexivity|].
  apply designates_ok; [reflexivity|]. cbn [kd]. destruct (kd x1); auto.
Qed.

Lemma member_ok : forall n t l c g x p f c', has_type n t l -> t = Struct c g -> member env g x p f c' ->
  (c || c' = true -> forall k u, ftype f <> Arr k u) ->
  (fbits f <> -1 -> is_const (ftype f) = false) ->
  forall lv, exists n', mk_member n x = Ok n' /\
    has_type n' (if c || c' then qualified (ftype f) else ftype f)
      {| lvalue := lv; width := fbits f; exact := negb (c || c') |}.
Proof.
  intros n t l c g x p f c' H -> M NA NC lv.
  assert (D : exists c0, dt n = Struct c0 g).
  { pose proof (ht_type _ _ _ H) as T. destruct (dt n); cbn in T; try discriminate. injection T as ->. eauto. }
  destruct D as (c0 & D). unfold ExprType.mk_member. rewrite D.
  destruct (search_member_ok env g x p f c' env_ok M) as (st & -> & ->).
  destruct (dots_ok env g x p f c' M n c0 D) as (n' & -> & D' & K'). exists n'. split; [reflexivity|].
  assert (B : bits_of n' = fbits f) by (unfold bits_of; destruct (kd n'); try contradiction; congruence).
  assert (F : bit_field f).
  { destruct env_ok as (_ & _ & Wb). clear - M Wb. induction M; [|assumption].
    exact (Wb g fs f H (nth_error_In _ _ H0)). }
  constructor; cbn [exact lvalue width].
  - rewrite D'. destruct (c || c') eqn:Q; [|reflexivity].
    destruct (ftype f) eqn:Tf; try reflexivity. exfalso. exact (NA eq_refl _ _ eq_refl).
  - intro E. destruct (c || c'); [discriminate|exact D'].
  - unfold good_kind. destruct (kd n'); try contradiction; exact I.
  - rewrite D', B. intro C. destruct (Z.eq_dec (fbits f) (-1)) as [E|E]; [exact E|]. rewrite (NC E) in C. discriminate.
  - intros c1 s E. rewrite D' in E. rewrite B. split; [reflexivity|].
    destruct F as [F|[(k & Tk & F)|[(k & Tk & F)|(k & Tk & F)]]]; [left; exact F| | |];
      rewrite Tk in E; injection E as _ <-; unfold valid_bits; tauto.
  - intros _. destruct (kd n'); try contradiction; exact I.
  - intros _ E. destruct (c || c') eqn:Q; [|discriminate]. specialize (NA eq_refl).
    destruct (ftype f); cbn; auto.
    + exfalso. exact (NA _ _ eq_refl).
    + right. eauto.
Qed.

Lemma comma_ok : forall x y ta la tb lb, has_type x ta la -> has_type y tb lb ->
  exists n, mk_comma x y = Ok n /\ has_type n (value_type tb) (rvalue (value_exact tb lb)).
Proof.
  intros x y ta la tb lb Hx Hy. destruct (decay_type _ _ _ Hx) as (x1 & X1 & Hx1). destruct (decay_type _ _ _ Hy) as (y1 & Y1 & Hy1).
  unfold mk_comma. rewrite X1. cbn [bind]. rewrite Y1. cbn [bind]. eexists; split; [reflexivity|].
  destruct Hy1 as [Ht Hx' Hk Hc Hb].
  assert (U : unq (value_type tb) = value_type tb) by (destruct tb; reflexivity).
  destruct (constant_kind (kd x1) && constant_kind (kd y1)) eqn:C.
  - apply andb_true_iff in C. destruct C as [_ C]. apply rvalue_ok; [rewrite Ht, U; reflexivity|exact Hx'|exact Hk|].
    unfold bits_of. destruct (kd y1); try discriminate; reflexivity.
  - apply rvalue_ok; [cbn [dt]; rewrite Ht, U; reflexivity|exact Hx'|exact I|reflexivity].
Qed.

Lemma lvalue_exact : forall n t l, has_type n t l -> lvalue l = true -> is_const t = false ->
  (forall r ps v, t <> Fn r ps v) -> dt n = t.
Proof.
  intros n t l H L C F. destruct (exact l) eqn:E; [exact (ht_exact _ _ _ H E)|].
  destruct (ht_loose _ _ _ H L E) as [Q|(r & ps & v & Q)]; [congruence|]. exfalso. exact (F _ _ _ Q).
Qed.

Lemma assign_ok : forall x y t la tb lb, has_type x t la -> has_type y tb lb -> lvalue la = true ->
  is_const t = false -> (forall r ps v, t <> Fn r ps v) ->
  exists n, mk_assign x y = Ok n /\ has_type n t (rvalue true).
Proof.
  intros x y t la tb lb Hx Hy L C F. destruct (decay_type _ _ _ Hy) as (y1 & Y1 & _).
  unfold mk_assign. rewrite Y1. cbn [bind]. rewrite (lvalue_exact _ _ _ Hx L C F). unfold modified. rewrite C.
  eexists; split; [reflexivity|]. apply exact_ok; [reflexivity|exact I|reflexivity].
Qed.

(** A cast of a node that is no constant and no cast can be taken off again. *)
Lemma cast_strip : forall n s r n', dt n = Simple false s ->
  match kd n with KLabel | KOther | KDot _ => True | _ => False end ->
  cast n (Simple false r) = Ok n' -> n' = n \/ n' = N (KCast (kd n) (dt n)) (Simple false r).
Proof.
  intros n s r n' D K E. unfold ExprType.cast in E.
  rewrite (node_is_plain n) in E by (rewrite D; try discriminate; reflexivity). cbn [bind] in E.
  destruct (ty_eqb (dt n) (Simple false r)); [injection E as <-; auto|].
  unfold mk_cast in E. destruct (kd n); try contradiction; injection E as <-; auto.
Qed.
Lemma cast_strip2 : forall k d t0 t1 r n', dt (N (KCast k d) (Simple false t0)) = t1 ->
  cast (N (KCast k d) (Simple false t0)) (Simple false r) = Ok n' ->
  n' = N (KCast k d) (Simple false t0) \/ n' = N (KCast (KCast k d) (Simple false t0)) (Simple false r).
Proof.
  intros k d t0 t1 r n' _ E. unfold ExprType.cast in E. cbn [decay dt is_const bind] in E.
  destruct (ty_eqb (Simple false t0) (Simple false r)); [injection E as <-; auto|].
  cbn [mk_cast kd] in E. injection E as <-. auto.
Qed.

Lemma assign_op_arith : forall op x y s la tb lb r,
  has_type x (Simple false s) la -> has_type y tb lb -> lvalue la = true ->
  value_type tb = Simple false r -> arith s -> arith r ->
  exists n, mk_assign_op op x y = Ok n /\ has_type n (Simple false s) (rvalue true).
Proof.
  intros op x y s la tb lb r Hx Hy L Vy As Ar.
  pose proof (lvalue_exact _ _ _ Hx L eq_refl ltac:(discriminate)) as D.
  pose proof (ht_lvalue _ _ _ Hx L) as K.
  assert (Hv : has_value x (Simple false s) true (width la)).
  { destruct Hx as [T X Kg C B Lk Lo]. constructor; auto. }
  destruct (promote_arith fold_cast fold_addr _ _ _ _ Hv As) as (x2 & X2 & X3 & Sx).
  destruct (op_arith _ _ _ _ Hy Vy Ar) as (y1 & y2 & Y1 & Y2 & Y3 & Sy).
  destruct (convert_ok fold_cast fold_addr x2 y2 _ _ _ _ X3 Y3 Sx Sy) as (x3 & y3 & Ec & Vx3 & Vy3).
  exists (N KOther (Simple false s)). split; [|apply exact_ok; [reflexivity|exact I|reflexivity]].
  unfold ExprType.mk_assign_op. rewrite Y1. cbn [bind]. rewrite X2. cbn [bind]. rewrite Y2. cbn [bind]. rewrite Ec. cbn [bind].
  assert (P : x2 = x \/ x2 = N (KCast (kd x) (dt x)) (Simple false ST_INT)).
  { unfold ExprType.promote in X2. rewrite D in X2. destruct (st_is_integer s).
    - destruct (is_contained_in SYSV ST_INT (-1) s (bits_of x)) as [b| |]; cbn [bind] in X2; try discriminate.
      destruct b; [|injection X2 as <-; auto]. exact (cast_strip x s ST_INT x2 D K X2).
    - injection X2 as <-. auto. }
  destruct (value_simple _ _ _ _ X3) as (cx & Dx2). destruct (value_simple _ _ _ _ Y3) as (cy & Dy2).
  unfold ExprType.convert in Ec. rewrite Dx2, Dy2 in Ec.
  destruct (get_arithmetic_type SYSV _ _ _ _) as [tt| |]; cbn [bind] in Ec; try discriminate.
  destruct (cast x2 (Simple false tt)) as [z| |] eqn:E1; cbn [bind] in Ec; try discriminate.
  destruct (cast y2 (Simple false tt)) as [z2| |] eqn:E2; cbn [bind] in Ec; try discriminate.
  injection Ec as <- <-.
  assert (R : dt (strip z) = Simple false s).
  { destruct P as [-> | ->].
    - destruct (cast_strip x s tt z D K E1) as [-> | ->].
      + unfold strip. destruct (kd x); try contradiction; exact D.
      + unfold strip. cbn [kd]. destruct (kd x); try contradiction; exact D.
    - destruct (cast_strip2 _ _ ST_INT _ tt z eq_refl E1) as [-> | ->].
      + unfold strip. cbn [kd]. destruct (kd x); try contradiction; exact D.
      + unfold strip. cbn [kd]. exact D. }
  unfold modified. rewrite R. reflexivity.
Qed.

Lemma assign_op_ptr : forall op x y t la tb lb r,
  has_type x (Ptr false t) la -> has_type y tb lb -> lvalue la = true ->
  value_type tb = Simple false r -> arith r ->
  exists n, mk_assign_op op x y = Ok n /\ has_type n (Ptr false t) (rvalue true).
Proof.
  intros op x y t la tb lb r Hx Hy L Vy Ar.
  pose proof (lvalue_exact _ _ _ Hx L eq_refl ltac:(discriminate)) as D.
  pose proof (ht_lvalue _ _ _ Hx L) as K.
  destruct (op_arith _ _ _ _ Hy Vy Ar) as (y1 & y2 & Y1 & Y2 & Y3 & Sy).
  exists (N KOther (Ptr false t)). split; [|apply exact_ok; [reflexivity|exact I|reflexivity]].
  unfold ExprType.mk_assign_op. rewrite Y1. cbn [bind].
  assert (X2 : promote x = Ok x) by (unfold ExprType.promote; rewrite D; reflexivity).
  rewrite X2. cbn [bind]. rewrite Y2. cbn [bind]. rewrite (convert_ptr_l x y2 false t D). cbn [bind].
  assert (R : strip x = x) by (unfold strip; destruct (kd x); try contradiction; reflexivity).
  rewrite R, D. reflexivity.
Qed.

Lemma cast_typed : forall x t l T, has_type x t l -> castable (value_type t) T ->
  (unq T = value_type t -> value_type t = Simple false ST_UINT -> promoted (width l) ST_UINT = ST_UINT) ->
  exists n, cast x T = Ok n /\ has_type n (unq T) (rvalue (negb (is_const T))).
Proof.
  intros x t l T H C Hw. destruct (decay_type _ _ _ H) as (x1 & X1 & H1).
  assert (E : exists n', cast x T = Ok n' /\ (dt n' = T \/ dt n' = unq T) /\ good_kind n' /\
    (bits_of n' = -1 \/ (is_const (dt n') = true -> bits_of n' = -1) /\ dt n' = T /\ unq T = value_type t /\ bits_agree n' (width l))).
  { unfold ExprType.cast. rewrite X1. cbn [bind]. destruct (ty_eqb (dt x1) T) eqn:Q.
    - apply ty_eqb_spec in Q. exists x1. split; [reflexivity|]. split; [left; exact Q|].
      destruct H1 as [Ht Hx Hk Hc Hb]. split; [exact Hk|]. right. rewrite Q in *. auto.
    - destruct (mk_cast_ok fold_cast fold_addr _ _ _ _ _ H1 C) as (n' & En & D & G & B). exists n'. auto 8. }
  destruct E as (n & En & D & G & B). exists n. split; [exact En|].
  assert (U : unq (dt n) = unq (unq T)) by (destruct D as [-> | ->]; rewrite ?unq_unq; reflexivity).
  assert (X : negb (is_const T) = true -> dt n = unq T).
  { intro Q. destruct D as [-> | ->]; [|reflexivity]. symmetry. apply unq_id. destruct (is_const T); [discriminate|reflexivity]. }
  destruct B as [B|(Bc & DT & UT & Ba)]; [apply rvalue_ok; auto|].
  constructor; auto; cbn [lvalue rvalue]; try discriminate. cbn [width].
  intros c s E. destruct (Ba c s E) as [P V]. split; [|exact V].
  destruct V as [V|[[-> V]|[[-> V]|[-> V]]]].
  - rewrite V. reflexivity.
  - unfold promoted at 1. destruct (bits_of n =? -1); reflexivity.
  - rewrite P. apply Hw; [exact UT|]. rewrite <- UT, <- DT, E. reflexivity.
  - rewrite V. reflexivity.
Qed.

Lemma each_ok : forall (f : node -> res node) l, (forall n, In n l -> exists n', f n = Ok n') ->
  exists l', each_node f l = Ok l' /\ length l' = length l /\ Forall2 (fun n n' => f n = Ok n') l l'.
Proof.
  intros f l. induction l as [|x l IH]; intro H.
  - exists []. auto.
  - destruct (H x (or_introl eq_refl)) as (y & E). destruct IH as (l' & E' & L & F); [intros n I0; apply H; right; exact I0|].
    exists (y :: l'). cbn [each_node]. rewrite E. cbn [bind]. rewrite E'. cbn [bind]. split; [reflexivity|].
    split; [cbn; congruence|]. constructor; auto.
Qed.

Lemma call_ok : forall f tf lf args c r ps v,
  has_type f tf lf -> value_type tf = Ptr c (Fn r ps v) ->
  Forall (fun n => exists t l, has_type n t l) args ->
  (if v then (length ps <= length args)%nat else length ps = length args) ->
  exists n, mk_call f args = Ok n /\ has_type n (unq r) (rvalue (negb (is_const r))).
Proof.
  intros f tf lf args c r ps v Hf Vf Ha Hl.
  destruct (op_ptr _ _ _ _ _ Hf Vf) as (_ & f1 & F1 & _ & F3).
  destruct (value_ptr _ _ _ _ _ F3) as (_ & cf & Df).
  destruct (each_ok decay args) as (args1 & A1 & La & A2).
  { intros n I0. rewrite Forall_forall in Ha. destruct (Ha n I0) as (t & l & H).
    destruct (decay_type _ _ _ H) as (n' & E & _). eauto. }
  assert (A3 : forall n', In n' args1 -> exists tv ex w, has_value n' tv ex w /\ plain tv).
  { intros n' I0. clear - A2 Ha I0. induction A2 as [|x y l l' E F IH]; [destruct I0|].
    inversion Ha as [|x0 l0 (t & lk & Hx) Hl0]; subst. destruct I0 as [<-|I0]; [|exact (IH Hl0 I0)].
    destruct (decay_type _ _ _ Hx) as (z & Ez & Hz). rewrite E in Ez. injection Ez as <-.
    do 3 eexists. split; [exact Hz|apply value_plain]. }
  destruct (each_ok (default_promote fold_cast fold_addr) (skipn (length ps) args1)) as (rest & R1 & _).
  { intros n I0. assert (In n args1).
    { rewrite <- (firstn_skipn (length ps) args1). apply in_or_app. right. exact I0. }
    destruct (A3 n H) as (tv & ex & w & Hv & P). exact (default_promote_any fold_cast fold_addr _ _ _ _ Hv P). }
  exists (N KOther r). split.
  - unfold ExprType.mk_call. rewrite A1. cbn [bind]. rewrite F1. cbn [bind]. rewrite Df.
    assert (Q : (if v then Nat.leb (length ps) (length args1) else Nat.eqb (length ps) (length args1)) = true).
    { rewrite La. destruct v; [apply Nat.leb_le|apply Nat.eqb_eq]; exact Hl. }
    rewrite Q. cbn [negb]. rewrite R1. reflexivity.
  - apply rvalue_ok; [rewrite unq_unq; reflexivity| |exact I|reflexivity].
    cbn [dt]. intro Q. symmetry. apply unq_id. destruct (is_const r); [discriminate|reflexivity].
Qed.

Fixpoint build_all (l : list expr) : res (list node) :=
  match l with
  | [] => Ok []
  | a :: k => let* n := build a in let* r := build_all k in Ok (n :: r)
  end.
Lemma build_call : forall f args, build (Call f args) =
  let* x := build f in let* l := build_all args in mk_call x l.
Proof. reflexivity. Qed.

Lemma arithmetic_op_arith : forall op s r, arithmetic_op op s r ->
  arith s /\ arith r /\ is_shift op = false /\ is_comparison op = false.
Proof. intros op s r H. destruct op; cbn in H; try contradiction; destruct H; unfold arith; auto. Qed.
Lemma relation_op_flags : forall op, relation_op op -> is_shift op = false /\ is_comparison op = true.
Proof. intros op H. destruct op; cbn in H; try contradiction; auto. Qed.

Theorem build_types : forall e t l, types env true e t l ->
  exists n, build e = Ok n /\ has_type n t l.
Proof.
  apply (types_ind2 env true
    (fun e t l => exists n, build e = Ok n /\ has_type n t l)
    (fun es => exists ns, build_all es = Ok ns /\ length ns = length es /\
                          Forall (fun n => exists t l, has_type n t l) ns)).
  - (* num *) intros s v A. eexists; split; [reflexivity|]. apply exact_ok; [reflexivity|left; eexists; reflexivity|reflexivity].
  - intros t. eexists; split; [reflexivity|]. apply designates_ok; auto.
  - intros t. eexists; split; [reflexivity|]. apply designates_ok; auto.
  - intros s n. eexists; split; [reflexivity|]. apply designates_ok; auto.
  - intros t. eexists; split; [reflexivity|]. apply designates_ok; auto.
  - (* index *) intros a b ta la tb lb c t s _ (na & Ea & Ha) _ (nb & Eb & Hb) Va Vb Is.
    destruct (bin_add OAdd na nb ta la tb lb c t s Ha Hb Va Vb Is (or_introl eq_refl)) as (p & Ep & Hp).
    destruct (deref_ok p (Ptr false t) _ false t Hp eq_refl) as (n & En & Hn).
    exists n. split; [|exact Hn]. cbn [ExprType.build]. rewrite Ea. cbn [bind]. rewrite Eb. cbn [bind]. rewrite Ep. exact En.
  - intros a b ta la tb lb c t s _ (na & Ea & Ha) _ (nb & Eb & Hb) Vb Va Is.
    destruct (bin_add_swapped na nb ta la tb lb c t s Ha Hb Vb Va Is) as (p & Ep & Hp).
    destruct (deref_ok p (Ptr false t) _ false t Hp eq_refl) as (n & En & Hn).
    exists n. split; [|exact Hn]. cbn [ExprType.build]. rewrite Ea. cbn [bind]. rewrite Eb. cbn [bind]. rewrite Ep. exact En.
  - (* call *) intros f tf lf args c r ps v _ (nf & Ef & Hf) Vf _ (ns & Es & Ls & Fs) Hl.
    rewrite <- Ls in Hl. destruct (call_ok nf tf lf ns c r ps v Hf Vf Fs Hl) as (n & En & Hn).
    exists n. split; [|exact Hn]. rewrite build_call, Ef. cbn [bind]. rewrite Es. exact En.
  - (* dot *) intros e c g l x p f c' _ (ne & Ee & He) M NA NC.
    destruct (member_ok ne _ l c g x p f c' He eq_refl M (NA eq_refl) (NC eq_refl) (lvalue l)) as (n & En & Hn).
    exists n. split; [|exact Hn]. cbn [ExprType.build]. rewrite Ee. exact En.
  - intros e t l k c g x p f c' _ (ne & Ee & He) V M NA NC.
    destruct (deref_ok ne t l k _ He V) as (nd & Ed & Hd).
    destruct (member_ok nd _ _ c g x p f c' Hd eq_refl M (NA eq_refl) (NC eq_refl) true) as (n & En & Hn).
    exists n. split; [|exact Hn]. cbn [ExprType.build]. rewrite Ee. cbn [bind]. rewrite Ed. exact En.
  - (* ++ *) intros i e s l _ (ne & Ee & He) L As.
    destruct (assign_op_arith (if i then OAdd else OSub) ne (int_node 1) s l _ _ ST_INT He (int_type 1) L eq_refl As) as (n & En & Hn);
      [left; cbn; tauto|].
    exists n. split; [|exact Hn]. cbn [ExprType.build]. rewrite Ee. exact En.
  - intros i e t l _ (ne & Ee & He) L.
    destruct (assign_op_ptr (if i then OAdd else OSub) ne (int_node 1) t l _ _ ST_INT He (int_type 1) L eq_refl) as (n & En & Hn);
      [left; cbn; tauto|].
    exists n. split; [|exact Hn]. cbn [ExprType.build]. rewrite Ee. exact En.
  - (* deref *) intros e t l c u _ (ne & Ee & He) V. destruct (deref_ok ne t l c u He V) as (n & En & Hn).
    exists n. split; [|exact Hn]. cbn [ExprType.build]. rewrite Ee. exact En.
  - (* & *) intros e t l _ (ne & Ee & He) L W X. exists (mk_addr ne). split; [cbn [ExprType.build]; rewrite Ee; reflexivity|].
    pose proof (ht_exact _ _ _ He (X eq_refl)) as D. unfold mk_addr.
    destruct (kd ne); (apply exact_ok; [cbn [dt]; rewrite D; reflexivity|unfold good_kind; cbn; eauto|reflexivity]).
  - (* unary *) intros op e t l s _ (ne & Ee & He) V As _. destruct (unary_ok op ne t l s He V As) as (n & En & Hn).
    exists n. split; [|exact Hn]. cbn [ExprType.build]. rewrite Ee. exact En.
  - (* not *) intros e t l _ (ne & Ee & He) S0.
    destruct (cond_int ne t l _ _ He S0 (int_type 0) (int_type 1)) as (n & En & Hn).
    exists n. split; [|exact Hn]. cbn [ExprType.build]. rewrite Ee. exact En.
  - (* sizeof *) intros e t l _ (ne & Ee & He). eexists; split; [cbn [ExprType.build]; rewrite Ee; reflexivity|].
    apply exact_ok; [reflexivity|left; eexists; reflexivity|reflexivity].
  - intros t. eexists; split; [reflexivity|]. apply exact_ok; [reflexivity|left; eexists; reflexivity|reflexivity].
  - (* casts *) intros e t l c _ (ne & Ee & He).
    destruct (cast_typed ne t l (Simple c ST_VOID) He (castable_void _ _)) as (n & En & Hn).
    { intros U V. rewrite V in U. discriminate. }
    exists n. split; [cbn [ExprType.build]; rewrite Ee; exact En|exact Hn].
  - intros e t l c s r _ (ne & Ee & He) V As Ar Hw.
    destruct (cast_typed ne t l (Simple c r) He) as (n & En & Hn).
    { rewrite V. constructor; assumption. }
    { intros U V'. rewrite V in V', U. injection V' as ->. cbn in U. injection U as ->. exact (Hw eq_refl eq_refl eq_refl). }
    exists n. split; [cbn [ExprType.build]; rewrite Ee; exact En|exact Hn].
  - intros e t l c u _ (ne & Ee & He) V.
    destruct (cast_typed ne t l (Ptr c u) He) as (n & En & Hn).
    { destruct V as [(v & ->)|(s & -> & Is)]; constructor; assumption. }
    { intros U V'. rewrite V' in U. discriminate. }
    exists n. split; [cbn [ExprType.build]; rewrite Ee; exact En|exact Hn].
  - intros e t l c s v _ (ne & Ee & He) V Is.
    destruct (cast_typed ne t l (Simple c s) He) as (n & En & Hn).
    { rewrite V. constructor. }
    { intros U V'. rewrite V in V'. discriminate. }
    exists n. split; [cbn [ExprType.build]; rewrite Ee; exact En|exact Hn].
  - (* binary *) intros op a b ta la tb lb s r _ (na & Ea & Ha) _ (nb & Eb & Hb) Va Vb O.
    apply arithmetic_op_arith in O. destruct O as (As & Ar & Sh & Cm).
    destruct (bin_arith op na nb ta la tb lb s r Ha Hb Va Vb As Ar Sh) as (n & En & Hn). rewrite Cm in Hn.
    exists n. split; [|exact Hn]. cbn [ExprType.build]. rewrite Ea. cbn [bind]. rewrite Eb. exact En.
  - intros a b ta la tb lb c t s op _ (na & Ea & Ha) _ (nb & Eb & Hb) Va Vb Is O.
    destruct (bin_add op na nb ta la tb lb c t s Ha Hb Va Vb Is O) as (n & En & Hn).
    exists n. split; [|exact Hn]. cbn [ExprType.build]. rewrite Ea. cbn [bind]. rewrite Eb. exact En.
  - intros a b ta la tb lb c t s _ (na & Ea & Ha) _ (nb & Eb & Hb) Vb Va Is.
    destruct (bin_add_swapped na nb ta la tb lb c t s Ha Hb Vb Va Is) as (n & En & Hn).
    exists n. split; [|exact Hn]. cbn [ExprType.build]. rewrite Ea. cbn [bind]. rewrite Eb. exact En.
  - intros a b ta la tb lb c t d u _ (na & Ea & Ha) _ (nb & Eb & Hb) Va Vb.
    destruct (bin_two_ptr OSub na nb ta la tb lb c t d u Ha Hb Va Vb (or_intror eq_refl)) as (n & En & Hn).
    exists n. split; [|exact Hn]. cbn [ExprType.build]. rewrite Ea. cbn [bind]. rewrite Eb. exact En.
  - (* shift *) intros op a b ta la tb lb s r _ (na & Ea & Ha) _ (nb & Eb & Hb) Va Vb Is Ir O X.
    destruct (bin_shift op na nb ta la tb lb s r Ha Hb Va Vb Is Ir O (X eq_refl)) as (n & En & Hn).
    exists n. split; [|exact Hn]. cbn [ExprType.build]. rewrite Ea. cbn [bind]. rewrite Eb. exact En.
  - (* relations *) intros op a b ta la tb lb s r _ (na & Ea & Ha) _ (nb & Eb & Hb) Va Vb As Ar O.
    destruct (relation_op_flags op O) as [Sh Cm].
    destruct (bin_arith op na nb ta la tb lb s r Ha Hb Va Vb As Ar Sh) as (n & En & Hn). rewrite Cm in Hn.
    exists n. split; [|exact Hn]. cbn [ExprType.build]. rewrite Ea. cbn [bind]. rewrite Eb. exact En.
  - intros op a b ta la tb lb c t d u _ (na & Ea & Ha) _ (nb & Eb & Hb) Va Vb O.
    destruct (relation_op_flags op O) as [Sh Cm].
    destruct (bin_two_ptr op na nb ta la tb lb c t d u Ha Hb Va Vb (or_introl O)) as (n & En & Hn). rewrite Cm in Hn.
    exists n. split; [|exact Hn]. cbn [ExprType.build]. rewrite Ea. cbn [bind]. rewrite Eb. exact En.
  - intros op a b ta la tb lb c t _ (na & Ea & Ha) _ (nb & Eb & Hb) Va Nb O.
    destruct (equal_null op na b nb ta la c t Ha Va Nb Eb O) as (n & En & Hn).
    exists n. split; [|exact Hn]. cbn [ExprType.build]. rewrite Ea. cbn [bind]. rewrite Eb. exact En.
  - intros op a b ta la tb lb c t _ (na & Ea & Ha) _ (nb & Eb & Hb) Vb Na O.
    destruct (null_equal op nb a na tb lb c t Hb Vb Na Ea O) as (n & En & Hn).
    exists n. split; [|exact Hn]. cbn [ExprType.build]. rewrite Ea. cbn [bind]. rewrite Eb. exact En.
  - (* || *) intros a b ta la tb lb _ (na & Ea & Ha) _ (nb & Eb & Hb) Sa Sb.
    destruct (cond_int nb tb lb _ _ Hb Sb (int_type 1) (int_type 0)) as (z & Ez & Hz).
    destruct (cond_int na ta la _ _ Ha Sa (int_type 1) Hz) as (n & En & Hn).
    exists n. split; [|exact Hn]. cbn [ExprType.build]. rewrite Ea. cbn [bind]. rewrite Eb. cbn [bind]. rewrite Ez. exact En.
  - intros a b ta la tb lb _ (na & Ea & Ha) _ (nb & Eb & Hb) Sa Sb.
    destruct (cond_int nb tb lb _ _ Hb Sb (int_type 1) (int_type 0)) as (z & Ez & Hz).
    destruct (cond_int na ta la _ _ Ha Sa Hz (int_type 0)) as (n & En & Hn).
    exists n. split; [|exact Hn]. cbn [ExprType.build]. rewrite Ea. cbn [bind]. rewrite Eb. cbn [bind]. rewrite Ez. exact En.
  - (* ?: *) intros e a b te le ta la tb lb s r _ (ne & Ee & He) _ (na & Ea & Ha) _ (nb & Eb & Hb) S0 Va Vb As Ar.
    destruct (cond_arith ne na nb te le ta la tb lb s r He Ha Hb S0 Va Vb As Ar) as (n & En & Hn).
    exists n. split; [|exact Hn]. cbn [ExprType.build]. rewrite Ee. cbn [bind]. rewrite Ea. cbn [bind]. rewrite Eb. exact En.
  - intros e a b te le ta la tb lb g _ (ne & Ee & He) _ (na & Ea & Ha) _ (nb & Eb & Hb) S0 Va Vb X.
    destruct (cond_same ne na nb te le ta la tb lb _ He Ha Hb S0 Va Vb ltac:(discriminate) (X eq_refl)) as (n & En & Hn).
    exists n. split; [|exact Hn]. cbn [ExprType.build]. rewrite Ee. cbn [bind]. rewrite Ea. cbn [bind]. rewrite Eb. exact En.
  - intros e a b te le ta la tb lb _ (ne & Ee & He) _ (na & Ea & Ha) _ (nb & Eb & Hb) S0 Va Vb X.
    destruct (cond_same ne na nb te le ta la tb lb _ He Ha Hb S0 Va Vb) as (n & En & Hn);
      [intros s E; injection E as <-; reflexivity|exact (X eq_refl)|].
    exists n. split; [|exact Hn]. cbn [ExprType.build]. rewrite Ee. cbn [bind]. rewrite Ea. cbn [bind]. rewrite Eb. exact En.
  - intros e a b te le ta la tb lb c d t u v _ (ne & Ee & He) _ (na & Ea & Ha) _ (nb & Eb & Hb) S0 Va Vb Cv X.
    destruct (cond_ptr ne na nb te le ta la tb lb c d t u v He Ha Hb S0 Va Vb Cv (X eq_refl)) as (n & En & Hn).
    exists n. split; [|exact Hn]. cbn [ExprType.build]. rewrite Ee. cbn [bind]. rewrite Ea. cbn [bind]. rewrite Eb. exact En.
  - intros e a b te le ta la tb lb c d t u _ _ _ _ _ _ _ _ _ _ _ _ X. destruct (X eq_refl).
  - intros e a b te le ta la tb lb c t _ (ne & Ee & He) _ (na & Ea & Ha) _ (nb & Eb & Hb) S0 Va Nb _ X.
    destruct (cond_null ne na b nb te le ta la c t He Ha S0 Va Nb Eb (X eq_refl)) as (n & En & Hn).
    exists n. split; [|exact Hn]. cbn [ExprType.build]. rewrite Ee. cbn [bind]. rewrite Ea. cbn [bind]. rewrite Eb. exact En.
  - intros e a b te le ta la tb lb c t _ (ne & Ee & He) _ (na & Ea & Ha) _ (nb & Eb & Hb) S0 Vb Na _.
    destruct (null_cond ne nb a na te le tb lb c t He Hb S0 Vb Na Ea) as (n & En & Hn).
    exists n. split; [|exact Hn]. cbn [ExprType.build]. rewrite Ee. cbn [bind]. rewrite Ea. cbn [bind]. rewrite Eb. exact En.
  - (* = *) intros a b t la tb lb _ (na & Ea & Ha) _ (nb & Eb & Hb) L C NA NF.
    destruct (assign_ok na nb t la tb lb Ha Hb L C NF) as (n & En & Hn).
    exists n. split; [|exact Hn]. cbn [ExprType.build]. rewrite Ea. cbn [bind]. rewrite Eb. exact En.
  - intros op a b s la tb lb r _ (na & Ea & Ha) _ (nb & Eb & Hb) L Vb O.
    assert (A : arith s /\ arith r).
    { destruct O as [O|(_ & Is & Ir)]; [apply arithmetic_op_arith in O; tauto|unfold arith; auto]. }
    destruct (assign_op_arith op na nb s la tb lb r Ha Hb L Vb (proj1 A) (proj2 A)) as (n & En & Hn).
    exists n. split; [|exact Hn]. cbn [ExprType.build]. rewrite Ea. cbn [bind]. rewrite Eb. exact En.
  - intros op a b t la tb lb r _ (na & Ea & Ha) _ (nb & Eb & Hb) L Vb Ir _.
    destruct (assign_op_ptr op na nb t la tb lb r Ha Hb L Vb (or_introl Ir)) as (n & En & Hn).
    exists n. split; [|exact Hn]. cbn [ExprType.build]. rewrite Ea. cbn [bind]. rewrite Eb. exact En.
  - (* comma *) intros a b ta la tb lb _ (na & Ea & Ha) _ (nb & Eb & Hb).
    destruct (comma_ok na nb ta la tb lb Ha Hb) as (n & En & Hn).
    exists n. split; [|exact Hn]. cbn [ExprType.build]. rewrite Ea. cbn [bind]. rewrite Eb. exact En.
  - exists []. split; [reflexivity|]. split; [reflexivity|constructor].
  - intros e t l k _ (n & En & Hn) _ (ns & Es & Ls & Fs). exists (n :: ns). cbn [build_all]. rewrite En. cbn [bind]. rewrite Es.
    split; [reflexivity|]. split; [cbn; congruence|]. constructor; [eauto|exact Fs].
Qed.

End Main.
