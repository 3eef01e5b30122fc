(** The tree built for an expression has the expression's type, value and
    effect. *)
From Verif Require Import Base Arch CTypesSpec ArithConv ArithConvSpec ConstConv ConstConvProofs
  ConstFold ConstFoldSpec ConstFoldProofs C08Props C09Props C30Props CExprSpec CExpr.

Ltac Zify.zify_post_hook ::= idtac.

(** * Conversions *)
Lemma convert_reduce m t v : t <> ST_BOOL -> convert m t v = reduce m t v.
Proof. intros N. unfold convert, reduce. destruct t; try reflexivity. contradiction. Qed.

Lemma convert_rep m t v : integer_type t -> representable m t (convert m t v).
Proof.
  intros I. destruct (st_eqb_spec t ST_BOOL) as [->|N].
  - unfold convert, representable, spec_min, spec_max. cbn. destruct (v =? 0); lia.
  - rewrite convert_reduce by auto. apply reduce_rep. split; auto.
Qed.
Lemma width_pos m t : integer_type t -> 1 <= spec_width m t <= 64.
Proof. intros I. repeat (destruct I as [<-|I]; [destruct m; cbn; lia|]). destruct I. Qed.
Lemma convert_id m t v : integer_type t -> representable m t v -> convert m t v = v.
Proof.
  intros I R. destruct (st_eqb_spec t ST_BOOL) as [->|N].
  - unfold representable, spec_min, spec_max in R. cbn in R. assert (v = 0 \/ v = 1) as [-> | ->] by lia; reflexivity.
  - rewrite convert_reduce by auto. apply (C08_conversion_unique m t); auto.
    + apply reduce_rep. split; auto.
    + apply reduce_range. split; auto.
Qed.
Lemma convert_mod m t a b k : integer_type t -> t <> ST_BOOL -> spec_width m t <= k ->
  a mod 2 ^ k = b mod 2 ^ k -> convert m t a = convert m t b.
Proof.
  intros I N K E. rewrite !convert_reduce by auto. apply (C08_conversion_unique m t); auto; try (apply reduce_rep; split; auto).
  rewrite (proj2 (reduce_range m t a (conj I N))), (proj2 (reduce_range m t b (conj I N))).
  pose proof (width_pos m t I) as W.
  assert (M : forall v, v mod 2 ^ spec_width m t = (v mod 2 ^ k) mod 2 ^ spec_width m t).
  { intros v. replace (2 ^ k) with (2 ^ spec_width m t * 2 ^ (k - spec_width m t)) by (rewrite <- Z.pow_add_r by lia; f_equal; lia).
    rewrite Z.rem_mul_r by (try apply Z.pow_nonzero; try apply Z.pow_pos_nonneg; lia).
    rewrite Z.mul_comm, Z.mod_add by (apply Z.pow_nonzero; lia). rewrite Z.mod_mod by (apply Z.pow_nonzero; lia). reflexivity. }
  rewrite (M a), (M b), E. reflexivity.
Qed.

(** * Facts about the types involved, System V *)
Definition covers (T L : simple_type) : Prop := spec_min SYSV T <= spec_min SYSV L /\ spec_max SYSV L <= spec_max SYSV T.

Ltac each_type H := repeat (destruct H as [<-|H]; [|]); try destruct H.
Lemma promote_facts L : integer_type L ->
  arithmetic_int SYSV (spec_promote SYSV L) /\ covers (spec_promote SYSV L) L /\
  spec_width SYSV L <= spec_width SYSV (spec_promote SYSV L) /\ spec_promote SYSV L <> ST_BOOL.
Proof.
  intros I. unfold arithmetic_int, integer_type, covers.
  each_type I; (split; [split; [vm_compute; tauto|vm_compute; tauto]|]);
    (split; [vm_compute; split; discriminate|]); (split; [vm_compute; discriminate|discriminate]).
Qed.
Lemma common_facts L R : integer_type L -> integer_type R ->
  let T := spec_promote SYSV L in let U := spec_common SYSV L R in
  arithmetic_int SYSV U /\ U <> ST_BOOL /\
  spec_width SYSV T <= spec_width SYSV U /\ spec_max SYSV T <= spec_max SYSV U /\
  (spec_signed U = true -> covers U T) /\ (spec_signed T = false -> spec_signed U = false -> covers U T) /\
  (spec_signed T = false -> spec_signed U = true -> spec_width SYSV T = 32 /\ spec_width SYSV U = 64).
Proof.
  intros I J T U. subst T U. unfold arithmetic_int, integer_type, covers.
  each_type I; each_type J; (split; [split; [vm_compute; tauto|vm_compute; tauto]|]); (split; [discriminate|]);
    (split; [vm_compute; discriminate|]); (split; [vm_compute; discriminate|]);
    (split; [vm_compute; intros; split; discriminate|]); (split; [vm_compute; intros; split; discriminate|]);
    vm_compute; intros; try discriminate; split; reflexivity.
Qed.
Lemma arith_wide m t : arithmetic_int m t -> integer_type t /\ t <> ST_BOOL.
Proof. intros [I W]. split; [exact I|]. intros ->. cbn in W. lia. Qed.

Lemma spec_common_promote L R : integer_type L -> integer_type R ->
  get_arithmetic_type SYSV (spec_promote SYSV L) (-1) (spec_promote SYSV R) (-1) = Ok (spec_common SYSV L R).
Proof.
  intros I J. pose proof (C09_common_type_sysv L R (or_introl I) (or_introl J)) as C.
  unfold common_type in C. rewrite (C09_promotion_sysv L (or_introl I)) in C. cbn [bind] in C.
  rewrite (C09_promotion_sysv R (or_introl J)) in C. exact C.
Qed.

(** * Values of constants *)
Lemma constant_bits t bits v : integer_type t -> 0 <= bits < 2 ^ 64 -> constant_value t bits = Ok v -> bits = wrap 64 v.
Proof.
  intros I B C. unfold constant_value in C. rewrite (proj2 (int_cases t I)) in C. cbn [bind] in C.
  destruct (spec_signed t); injection C as <-.
  - unfold int_d, wrap. rewrite signed_cong by lia. symmetry. apply Z.mod_small. exact B.
  - unfold wrap. symmetry. apply Z.mod_small. exact B.
Qed.
Lemma wrap_bound v : 0 <= wrap 64 v < 2 ^ 64.
Proof. apply Z.mod_pos_bound. reflexivity. Qed.
Lemma fold_bits m t op a b rt bits : integer_type t -> t <> ST_BOOL ->
  operators_constant m op t a t b = Ok (Some (rt, bits)) -> 0 <= bits < 2 ^ 64.
Proof.
  intros I N. unfold operators_constant. destruct (st_eqb_spec t t); [|contradiction]. destruct (int_cases t I) as [-> ->].
  cbn [negb bind]. destruct (spec_signed t).
  - destruct (match op with OP_DIV => _ | _ => _ end); [discriminate|].
    destruct (fold_signed op (int_d a) (int_d b)); [|discriminate|discriminate]. cbn [bind]. intros E. inversion E. apply wrap_bound.
  - destruct (fold_unsigned op a b) as [v| |]; [|discriminate|discriminate]. cbn [bind].
    destruct (returns_int op) eqn:RI; [intros E; inversion E; apply wrap_bound|].
    unfold operators_get_result_type. rewrite RI. rewrite normalize_spec by (split; auto). cbn [bind].
    intros E. inversion E. apply wrap_bound.
Qed.
Lemma fold_unary_bits m t op a rt bits : integer_type t -> t <> ST_BOOL ->
  operators_constant_unary m op t a = Ok (Some (rt, bits)) -> 0 <= bits < 2 ^ 64.
Proof.
  intros I N. unfold operators_constant_unary. destruct (int_cases t I) as [-> ->]. cbn [negb bind].
  destruct (spec_signed t).
  - destruct (match op with UOP_PLUS => _ | UOP_NEG => _ | UOP_BNOT => _ end); [|discriminate|discriminate].
    cbn [bind]. intros E. inversion E. apply wrap_bound.
  - rewrite normalize_spec by (split; auto). cbn [bind]. intros E. inversion E. apply wrap_bound.
Qed.

(** * The typed tree *)
Section Tree.
Variables (G : nat -> simple_type).
Local Notation m := SYSV.

Fixpoint t_reads (e : texpr) : list nat :=
  match e with
  | TConst _ _ => []
  | TVar _ x => [x]
  | TBin _ a b | TComma a b => t_reads a ++ t_reads b
  | TUn _ a | TCast _ a => t_reads a
  | TAssign _ b => t_reads b
  | TAssignOp _ _ a b => t_reads a ++ t_reads b
  end.
Definition t_target (a : texpr) : list nat := match a with TVar _ x => [x] | _ => [] end.
Fixpoint t_writes (e : texpr) : list nat :=
  match e with
  | TConst _ _ | TVar _ _ => []
  | TBin _ a b | TComma a b => t_writes a ++ t_writes b
  | TUn _ a | TCast _ a => t_writes a
  | TAssign a b | TAssignOp _ _ a b => t_target a ++ t_writes b
  end.

Fixpoint t_eval (e : texpr) (st : nat -> Z) : option (Z * (nat -> Z)) :=
  match e with
  | TConst t b => match constant_value t b with Ok v => Some (v, st) | _ => None end
  | TVar _ x => Some (st x, st)
  | TBin op a b =>
      match t_eval a st with
      | Some (va, st) =>
          match t_eval b st with
          | Some (vb, st) =>
              match c_binop m (type_of a) op va vb with Some v => Some (v, st) | None => None end
          | None => None
          end
      | None => None
      end
  | TUn op a =>
      match t_eval a st with
      | Some (va, st) => match c_unop m (type_of a) op va with Some v => Some (v, st) | None => None end
      | None => None
      end
  | TCast t a => match t_eval a st with Some (va, st) => Some (convert m t va, st) | None => None end
  | TAssign (TVar t x) b =>
      match t_eval b st with
      | Some (vb, st) => Some (convert m t vb, update st x (convert m t vb))
      | None => None
      end
  | TAssignOp op postfix (TVar t x) b =>
      match t_eval b st with
      | Some (vb, st) =>
          match c_binop m (type_of b) op (convert m (type_of b) (st x)) vb with
          | Some v => Some (if postfix then st x else convert m t v, update st x (convert m t v))
          | None => None
          end
      | None => None
      end
  | TComma a b => match t_eval a st with Some (_, st) => t_eval b st | None => None end
  | _ => None
  end.

(** What code generation relies on. *)
Fixpoint t_ok (e : texpr) : Prop :=
  match e with
  | TConst t b => integer_type t /\ exists v, representable m t v /\ b = wrap 64 v
  | TVar t x => t = G x /\ integer_type t
  | TBin op a b => t_ok a /\ t_ok b /\ arithmetic_int m (type_of a) /\ type_of b = type_of a /\
      (op = OP_DIV -> spec_signed (type_of a) = true) /\ (is_comparison op = true -> spec_width m (type_of a) = 32) /\
      apart (t_writes a) (t_reads b) /\ apart (t_writes a) (t_writes b) /\ apart (t_writes b) (t_reads a)
  | TUn _ a => t_ok a /\ arithmetic_int m (type_of a)
  | TCast t a => t_ok a /\ integer_type t
  | TAssign a b => t_ok b /\ (exists x, a = TVar (G x) x /\ ~ In x (t_writes b)) /\ integer_type (type_of a)
  | TAssignOp op _ a b => t_ok b /\ (exists x, a = TVar (G x) x /\ ~ In x (t_writes b)) /\
      integer_type (type_of a) /\ arithmetic_int m (type_of b) /\
      (op = OP_DIV -> spec_signed (type_of b) = true) /\ is_comparison op = false
  | TComma a b => t_ok a /\ t_ok b
  end.

(** Tree [t] does what C says [v, st'] with type [ty] and the given accesses. *)
Definition built (t : texpr) (ty : simple_type) (st : nat -> Z) (v : Z) (st' : nat -> Z) (R W : list nat) : Prop :=
  t_ok t /\ type_of t = ty /\ t_eval t st = Some (v, st') /\ t_reads t = R /\ t_writes t = W.

Lemma const_built t v st : integer_type t -> representable m t v -> built (TConst t (wrap 64 v)) t st v st [] [].
Proof.
  intros I R. split; [cbn; eauto|]. split; [reflexivity|]. split; [|split; reflexivity].
  cbn [t_eval]. rewrite (value_of_rep m) by auto. reflexivity.
Qed.
Lemma built_const t b ty st v st' R W : built (TConst t b) ty st v st' R W -> representable m ty v ->
  b = wrap 64 v /\ st' = st /\ R = [] /\ W = [] /\ t = ty /\ integer_type ty.
Proof.
  intros (OK & TY & E & <- & <-) RV. cbn in TY. subst t. destruct OK as [I (v0 & R0 & ->)]. cbn [t_eval] in E.
  rewrite (value_of_rep m) in E by auto. inversion E; subst. repeat split; auto.
Qed.

Lemma cast_built e t ty st v st' R W : built e ty st v st' R W -> integer_type ty -> integer_type t ->
  representable m ty v -> (t = ST_BOOL -> ty = ST_BOOL \/ R ++ W <> []) ->
  exists e', expression_cast m e t = Ok e' /\ built e' t st (convert m t v) st' R W.
Proof.
  intros B I J RV NB. pose proof B as (OK & TY & E & RR & WW). unfold expression_cast. rewrite TY.
  destruct (st_eqb_spec ty t) as [<-|N].
  - exists e. split; [reflexivity|]. rewrite convert_id by auto. exact B.
  - assert (D : (exists f b, e = TConst f b) \/ forall f b, e <> TConst f b) by (destruct e; eauto; right; discriminate).
    destruct D as [(f & b & ->)|D].
    + destruct (built_const _ _ _ _ _ _ _ _ B RV) as (-> & -> & -> & -> & -> & _).
      assert (NBT : t <> ST_BOOL).
      { intros ->. destruct (NB eq_refl) as [->|X]; [apply N; reflexivity|apply X; reflexivity]. }
      cbn [fold_constant]. rewrite cast_reduce by (auto; split; auto). cbn [bind].
      rewrite <- convert_reduce by auto. eexists. split; [reflexivity|]. apply const_built; auto. apply convert_rep; auto.
    + exists (TCast t e). split.
      * destruct e; try reflexivity. destruct (D t0 bits); reflexivity.
      * split; [split; auto|]. split; [reflexivity|]. cbn [t_eval t_reads t_writes]. rewrite E. auto.
Qed.

Lemma promote_built e ty st v st' R W : built e ty st v st' R W -> integer_type ty -> representable m ty v ->
  exists e', promote m e = Ok e' /\ built e' (spec_promote m ty) st (convert m (spec_promote m ty) v) st' R W.
Proof.
  intros B I RV. unfold promote. destruct B as (OK & TY & E & RR & WW). rewrite TY.
  rewrite (C09_promotion_sysv ty (or_introl I)). cbn [bind].
  destruct (promote_facts ty I) as (A & _ & _ & NB). apply (cast_built e _ ty); auto.
  all: try (apply A); try (intros X; contradiction). split; auto.
Qed.
Lemma promoted_value ty v : integer_type ty -> representable m ty v ->
  convert m (spec_promote m ty) v = v /\ representable m (spec_promote m ty) v.
Proof.
  intros I R. destruct (promote_facts ty I) as ([J _] & [C1 C2] & _).
  assert (RP : representable m (spec_promote m ty) v) by (unfold representable in *; lia).
  split; [apply convert_id; auto|exact RP].
Qed.

Lemma c_type_int e : well_typed m G e -> integer_type (c_type m G e).
Proof.
  assert (II : integer_type ST_INT) by (cbn; tauto).
  induction e; cbn [well_typed c_type]; try tauto.
  - intros [A B]. unfold working_type.
    destruct (promote_facts _ (IHe1 A)) as ([P _] & _). destruct (common_facts _ _ (IHe1 A) (IHe2 B)) as ([C _] & _).
    destruct op; cbn [is_shift c_result_type]; auto.
  - intros A. apply promote_facts. auto.
Qed.

Definition fine (st : nat -> Z) : Prop := forall x, integer_type (G x) -> representable m (G x) (st x).
Lemma fine_update st x v : fine st -> representable m (G x) v -> fine (update st x v).
Proof. intros F R y I. unfold update. destruct (Nat.eqb_spec y x) as [->|]; auto. Qed.

Lemma fit_rep T v w : integer_type T -> T <> ST_BOOL -> fit m T v = Some w -> representable m T w.
Proof.
  intros I N F. assert (B : c_binop m T OP_ADD v 0 = Some w) by (unfold c_binop, math_binop; rewrite Z.add_0_r; exact F).
  apply (c_binop_rep m T OP_ADD v 0 w (conj I N) B).
Qed.
Lemma c_unop_rep T op a v : integer_type T -> T <> ST_BOOL -> c_unop m T op a = Some v -> representable m T v.
Proof. intros I N. destruct op; cbn [c_unop]; apply fit_rep; auto. Qed.

Lemma compare_rep T op a b v : is_comparison op = true -> integer_type T -> T <> ST_BOOL ->
  c_binop m T op a b = Some v -> v = 0 \/ v = 1.
Proof.
  intros IC I N C. assert (M : exists x, math_binop m T op a b = Some x /\ (x = 0 \/ x = 1)).
  { destruct op; try discriminate IC; cbn [math_binop]; eexists; (split; [reflexivity|]);
      match goal with |- context[if ?c then _ else _] => destruct c end; auto. }
  destruct M as (x & MX & X). unfold c_binop in C. rewrite MX in C.
  assert (RX : representable m T x).
  { unfold representable, spec_min, spec_max. clear - X I N.
    repeat (destruct I as [<-|I]; [try contradiction; cbn; destruct X as [-> | ->]; lia|]). destruct I. }
  unfold fit in C. unfold representable, spec_min, spec_max in RX. destruct (spec_signed T) eqn:S.
  - unfold spec_min, spec_max in C. rewrite S in C. destruct (_ && _); [|discriminate]. inversion C; subst; auto.
  - rewrite Z.mod_small in C by lia. inversion C; subst; auto.
Qed.
Lemma operator_rep op ta tb a b v : integer_type ta -> integer_type tb ->
  c_operator m op ta tb a b = Some v -> representable m (c_result_type (working_type m op ta tb) op) v.
Proof.
  intros I J C. unfold c_operator in C. cbv zeta in C.
  assert (W : integer_type (working_type m op ta tb) /\ working_type m op ta tb <> ST_BOOL).
  { unfold working_type. destruct (promote_facts ta I) as (A & _). destruct (common_facts ta tb I J) as (B & _).
    destruct (is_shift op); [apply (arith_wide m); auto|apply (arith_wide m); auto]. }
  destruct W as [W N]. destruct (is_comparison op) eqn:IC.
  - replace (c_result_type _ op) with ST_INT by (destruct op; try discriminate IC; reflexivity).
    destruct (compare_rep _ _ _ _ _ IC W N C) as [-> | ->]; vm_compute; split; discriminate.
  - replace (c_result_type _ op) with (working_type m op ta tb) by (destruct op; try discriminate IC; reflexivity).
    apply (c_binop_rep m _ op _ _ v (conj W N) C).
Qed.

Lemma c_eval_fine e : forall st v st', well_typed m G e -> fine st -> c_eval m G e st = Some (v, st') ->
  fine st' /\ representable m (c_type m G e) v.
Proof.
  induction e; intros st v0 st' WT F E; cbn [well_typed c_eval c_type] in *.
  - inversion E; subst. tauto.
  - inversion E; subst. auto.
  - destruct WT as [WA WB]. destruct (c_eval m G e1 st) as [[va st1]|] eqn:EA; [|discriminate].
    destruct (c_eval m G e2 st1) as [[vb st2]|] eqn:EB; [|discriminate].
    destruct (c_operator m op (c_type m G e1) (c_type m G e2) va vb) as [w|] eqn:O; [|discriminate]. inversion E; subst.
    destruct (IHe1 _ _ _ WA F EA) as [F1 _]. destruct (IHe2 _ _ _ WB F1 EB) as [F2 _]. split; [exact F2|].
    apply (operator_rep op _ _ va vb); auto using c_type_int.
  - destruct (c_eval m G e st) as [[va st1]|] eqn:EA; [|discriminate].
    destruct (c_unop _ _ _ _) as [w|] eqn:O; [|discriminate]. inversion E; subst.
    destruct (IHe _ _ _ WT F EA) as [F1 _]. split; [exact F1|].
    destruct (promote_facts _ (c_type_int e WT)) as (A & _ & _ & NB). apply (c_unop_rep _ op (convert m (spec_promote m (c_type m G e)) va)); auto. apply A.
  - destruct WT as [I WT]. destruct (c_eval m G e st) as [[va st1]|] eqn:EA; [|discriminate]. inversion E; subst.
    split; [apply (IHe _ _ _ WT F EA)|apply convert_rep; auto].
  - destruct WT as [I WT]. destruct (c_eval m G e st) as [[va st1]|] eqn:EA; [|discriminate]. inversion E; subst.
    destruct (IHe _ _ _ WT F EA) as [F1 _].
    split; [apply fine_update; [exact F1|]|]; apply convert_rep; auto.
  - destruct WT as [I [WT NC]]. destruct (c_eval m G e st) as [[va st1]|] eqn:EA; [|discriminate].
    destruct (c_operator _ _ _ _ _ _) as [w|] eqn:O; [|discriminate]. inversion E; subst.
    destruct (IHe _ _ _ WT F EA) as [F1 _].
    split; [apply fine_update; [exact F1|apply convert_rep; auto]|].
    destruct postfix; [apply F1; auto|apply convert_rep; auto].
  - destruct WT as [WA WB]. destruct (c_eval m G e1 st) as [[va st1]|] eqn:EA; [|discriminate].
    destruct (IHe1 _ _ _ WA F EA) as [F1 _]. apply (IHe2 _ _ _ WB F1 E).
Qed.

(** Folding keeps what the node does. *)
Lemma fold_bin_built op a b T st v st' Ra Wa Rb Wb st1 va vb :
  built a T st va st1 Ra Wa -> built b T st1 vb st' Rb Wb -> arithmetic_int m T ->
  representable m T va -> representable m T vb -> c_binop m T op va vb = Some v ->
  (op = OP_DIV -> spec_signed T = true) -> (is_comparison op = true -> spec_width m T = 32) ->
  apart Wa Rb -> apart Wa Wb -> apart Wb Ra ->
  exists e, fold_constant m (TBin op a b) = Ok e /\ built e (c_result_type T op) st v st' (Ra ++ Rb) (Wa ++ Wb).
Proof.
  intros BA BB A RA RB C DV CM D1 D2 D3.
  destruct (arith_wide m T A) as [I N].
  assert (RT : operators_get_result_type op T = c_result_type T op) by (destruct op; reflexivity).
  assert (RV : representable m (c_result_type T op) v /\ integer_type (c_result_type T op)).
  { destruct (is_comparison op) eqn:IC.
    - replace (c_result_type _ op) with ST_INT by (destruct op; try discriminate IC; reflexivity).
      split; [|cbn; tauto]. destruct (compare_rep _ _ _ _ _ IC I N C) as [-> | ->]; vm_compute; split; discriminate.
    - replace (c_result_type _ op) with T by (destruct op; try discriminate IC; reflexivity).
      split; [|exact I]. apply (c_binop_rep m _ op _ _ v (conj I N) C). }
  assert (NODE : built (TBin op a b) (c_result_type T op) st v st' (Ra ++ Rb) (Wa ++ Wb)).
  { destruct BA as (OA & TA & EA & <- & <-). destruct BB as (OB & TB & EB & <- & <-).
    split; [cbn [t_ok]; rewrite TA, TB; repeat split; auto; apply A|]. split; [cbn [type_of]; rewrite TA; exact RT|].
    split; [|split; reflexivity]. cbn [t_eval]. rewrite EA, EB, TA, C. reflexivity. }
  assert (D : (exists ta x tb y, a = TConst ta x /\ b = TConst tb y) \/ fold_constant m (TBin op a b) = Ok (TBin op a b)).
  { destruct a; try (right; reflexivity). destruct b; try (right; reflexivity). left. do 4 eexists. split; reflexivity. }
  destruct D as [(ta & x & tb & y & -> & ->)|D]; [|eexists; split; [exact D|exact NODE]].
  destruct (built_const _ _ _ _ _ _ _ _ BA RA) as (-> & -> & -> & -> & -> & _).
  destruct (built_const _ _ _ _ _ _ _ _ BB RB) as (-> & -> & -> & -> & -> & _).
  cbn [fold_constant].
  destruct (fold_spec m T op va vb v (conj I N) RA RB C) as (bits & FO & CV). rewrite FO. cbn [bind fst snd].
  eexists. split; [reflexivity|]. pose proof (fold_bits m T op _ _ _ _ I N FO) as BB'.
  rewrite (constant_bits _ bits v (proj2 RV) BB' CV). cbn [app]. apply const_built; tauto.
Qed.

Lemma fold_un_built op a T st v st' R W va :
  built a T st va st' R W -> arithmetic_int m T -> representable m T va -> c_unop m T op va = Some v ->
  exists e, fold_constant m (TUn op a) = Ok e /\ built e T st v st' R W.
Proof.
  intros BA A RA C. destruct (arith_wide m T A) as [I N].
  assert (NODE : built (TUn op a) T st v st' R W).
  { destruct BA as (OA & TA & EA & <- & <-). split; [cbn [t_ok]; rewrite TA; auto|]. split; [exact TA|].
    split; [|split; reflexivity]. cbn [t_eval]. rewrite EA, TA, C. reflexivity. }
  assert (D : (exists ta x, a = TConst ta x) \/ fold_constant m (TUn op a) = Ok (TUn op a)).
  { destruct a; try (right; reflexivity). left. eauto. }
  destruct D as [(ta & x & ->)|D]; [|eexists; split; [exact D|exact NODE]].
  destruct (built_const _ _ _ _ _ _ _ _ BA RA) as (-> & -> & -> & -> & -> & _).
  cbn [fold_constant].
  destruct (fold_unary_spec m T op va v (conj I N) RA C) as (bits & FO & CV). rewrite FO. cbn [bind fst snd].
  eexists. split; [reflexivity|]. rewrite (constant_bits _ bits v I (fold_unary_bits m T op _ _ _ I N FO) CV).
  apply const_built; auto. apply (c_unop_rep T op va); auto.
Qed.

(** A shift count in range is the same in every arithmetic type. *)
Lemma count_convert T b : arithmetic_int m T -> 0 <= b < 64 -> convert m T b = b.
Proof.
  intros A B. apply convert_id; [apply A|]. destruct A as [I W]. unfold representable, spec_min, spec_max.
  clear - I W B. repeat (destruct I as [<-|I]; [cbn in W; cbn; lia|]). destruct I.
Qed.
Lemma shift_count_range T op a b v : is_shift op = true -> arithmetic_int m T -> c_binop m T op a b = Some v ->
  0 <= b < spec_width m T /\ spec_width m T <= 64.
Proof.
  intros S [_ W] C. assert (spec_width m T <= 64) by (destruct W as [-> | ->]; lia). split; [|assumption].
  unfold c_binop in C. destruct op; try discriminate S; cbn [math_binop] in C.
  - destruct ((0 <=? b) && (b <? spec_width m T) && (0 <=? a)) eqn:E; [|discriminate].
    apply andb_prop in E. destruct E as [E _]. apply andb_prop in E. destruct E as [E1 E2].
    apply Z.leb_le in E1. apply Z.ltb_lt in E2. lia.
  - destruct ((0 <=? b) && (b <? spec_width m T)) eqn:E; [|discriminate].
    apply andb_prop in E. destruct E as [E1 E2]. apply Z.leb_le in E1. apply Z.ltb_lt in E2. lia.
Qed.

(** A compound shift is done in the common type; converted back, the result is
    that of the promoted type. *)
Lemma shift_in_common L R op a b v : integer_type L -> integer_type R -> is_shift op = true -> representable m L a ->
  c_binop m (spec_promote m L) op (convert m (spec_promote m L) a) b = Some v ->
  (op = OP_RSHIFT -> spec_signed (spec_promote m L) = true -> spec_signed (spec_common m L R) = true) ->
  exists v', c_binop m (spec_common m L R) op (convert m (spec_common m L R) a) (convert m (spec_common m L R) b) = Some v' /\
    convert m L v' = convert m L v.
Proof.
  intros I J S RA C NS. destruct (promote_facts L I) as (AT & CT & WT & NBT).
  destruct (common_facts L R I J) as (AU & NBU & WU & MU & CU1 & CU2 & CW). cbv zeta in *.
  destruct (promoted_value L a I RA) as [VA RP]. rewrite VA in C.
  destruct (shift_count_range _ op _ _ _ S AT C) as [BR W64].
  assert (W64U : 32 <= spec_width m (spec_common m L R) <= 64) by (destruct AU as [_ [-> | ->]]; lia).
  rewrite (count_convert _ b AU) by lia.
  set (T := spec_promote m L) in *. set (U := spec_common m L R) in *.
  assert (PB : 0 < 2 ^ b) by (apply Z.pow_pos_nonneg; lia).
  assert (NEG : spec_signed T = true \/ 0 <= a).
  { unfold representable, spec_min in RP. destruct (spec_signed T); [auto|lia]. }
  destruct op; try discriminate S.
  - unfold c_binop in C. cbn [math_binop] in C.
    destruct ((0 <=? b) && (b <? spec_width m T) && (0 <=? a)) eqn:E; [|discriminate].
    apply andb_prop in E. destruct E as [E1 E2]. apply Z.leb_le in E2.
    assert (RU : representable m U a).
    { unfold representable in *. split; [|lia]. unfold spec_min. assert (0 < 2 ^ (spec_width m U - 1)) by (apply Z.pow_pos_nonneg; lia).
      destruct (spec_signed U); lia. }
    rewrite (convert_id m U a) by (auto; apply AU).
    unfold c_binop. cbn [math_binop].
    assert (E3 : (0 <=? b) && (b <? spec_width m U) && (0 <=? a) = true).
    { rewrite (proj2 (Z.leb_le 0 b)), (proj2 (Z.ltb_lt b _)), (proj2 (Z.leb_le 0 a)) by lia. reflexivity. }
    rewrite E3. clear E1 E3.
    set (p := a * 2 ^ b) in *. assert (PP : 0 <= p) by (apply Z.mul_nonneg_nonneg; lia).
    (* v is p, or p modulo the width of T *)
    assert (V : v = p /\ p <= spec_max m T \/ spec_signed T = false /\ v = p mod 2 ^ spec_width m T).
    { unfold fit in C. destruct (spec_signed T) eqn:ST.
      - destruct ((spec_min m T <=? p) && (p <=? spec_max m T)) eqn:F; [|discriminate]. inversion C; subst.
        apply andb_prop in F. destruct F as [_ F]. apply Z.leb_le in F. left. split; [reflexivity|exact F].
      - inversion C. right. auto. }
    assert (NB : L = ST_BOOL -> v = p /\ p <= spec_max m T).
    { intros ->. destruct V as [V|[V _]]; [exact V|]. discriminate V. }
    assert (U' : exists v', fit m U p = Some v' /\ (v' = p \/ v' = p mod 2 ^ spec_width m U) /\ (p <= spec_max m T -> v' = p)).
    { unfold fit. destruct (spec_signed U) eqn:SU.
      - assert (PM : spec_min m U <= p <= spec_max m U).
        { split; [unfold spec_min; rewrite SU; assert (0 < 2 ^ (spec_width m U - 1)) by (apply Z.pow_pos_nonneg; lia); lia|].
          destruct V as [[_ V]|[V _]]; [lia|]. destruct (CW V eq_refl) as [W1 W2].
          unfold spec_max at 1. rewrite SU, W2. unfold representable, spec_max in RP. rewrite V, W1 in RP.
          assert (2 ^ b <= 2 ^ 31) by (apply Z.pow_le_mono_r; lia).
          assert (p <= (2 ^ 32 - 1) * 2 ^ 31) by (unfold p; apply Z.mul_le_mono_nonneg; lia).
          change (2 ^ (64 - 1) - 1) with 9223372036854775807. change ((2 ^ 32 - 1) * 2 ^ 31) with 9223372034707292160 in H0. lia. }
        rewrite (proj2 (Z.leb_le _ _) (proj1 PM)), (proj2 (Z.leb_le _ _) (proj2 PM)). eexists. split; [reflexivity|]. auto.
      - eexists. split; [reflexivity|]. split; [auto|]. intros PM. apply Z.mod_small. split; [exact PP|].
        assert (spec_max m U < 2 ^ spec_width m U) by (unfold spec_max; rewrite SU; lia). lia. }
    destruct U' as (v' & F' & V' & VS). exists v'. split; [exact F'|].
    destruct (st_eqb_spec L ST_BOOL) as [EB|NBL].
    + destruct (NB EB) as [-> PM]. rewrite (VS PM). reflexivity.
    + apply (convert_mod m L v' v (spec_width m T)); auto.
      assert (MM : forall k, spec_width m T <= k -> (p mod 2 ^ k) mod 2 ^ spec_width m T = p mod 2 ^ spec_width m T).
      { intros k K. assert (WP : 0 <= spec_width m T) by lia. clear - K WP.
        replace (2 ^ k) with (2 ^ spec_width m T * 2 ^ (k - spec_width m T)) by (rewrite <- Z.pow_add_r by lia; f_equal; lia).
        rewrite Z.rem_mul_r by (try apply Z.pow_nonzero; try apply Z.pow_pos_nonneg; lia).
        rewrite Z.mul_comm, Z.mod_add by (apply Z.pow_nonzero; lia). rewrite Z.mod_mod by (apply Z.pow_nonzero; lia). reflexivity. }
      assert (V1 : v mod 2 ^ spec_width m T = p mod 2 ^ spec_width m T) by (destruct V as [[-> _]|[_ ->]]; [reflexivity|apply MM; lia]).
      assert (V2 : v' mod 2 ^ spec_width m T = p mod 2 ^ spec_width m T) by (destruct V' as [-> | ->]; [reflexivity|apply MM; lia]).
      congruence.
  - assert (RU : representable m U a).
    { unfold representable in *. destruct (spec_signed U) eqn:SU; [destruct (CU1 eq_refl); lia|].
      destruct (spec_signed T) eqn:ST; [specialize (NS eq_refl eq_refl); discriminate NS|]. destruct (CU2 eq_refl eq_refl); lia. }
    rewrite (convert_id m U a) by (auto; apply AU).
    unfold c_binop in *. cbn [math_binop] in *.
    rewrite (proj2 (Z.leb_le 0 b)), (proj2 (Z.ltb_lt b (spec_width m T))) in C by lia.
    rewrite (proj2 (Z.leb_le 0 b)), (proj2 (Z.ltb_lt b (spec_width m U))) by lia. cbn [andb] in *.
    assert (Q : forall X, representable m X a -> fit m X (a / 2 ^ b) = Some (a / 2 ^ b)).
    { intros X RX. unfold representable in RX. unfold fit.
      assert (LE : Z.min a 0 <= a / 2 ^ b <= Z.max a 0).
      { clear - PB. split.
        - destruct (Z.min_spec a 0) as [[H ->]|[H ->]]; [|apply Z.div_pos; lia]. apply Z.div_le_lower_bound; nia.
        - destruct (Z.max_spec a 0) as [[H ->]|[H ->]].
          + apply Z.lt_le_incl, Z.div_lt_upper_bound; lia.
          + apply Z.div_le_upper_bound; nia. }
      assert (spec_min m X <= 0 <= spec_max m X).
      { clear. unfold spec_min, spec_max. destruct (spec_signed X) eqn:SX.
        - assert (0 < 2 ^ (spec_width m X - 1)) by (apply Z.pow_pos_nonneg; [lia|]; destruct X; try discriminate SX; cbn; lia). lia.
        - assert (0 < 2 ^ spec_width m X) by (apply Z.pow_pos_nonneg; [lia|]; destruct X; cbn; lia). lia. }
      destruct (spec_signed X) eqn:SX.
      - rewrite (proj2 (Z.leb_le _ _)), (proj2 (Z.leb_le _ _)) by lia. reflexivity.
      - f_equal. unfold spec_max, spec_min in *. rewrite SX in *. apply Z.mod_small. lia. }
    rewrite Q in C by exact RP. inversion C; subst. exists (a / 2 ^ b). split; [apply Q; exact RU|reflexivity].
Qed.

Theorem elaborate_right e : forall st v st', well_typed m G e -> supported m G e -> sequenced e -> fine st ->
  c_eval m G e st = Some (v, st') ->
  exists t, elaborate m G e = Ok t /\ built t (c_type m G e) st v st' (reads e) (writes e).
Proof.
  induction e; intros st v0 st' WT SU SQ F E.
  - cbn [c_eval well_typed] in E, WT. inversion E; subst. eexists. split; [reflexivity|]. apply const_built; apply WT.
  - cbn [c_eval well_typed] in E, WT. inversion E; subst. eexists. split; [reflexivity|]. repeat split; auto.
  - cbn [well_typed supported sequenced c_eval] in *. destruct WT as [WA WB]. destruct SU as (SA & SB & DV & CM).
    destruct SQ as (QA & QB & D1 & D2 & D3).
    destruct (c_eval m G e1 st) as [[va st1]|] eqn:EA; [|discriminate].
    destruct (c_eval m G e2 st1) as [[vb st2]|] eqn:EB; [|discriminate].
    destruct (c_operator m op (c_type m G e1) (c_type m G e2) va vb) as [w|] eqn:O; [|discriminate]. inversion E; subst.
    destruct (c_eval_fine _ _ _ _ WA F EA) as [F1 RA]. destruct (c_eval_fine _ _ _ _ WB F1 EB) as [F2 RB].
    destruct (IHe1 _ _ _ WA SA QA F EA) as (ta & EE1 & B1). destruct (IHe2 _ _ _ WB SB QB F1 EB) as (tb & EE2 & B2).
    pose proof (c_type_int e1 WA) as I1. pose proof (c_type_int e2 WB) as I2.
    cbn [elaborate]. rewrite EE1. cbn [bind]. rewrite EE2. cbn [bind].
    destruct (promote_built _ _ _ _ _ _ _ B1 I1 RA) as (pa & EP1 & BP1).
    destruct (promote_built _ _ _ _ _ _ _ B2 I2 RB) as (pb & EP2 & BP2).
    rewrite EP1. cbn [bind]. rewrite EP2. cbn [bind].
    destruct (promoted_value _ _ I1 RA) as [VA RPA]. destruct (promoted_value _ _ I2 RB) as [VB RPB].
    rewrite VA in BP1. rewrite VB in BP2.
    destruct (promote_facts _ I1) as (AT1 & _ & _ & NB1). destruct (promote_facts _ I2) as (AT2 & _ & _ & NB2).
    cbn [c_type reads writes]. unfold c_operator, working_type in O. unfold working_type. cbv zeta in O.
    unfold fix_binary_operator. destruct (is_shift op) eqn:SH.
    + set (T := spec_promote m (c_type m G e1)) in *. rewrite VA in O.
      destruct (shift_count_range _ op _ _ _ SH AT1 O) as [CR W64].
      destruct (cast_built _ T _ _ _ _ _ _ BP2 (proj1 AT2) (proj1 AT1) RPB ltac:(intros; contradiction)) as (cb & EC & BC).
      rewrite (count_convert T vb AT1) in BC by lia.
      replace (type_of pa) with T by (symmetry; apply BP1).
      rewrite EC. cbn [bind fst snd].
      apply (fold_bin_built op pa cb T st v0 st' _ _ _ _ st1 va vb); auto.
      * destruct AT1 as [J W]. unfold representable, spec_min, spec_max. clear - J W CR W64.
        repeat (destruct J as [<-|J]; [cbn in W, CR; cbn; lia|]). destruct J.
      * intros ->. discriminate SH.
      * intros IC. destruct op; try discriminate SH; discriminate IC.
    + destruct (common_facts _ _ I1 I2) as (AU & NBU & _). cbv zeta in AU, NBU.
      set (U := spec_common m (c_type m G e1) (c_type m G e2)) in *.
      unfold convert_arithmetic. replace (type_of pa) with (spec_promote m (c_type m G e1)) by (symmetry; apply BP1).
      replace (type_of pb) with (spec_promote m (c_type m G e2)) by (symmetry; apply BP2).
      rewrite (spec_common_promote _ _ I1 I2). fold U. cbn [bind].
      destruct (cast_built _ U _ _ _ _ _ _ BP1 (proj1 AT1) (proj1 AU) RPA ltac:(intros; contradiction)) as (ca & EC1 & BC1).
      destruct (cast_built _ U _ _ _ _ _ _ BP2 (proj1 AT2) (proj1 AU) RPB ltac:(intros; contradiction)) as (cb & EC2 & BC2).
      rewrite EC1. cbn [bind]. rewrite EC2. cbn [bind fst snd].
      apply (fold_bin_built op ca cb U st v0 st' _ _ _ _ st1 (convert m U va) (convert m U vb)); auto; apply convert_rep; apply AU.
  - cbn [well_typed supported sequenced c_eval] in *.
    destruct (c_eval m G e st) as [[va st1]|] eqn:EA; [|discriminate].
    destruct (c_unop _ _ _ _) as [w|] eqn:O; [|discriminate]. inversion E; subst.
    destruct (c_eval_fine _ _ _ _ WT F EA) as [F1 RA]. destruct (IHe _ _ _ WT SU SQ F EA) as (ta & EE1 & B1).
    pose proof (c_type_int e WT) as I1. cbn [elaborate]. rewrite EE1. cbn [bind].
    destruct (promote_built _ _ _ _ _ _ _ B1 I1 RA) as (pa & EP1 & BP1). rewrite EP1. cbn [bind].
    destruct (promote_facts _ I1) as (AT1 & _ & _ & NB1).
    apply (fold_un_built op pa _ st v0 st' _ _ (convert m (spec_promote m (c_type m G e)) va)); auto. apply convert_rep, AT1.
  - cbn [well_typed supported sequenced c_eval] in *. destruct WT as [I WT]. destruct SU as [SU NB].
    destruct (c_eval m G e st) as [[va st1]|] eqn:EA; [|discriminate]. inversion E; subst.
    destruct (c_eval_fine _ _ _ _ WT F EA) as [F1 RA]. destruct (IHe _ _ _ WT SU SQ F EA) as (ta & EE1 & B1).
    cbn [elaborate]. rewrite EE1. cbn [bind]. apply (cast_built ta t (c_type m G e)); auto using c_type_int.
  - cbn [well_typed supported sequenced c_eval] in *. destruct WT as [I WT]. destruct SQ as [SQ NW].
    destruct (c_eval m G e st) as [[va st1]|] eqn:EA; [|discriminate]. inversion E; subst.
    destruct (IHe _ _ _ WT SU SQ F EA) as (ta & EE1 & (OK & TY & EV & RR & WW)).
    cbn [elaborate]. rewrite EE1. cbn [bind]. eexists. split; [reflexivity|].
    split; [cbn [t_ok]; split; [exact OK|]; split; [exists x; split; [reflexivity|congruence]|exact I]|].
    split; [reflexivity|]. cbn [t_eval t_reads t_writes t_target]. rewrite EV. split; [reflexivity|].
    split; [exact RR|]. cbn [app writes]. congruence.
  - cbn [well_typed supported sequenced c_eval] in *. destruct WT as (I & WT & NC). destruct SQ as [SQ NW].
    destruct SU as (SU & DV & SH).
    destruct (c_eval m G e st) as [[va st1]|] eqn:EA; [|discriminate].
    destruct (c_operator _ _ _ _ _ _) as [w|] eqn:O; [|discriminate]. inversion E; subst.
    destruct (c_eval_fine _ _ _ _ WT F EA) as [F1 RA]. destruct (IHe _ _ _ WT SU SQ F EA) as (tb & EE & BB).
    pose proof (c_type_int e WT) as J.
    cbn [elaborate]. rewrite EE. cbn [bind].
    assert (BV : built (TVar (G x) x) (G x) st1 (st1 x) st1 [x] []) by (repeat split; auto).
    pose proof (F1 x I) as RX.
    destruct (promote_built _ _ _ _ _ _ _ BV I RX) as (pa & EP1 & BP1).
    destruct (promote_built _ _ _ _ _ _ _ BB J RA) as (pb & EP2 & BP2).
    rewrite EP1. cbn [bind]. rewrite EP2. cbn [bind].
    destruct (promote_facts _ I) as (AT1 & _ & _ & NB1). destruct (promote_facts _ J) as (AT2 & _ & _ & NB2).
    destruct (common_facts _ _ I J) as (AU & NBU & _). cbv zeta in AU, NBU.
    set (U := spec_common m (G x) (c_type m G e)) in *.
    destruct (promoted_value _ _ J RA) as [VB RPB]. rewrite VB in BP2.
    destruct (cast_built _ U _ _ _ _ _ _ BP2 (proj1 AT2) (proj1 AU) RPB ltac:(intros; contradiction)) as (cb & EC2 & BC2).
    unfold fix_assignment_operators, convert_arithmetic.
    replace (type_of pa) with (spec_promote m (G x)) by (symmetry; apply BP1).
    replace (type_of pb) with (spec_promote m (c_type m G e)) by (symmetry; apply BP2).
    rewrite (spec_common_promote _ _ I J). fold U. cbn [bind].
    assert (ST : exists ca, expression_cast m pa U = Ok ca /\ strip_casts ca = TVar (G x) x).
    { unfold promote in EP1. cbn [type_of] in EP1. rewrite (C09_promotion_sysv _ (or_introl I)) in EP1.
      cbn [bind] in EP1. unfold expression_cast in EP1 |- *. cbn [type_of fold_constant] in EP1.
      destruct (st_eqb_spec (G x) (spec_promote m (G x))) as [E1|E1]; injection EP1 as <-.
      - cbn [type_of fold_constant]. destruct (st_eqb (G x) U); eexists; split; reflexivity.
      - cbn [type_of fold_constant]. destruct (st_eqb (spec_promote m (G x)) U); eexists; split; reflexivity. }
    destruct ST as (ca & EC1 & SC). rewrite EC1. cbn [bind]. rewrite EC2. cbn [bind fst snd]. rewrite SC.
    eexists. split; [reflexivity|]. destruct BC2 as (OK & TY & EV & RR & WW).
    split; [cbn [t_ok]; split; [exact OK|]; split; [exists x; split; [reflexivity|congruence]|];
            split; [exact I|]; rewrite TY; auto|].
    split; [reflexivity|]. cbn [t_eval t_reads t_writes t_target app reads writes]. rewrite EV, TY, RR, WW.
    assert (OP : exists v', c_binop m U op (convert m U (st1 x)) (convert m U va) = Some v' /\ convert m (G x) v' = convert m (G x) w).
    { unfold c_operator, working_type in O. cbv zeta in O. destruct (is_shift op) eqn:IS.
      - apply (shift_in_common (G x) (c_type m G e) op (st1 x) va w); auto.
      - exists w. split; [exact O|reflexivity]. }
    destruct OP as (v' & -> & CE). rewrite CE. auto.
  - cbn [well_typed supported sequenced c_eval] in *. destruct WT as [WA WB]. destruct SU as [SA SB]. destruct SQ as [QA QB].
    destruct (c_eval m G e1 st) as [[va st1]|] eqn:EA; [|discriminate].
    destruct (c_eval_fine _ _ _ _ WA F EA) as [F1 RA]. destruct (c_eval_fine _ _ _ _ WB F1 E) as [F2 RB].
    destruct (IHe1 _ _ _ WA SA QA F EA) as (ta & EE1 & B1). destruct (IHe2 _ _ _ WB SB QB F1 E) as (tb & EE2 & B2).
    cbn [elaborate]. rewrite EE1. cbn [bind]. rewrite EE2. cbn [bind].
    assert (NODE : built (TComma ta tb) (c_type m G (CComma e1 e2)) st v0 st' (reads (CComma e1 e2)) (writes (CComma e1 e2))).
    { destruct B1 as (OA & TA & VA & R1 & W1). destruct B2 as (OB & TB & VB & R2 & W2).
      split; [split; auto|]. split; [exact TB|]. split; [|split; cbn; congruence]. cbn [t_eval]. rewrite VA. exact VB. }
    assert (D : (exists f x g y, ta = TConst f x /\ tb = TConst g y) \/ fold_constant m (TComma ta tb) = Ok (TComma ta tb)).
    { destruct ta; try (right; reflexivity). destruct tb; try (right; reflexivity). left. do 4 eexists. split; reflexivity. }
    destruct D as [(f & x & g & y & -> & ->)|D]; [|eexists; split; [exact D|exact NODE]].
    destruct (built_const _ _ _ _ _ _ _ _ B1 RA) as (-> & -> & RE1 & WE1 & _).
    cbn [fold_constant]. eexists. split; [reflexivity|]. cbn [reads writes c_type].  rewrite RE1, WE1. exact B2.
Qed.
End Tree.
