From Verif Require Import Base Arch CTypesSpec ConstConv ConstConvProofs ConstFold ConstFoldSpec.
Ltac Zify.zify_post_hook ::= Z.div_mod_to_equations.

Lemma rep_i64 m t v : integer_type t -> spec_signed t = true -> representable m t v -> - 2 ^ 63 <= v < 2 ^ 63.
Proof.
  intros I S R. unfold representable, spec_min, spec_max in R. rewrite S in R.
  assert (W : 1 <= spec_width m t <= 64).
  { revert I. unfold integer_type. cbn. intros H. repeat (destruct H as [<-|H]; [destruct m; cbn; lia|]). contradiction. }
  pose proof (pow_bound (spec_width m t - 1) ltac:(lia)). change (2 ^ 63) with 9223372036854775808. lia.
Qed.
Lemma rep_u64 m t v : integer_type t -> spec_signed t = false -> representable m t v -> 0 <= v < 2 ^ 64.
Proof.
  intros I S R. unfold representable, spec_min, spec_max in R. rewrite S in R.
  assert (W : 1 <= spec_width m t <= 64).
  { revert I. unfold integer_type. cbn. intros H. repeat (destruct H as [<-|H]; [destruct m; cbn; lia|]). contradiction. }
  pose proof (pow_w_le (spec_width m t) ltac:(lia)). change (2 ^ 64) with 18446744073709551616. lia.
Qed.
Lemma i64_ok v : - 2 ^ 63 <= v < 2 ^ 63 -> i64 v = Ok v.
Proof. intros. unfold i64. rewrite (proj2 (Z.leb_le _ _)), (proj2 (Z.ltb_lt _ _)) by lia. reflexivity. Qed.
Lemma int_d_rep m t v : integer_type t -> spec_signed t = true -> representable m t v -> int_d (wrap 64 v) = v.
Proof.
  intros I S R. pose proof (value_of_rep m t v I R) as V. unfold constant_value in V.
  rewrite (proj2 (int_cases t I)), S in V. cbn [bind] in V. congruence.
Qed.

Lemma fold_signed_spec m t op a b v : wide_type t -> spec_signed t = true ->
  representable m t a -> representable m t b -> c_binop m t op a b = Some v ->
  fold_signed op a b = Ok v /\ match op with OP_DIV => b <> 0 | _ => True end.
Proof.
  intros W S Ra Rb C. pose proof W as [I _]. destruct (width_cases m t W) as [Wd _].
  pose proof (rep_i64 m t a I S Ra) as Ia. pose proof (rep_i64 m t b I S Rb) as Ib.
  unfold c_binop in C. destruct (math_binop m t op a b) as [x|] eqn:M; [|discriminate].
  unfold fit in C. rewrite S in C.
  destruct ((spec_min m t <=? x) && (x <=? spec_max m t)) eqn:G; [|discriminate]. inversion C; subst x; clear C.
  apply andb_prop in G. destruct G as [G1 G2]. apply Z.leb_le in G1, G2.
  assert (Iv : - 2 ^ 63 <= v < 2 ^ 63) by (apply (rep_i64 m t v I S); split; auto).
  destruct op; cbn [math_binop fold_signed] in *; try (inversion M; subst v; split; auto; reflexivity).
  - destruct ((0 <=? b) && (b <? spec_width m t) && (0 <=? a)) eqn:G; [|discriminate]. inversion M; subst v; clear M.
    apply andb_prop in G. destruct G as [G G5]. apply andb_prop in G. destruct G as [G3 G4].
    apply Z.leb_le in G3, G5. apply Z.ltb_lt in G4. split; auto. unfold shl_i64.
    rewrite (proj2 (Z.ltb_ge b 0)), (proj2 (Z.leb_gt 64 b)), (proj2 (Z.ltb_ge a 0)) by lia. cbn [orb].
    rewrite Z.shiftl_mul_pow2 by lia. apply i64_ok; auto.
  - destruct ((0 <=? b) && (b <? spec_width m t)) eqn:G; [|discriminate]. inversion M; subst v; clear M.
    apply andb_prop in G. destruct G as [G3 G4]. apply Z.leb_le in G3. apply Z.ltb_lt in G4. split; auto. unfold shr_i64.
    rewrite (proj2 (Z.ltb_ge b 0)), (proj2 (Z.leb_gt 64 b)) by lia. cbn [orb]. rewrite Z.shiftr_div_pow2 by lia. reflexivity.
  - inversion M; subst v. split; auto. apply i64_ok; auto.
  - inversion M; subst v. split; auto. apply i64_ok; auto.
  - inversion M; subst v. split; auto. apply i64_ok; auto.
  - destruct (Z.eqb_spec b 0); [discriminate|]. inversion M; subst v. split; auto. unfold div_i64.
    rewrite (proj2 (Z.eqb_neq b 0)) by auto. apply i64_ok; auto.
  - destruct (Z.eqb_spec b 0); [discriminate|]. rewrite S in M. cbn [andb] in M.
    destruct (Z.eqb_spec (Z.quot a b) (spec_max m t + 1)); [discriminate|]. inversion M; subst v. split; auto.
    unfold mod_i64. rewrite (proj2 (Z.eqb_neq b 0)) by auto.
    destruct (Z.eqb_spec a (- 2 ^ 63)); destruct (Z.eqb_spec b (-1)); cbn [andb]; auto.
    exfalso. subst a b. apply n0. unfold representable, spec_min, spec_max in *. rewrite S in *.
    assert (spec_width m t = 64).
    { destruct (Z.eq_dec (spec_width m t) 64); auto. exfalso.
      assert (2 ^ (spec_width m t - 1) < 2 ^ 63) by (apply Z.pow_lt_mono_r; lia). lia. }
    rewrite H. reflexivity.
  - inversion M; subst v. split; auto. rewrite Z.gtb_ltb. reflexivity.
  - inversion M; subst v. split; auto. rewrite Z.geb_leb. reflexivity.
  - inversion M; subst v. split; auto. destruct (a =? b); reflexivity.
Qed.

Lemma mod_reduce m t v : wide_type t -> spec_signed t = false -> reduce m t v = v mod 2 ^ spec_width m t.
Proof. intros W S. unfold reduce. rewrite S. reflexivity. Qed.

Lemma fold_unsigned_spec m t op a b v : wide_type t -> spec_signed t = false ->
  representable m t a -> representable m t b -> c_binop m t op a b = Some v ->
  exists x, fold_unsigned op a b = Ok x /\
    (if returns_int op then x = v /\ (v = 0 \/ v = 1) else reduce m t x = v).
Proof.
  intros W S Ra Rb C. pose proof W as [I _]. destruct (width_cases m t W) as [Wd _].
  pose proof (rep_u64 m t a I S Ra) as Ia. pose proof (rep_u64 m t b I S Rb) as Ib.
  unfold representable, spec_min, spec_max in Ra, Rb. rewrite S in Ra, Rb.
  unfold c_binop in C. destruct (math_binop m t op a b) as [x|] eqn:M; [|discriminate].
  unfold fit in C. rewrite S in C. inversion C; subst v; clear C.
  assert (P8 : 256 <= 2 ^ spec_width m t) by (change 256 with (2 ^ 8); apply Z.pow_le_mono_r; lia).
  assert (Rel : forall c : bool, (if c then 1 else 0) = (if c then 1 else 0) mod 2 ^ spec_width m t /\
    ((if c then 1 else 0) mod 2 ^ spec_width m t = 0 \/ (if c then 1 else 0) mod 2 ^ spec_width m t = 1)).
  { intros c. rewrite Z.mod_small by (destruct c; lia). split; auto. destruct c; auto. }
  destruct op; cbn [math_binop fold_unsigned returns_int] in *;
    try (inversion M; subst x; eexists; split; [reflexivity|]; rewrite mod_reduce by auto; reflexivity);
    try (inversion M; subst x; eexists; split; [reflexivity|]; rewrite mod_reduce, mod_wrap_le by (auto; lia); reflexivity).
  - destruct ((0 <=? b) && (b <? spec_width m t) && (0 <=? a)) eqn:G; [|discriminate]. inversion M; subst x; clear M.
    apply andb_prop in G. destruct G as [G G5]. apply andb_prop in G. destruct G as [G3 G4].
    apply Z.leb_le in G3, G5. apply Z.ltb_lt in G4.
    rewrite (proj2 (Z.leb_gt 64 b)) by lia. eexists; split; [reflexivity|].
    rewrite mod_reduce, mod_wrap_le by (auto; lia). rewrite Z.shiftl_mul_pow2 by lia. reflexivity.
  - destruct ((0 <=? b) && (b <? spec_width m t)) eqn:G; [|discriminate]. inversion M; subst x; clear M.
    apply andb_prop in G. destruct G as [G3 G4]. apply Z.leb_le in G3. apply Z.ltb_lt in G4.
    rewrite (proj2 (Z.leb_gt 64 b)) by lia. eexists; split; [reflexivity|].
    rewrite mod_reduce by auto. rewrite Z.shiftr_div_pow2 by lia. reflexivity.
  - destruct (Z.eqb_spec b 0); [discriminate|]. inversion M; subst x. eexists; split; [reflexivity|].
    rewrite mod_reduce by auto. rewrite Z.quot_div_nonneg by lia. reflexivity.
  - destruct (Z.eqb_spec b 0); [discriminate|]. rewrite S in M. cbn [andb] in M. inversion M; subst x. eexists; split; [reflexivity|].
    rewrite mod_reduce by auto. rewrite Z.rem_mod_nonneg by lia. reflexivity.
  - inversion M; subst x. eexists; split; [reflexivity|]. apply (Rel (a <? b)).
  - inversion M; subst x. eexists; split; [reflexivity|]. rewrite Z.gtb_ltb. apply (Rel (b <? a)).
  - inversion M; subst x. eexists; split; [reflexivity|]. apply (Rel (a <=? b)).
  - inversion M; subst x. eexists; split; [reflexivity|]. rewrite Z.geb_leb. apply (Rel (b <=? a)).
  - inversion M; subst x. eexists; split; [reflexivity|]. apply (Rel (a =? b)).
  - inversion M; subst x. eexists; split; [reflexivity|]. pose proof (Rel (negb (a =? b))). destruct (a =? b); exact H.
Qed.

Lemma reduce_rep m t v : wide_type t -> representable m t (reduce m t v).
Proof. intros. apply reduce_range; auto. Qed.

Lemma c_binop_rep m t op a b v : wide_type t -> c_binop m t op a b = Some v -> representable m t v.
Proof.
  intros W C. unfold c_binop in C. destruct (math_binop m t op a b); [|discriminate]. unfold fit in C.
  destruct (width_cases m t W) as [Wd _]. unfold representable.
  destruct (spec_signed t) eqn:S.
  - destruct ((spec_min m t <=? z) && (z <=? spec_max m t)) eqn:G; [|discriminate]. inversion C; subst.
    apply andb_prop in G. destruct G as [G1 G2]. apply Z.leb_le in G1, G2. lia.
  - inversion C; subst. unfold spec_min, spec_max. rewrite S.
    assert (0 <= z mod 2 ^ spec_width m t < 2 ^ spec_width m t) by (apply Z.mod_pos_bound, Z.pow_pos_nonneg; lia). lia.
Qed.

Lemma fold_spec m t op a b v : wide_type t -> representable m t a -> representable m t b ->
  c_binop m t op a b = Some v ->
  exists bits, operators_constant m op t (wrap 64 a) t (wrap 64 b) = Ok (Some (c_result_type t op, bits)) /\
    constant_value (c_result_type t op) bits = Ok v.
Proof.
  intros W Ra Rb C. pose proof W as [I _]. destruct (int_cases t I) as [Ii Is].
  unfold operators_constant. destruct (st_eqb_spec t t); [|contradiction]. rewrite Ii. cbn [negb].
  rewrite Is. cbn [bind].
  assert (RT : operators_get_result_type op t = c_result_type t op) by (destruct op; reflexivity). rewrite RT.
  pose proof (c_binop_rep m t op a b v W C) as Rv.
  destruct (spec_signed t) eqn:S.
  - rewrite !(int_d_rep m t) by auto. destruct (fold_signed_spec m t op a b v W S Ra Rb C) as [F G]. rewrite F.
    assert (E : match op with OP_DIV => b =? 0 | _ => false end = false) by (destruct op; auto; apply Z.eqb_neq; auto).
    rewrite E. cbn [bind]. exists (wrap 64 v). split; auto.
    destruct (returns_int op) eqn:RI.
    + assert (v = 0 \/ v = 1).
      { destruct op; try discriminate RI; cbn [fold_signed] in F; injection F as <-; unfold b2z; (match goal with |- context [if ?c then _ else _] => destruct c end); auto. }
      destruct op; try discriminate RI; cbn [c_result_type]; destruct H as [->| ->]; reflexivity.
    + replace (c_result_type t op) with t by (destruct op; auto; discriminate RI). apply (value_of_rep m); auto.
  - assert (Wa : wrap 64 a = a) by (unfold wrap; apply Z.mod_small, (rep_u64 m t a I S Ra)).
    assert (Wb : wrap 64 b = b) by (unfold wrap; apply Z.mod_small, (rep_u64 m t b I S Rb)).
    rewrite Wa, Wb. destruct (fold_unsigned_spec m t op a b v W S Ra Rb C) as [x [F G]]. rewrite F. cbn [bind].
    destruct (returns_int op) eqn:RI.
    + destruct G as [-> G]. exists (wrap 64 v). split; auto.
      destruct op; try discriminate RI; cbn [c_result_type]; destruct G as [->| ->]; reflexivity.
    + replace (c_result_type t op) with t by (destruct op; auto; discriminate RI).
      rewrite normalize_spec by auto. cbn [bind]. rewrite G. exists (wrap 64 v). split; auto. apply (value_of_rep m); auto.
Qed.

Lemma fold_unary_spec m t op a v : wide_type t -> representable m t a -> c_unop m t op a = Some v ->
  exists bits, operators_constant_unary m op t (wrap 64 a) = Ok (Some (t, bits)) /\ constant_value t bits = Ok v.
Proof.
  intros W Ra C. pose proof W as [I _]. destruct (int_cases t I) as [Ii Is]. destruct (width_cases m t W) as [Wd _].
  unfold operators_constant_unary. rewrite Ii. cbn [negb]. rewrite Is. cbn [bind].
  destruct (spec_signed t) eqn:S.
  - rewrite (int_d_rep m t) by auto.
    assert (Rv : representable m t v /\ v = match op with UOP_PLUS => a | UOP_NEG => - a | UOP_BNOT => - a - 1 end).
    { unfold c_unop, fit in C. rewrite S in C. unfold representable. destruct op;
      (match type of C with (if ?b then _ else _) = _ => destruct b eqn:G end; [|discriminate]);
      apply andb_prop in G; destruct G as [G1 G2]; apply Z.leb_le in G1, G2; inversion C; subst; (split; [lia|reflexivity]). }
    destruct Rv as [Rv Ev]. exists (wrap 64 v). split; [|apply (value_of_rep m); auto].
    destruct op; cbn [bind]; subst v; auto.
    rewrite i64_ok by (apply (rep_i64 m t); auto). reflexivity.
  - pose proof (rep_u64 m t a I S Ra) as Ia.
    assert (Wa : wrap 64 a = a) by (unfold wrap; apply Z.mod_small; auto). rewrite Wa.
    assert (Ev : v = match op with UOP_PLUS => a | UOP_NEG => - a | UOP_BNOT => - a - 1 end mod 2 ^ spec_width m t).
    { unfold c_unop, fit in C. rewrite S in C. destruct op; inversion C; auto. }
    assert (Rv : representable m t v).
    { subst v. unfold representable, spec_min, spec_max. rewrite S.
      match goal with |- context [?x mod ?y] => assert (0 <= x mod y < y) by (apply Z.mod_pos_bound, Z.pow_pos_nonneg; lia) end. lia. }
    rewrite normalize_spec by auto. cbn [bind]. exists (wrap 64 v). split; [|apply (value_of_rep m); auto].
    rewrite mod_reduce by auto. subst v. destruct op; auto; rewrite ?mod_wrap_le by lia; auto.
Qed.

(** Bitwise operators are always defined. *)
Lemma shiftr_m1 v k : 0 <= k -> (- 2 ^ k <= v < 2 ^ k <-> Z.shiftr v k = 0 \/ Z.shiftr v k = -1).
Proof.
  intros. rewrite Z.shiftr_div_pow2 by lia. assert (0 < 2 ^ k) by (apply Z.pow_pos_nonneg; lia).
  set (p := 2 ^ k) in *. clearbody p. split; intros.
  - destruct (Z.lt_ge_cases v 0); [right|left].
    + symmetry. apply (Z.div_unique v p (-1) (v + p)); lia.
    + apply Z.div_small; lia.
  - pose proof (Z.div_mod v p ltac:(lia)). pose proof (Z.mod_pos_bound v p ltac:(lia)). destruct H1 as [E|E]; rewrite E in *; lia.
Qed.
Lemma bitwise_defined m t op a b : wide_type t -> representable m t a -> representable m t b ->
  In op [OP_BXOR; OP_BOR; OP_BAND] -> c_binop m t op a b <> None.
Proof.
  intros W Ra Rb H. destruct (width_cases m t W) as [Wd _]. unfold c_binop, fit, representable, spec_min, spec_max in *.
  destruct (spec_signed t) eqn:S; [|cbn in H; destruct H as [<-|[<-|[<-|[]]]]; discriminate].
  set (k := spec_width m t - 1) in *. assert (K : 0 <= k) by lia.
  pose proof (proj1 (shiftr_m1 a k K) ltac:(lia)) as Sa. pose proof (proj1 (shiftr_m1 b k K) ltac:(lia)) as Sb.
  assert (G : forall v, Z.shiftr v k = 0 \/ Z.shiftr v k = -1 ->
    (if (- 2 ^ k <=? v) && (v <=? 2 ^ k - 1) then Some v else None) <> None).
  { intros v V. apply (shiftr_m1 v k K) in V. rewrite (proj2 (Z.leb_le _ _)), (proj2 (Z.leb_le _ _)) by lia. discriminate. }
  cbn in H. destruct H as [<-|[<-|[<-|[]]]]; cbn [math_binop]; apply G.
  - rewrite Z.shiftr_lxor. destruct Sa as [->| ->], Sb as [->| ->]; auto.
  - rewrite Z.shiftr_lor. destruct Sa as [->| ->], Sb as [->| ->]; auto.
  - rewrite Z.shiftr_land. destruct Sa as [->| ->], Sb as [->| ->]; auto.
Qed.
