From Coq Require Import String.
From Verif Require Import Base CharTypes Arch CTypesSpec IntLit IntLitSpec.
Ltac Zify.zify_post_hook ::= Z.div_mod_to_equations.

Definition to_base (r : radix) : base :=
  match r with Dec => BASE_DECIMAL | Oct => BASE_OCTAL | Hex => BASE_HEXADECIMAL | Bin => BASE_BINARY end.

Lemma digit_char_ok r c : In c (digit_chars r) ->
  digit_ok (to_base r) c = true /\ digit_add c = digit_value c /\ 0 <= digit_value c < radix_num r.
Proof.
  intros H.
  assert (G : forall r', forallb (fun c => digit_ok (to_base r') c && (digit_add c =? digit_value c)
     && (0 <=? digit_value c) && (digit_value c <? radix_num r')) (digit_chars r') = true)
    by (intros []; vm_compute; reflexivity).
  specialize (G r). rewrite forallb_forall in G. specialize (G c H).
  apply andb_prop in G. destruct G as [G G4]. apply andb_prop in G. destruct G as [G G3].
  apply andb_prop in G. destruct G as [G1 G2].
  apply Z.eqb_eq in G2. apply Z.leb_le in G3. apply Z.ltb_lt in G4. auto.
Qed.

Lemma digits_value_acc r ds : forall acc, 0 <= acc -> Forall (fun c => In c (digit_chars r)) ds ->
  0 <= fold_left (fun a c => a * radix_num r + digit_value c) ds acc.
Proof.
  induction ds as [|d ds IH]; intros acc A F; [auto|]. inversion F; subst. cbn [fold_left].
  apply IH; auto. destruct (digit_char_ok r d) as [_ [_ ?]]; auto.
  assert (0 <= acc * radix_num r) by (apply Z.mul_nonneg_nonneg; [auto|destruct r; cbn; lia]). lia.
Qed.

Lemma digits_loop_spec r ds suf : 
  Forall (fun c => In c (digit_chars r)) ds ->
  match suf with [] => True | c :: _ => digit_ok (to_base r) c = false end ->
  forall acc, digits_loop (to_base r) (ds ++ suf) (wrap 64 acc)
   = (wrap 64 (fold_left (fun a c => a * radix_num r + digit_value c) ds acc), suf).
Proof.
  intros F S. induction F as [|d ds H F IH]; intros acc.
  - cbn [app fold_left]. destruct suf as [|c suf]; [reflexivity|]. cbn [digits_loop]. rewrite S. reflexivity.
  - destruct (digit_char_ok r d H) as [D1 [D2 D3]]. cbn [app digits_loop fold_left]. rewrite D1, D2.
    replace (base_mul (to_base r)) with (radix_num r) by (destruct r; reflexivity).
    replace (wrap 64 (wrap 64 (wrap 64 acc * radix_num r) + digit_value d)) with (wrap 64 (acc * radix_num r + digit_value d)).
    + apply IH.
    + unfold wrap. rewrite Z.add_mod_idemp_l by lia. rewrite <- (Z.add_mod_idemp_l (acc mod _ * _)) by lia.
      rewrite Z.mul_mod_idemp_l by lia. rewrite Z.add_mod_idemp_l by lia. reflexivity.
Qed.

(** Suffix letters are no digits and are accepted by is_float. *)
Lemma suffix_facts s u : In (s, u) suffixes ->
  forallb ul_char s = true /\
  (forall r, match s with [] => True | c :: _ => digit_ok (to_base r) c = false end) /\
  (forall h, skip_digits h s = s) /\
  (match s with [] => True | c :: _ => ((c =? 120) || (c =? 88)) = false /\ ((c =? 98) || (c =? 66)) = false end).
Proof.
  cbn [In suffixes]. intros H.
  repeat (destruct H as [H|H]; [inversion H; subst; clear H; cbn [chars]; repeat split; try (intros []; reflexivity); try reflexivity|]).
  contradiction.
Qed.

Lemma skip_digits_spec r ds suf (h : bool) : Forall (fun c => In c (digit_chars r)) ds ->
  (r = Hex -> h = true) -> skip_digits h (ds ++ suf) = skip_digits h suf.
Proof.
  intros F Hh. induction F as [|d ds H F IH]; [reflexivity|].
  cbn [app skip_digits]. 
  assert (E : between d 48 57 || (h && between d 97 102) || (h && between d 65 70) = true).
  { destruct (digit_char_ok r d H) as [D _]. destruct r; cbn [to_base digit_ok] in D; unfold between in *.
    - rewrite D. reflexivity.
    - apply andb_prop in D. destruct D as [D1 D2]. rewrite D1. apply Z.leb_le in D2.
      rewrite (proj2 (Z.leb_le d 57)) by lia. reflexivity.
    - rewrite Hh by auto. cbn [andb]. exact D.
    - apply andb_prop in D. destruct D as [D1 D2]. rewrite D1. apply Z.leb_le in D2.
      rewrite (proj2 (Z.leb_le d 57)) by lia. reflexivity. }
  rewrite E. exact IH.
Qed.

Lemma select_spec m r s u v : In (s, u) suffixes -> 0 <= v < 2 ^ 64 ->
  (let* a := suffix_loop s {| allow_unsigned := match to_base r with BASE_DECIMAL => false | _ => true end;
                               allow_signed := true; allow_int := true; allow_long := true |} in
   let* t := select_type m v a in Ok (Some (t, v)))
  = match literal_type m r u v with Some t => Ok (Some (t, v)) | None => Fail end.
Proof.
  intros H Hv. change (2 ^ 64) with 18446744073709551616 in Hv.
  assert (E : forall a, select_type m v a =
    (if (v <=? 2147483647) && allow_int a && allow_signed a then Ok ST_INT
     else if (v <=? 4294967295) && allow_int a && allow_unsigned a then Ok ST_UINT
     else if (v <=? spec_max m ST_LONG) && allow_long a && allow_signed a then Ok ST_LONG
     else if (v <=? spec_max m ST_ULONG) && allow_long a && allow_unsigned a then Ok ST_ULONG
     else if (v <=? 9223372036854775807) && allow_signed a then Ok ST_LLONG
     else if (v <=? 18446744073709551615) && allow_unsigned a then Ok ST_ULLONG else Fail)).
  { intros a. destruct m; reflexivity. }
  cbn [In suffixes] in H.
  repeat (destruct H as [H|H]; [inversion H; subst; clear H; cbn [chars suffix_loop bind];
    destruct r; cbn -[Z.leb spec_max select_type literal_type]; rewrite E; clear E;
    unfold literal_type; cbn [candidates find allow_int allow_signed allow_unsigned allow_long];
    change (spec_max m ST_INT) with 2147483647; change (spec_max m ST_UINT) with 4294967295;
    change (spec_max m ST_LLONG) with 9223372036854775807; change (spec_max m ST_ULLONG) with 18446744073709551615;
    rewrite ?andb_true_r, ?andb_false_r; cbn [andb];
    repeat match goal with |- context [if ?b then _ else _] => destruct b end; reflexivity|]).
  contradiction.
Qed.

Lemma not_float r text ds s u : literal r text ds -> In (s, u) suffixes -> is_float (text ++ s) = false.
Proof.
  intros L H. destruct (suffix_facts s u H) as [S1 [_ [S3 S4]]].
  unfold is_float. inversion L; subst; clear L; cbn [app].
  - assert (D : (d =? 48) = false) by (destruct (Z.eqb_spec d 48); auto; subst; cbn in H0; intuition lia).
    assert (Dd : In d (digit_chars Dec)) by (cbn in *; intuition).
    rewrite D. cbn [andb].
    assert (Y : negb (forallb ul_char (skip_digits false (d :: ds0 ++ s))) = false).
    { change (d :: ds0 ++ s) with ((d :: ds0) ++ s). rewrite (skip_digits_spec Dec) by (try constructor; auto; discriminate).
      rewrite S3, S1. auto. }
    destruct (ds0 ++ s); exact Y.
  - assert (Y : negb (forallb ul_char (skip_digits false (48 :: ds0 ++ s))) = false).
    { change (48 :: ds0 ++ s) with ((48 :: ds0) ++ s). rewrite (skip_digits_spec Oct); [rewrite S3, S1; auto| |discriminate].
      constructor; auto. cbn; intuition. }
    destruct (ds0 ++ s) as [|x t] eqn:E; [exact Y|].
    change (48 =? 48) with true. cbn [andb].
    assert (X : ((x =? 120) || (x =? 88)) = false /\ ((x =? 98) || (x =? 66)) = false).
    { destruct ds0 as [|y ds0]; cbn [app] in E.
      - subst s. exact S4.
      - inversion E; subst. inversion H0; subst. clear -H3. cbn in H3.
        repeat (destruct H3 as [H3|H3]; [subst; split; reflexivity|]). contradiction. }
    destruct X as [-> ->]. exact Y.
  - change (48 =? 48) with true. cbn [andb].
    assert (X : ((x =? 120) || (x =? 88)) = true) by (cbn in H0; destruct H0 as [<-|[<-|[]]]; reflexivity).
    rewrite X. rewrite (skip_digits_spec Hex) by auto. rewrite S3, S1. auto.
  - change (48 =? 48) with true. cbn [andb].
    assert (X : ((x =? 120) || (x =? 88)) = false /\ ((x =? 98) || (x =? 66)) = true)
      by (cbn in H0; destruct H0 as [<-|[<-|[]]]; split; reflexivity).
    destruct X as [-> ->]. rewrite (skip_digits_spec Bin) by (auto; discriminate). rewrite S3, S1. auto.
Qed.

Lemma find_base_spec r text ds s u : literal r text ds -> In (s, u) suffixes ->
  find_base (text ++ s) = Ok (to_base r, ds ++ s) /\ Forall (fun c => In c (digit_chars r)) ds.
Proof.
  intros L H. destruct (suffix_facts s u H) as [_ [_ [_ S4]]].
  inversion L; subst; clear L; cbn [app find_base].
  - assert (D : (d =? 48) = false /\ between d 49 57 = true).
    { clear -H0. cbn in H0. repeat (destruct H0 as [H0|H0]; [subst; split; reflexivity|]). contradiction. }
    destruct D as [-> ->]. split; [reflexivity|]. constructor; auto. cbn in *; intuition.
  - change (48 =? 48) with true. cbv iota. split; [|constructor; auto; cbn; intuition].
    destruct (ds0 ++ s) as [|x t] eqn:E; [reflexivity|].
    assert (X : ((x =? 120) || (x =? 88)) = false /\ ((x =? 98) || (x =? 66)) = false).
    { destruct ds0 as [|y ds0]; cbn [app] in E.
      - subst s. exact S4.
      - inversion E; subst. inversion H0; subst. clear -H3. cbn in H3.
        repeat (destruct H3 as [H3|H3]; [subst; split; reflexivity|]). contradiction. }
    destruct X as [-> ->]. reflexivity.
  - change (48 =? 48) with true. cbv iota. split; auto.
    assert (X : ((x =? 120) || (x =? 88)) = true) by (cbn in H0; destruct H0 as [<-|[<-|[]]]; reflexivity).
    rewrite X. reflexivity.
  - change (48 =? 48) with true. cbv iota. split; auto.
    assert (X : ((x =? 120) || (x =? 88)) = false /\ ((x =? 98) || (x =? 66)) = true)
      by (cbn in H0; destruct H0 as [<-|[<-|[]]]; split; reflexivity).
    destruct X as [-> ->]. reflexivity.
Qed.

Lemma literal_spec m r text ds s u :
  literal r text ds -> In (s, u) suffixes -> digits_value r ds < 2 ^ 64 ->
  constant_from_string m (text ++ s) =
    match literal_type m r u (digits_value r ds) with
    | Some t => Ok (Some (t, digits_value r ds))
    | None => Fail
    end.
Proof.
  intros L H V. unfold constant_from_string. rewrite (not_float _ _ _ _ _ L H).
  destruct (find_base_spec _ _ _ _ _ L H) as [B F].
  unfold integer_constant_from_string. rewrite B. cbn [bind].
  destruct (suffix_facts s u H) as [_ [S2 _]].
  pose proof (digits_loop_spec r ds s F (S2 r) 0) as D. change (wrap 64 0) with 0 in D. rewrite D.
  fold (digits_value r ds). pose proof (digits_value_acc r ds 0 ltac:(lia) F) as P. fold (digits_value r ds) in P.
  unfold wrap. rewrite Z.mod_small by lia.
  rewrite <- (select_spec m r s u) by (auto; lia).
  destruct (suffix_loop _ _); cbn [bind]; auto. destruct (select_type _ _ _); auto.
Qed.

Lemma digit_ok_in r c : digit_ok (to_base r) c = true -> In c (digit_chars r).
Proof.
  intros H.
  assert (R : 0 <= c < 128) by (destruct r; cbn [to_base digit_ok] in H; unfold between in H; repeat rewrite ?orb_true_iff, ?andb_true_iff, ?Z.leb_le in H; lia).
  assert (G : forall r', forallb (fun n => let c := Z.of_nat n in implb (digit_ok (to_base r') c) (existsb (Z.eqb c) (digit_chars r'))) (seq 0 128) = true)
    by (intros []; vm_compute; reflexivity).
  specialize (G r). rewrite forallb_forall in G. specialize (G (Z.to_nat c) ltac:(apply in_seq; lia)). cbv zeta in G. rewrite Z2Nat.id in G by lia.
  rewrite H in G. cbn [implb] in G. apply existsb_exists in G as (x & I & E). apply Z.eqb_eq in E. now subst.
Qed.
Lemma suffix_loop_bad c rest a : ~ In c (chars "uUlL") -> suffix_loop (c :: rest) a = Fail.
Proof.
  intros N. assert (c <> 117 /\ c <> 85 /\ c <> 108 /\ c <> 76) as (N1 & N2 & N3 & N4) by (repeat split; intros ->; apply N; cbn; auto).
  cbn [suffix_loop]. rewrite (proj2 (Z.eqb_neq c 117)), (proj2 (Z.eqb_neq c 85)), (proj2 (Z.eqb_neq c 108)), (proj2 (Z.eqb_neq c 76)) by auto.
  cbn [orb andb]. destruct rest; reflexivity.
Qed.
Lemma bad_digit_spec m r text digits c rest :
  literal r text digits -> ~ In c (digit_chars r) -> ~ In c (chars "uUlL") -> (text = [48] -> ~ In c (chars "xXbB")) ->
  forall t v, constant_from_string m (text ++ c :: rest) <> Ok (Some (t, v)).
Proof.
  intros L Nd Ns Nx t v. unfold constant_from_string. destruct (is_float _); [discriminate|].
  assert (D : digit_ok (to_base r) c = false) by (destruct (digit_ok (to_base r) c) eqn:E; auto; apply digit_ok_in in E; contradiction).
  assert (B : find_base (text ++ c :: rest) = Ok (to_base r, digits ++ c :: rest) /\ Forall (fun c => In c (digit_chars r)) digits).
  { unfold find_base. inversion L; subst; clear L; cbn [app].
    - assert (d <> 48 /\ between d 49 57 = true) as [Z1 Z2] by (cbn in H; unfold between; intuition (subst; auto; lia)).
      rewrite (proj2 (Z.eqb_neq d 48)), Z2 by auto. split; [reflexivity|]. constructor; auto. cbn in *; intuition.
    - rewrite Z.eqb_refl.
      assert (S : forall x, ~ In x (chars "xXbB") -> ((x =? 120) || (x =? 88)) = false /\ ((x =? 98) || (x =? 66)) = false).
      { intros x Nq. assert (x <> 120 /\ x <> 88 /\ x <> 98 /\ x <> 66) as (N1 & N2 & N3 & N4) by (repeat split; intros ->; apply Nq; cbn; auto).
        rewrite !(proj2 (Z.eqb_neq _ _)) by auto. auto. }
      split; [|constructor; auto; cbn; auto].
      destruct ds as [|d ds]; cbn [app].
      + destruct (S c (Nx eq_refl)) as [-> ->]. reflexivity.
      + inversion H; subst. destruct (S d) as [-> ->]; [cbn in *; intuition lia|]. reflexivity.
    - cbn in H. split; auto. rewrite Z.eqb_refl. destruct H as [<-|[<-|[]]]; reflexivity.
    - cbn in H. split; auto. rewrite Z.eqb_refl. destruct H as [<-|[<-|[]]]; reflexivity. }
  destruct B as [B F]. unfold integer_constant_from_string. rewrite B. cbn [bind].
  assert (E := digits_loop_spec r digits (c :: rest) F D 0). change (wrap 64 0) with 0 in E. rewrite E.
  rewrite suffix_loop_bad by auto. discriminate.
Qed.
