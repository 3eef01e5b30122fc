(** Proofs about the images of static objects (StaticData.v): emission. *)
From Coq Require Import String Permutation.
From Verif Require Import Base CharTypes Bytes BytesSpec BytesProofs Common BitFieldsProofs Object ObjectSpec ObjectProofs StaticData StaticDataSpec StaticDataProofs.
Ltac Zify.zify_post_hook ::= idtac.
Local Open Scope Z_scope.
Local Open Scope list_scope.

(** Every address has its 8 bytes, without another address in them. *)
Definition good (b : list Z) (m : list (option (list Z * Z))) : Prop :=
  length m = length b /\
  forall p x, nth_error m p = Some (Some x) ->
    (p + 8 <= length b)%nat /\ (forall j, (1 <= j < 8)%nat -> nth_error m (p + j) = Some None) /\
    (forall j, (j < 8)%nat -> nth_error b (p + j) = Some 0).

Lemma nth_error_skipn {A} n (l : list A) p : nth_error (skipn n l) p = nth_error l (n + p).
Proof.
  revert l. induction n as [|n IH]; intros l; [reflexivity|]. destruct l as [|x l]; [destruct p; reflexivity|]. apply IH.
Qed.
Lemma good_skip n b m : good b m -> good (skipn n b) (skipn n m).
Proof.
  intros (L & G). split; [rewrite !skipn_length; lia|].
  intros p x P. rewrite nth_error_skipn in P. destruct (G _ _ P) as (G1 & G2 & G3).
  split; [rewrite skipn_length; lia|].
  split; intros j J; rewrite nth_error_skipn, Nat.add_assoc; auto.
Qed.

(** The relocations for the addresses, from position [base]. *)
Fixpoint fixups_from (base : Z) (m : list (option (list Z * Z))) : list fixup :=
  match m with
  | [] => []
  | Some (l, a) :: m => {| f_type := RELOCATE_64; f_symbol := l; f_offset := base mod 2 ^ 64; f_add := a |} :: fixups_from (base + 1) m
  | None :: m => fixups_from (base + 1) m
  end.
Lemma fixups_from_nones n : forall m base, (n <= length m)%nat -> (forall j, (j < n)%nat -> nth_error m j = Some None) ->
  fixups_from base m = fixups_from (base + Z.of_nat n) (skipn n m).
Proof.
  induction n as [|n IH]; intros m base L H; [rewrite Z.add_0_r; reflexivity|].
  destruct m as [|x m]; [cbn in L; lia|]. pose proof (H O ltac:(lia)) as H0. injection H0 as ->.
  cbn [fixups_from skipn]. rewrite (IH m (base + 1)).
  - f_equal. lia.
  - cbn in L. lia.
  - intros j J. apply (H (S j)). lia.
Qed.
Lemma how_long_8 n m : how_long n m = n -> (n <= length m)%nat /\ forall j, (j < n)%nat -> nth_error m j = Some None.
Proof.
  revert m. induction n as [|n IH]; intros m H; [split; [lia|intros; lia]|].
  destruct m as [|[x|] m]; cbn [how_long] in H; try discriminate. injection H as H.
  destruct (IH m H) as (L & N). split; [cbn; lia|]. intros [|j] J; [reflexivity|]. apply N. lia.
Qed.
Lemma le_bytes_digits n : forall v, le_bytes n v = le_digits n v.
Proof. induction n as [|n IH]; intros v; cbn; [reflexivity|]. rewrite IH. reflexivity. Qed.
Lemma quad_value l : quad l = le_value (firstn 8 l).
Proof. reflexivity. Qed.
Lemma quad_bytes l : bytes_ok l -> (8 <= length l)%nat -> le_bytes 8 (quad l) = firstn 8 l.
Proof.
  intros O L. rewrite le_bytes_digits, quad_value.
  assert (F : bytes_ok (firstn 8 l)). { rewrite <- (firstn_skipn 8 l) in O. apply Forall_app in O. apply O. }
  pose proof (le_digits_value _ F) as E. rewrite firstn_length, Nat.min_l in E by exact L. exact E.
Qed.
Lemma zeros_prefix n : forall l, (forall j, (j < n)%nat -> nth_error l j = Some 0) -> firstn n l = repeat 0 n.
Proof.
  induction n as [|n IH]; intros l H; [reflexivity|]. destruct l as [|x l].
  - specialize (H O ltac:(lia)). discriminate.
  - pose proof (H O ltac:(lia)) as H0. injection H0 as ->. cbn. f_equal. apply IH. intros j J. apply (H (S j)). lia.
Qed.

(** What emission adds to the section being written. *)
Definition adds (v v' : view) (b : list Z) (fs : list fixup) : Prop :=
  here v' = here v /\ bytes_of v' (here v) = bytes_of v (here v) ++ b /\ fixups_of v' (here v) = fixups_of v (here v) ++ fs /\
  (forall s, s <> here v -> bytes_of v' s = bytes_of v s /\ fixups_of v' s = fixups_of v s) /\
  (forall s, definition_of v' s = definition_of v s).
Lemma adds_none v : adds v v [] [].
Proof.
  unfold adds. rewrite !app_nil_r. split; [reflexivity|]. split; [reflexivity|]. split; [reflexivity|]. split; [|reflexivity].
  intros s _. split; reflexivity.
Qed.
Lemma adds_trans v1 v2 v3 b1 f1 b2 f2 : adds v1 v2 b1 f1 -> adds v2 v3 b2 f2 -> adds v1 v3 (b1 ++ b2) (f1 ++ f2).
Proof.
  intros (H1 & B1 & F1 & O1 & D1) (H2 & B2 & F2 & O2 & D2). rewrite H1 in *. unfold adds.
  split; [exact H2|]. split; [rewrite B2, B1, app_assoc; reflexivity|]. split; [rewrite F2, F1, app_assoc; reflexivity|].
  split; [|intros s; rewrite D2; apply D1].
  intros s S'. destruct (O1 s S') as (X1 & Y1), (O2 s S') as (X2 & Y2). split; congruence.
Qed.
Lemma adds_append v d : adds v (append v d) d [].
Proof.
  unfold adds, append. cbn [here bytes_of fixups_of definition_of]. rewrite upd_same, app_nil_r.
  split; [reflexivity|]. split; [reflexivity|]. split; [reflexivity|]. split; [|reflexivity].
  intros s S'. rewrite upd_other by exact S'. auto.
Qed.
Lemma adds_relocate v l off add ty : adds v (meaning (Relocate l off add ty) v) []
  [{| f_type := ty; f_symbol := l; f_offset := (position v + off) mod 2 ^ 64; f_add := add |}].
Proof.
  unfold adds. cbn [meaning here bytes_of fixups_of definition_of]. rewrite upd_same, app_nil_r.
  split; [reflexivity|]. split; [reflexivity|]. split; [reflexivity|]. split; [|reflexivity].
  intros s S'. rewrite upd_other by exact S'. auto.
Qed.
Lemma adds_position v v' b fs : adds v v' b fs -> position v' = position v + Z.of_nat (length b).
Proof. intros (H & B & _). unfold position. rewrite H, B, app_length. lia. Qed.

Lemma emit_ok n : forall b m v, (length b <= n)%nat -> bytes_ok b -> good b m ->
  adds v (meaning_all (emit n b m) v) b (fixups_from (position v) m).
Proof.
  induction n as [|n IH]; intros b m v L O G.
  - destruct b; [|cbn in L; lia]. pose proof (proj1 G) as LM. destruct m; [|discriminate]. apply adds_none.
  - destruct b as [|x b].
    + pose proof (proj1 G) as LM. destruct m; [|discriminate]. apply adds_none.
    + pose proof (proj1 G) as LM. destruct m as [|[(l, a)|] m]; [discriminate| |].
      * cbn [emit]. destruct (proj2 G 0%nat _ eq_refl) as (G1 & G2 & G3). cbn [Nat.add] in G1, G2, G3.
        set (b0 := x :: b) in *. set (m0 := Some (l, a) :: m) in *.
        change (meaning_all (Relocate l 0 a RELOCATE_64 :: WriteQuad 0 :: emit n (skipn 8 b0) (skipn 8 m0)) v)
          with (meaning_all (emit n (skipn 8 b0) (skipn 8 m0)) (append (meaning (Relocate l 0 a RELOCATE_64) v) (le_bytes 8 0))).
        set (v1 := meaning (Relocate l 0 a RELOCATE_64) v). set (v2 := append v1 (le_bytes 8 0)).
        pose proof (adds_trans _ _ _ _ _ _ _ (adds_relocate v l 0 a RELOCATE_64) (adds_append v1 (le_bytes 8 0))) as A.
        fold v1 in A. fold v2 in A. rewrite Z.add_0_r, app_nil_r in A. cbn [app] in A.
        assert (SB : (length (skipn 8 b0) <= n)%nat) by (rewrite skipn_length; lia).
        assert (SO : bytes_ok (skipn 8 b0)) by (rewrite <- (firstn_skipn 8 b0) in O; apply Forall_app in O; apply O).
        pose proof (IH _ _ v2 SB SO (good_skip 8 _ _ G)) as B.
        pose proof (adds_trans _ _ _ _ _ _ _ A B) as C.
        assert (E : le_bytes 8 0 ++ skipn 8 b0 = b0).
        { change (le_bytes 8 0) with (repeat 0 8). rewrite <- (zeros_prefix 8 b0 G3). apply firstn_skipn. }
        rewrite E in C. rewrite (adds_position _ _ _ _ A) in C. change (Z.of_nat (length (le_bytes 8 0))) with 8 in C.
        assert (F : fixups_from (position v) m0 =
                    {| f_type := RELOCATE_64; f_symbol := l; f_offset := position v mod 2 ^ 64; f_add := a |} :: fixups_from (position v + 8) (skipn 8 m0)).
        { unfold m0. cbn [fixups_from skipn]. f_equal. rewrite (fixups_from_nones 7 m).
          - f_equal. lia.
          - unfold m0, b0 in LM, G1. cbn [length] in LM, G1. lia.
          - intros j J. apply (G2 (S j)). lia. }
        rewrite F. exact C.
      * cbn [emit]. set (b0 := x :: b) in *. set (m0 := None :: m) in *.
        destruct (Nat.eqb_spec (how_long 8 m0) 8) as [H|H].
        -- destruct (how_long_8 8 m0 H) as (H1 & H2).
           change (meaning_all (WriteQuad (quad b0) :: emit n (skipn 8 b0) (skipn 8 m0)) v)
             with (meaning_all (emit n (skipn 8 b0) (skipn 8 m0)) (append v (le_bytes 8 (quad b0)))).
           rewrite quad_bytes by (assumption || lia).
           assert (SB : (length (skipn 8 b0) <= n)%nat) by (rewrite skipn_length; lia).
           assert (SO : bytes_ok (skipn 8 b0)) by (rewrite <- (firstn_skipn 8 b0) in O; apply Forall_app in O; apply O).
           pose proof (adds_append v (firstn 8 b0)) as A.
           pose proof (IH _ _ (append v (firstn 8 b0)) SB SO (good_skip 8 _ _ G)) as B.
           pose proof (adds_trans _ _ _ _ _ _ _ A B) as C. rewrite firstn_skipn in C. cbn [app] in C.
           rewrite (adds_position _ _ _ _ A), firstn_length, Nat.min_l in C by lia.
           rewrite (fixups_from_nones 8 m0) by assumption. exact C.
        -- change (meaning_all (WriteByte x :: emit n b m) v) with (meaning_all (emit n b m) (append v [x mod 256])).
           pose proof (Forall_inv O) as X. rewrite Z.mod_small by exact X.
           pose proof (adds_append v [x]) as A.
           pose proof (IH b m (append v [x]) ltac:(cbn in L; lia) (Forall_inv_tail O) (good_skip 1 _ _ G)) as B.
           pose proof (adds_trans _ _ _ _ _ _ _ A B) as C. cbn [app] in C.
           rewrite (adds_position _ _ _ _ A) in C. exact C.
Qed.

(** The addresses, as pointers. *)
Fixpoint marked (base : Z) (m : list (option (list Z * Z))) : list pointer :=
  match m with
  | [] => []
  | Some (l, a) :: m => {| p_offset := base; p_label := l; p_add := a |} :: marked (base + 1) m
  | None :: m => marked (base + 1) m
  end.
Lemma fixups_marked m : forall base start,
  fixups_from (start + base) m =
  map (fun p => {| f_type := RELOCATE_64; f_symbol := p_label p; f_offset := (start + p_offset p) mod 2 ^ 64; f_add := p_add p |}) (marked base m).
Proof.
  induction m as [|[(l, a)|] m IH]; intros base start; cbn [fixups_from marked map]; [reflexivity| |].
  - rewrite <- IH. cbn [p_offset p_label p_add]. do 2 f_equal. lia.
  - rewrite <- IH. f_equal. lia.
Qed.
Lemma in_marked m : forall base q, In q (marked base m) <->
  exists p, nth_error m p = Some (Some (p_label q, p_add q)) /\ p_offset q = base + Z.of_nat p.
Proof.
  induction m as [|x m IH]; intros base q.
  - split; [contradiction|]. intros (p & E & _). destruct p; discriminate.
  - assert (R : (exists p, nth_error m p = Some (Some (p_label q, p_add q)) /\ p_offset q = base + 1 + Z.of_nat p) <->
      (exists p, nth_error (x :: m) (S p) = Some (Some (p_label q, p_add q)) /\ p_offset q = base + Z.of_nat (S p))).
    { split; intros (p & E & P); exists p; (split; [exact E|]); lia. }
    destruct x as [(l, a)|]; cbn [marked].
    + cbn [In]. rewrite IH, R. split.
      * intros [<-|(p & E)]; [exists O; cbn [p_label p_add p_offset]; rewrite Z.add_0_r; auto|exists (S p); exact E].
      * intros ([|p] & E & F); [left|right; exists p; auto].
        injection E as E1 E2. destruct q as [o l' a']. cbn in *. f_equal; [lia|congruence|congruence].
    + rewrite IH, R. split; [intros (p & E); exists (S p); exact E|].
      intros ([|p] & E & F); [discriminate|exists p; auto].
Qed.
Lemma marked_nodup m : forall base, NoDup (marked base m).
Proof.
  induction m as [|[(l, a)|] m IH]; intros base; cbn [marked]; [constructor| |apply IH].
  constructor; [|apply IH]. rewrite in_marked. intros (p & _ & P). cbn in P. lia.
Qed.
Lemma pointers_nodup ps : ForallOrdPairs (fun x y => apart (pointer_region x) (pointer_region y)) ps -> NoDup ps.
Proof.
  intros P. induction P as [|x l H P IH]; constructor; [|exact IH].
  intros I. rewrite Forall_forall in H. specialize (H x I). unfold apart, pointer_region in H. cbn [fst snd] in H. lia.
Qed.

(** The buffers after codegen_initializer_recursive. *)
Lemma final_image t i : laid_out t -> fits i t None ->
  exists im, put_initializer i t None 0 {| buffer := repeat 0 (Z.to_nat (isize t)); marks := repeat None (Z.to_nat (isize t)) |} = Ok im /\
    length (buffer im) = Z.to_nat (isize t) /\ bytes_ok (buffer im) /\ good (buffer im) (marks im) /\
    (forall it k, In it (items i t None 0) -> 0 <= k < i_width it -> bit (buffer im) (i_start it + k) = Z.testbit (i_value it) k) /\
    (forall k, 0 <= k -> (forall it, In it (items i t None 0) -> ~ covers it k) -> bit (buffer im) k = false) /\
    Permutation (marked 0 (marks im)) (pointers i t None 0).
Proof.
  intros LO F. pose proof (isize_nonneg t LO) as S0. set (n := Z.to_nat (isize t)).
  assert (IM : image_ok {| buffer := repeat 0 n; marks := repeat None n |}).
  { constructor; cbn; [|rewrite !repeat_length; reflexivity]. apply Forall_forall. intros x X. apply repeat_spec in X. subst x. unfold is_byte; lia. }
  assert (SZ : 0 + isize t <= Z.of_nat (length (repeat 0 n))) by (rewrite repeat_length; unfold n; lia).
  destruct (put_initializer_ok i t None 0 _ LO I F IM (Z.le_refl 0) SZ) as (im & E & (I1 & L1 & B1 & M1)).
  cbn [buffer marks] in *. rewrite repeat_length in *.
  pose proof (items_inside i t None 0 LO I F) as II. pose proof (pointers_inside i t None 0 LO I F) as PI.
  pose proof (items_apart i t None 0 LO I F) as IA. pose proof (pointers_apart i t None 0 LO I F) as PA.
  pose proof (items_pointers_apart i t None 0 LO I F) as IPA.
  assert (P0 : forall q, In q (pointers i t None 0) -> 0 <= p_offset q /\ p_offset q + 8 <= isize t).
  { intros q Q. specialize (PI q Q). unfold inside, pointer_region, region in PI. cbn [fst snd] in PI. lia. }
  assert (MN : forall p x, nth_error (marks im) p = Some (Some x) -> exists q, In q (pointers i t None 0) /\ Z.of_nat p = p_offset q /\ x = (p_label q, p_add q)).
  { intros p x P. assert (PL : (p < n)%nat). { rewrite <- L1, <- (im_len im I1). apply nth_error_Some. congruence. }
    pose proof (M1 p PL) as Q. rewrite (nth_error_nth _ _ _ P) in Q. rewrite nth_repeat in Q.
    destruct (in_dec Nat.eq_dec p (map (fun q => Z.to_nat (p_offset q)) (pointers i t None 0))) as [J|J].
    - apply in_map_iff in J. destruct J as (q & <- & J). exists q. split; [exact J|]. split; [destruct (P0 q J); lia|].
      rewrite (mark_after_some _ q _ PA (fun y Y => proj1 (P0 y Y)) J) in Q. congruence.
    - rewrite mark_after_none in Q; [discriminate|]. intros q Y D. apply J. apply in_map_iff. exists q. auto. }
  assert (NM : forall p, (p < n)%nat -> (forall q, In q (pointers i t None 0) -> p_offset q <> Z.of_nat p) -> nth_error (marks im) p = Some None).
  { intros p PL H. destruct (nth_error (marks im) p) as [[x|]|] eqn:D; [|reflexivity|].
    - destruct (MN p x D) as (q & Q & P & _). destruct (H q Q). lia.
    - apply nth_error_None in D. rewrite (im_len im I1), L1 in D. lia. }
  exists im. split; [exact E|]. split; [exact L1|]. split; [apply (im_bytes im I1)|].
  assert (UNC : forall k, 0 <= k -> (forall it, In it (items i t None 0) -> ~ covers it k) -> bit (buffer im) k = false).
  { intros k K U. rewrite B1 by exact K. rewrite bit_after_uncovered by exact U. apply bit_repeat. }
  split.
  { split; [apply (im_len im I1)|]. intros p x P. destruct (MN p x P) as (q & Q & PO & _). destruct (P0 q Q) as (P1 & P2).
    split; [rewrite L1; unfold n; lia|]. split.
    - intros j J. apply NM; [unfold n; lia|]. intros q' Q' D.
      assert (q <> q') by (intros ->; lia).
      assert (AP : apart (pointer_region q) (pointer_region q')).
      { clear -PA Q Q' H. induction PA as [|x l HH PA IH]; [contradiction|]. rewrite Forall_forall in HH.
        destruct Q as [->|Q], Q' as [->|Q']; [contradiction|apply HH, Q'|apply apart_sym, HH, Q|apply IH; assumption]. }
      unfold apart, pointer_region in AP. cbn [fst snd] in AP. lia.
    - intros j J. assert (L : (p + j < length (buffer im))%nat) by (rewrite L1; unfold n; lia).
      destruct (nth_error (buffer im) (p + j)) as [y|] eqn:Y; [|apply nth_error_None in Y; lia].
      assert (YB : 0 <= y < 256). { pose proof (im_bytes im I1) as O. unfold bytes_ok in O. rewrite Forall_forall in O. apply O. apply nth_error_In in Y. exact Y. }
      f_equal. apply Z.bits_inj'. intros k K. rewrite Z.testbit_0_l.
      destruct (Z_lt_le_dec k 8) as [C|C].
      + rewrite <- (UNC (8 * Z.of_nat (p + j) + k)).
        * unfold bit. replace (8 * Z.of_nat (p + j) + k) with (k + Z.of_nat (p + j) * 8) by ring.
          rewrite Z.div_add, Z.mod_add, Z.div_small, Z.mod_small, Z.add_0_l, Nat2Z.id by lia.
          rewrite (nth_error_nth _ _ _ Y). reflexivity.
        * lia.
        * intros it IT CV. specialize (IPA it q IT Q). unfold apart, item_region, pointer_region, covers in *. cbn [fst snd] in IPA. lia.
      + apply (testbit_high y 8 k); [change (2 ^ 8) with 256; exact YB|exact C|lia]. }
  split.
  { intros it k IT K. specialize (II it IT). unfold inside, item_region, region in II. cbn [fst snd] in II.
    rewrite B1 by lia. rewrite (bit_after_covered _ _ _ it IA IT) by (unfold covers; lia). f_equal. lia. }
  split; [exact UNC|].
  apply NoDup_Permutation; [apply marked_nodup|apply pointers_nodup, PA|].
  intros q. rewrite in_marked. split.
  - intros (p & P & O). destruct (MN p _ P) as (q' & Q' & PO & X).
    replace q with q'; [exact Q'|]. destruct q, q'. cbn in *. injection X as -> ->. f_equal. lia.
  - intros Q. destruct (P0 q Q) as (P1 & P2). exists (Z.to_nat (p_offset q)). split; [|lia].
    pose proof (M1 (Z.to_nat (p_offset q)) ltac:(unfold n; lia)) as H.
    rewrite (mark_after_some _ q _ PA (fun y Y => proj1 (P0 y Y)) Q) in H.
    rewrite <- H. apply nth_error_nth'. rewrite (im_len im I1), L1. unfold n. lia.
Qed.
