(** The builder of object files keeps the view of ObjectSpec.v. *)
From Coq Require Import String.
From Verif Require Import Base CharTypes MacroTable Bytes Object ObjectSpec.
Local Open Scope Z_scope.
Local Open Scope list_scope.

Lemma sv_cmp_eq a : forall b, sv_cmp a b = true <-> a = b.
Proof.
  induction a as [|x a IH]; destruct b as [|y b]; cbn; try (split; intros; congruence).
  rewrite andb_true_iff, Z.eqb_eq, IH. split; [intros [-> ->]; auto|]. intros E. inversion E. auto.
Qed.
Lemma name_eqb_eq a b : name_eqb a b = true <-> a = b.
Proof. unfold name_eqb. destruct (list_eq_dec Z.eq_dec a b); split; congruence. Qed.
Lemma upd_same {A} (f : list Z -> A) k v : upd f k v k = v.
Proof. unfold upd. rewrite (proj2 (name_eqb_eq k k) eq_refl). reflexivity. Qed.
Lemma upd_other {A} (f : list Z -> A) k v n : n <> k -> upd f k v n = f n.
Proof.
  intros NE. unfold upd. destruct (name_eqb n k) eqn:E; [|reflexivity]. apply name_eqb_eq in E. contradiction.
Qed.

(** * Searching *)
Lemma find_section_some n l : forall k i, find_section n l k = Some i ->
  exists s, (k <= i)%nat /\ nth_error l (i - k) = Some s /\ sec_name s = n.
Proof.
  induction l as [|s t IH]; intros k i E; cbn in E; [discriminate|].
  destruct (sv_cmp (sec_name s) n) eqn:C.
  - inversion E; subst. exists s. rewrite Nat.sub_diag. apply sv_cmp_eq in C. auto.
  - destruct (IH _ _ E) as (s' & L & N & M). exists s'. split; [lia|]. replace (i - k)%nat with (S (i - S k)) by lia. auto.
Qed.
Lemma find_section_none n l : forall k, find_section n l k = None -> ~ In n (map sec_name l).
Proof.
  induction l as [|s t IH]; intros k E; cbn in E |- *; [tauto|].
  destruct (sv_cmp (sec_name s) n) eqn:C; [discriminate|]. intros [<-|I].
  - rewrite (proj2 (sv_cmp_eq _ _) eq_refl) in C. discriminate.
  - eapply IH; eauto.
Qed.
Lemma find_symbol_some n l : forall k i, find_symbol n l k = Some i ->
  exists s, (k <= i)%nat /\ nth_error l (i - k) = Some s /\ sym_name s = Some n.
Proof.
  induction l as [|s t IH]; intros k i E; cbn in E; [discriminate|].
  assert (R : find_symbol n t (S k) = Some i -> exists s0, (k <= i)%nat /\ nth_error (s :: t) (i - k) = Some s0 /\ sym_name s0 = Some n).
  { intros H. destruct (IH _ _ H) as (s' & L & N & M). exists s'. split; [lia|]. replace (i - k)%nat with (S (i - S k)) by lia. auto. }
  destruct (sym_name s) as [m|] eqn:C; auto.
  destruct (sv_cmp m n) eqn:D; auto. inversion E; subst. exists s. rewrite Nat.sub_diag. apply sv_cmp_eq in D. subst. auto.
Qed.
Lemma find_symbol_none n l : forall k, find_symbol n l k = None -> ~ In (Some n) (map sym_name l).
Proof.
  induction l as [|s t IH]; intros k E; cbn in E |- *; [tauto|].
  destruct (sym_name s) as [m|] eqn:C.
  - destruct (sv_cmp m n) eqn:D; [discriminate|]. intros [Q|I].
    + inversion Q; subst. rewrite (proj2 (sv_cmp_eq _ _) eq_refl) in D. discriminate.
    + eapply IH; eauto.
  - intros [Q|I]; [congruence|]. eapply IH; eauto.
Qed.

(** * Updating one element *)
Lemma in_set_nth {A} (l : list A) i x y : In y (set_nth l i x) ->
  (y = x /\ (i < length l)%nat) \/ exists j, j <> i /\ nth_error l j = Some y.
Proof.
  intros I. apply In_nth_error in I. destruct I as [j J].
  destruct (Nat.eq_dec i j) as [->|NE].
  - left. assert (L : (j < length l)%nat) by (rewrite <- (set_nth_length l j x); apply nth_error_Some; congruence).
    rewrite nth_error_set_nth_eq in J by auto. split; [congruence|auto].
  - right. exists j. rewrite nth_error_set_nth_neq in J by auto. auto.
Qed.
Lemma map_set_nth {A B} (f : A -> B) l i x y : nth_error l i = Some y -> f x = f y -> map f (set_nth l i x) = map f l.
Proof.
  revert i. induction l as [|h t IH]; destruct i; cbn; intros E F; try discriminate; auto.
  - inversion E; subst. congruence.
  - f_equal. eauto.
Qed.
Lemma nodup_nth {A} (l : list A) i j x : NoDup l -> nth_error l i = Some x -> nth_error l j = Some x -> i = j.
Proof.
  intros N I J. apply (proj1 (NoDup_nth_error l) N); [apply nth_error_Some; congruence|congruence].
Qed.

Lemma NoDup_snoc {A} (l : list A) x : NoDup l -> ~ In x l -> NoDup (l ++ [x]).
Proof.
  induction 1 as [|y t NI ND IH]; cbn; intros N; [constructor; [auto|constructor]|].
  constructor.
  - intros I. apply in_app_or in I. destruct I as [I|[<-|[]]]; [auto|]. apply N. auto.
  - apply IH. auto.
Qed.

Lemma fixup_of_names o o' r :
  nth_error (map sym_name (symbols o')) (r_idx r) = nth_error (map sym_name (symbols o)) (r_idx r) ->
  fixup_of o' r = fixup_of o r.
Proof.
  intros E. rewrite !nth_error_map in E. unfold fixup_of.
  destruct (nth_error (symbols o') (r_idx r)) as [y'|], (nth_error (symbols o) (r_idx r)) as [y|]; cbn in E; try discriminate; auto.
  inversion E. reflexivity.
Qed.

(** * The invariant *)
Definition shows (b : builder) (v : view) : Prop :=
  object_shows (obj b) v /\ exists s, nth_error (sections (obj b)) (current_section b) = Some s /\ sec_name s = here v.

Lemma current_ok b v : shows b v -> exists s, current b = Ok s /\
  nth_error (sections (obj b)) (current_section b) = Some s /\ sec_name s = here v /\ sec_data s = bytes_of v (here v) /\
  map (fixup_of (obj b)) (sec_relocations s) = map Some (fixups_of v (here v)).
Proof.
  intros (O & s & N & H). exists s. unfold current. rewrite N.
  destruct (section_contents _ _ O s (nth_error_In _ _ N)) as [D F]. rewrite H in D, F. auto.
Qed.

Lemma shows_set_section n b v : shows b v -> shows (object_set_section n b) (meaning (Section_ n) v).
Proof.
  intros (O & s & N & H). unfold object_set_section. destruct (find_section n (sections (obj b)) 0) as [i|] eqn:F.
  - destruct (find_section_some _ _ _ _ F) as (q & _ & Q & E). rewrite Nat.sub_0_r in Q.
    split; [destruct O; split; auto|]. exists q. auto.
  - pose proof (find_section_none _ _ _ F) as A. destruct O as [SU SC SA YU YN YA].
    split; [split; cbn [obj sections symbols meaning bytes_of fixups_of definition_of]; auto|].
    + rewrite map_app. cbn [map]. apply NoDup_snoc; auto.
    + intros s' I. apply in_app_or in I. destruct I as [I|[<-|[]]].
      * destruct (SC s' I) as [D E]. split; auto.
      * cbn. destruct (SA n A) as [-> ->]. auto.
    + intros m NI. apply SA. intros I. apply NI. rewrite map_app. apply in_or_app. auto.
    + intros y I. destruct (YN y I) as (m & E & DD). exists m. split; auto. destruct (definition_of v m) as [d|]; auto.
      destruct DD as (q & NQ & R). exists q. split; auto. rewrite nth_error_app1; auto. apply nth_error_Some. congruence.
    + eexists. cbn [obj sections current_section]. rewrite nth_error_app2, Nat.sub_diag by lia. split; reflexivity.
Qed.

(** Replacing the current section by one with the same name. *)
Lemma shows_replace b v s s' v' :
  shows b v -> nth_error (sections (obj b)) (current_section b) = Some s -> sec_name s' = sec_name s ->
  here v' = here v -> definition_of v' = definition_of v ->
  (forall n, n <> here v -> bytes_of v' n = bytes_of v n /\ fixups_of v' n = fixups_of v n) ->
  sec_data s' = bytes_of v' (here v) -> map (fixup_of (obj b)) (sec_relocations s') = map Some (fixups_of v' (here v)) ->
  shows (set_current b s') v'.
Proof.
  intros (O & q & N & H) N' SN HV DV OT SD SR. rewrite N' in N. inversion N; subst q. clear N.
  destruct O as [SU SC SA YU YN YA].
  assert (NM : map sec_name (sections (obj (set_current b s'))) = map sec_name (sections (obj b))).
  { cbn [set_current obj sections]. eapply map_set_nth; eauto. }
  split; [split|].
  - rewrite NM. exact SU.
  - intros x I. cbn [set_current obj sections] in I. apply in_set_nth in I. destruct I as [[-> L]|(j & NE & J)].
    + rewrite SN, H. split; auto.
    + assert (sec_name x <> here v).
      { intros E. apply NE. apply (nodup_nth (map sec_name (sections (obj b))) _ _ (here v)); [exact SU| |]; rewrite nth_error_map.
        - rewrite J. cbn. congruence.
        - rewrite N'. cbn. congruence. }
      destruct (OT _ H0) as [-> ->]. apply (SC x (nth_error_In _ _ J)).
  - intros n NI. rewrite NM in NI. assert (n <> here v).
    { intros ->. apply NI. rewrite <- H. apply in_map. eapply nth_error_In; eauto. }
    destruct (OT _ H0) as [-> ->]. auto.
  - exact YU.
  - intros y I. destruct (YN y I) as (m & E & DD). exists m. split; auto. rewrite DV. destruct (definition_of v m) as [d|]; auto.
    destruct DD as (x & NX & P & SX & R). cbn [set_current obj sections].
    destruct (Nat.eq_dec (current_section b) (Z.to_nat (sym_section y))) as [E1|NE].
    + exists s'. rewrite <- E1, nth_error_set_nth_eq by (apply nth_error_Some; congruence).
      rewrite <- E1, N' in NX. inversion NX; subst x. split; [auto|]. split; [auto|]. split; [congruence|auto].
    + exists x. rewrite nth_error_set_nth_neq by auto. auto.
  - intros n NI. rewrite DV. auto.
  - exists s'. cbn [set_current obj sections current_section]. rewrite nth_error_set_nth_eq by (apply nth_error_Some; congruence).
    split; [auto|]. congruence.
Qed.

Lemma append_here v d : here (append v d) = here v.
Proof. reflexivity. Qed.

Lemma shows_write d b v : shows b v -> exists b', object_write d b = Ok b' /\ shows b' (append v d).
Proof.
  intros S. destruct (current_ok _ _ S) as (s & C & N & H & D & F). unfold object_write. rewrite C. cbn [bind].
  eexists. split; [reflexivity|]. eapply shows_replace; eauto; try reflexivity.
  - intros n NE. cbn [append bytes_of fixups_of]. rewrite upd_other by auto. auto.
  - cbn [append bytes_of with_data sec_data]. rewrite upd_same, D. reflexivity.
Qed.

Lemma shows_ext b v v' : shows b v -> here v' = here v -> (forall n, bytes_of v' n = bytes_of v n) ->
  (forall n, fixups_of v' n = fixups_of v n) -> (forall n, definition_of v' n = definition_of v n) -> shows b v'.
Proof.
  intros (O & s & N & H) E1 E2 E3 E4. destruct O as [SU SC SA YU YN YA].
  split; [split; auto|exists s; split; congruence].
  - intros x I. rewrite E2, E3. auto.
  - intros n NI. rewrite E2, E3. auto.
  - intros y I. destruct (YN y I) as (m & E & DD). exists m. split; auto. rewrite E4. exact DD.
  - intros n NI. rewrite E4. auto.
Qed.

Lemma append_append v a c : forall n, bytes_of (append (append v a) c) n = bytes_of (append v (a ++ c)) n.
Proof.
  intros n. cbn [append bytes_of here]. unfold upd. destruct (name_eqb n (here v)) eqn:E; [|reflexivity].
  rewrite (proj2 (name_eqb_eq _ _) eq_refl). rewrite app_assoc. reflexivity.
Qed.

Lemma shows_write_quad q b v : shows b v -> exists b', object_write_quad q b = Ok b' /\ shows b' (append v (le_bytes 8 q)).
Proof.
  intros S. unfold object_write_quad, object_write_byte.
  destruct (shows_write [q mod 256] _ _ S) as (b0 & -> & S0). cbn [bind].
  destruct (shows_write [Z.shiftr q 8 mod 256] _ _ S0) as (b1 & -> & S1). cbn [bind].
  destruct (shows_write [Z.shiftr q 16 mod 256] _ _ S1) as (b2 & -> & S2). cbn [bind].
  destruct (shows_write [Z.shiftr q 24 mod 256] _ _ S2) as (b3 & -> & S3). cbn [bind].
  destruct (shows_write [Z.shiftr q 32 mod 256] _ _ S3) as (b4 & -> & S4). cbn [bind].
  destruct (shows_write [Z.shiftr q 40 mod 256] _ _ S4) as (b5 & -> & S5). cbn [bind].
  destruct (shows_write [Z.shiftr q 48 mod 256] _ _ S5) as (b6 & -> & S6). cbn [bind].
  destruct (shows_write [Z.shiftr q 56 mod 256] _ _ S6) as (b7 & -> & S7).
  exists b7. split; [reflexivity|]. eapply shows_ext; [exact S7| | | |]; try reflexivity.
  intros n. assert (E : le_bytes 8 q =
    [q mod 256] ++ [Z.shiftr q 8 mod 256] ++ [Z.shiftr q 16 mod 256] ++ [Z.shiftr q 24 mod 256] ++
    [Z.shiftr q 32 mod 256] ++ [Z.shiftr q 40 mod 256] ++ [Z.shiftr q 48 mod 256] ++ [Z.shiftr q 56 mod 256]).
  { rewrite !Z.shiftr_div_pow2 by lia. cbn [le_bytes app]. rewrite !Z.div_div by lia. reflexivity. }
  rewrite E, !append_append. reflexivity.
Qed.

Lemma shows_align a b v : 0 < a -> shows b v -> exists b', object_align a b = Ok b' /\ shows b' (meaning (Align a) v).
Proof.
  intros P S. destruct (current_ok _ _ S) as (s & C & N & H & D & F). unfold object_align. rewrite C. cbn [bind].
  destruct (Z.eqb_spec a 0) as [|_]; [lia|]. rewrite D. fold (position v).
  cbn [meaning]. unfold padding.
  destruct (Z.eqb_spec (position v mod a) 0) as [R|R].
  - exists b. split; [reflexivity|]. rewrite Z.mod_opp_l_z by lia. cbn [Z.to_nat repeat].
    eapply shows_ext; [exact S| | | |]; try reflexivity. intros n. cbn [append bytes_of]. rewrite app_nil_r.
    unfold upd. destruct (name_eqb n (here v)) eqn:E; [|reflexivity]. apply name_eqb_eq in E. congruence.
  - rewrite Z.mod_opp_l_nz by lia. unfold object_write_zero.
    destruct (shows_write (repeat 0 (Z.to_nat (a - position v mod a))) _ _ S) as (b1 & -> & S1). cbn [bind].
    destruct (current_ok _ _ S1) as (s1 & C1 & N1 & H1 & D1 & F1). rewrite C1. cbn [bind].
    eexists. split; [reflexivity|]. eapply shows_replace; eauto; reflexivity.
Qed.

Lemma get_symbol_ok n b v : shows b v -> exists i o y, get_symbol (Some n) (obj b) = (i, o) /\ sections o = sections (obj b) /\
  nth_error (symbols o) i = Some y /\ sym_name y = Some n /\
  shows {| obj := o; current_section := current_section b |} v.
Proof.
  intros S. destruct S as (O & s & N & H). unfold get_symbol. cbn [label_text].
  destruct (find_symbol n (symbols (obj b)) 0) as [i|] eqn:E.
  - destruct (find_symbol_some _ _ _ _ E) as (y & _ & Y & YN'). rewrite Nat.sub_0_r in Y.
    exists i, (obj b), y. split; [reflexivity|]. split; [reflexivity|]. split; [exact Y|]. split; [exact YN'|].
    split; [exact O|]. exists s. auto.
  - pose proof (find_symbol_none _ _ _ E) as A.
    eexists _, _, _. split; [reflexivity|]. cbn [sections symbols].
    rewrite nth_error_app2, Nat.sub_diag by lia. split; [reflexivity|]. split; [reflexivity|]. split; [reflexivity|].
    destruct O as [SU SC SA YU YN YA].
    split; [|exists s; auto]. cbn [obj]. split; cbn [sections symbols]; auto.
    + intros x I. destruct (SC x I) as [D F]. split; auto. rewrite <- F. apply map_ext_in. intros r IR.
      apply fixup_of_names. cbn [symbols]. rewrite map_app. apply nth_error_app1.
      assert (IN : In (fixup_of (obj b) r) (map Some (fixups_of v (sec_name x)))) by (rewrite <- F; apply in_map; auto).
      apply in_map_iff in IN. destruct IN as (f & EF & _). unfold fixup_of in EF.
      destruct (nth_error (symbols (obj b)) (r_idx r)) eqn:NE; [|discriminate].
      rewrite map_length. apply nth_error_Some. congruence.
    + rewrite map_app. cbn [map]. apply NoDup_snoc; auto.
    + intros y I. apply in_app_or in I. destruct I as [I|[<-|[]]]; [auto|]. exists n. split; [reflexivity|].
      rewrite YA by auto. reflexivity.
    + intros m NI. apply YA. intros I. apply NI. rewrite map_app. apply in_or_app. auto.
Qed.

Lemma shows_relocate n off add ty b v : shows b v ->
  exists b', object_symbol_relocate (Some n) off add ty b = Ok b' /\ shows b' (meaning (Relocate n off add ty) v).
Proof.
  intros S. destruct (current_ok _ _ S) as (s & C & N & H & D & F). unfold object_symbol_relocate. rewrite C. cbn [bind].
  destruct (get_symbol_ok n b v S) as (i & o & y & -> & SO & Y & YN & S').
  destruct (current_ok _ _ S') as (s2 & C2 & N2 & H2 & D2 & F2). cbn [obj current_section] in *.
  rewrite SO, N in N2. inversion N2; subst s2.
  eexists. split; [reflexivity|]. eapply (shows_replace _ v s); [exact S'| | | | | | |]; try reflexivity.
  - cbn [obj current_section]. rewrite SO. exact N.
  - intros m NE. cbn [meaning bytes_of fixups_of]. rewrite upd_other by auto. auto.
  - exact D.
  - cbn [meaning fixups_of sec_relocations obj]. rewrite upd_same, !map_app, F2. f_equal. cbn [map]. f_equal.
    unfold fixup_of. cbn [r_idx]. rewrite Y, YN. cbn. unfold position, wrap. rewrite D. reflexivity.
Qed.

Lemma shows_define n g b v : shows b v ->
  exists b', object_symbol_set (Some n) g b = Ok b' /\ shows b' (meaning (Define n g) v).
Proof.
  intros S. destruct (current_ok _ _ S) as (s & C & N & H & D & F). unfold object_symbol_set. rewrite C. cbn [bind].
  destruct (get_symbol_ok n b v S) as (i & o & y & -> & SO & Y & YN & S'). rewrite Y.
  eexists. split; [reflexivity|]. destruct S' as (O & x & NX & HX). cbn [obj current_section] in *.
  rewrite SO, N in NX. inversion NX; subst x. clear NX.
  set (y' := {| sym_name := sym_name y; sym_value := Z.of_nat (length (sec_data s)); sym_size := sym_size y;
                sym_global := g; sym_section := Z.of_nat (current_section b) |}).
  assert (NM : map sym_name (set_nth (symbols o) i y') = map sym_name (symbols o)) by (eapply map_set_nth; eauto).
  destruct O as [SU SC SA YU YNN YA].
  split; [split; cbn [obj sections symbols meaning bytes_of fixups_of definition_of]; auto|].
  - intros q I. destruct (SC q I) as [DQ FQ]. split; auto. rewrite <- FQ. apply map_ext. intros r.
    apply fixup_of_names. cbn [symbols]. rewrite NM. reflexivity.
  - rewrite NM. exact YU.
  - intros z I. apply in_set_nth in I. destruct I as [[-> L]|(j & NE & J)].
    + exists n. split; [exact YN|]. rewrite upd_same. exists s. cbn [y' sym_section sym_value sym_global d_section d_offset d_global].
      rewrite Nat2Z.id, SO. repeat split; auto; [lia|]. unfold position. rewrite D. reflexivity.
    + destruct (YNN z (nth_error_In _ _ J)) as (m & E & DD). exists m. split; [auto|].
      assert (m <> n).
      { intros ->. apply NE. apply (nodup_nth (map sym_name (symbols o)) _ _ (Some n)); [exact YU| |]; rewrite nth_error_map.
        - rewrite J. cbn. congruence.
        - rewrite Y. cbn. congruence. }
      rewrite upd_other by auto. exact DD.
  - intros m NI. rewrite NM in NI. assert (m <> n).
    { intros ->. apply NI. rewrite <- YN. apply in_map. eapply nth_error_In; eauto. }
    rewrite upd_other by auto. auto.
  - exists s. cbn [obj sections current_section]. rewrite SO. auto.
Qed.

Lemma shows_start : shows object_start view_start.
Proof.
  split; [split|].
  - vm_compute. constructor; [tauto|constructor].
  - intros s [<-|[]]. split; reflexivity.
  - intros n _. split; reflexivity.
  - constructor.
  - intros y [].
  - reflexivity.
  - eexists. split; reflexivity.
Qed.

Lemma shows_serve r b v : request_ok r -> shows b v -> exists b', serve r b = Ok b' /\ shows b' (meaning r v).
Proof.
  intros R S. destruct r; cbn [serve].
  - eexists. split; [reflexivity|]. apply shows_set_section. exact S.
  - apply shows_write. exact S.
  - unfold object_write_byte. apply shows_write. exact S.
  - apply shows_write_quad. exact S.
  - apply shows_write. exact S.
  - apply shows_align; auto.
  - apply shows_relocate. exact S.
  - apply shows_define. exact S.
Qed.

Lemma shows_serve_all l : forall b v, Forall request_ok l -> shows b v ->
  exists b', serve_all l b = Ok b' /\ shows b' (meaning_all l v).
Proof.
  induction l as [|r t IH]; intros b v R S; cbn [serve_all].
  - exists b. auto.
  - inversion R; subst. destruct (shows_serve r b v) as (b1 & -> & S1); auto. cbn [bind].
    destruct (IH b1 _ H2 S1) as (b2 & E & S2). exists b2. auto.
Qed.
