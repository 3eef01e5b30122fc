From Coq Require Import String.
From Verif Require Import Base CharTypes Utf8 Tokens MacroTable Fuel Expander Directives Tokenizer TokenizerSpec.
Local Open Scope list_scope.

(** * Reading characters *)
Definition splice_start (l : list Z) : Prop := (exists r, l = 92 :: 10 :: r) \/ (exists r, l = 92 :: 13 :: 10 :: r).
Definition zterm (l : list Z) : Prop := exists a, l = a ++ [0] /\ Forall (fun b => 1 <= b < 256) a.
Definition wf (s : tk) : Prop := zterm (at_c s) /\ ~ splice_start (at_c s) /\ chr s = class (hd 0 (at_c s)).
Definition lv (s : tk) : list Z := unsplice (at_c s).

Lemma unsplice_plain x r : ~ splice_start (x :: r) -> unsplice (x :: r) = x :: unsplice r.
Proof.
  intros H. cbn [unsplice].
  destruct (Z.eq_dec x 92) as [->|N].
  - destruct r as [|y r]; [reflexivity|].
    destruct (Z.eq_dec y 10) as [->|N1]; [exfalso; apply H; left; eauto|].
    destruct (Z.eq_dec y 13) as [->|N2].
    + destruct r as [|z r]; [reflexivity|].
      destruct (Z.eq_dec z 10) as [->|N3]; [exfalso; apply H; right; eauto|].
      destruct z as [|p|p]; try reflexivity. repeat (destruct p as [p|p|]; try reflexivity). congruence.
    + destruct y as [|p|p]; try reflexivity. repeat (destruct p as [p|p|]; try reflexivity); congruence.
  - destruct x as [|p|p]; try reflexivity. repeat (destruct p as [p|p|]; try reflexivity). congruence.
Qed.

Lemma splice_dec l : splice_start l \/ ~ splice_start l.
Proof.
  unfold splice_start.
  destruct l as [|x l]; [right; intros [[r E]|[r E]]; discriminate|].
  destruct (Z.eq_dec x 92) as [->|N]; [|right; intros [[r E]|[r E]]; injection E; congruence].
  destruct l as [|y l]; [right; intros [[r E]|[r E]]; discriminate|].
  destruct (Z.eq_dec y 10) as [->|N]; [left; left; eauto|].
  destruct (Z.eq_dec y 13) as [->|N1]; [|right; intros [[r E]|[r E]]; injection E; congruence].
  destruct l as [|z l]; [right; intros [[r E]|[r E]]; discriminate|].
  destruct (Z.eq_dec z 10) as [->|N2]; [left; right; eauto|right; intros [[r E]|[r E]]; injection E; congruence].
Qed.

Lemma read_plain x r e sp l : ~ splice_start (x :: r) ->
  read_char (x :: r) e sp l = Ok {| chr := class x; at_c := x :: r; esc := e; sep := sp; ln := if x =? 10 then l + 1 else l |}.
Proof.
  intros H. cbn [read_char].
  destruct (Z.eq_dec x 92) as [->|N].
  - destruct r as [|y r]; [reflexivity|].
    destruct (Z.eq_dec y 10) as [->|N1]; [exfalso; apply H; left; eauto|].
    destruct (Z.eq_dec y 13) as [->|N2].
    + destruct r as [|z r]; [reflexivity|].
      destruct (Z.eq_dec z 10) as [->|N3]; [exfalso; apply H; right; eauto|].
      destruct z as [|p|p]; try reflexivity. repeat (destruct p as [p|p|]; try reflexivity). congruence.
    + destruct y as [|p|p]; try reflexivity. repeat (destruct p as [p|p|]; try reflexivity); congruence.
  - destruct x as [|p|p]; try reflexivity. repeat (destruct p as [p|p|]; try reflexivity). congruence.
Qed.

Lemma no_crlf_app a b : no_crlf (a ++ b) -> no_crlf b.
Proof. intros H [c [d E]]. apply H. exists (a ++ c), d. now rewrite E, app_assoc. Qed.

(** What skipping splices does. *)
Lemma read_char_spec : forall k m e sp l s, (length m <= k)%nat -> read_char m e sp l = Ok s ->
  exists skip, m = skip ++ at_c s /\ unsplice m = unsplice (at_c s) /\ ~ splice_start (at_c s) /\ at_c s <> [] /\
    chr s = class (hd 0 (at_c s)) /\ sep s = sp /\ (esc s = false -> e = false /\ skip = []) /\
    (no_crlf m -> forall k, remove_splices (skip ++ k) = remove_splices k) /\ (forall y t, skip = y :: t -> y = 92).
Proof.
  induction k as [|k IH]; intros m e sp l s Lk E.
  - destruct m; [discriminate|cbn in Lk; lia].
  - destruct m as [|x m]; [discriminate|].
    destruct (splice_dec (x :: m)) as [[[r R]|[r R]]|N].
    + rewrite R in *. cbn [read_char] in E. cbn [length] in Lk.
      destruct (IH r true sp (l+1) s ltac:(lia) E) as (skip & A1 & A2 & A3 & A4 & A5 & A6 & A7 & A8 & A9).
      exists (92 :: 10 :: skip). cbn [unsplice app]. rewrite <- A1. repeat split; auto.
      * match goal with H : esc s = false |- _ => destruct (A7 H) end; discriminate.
      * match goal with H : esc s = false |- _ => destruct (A7 H) end; discriminate.
      * intros NC q. cbn [remove_splices app]. apply A8. apply (no_crlf_app [92; 10]). exact NC.
      * intros y t Q. injection Q. congruence.
    + rewrite R in *. cbn [read_char] in E. cbn [length] in Lk.
      destruct (IH r true sp (l+1) s ltac:(lia) E) as (skip & A1 & A2 & A3 & A4 & A5 & A6 & A7 & A8 & A9).
      exists (92 :: 13 :: 10 :: skip). cbn [unsplice app]. rewrite <- A1. repeat split; auto.
      * match goal with H : esc s = false |- _ => destruct (A7 H) end; discriminate.
      * match goal with H : esc s = false |- _ => destruct (A7 H) end; discriminate.
      * intros NC q. exfalso. apply NC. exists [], r. reflexivity.
      * intros y t Q. injection Q. congruence.
    + rewrite read_plain in E by exact N. injection E as <-. cbn.
      exists []. repeat split; auto; try discriminate.
Qed.
Lemma read_char_ok : forall k m e sp l, (length m <= k)%nat -> (exists x y, unsplice m = x :: y) -> exists s, read_char m e sp l = Ok s.
Proof.
  induction k as [|k IH]; intros m e sp l Lk (x & y & U).
  - destruct m; [discriminate|cbn in Lk; lia].
  - destruct m as [|z m]; [discriminate|].
    destruct (splice_dec (z :: m)) as [[[r R]|[r R]]|N].
    + rewrite R in *. cbn [read_char]. cbn [length] in Lk. apply IH; [lia|]. cbn in U. eauto.
    + rewrite R in *. cbn [read_char]. cbn [length] in Lk. apply IH; [lia|]. cbn in U. eauto.
    + rewrite read_plain by exact N. eauto.
Qed.

Lemma zterm_suffix a b : zterm (a ++ b) -> b <> [] -> zterm b.
Proof.
  intros [c [E F]] N. destruct (exists_last N) as (b' & z & ->).
  rewrite app_assoc in E. apply app_inj_tail in E as [E ->]. exists b'. split; auto.
  rewrite <- E in F. apply Forall_app in F. tauto.
Qed.
Lemma zterm_byte x l : zterm (x :: l) -> (x = 0 /\ l = []) \/ (1 <= x < 256 /\ zterm l).
Proof.
  intros [a [E F]]. destruct a as [|y a]; cbn in E; injection E as -> ->; [now left|].
  inversion F; subst. right. split; auto. now exists a.
Qed.

(** [adv b s x s']: from [s] the characters [x] of the logical text were read. *)
Definition adv (b : bool) (s : tk) (x : list Z) (s' : tk) : Prop :=
  wf s' /\ lv s = x ++ lv s' /\ (sep s' = sep s \/ (b = true /\ In 39 x /\ sep s' = true)) /\
  exists raw, at_c s = raw ++ at_c s' /\ (esc s' = false -> esc s = false /\ raw = x) /\
    (no_crlf (at_c s) -> forall k k', at_c s' = k ++ k' -> remove_splices (raw ++ k) = x ++ remove_splices k).

Lemma adv_refl b s : wf s -> adv b s [] s.
Proof. intros W. split; [exact W|]. split; [reflexivity|]. split; [now left|]. exists []. repeat split; auto. Qed.
Lemma adv_esc b s x s' : adv b s x s' -> adv b s x (with_esc s').
Proof. intros (W & L & P & raw & A & E & R). split; [exact W|]. split; [exact L|]. split; [exact P|]. exists raw. repeat split; auto; discriminate. Qed.
Lemma adv_sep s x s' : adv true s x s' -> In 39 x -> adv true s x (with_sep s').
Proof. intros (W & L & P & raw & A & E & R) I. split; [exact W|]. split; [exact L|]. split; [right; auto|]. exists raw. repeat split; try apply E; auto. Qed.
Lemma adv_mono s x s' b : adv false s x s' -> adv b s x s'.
Proof. intros (W & L & P & H). split; [exact W|]. split; [exact L|]. split; [|exact H]. destruct P as [P|[P _]]; [now left|discriminate]. Qed.
Lemma adv_trans b s x s1 y s2 : adv b s x s1 -> adv b s1 y s2 -> adv b s (x ++ y) s2.
Proof.
  intros (W1 & L1 & P1 & r1 & A1 & E1 & R1) (W2 & L2 & P2 & r2 & A2 & E2 & R2).
  split; [exact W2|]. split; [rewrite L1, L2; now rewrite app_assoc|]. split.
  - destruct P2 as [P2|(B & I & P2)]; [|right; repeat split; auto; apply in_or_app; auto].
    destruct P1 as [P1|(B & I & P1)]; [left; congruence|right; repeat split; auto; [apply in_or_app; auto|congruence]].
  - exists (r1 ++ r2). split; [rewrite A1, A2; now rewrite app_assoc|]. split.
    + intros F. destruct (E2 F) as [F1 ->]. destruct (E1 F1) as [F2 ->]. auto.
    + intros NC k k' K. rewrite <- app_assoc.
      rewrite (R1 NC (r2 ++ k) k') by (rewrite A2, K; now rewrite app_assoc).
      rewrite A1 in NC. apply no_crlf_app in NC. rewrite (R2 NC k k' K). now rewrite app_assoc.
Qed.

Lemma next_adv s s' : wf s -> next_char s = Ok s' -> exists x, adv false s [x] s' /\ chr s = class x /\ 1 <= x < 256.
Proof.
  intros (Zt & Ns & C) E. unfold next_char in E.
  destruct (at_c s) as [|x m] eqn:A. { destruct Zt as [a [Q _]]. destruct a; discriminate. }
  cbn [tl hd] in *. destruct (read_char_spec (length m) m _ _ _ _ ltac:(lia) E) as (skip & A1 & A2 & A3 & A4 & A5 & A6 & A7 & A8 & A9).
  destruct (zterm_byte _ _ Zt) as [[-> ->]|[X Zm]]. { destruct skip; cbn in A1; congruence. }
  exists x. split; [|auto]. split; [|split; [|split; [now left|]]].
  - split; [|split; auto]. rewrite A1 in Zm. now apply zterm_suffix in Zm.
  - unfold lv. rewrite A, unsplice_plain by exact Ns. now rewrite A2.
  - exists (x :: skip). split; [cbn; rewrite A; congruence|]. split.
    + intros F. destruct (A7 F) as [F1 ->]. auto.
    + rewrite A. intros NC k k' K. cbn [app].
      assert (NC' : no_crlf m) by (apply (no_crlf_app [x]); exact NC).
      transitivity (x :: remove_splices (skip ++ k)); [|now rewrite A8].
      destruct (Z.eq_dec x 92) as [->|N].
      * destruct (skip ++ k) as [|y t] eqn:Q; [reflexivity|].
        assert (N10 : y <> 10).
        { destruct skip as [|z skip]; cbn in Q.
          - subst k. intros ->. apply Ns. left. exists (t ++ k'). cbn in A1. rewrite A1, K. reflexivity.
          - injection Q as -> _. rewrite (A9 _ _ eq_refl). lia. }
        cbn [remove_splices]. destruct y as [|p|p]; try reflexivity. repeat (destruct p as [p|p|]; try reflexivity). congruence.
      * cbn [remove_splices]. destruct x as [|p|p]; try reflexivity. repeat (destruct p as [p|p|]; try reflexivity). congruence.
Qed.
Lemma next_ok s x y l : wf s -> lv s = x :: y :: l -> exists s', next_char s = Ok s'.
Proof.
  intros (Zt & Ns & C) L. unfold next_char, lv in *. destruct (at_c s) as [|z m]; [discriminate|]. cbn [tl].
  rewrite unsplice_plain in L by exact Ns. apply (read_char_ok (length m)); [lia|]. injection L as _ ->. eauto.
Qed.
Lemma lv_cons s : wf s -> exists x l, lv s = x :: l /\ chr s = class x /\ 0 <= x < 256 /\ (x = 0 -> l = []).
Proof.
  intros (Zt & Ns & C). destruct (at_c s) as [|z m] eqn:A. { destruct Zt as [a [Q _]]. destruct a; discriminate. }
  exists z, (unsplice m). unfold lv. rewrite A, unsplice_plain by exact Ns. repeat split; auto.
  all: destruct (zterm_byte _ _ Zt) as [[-> ->]|[B _]]; try lia. reflexivity.
Qed.
(** The terminator is the end of the logical text. *)
Lemma unsplice_zterm : forall k l, (length l <= k)%nat -> zterm l -> zterm (unsplice l).
Proof.
  induction k as [|k IH]; intros l Lk Zt.
  - destruct l; [|cbn in Lk; lia]. destruct Zt as [a [Q _]]. destruct a; discriminate.
  - destruct l as [|x l]. { destruct Zt as [a [Q _]]. destruct a; discriminate. }
    destruct (splice_dec (x :: l)) as [[[r R]|[r R]]|N].
    + rewrite R in *. cbn [length] in Lk. cbn. apply IH; [lia|]. apply zterm_byte in Zt. destruct Zt as [[? _]|[_ Zt]]; [discriminate|].
      apply zterm_byte in Zt. destruct Zt as [[? _]|[_ Zt]]; [discriminate|auto].
    + rewrite R in *. cbn [length] in Lk. cbn. apply IH; [lia|]. apply zterm_byte in Zt. destruct Zt as [[? _]|[_ Zt]]; [discriminate|].
      apply zterm_byte in Zt. destruct Zt as [[? _]|[_ Zt]]; [discriminate|].
      apply zterm_byte in Zt. destruct Zt as [[? _]|[_ Zt]]; [discriminate|auto].
    + rewrite unsplice_plain by exact N. cbn [length] in Lk. apply zterm_byte in Zt. destruct Zt as [[-> ->]|[B Zt]].
      * exists []. split; auto.
      * apply IH in Zt; [|lia]. destruct Zt as [a [-> F]]. exists (x :: a). split; auto.
Qed.
Lemma lv_zterm s : wf s -> zterm (lv s).
Proof. intros (Zt & _). unfold lv. now apply (unsplice_zterm (length (at_c s))). Qed.

(** * Character classes *)
Definition check_class (P : Z -> Z -> bool) : bool := forallb (fun n => P (Z.of_nat n) (class (Z.of_nat n))) (seq 0 256).
Lemma class_check P : check_class P = true -> forall x, 0 <= x < 256 -> P x (class x) = true.
Proof.
  intros H x X. unfold check_class in H. rewrite forallb_forall in H.
  specialize (H (Z.to_nat x)). rewrite Z2Nat.id in H by lia. apply H. apply in_seq. lia.
Qed.
Definition zin (c : Z) (a b : Z) : bool := (a <=? c) && (c <=? b).
Definition digitb (c : Z) : bool := zin c 48 57.
Definition nondigitb (c : Z) : bool := zin c 65 90 || zin c 97 122 || (c =? 95) || (c =? 36).
Lemma digitb_spec c : digitb c = true <-> digit c.
Proof. unfold digitb, zin, digit. rewrite andb_true_iff, !Z.leb_le. lia. Qed.
Lemma nondigitb_spec c : nondigitb c = true <-> nondigit c.
Proof. unfold nondigitb, zin, nondigit. rewrite !orb_true_iff, !andb_true_iff, !Z.leb_le, !Z.eqb_eq. lia. Qed.

Lemma class_id x : 0 <= x < 256 ->
  is_one_of (class x) [EQ_ALPHA; 117; 85; EQ_EXPONENT; 76; EQ_DECIMAL; 56; EQ_UTF8] = digitb x || nondigitb x || (128 <=? x).
Proof. intros X. apply eqb_prop. revert x X. apply (class_check (fun x c => Bool.eqb (is_one_of c _) _)). vm_compute. reflexivity. Qed.
Lemma class_self x k : 0 <= x < 256 -> class x = k -> (k = 10 \/ 33 <= k) -> x = k.
Proof.
  intros X <- K.
  assert (H : ((class x =? 10) || (33 <=? class x)) && negb (class x =? x) = false).
  { apply negb_true_iff. clear K. revert x X. apply (class_check (fun x c => negb (((c =? 10) || (33 <=? c)) && negb (c =? x)))). vm_compute. reflexivity. }
  apply andb_false_iff in H as [H|H].
  - apply orb_false_iff in H as [H1 H2]. apply Z.eqb_neq in H1. apply Z.leb_gt in H2. lia.
  - apply negb_false_iff, Z.eqb_eq in H. auto.
Qed.
Lemma class_exp x : 0 <= x < 256 -> class x = EQ_EXPONENT <-> exponent x.
Proof.
  intros X. unfold exponent. rewrite <- Z.eqb_eq.
  assert (H : (class x =? EQ_EXPONENT) = is_one_of x (chars "eEpP")).
  { apply eqb_prop. revert x X. apply (class_check (fun x c => Bool.eqb (c =? EQ_EXPONENT) (is_one_of x _))). vm_compute. reflexivity. }
  rewrite H. unfold is_one_of. rewrite existsb_exists. split.
  - intros (y & I & E). apply Z.eqb_eq in E. now subst.
  - intros I. exists x. split; auto. apply Z.eqb_refl.
Qed.
Lemma class_num x : 0 <= x < 256 ->
  is_one_of (class x) [EQ_DECIMAL; 56; EQ_ALPHA; 117; 85; EQ_EXPONENT; 76; 46] = digitb x || nondigitb x || (x =? 46).
Proof. intros X. apply eqb_prop. revert x X. apply (class_check (fun x c => Bool.eqb (is_one_of c _) _)). vm_compute. reflexivity. Qed.
Lemma class_sep x : 0 <= x < 256 -> is_one_of (class x) [56; EQ_DECIMAL; EQ_ALPHA; 117; 85; 76] = true ->
  (digit x \/ nondigit x) /\ ~ exponent x.
Proof.
  intros X. rewrite <- class_exp by exact X. intros H.
  assert (C : negb (is_one_of (class x) [56; EQ_DECIMAL; EQ_ALPHA; 117; 85; 76]) || ((digitb x || nondigitb x) && negb (class x =? EQ_EXPONENT)) = true).
  { clear H. revert x X. apply (class_check (fun x c => negb (is_one_of c _) || ((digitb x || nondigitb x) && negb (c =? EQ_EXPONENT)))). vm_compute. reflexivity. }
  rewrite H in C. cbn [negb orb] in C. apply andb_true_iff in C as [C1 C2].
  apply orb_true_iff in C1. rewrite digitb_spec, nondigitb_spec in C1. split; auto.
  intros Q. rewrite Q in C2. discriminate.
Qed.
Lemma one_of c l : is_one_of c l = true <-> In c l.
Proof.
  unfold is_one_of. rewrite existsb_exists. split.
  - intros (y & I & E). apply Z.eqb_eq in E. now subst.
  - intros I. exists c. split; auto. apply Z.eqb_refl.
Qed.
Lemma not_one_of c l : is_one_of c l = false <-> ~ In c l.
Proof. rewrite <- one_of. destruct (is_one_of c l); split; congruence. Qed.
(** Characters with a class of their own. *)
Lemma class_in x l : 0 <= x < 256 -> Forall (fun k => k = 10 \/ 33 <= k) l -> In (class x) l -> In x l.
Proof.
  intros X F I. rewrite Forall_forall in F. specialize (F _ I). rewrite (class_self x (class x) X eq_refl F) at 1. exact I.
Qed.
Lemma class_null x : 0 <= x < 256 -> class x = EQ_NULL -> x = 0.
Proof.
  intros X H. assert (C : negb (class x =? EQ_NULL) || (x =? 0) = true).
  { clear H. revert x X. apply (class_check (fun x c => negb (c =? EQ_NULL) || (x =? 0))). vm_compute. reflexivity. }
  rewrite H in C. cbn in C. lia.
Qed.
Definition own (k : Z) : bool := class k =? k.
Lemma own_spec x k : own k = true -> (k = 10 \/ 33 <= k) -> 0 <= x < 256 -> class x = k <-> x = k.
Proof. intros O K X. split; [intros E; now apply class_self|intros ->; now apply Z.eqb_eq]. Qed.
Lemma class_nohit x k : 0 <= x < 256 -> own k = true -> (class x =? k) = false -> x <> k.
Proof. intros X O E ->. unfold own in O. congruence. Qed.

Lemma step_inv {A B} (e : res A) (f : A -> ex B) r : exbind (Some e) f = Some (Ok r) -> exists a, e = Ok a /\ f a = Some (Ok r).
Proof. destruct e; cbn; try discriminate. eauto. Qed.
Lemma ebind_inv {A B} (e : ex A) (f : A -> ex B) r : exbind e f = Some (Ok r) -> exists a, e = Some (Ok a) /\ f a = Some (Ok r).
Proof. destruct e as [[a| |]|]; cbn; try discriminate. eauto. Qed.
Ltac ebind H :=
  match type of H with
  | exbind (Some ?e) _ = Some (Ok _) => let E := fresh "E" in let v := fresh "s" in apply step_inv in H; destruct H as (v & E & H); cbv beta in H
  | exbind ?e _ = Some (Ok _) => let E := fresh "E" in let v := fresh "v" in apply ebind_inv in H; destruct H as (v & E & H); cbv beta in H
  end.
Ltac nadv E W := let x := fresh "x" in let A := fresh "A" in let C := fresh "C" in let B := fresh "B" in let W' := fresh "W" in
  destruct (next_adv _ _ W E) as (x & A & C & B); assert (W' := proj1 A).

Lemma wf_flags s s' : chr s' = chr s -> at_c s' = at_c s -> wf s -> wf s'.
Proof. unfold wf. intros -> ->. auto. Qed.

Lemma ident_adv : forall n s s', wf s -> parse_identifier n s = Some (Ok s') ->
  exists w, adv false s w s' /\ Forall id_char w /\ ~ id_char (hd 0 (lv s')).
Proof.
  induction n as [|n IH]; intros s s' W H; [discriminate|]. cbn [parse_identifier] in H.
  destruct (lv_cons s W) as (x0 & l0 & L0 & C0 & B0 & Z0).
  destruct (is_one_of (chr s) _) eqn:I.
  - ebind H. nadv E W. destruct (IH _ _ W0 H) as (w & A2 & F & N).
    exists (x :: w). split; [exact (adv_trans _ _ [x] _ _ _ A A2)|]. split; auto. constructor; auto.
    rewrite C, class_id in I by lia. unfold id_char, id_start. rewrite !orb_true_iff, digitb_spec, nondigitb_spec, Z.leb_le in I. intuition lia.
  - destruct (Z.eqb_spec (chr s) 92) as [Q|Q].
    + ebind H. nadv E W. rewrite C in Q. apply class_self in Q; [|lia|lia]. subst x.
      destruct (is_one_of (chr s0) [117; 85]) eqn:U.
      * ebind H. nadv E0 W0. assert (Hx : id_char x).
        { apply one_of in U. rewrite C1 in U. assert (X : In x [117; 85]) by (apply class_in; [lia|repeat constructor; lia|exact U]).
          unfold id_char, id_start, nondigit. destruct X as [<-|[<-|[]]]; lia. }
        assert (We : wf (with_esc s1)) by (revert W1; apply wf_flags; reflexivity).
        destruct (IH _ _ We H) as (w & A2 & F & N). exists (92 :: x :: w). split.
        { refine (adv_trans _ _ [92] _ _ _ A (adv_trans _ _ [x] _ _ _ (adv_esc _ _ _ _ A0) A2)). }
        split; auto. constructor; [right; right; reflexivity|]. constructor; auto.
      * destruct (IH _ _ W0 H) as (w & A2 & F & N). exists (92 :: w). split; [exact (adv_trans _ _ [92] _ _ _ A A2)|].
        split; auto. constructor; auto. right; right; reflexivity.
    + injection H as <-. exists []. split; [now apply adv_refl|]. split; [constructor|].
      rewrite L0. cbn. rewrite C0, class_id in I by lia. rewrite !orb_false_iff in I. destruct I as [[I1 I2] I3].
      unfold id_char, id_start. rewrite <- digitb_spec, <- nondigitb_spec. rewrite I1, I2. apply Z.leb_gt in I3.
      rewrite C0 in Q. intros [[?|?]|[?|?]]; try discriminate; try lia. subst. apply Q. reflexivity.
Qed.

Lemma last_app_ne {A} (x w : list A) d : w <> [] -> last (x ++ w) d = last w d.
Proof. intros N. induction x as [|a x IH]; auto. cbn. destruct (x ++ w) eqn:E; auto. destruct x; cbn in E; congruence. Qed.

Lemma sign_class x : 0 <= x < 256 -> is_one_of (class x) [43; 45] = true <-> sign x.
Proof.
  intros X. rewrite one_of. unfold sign. change (chars "+-") with [43; 45]. split.
  - apply class_in; [exact X|repeat constructor; lia].
  - intros [<-|[<-|[]]]; cbn; auto.
Qed.
Lemma number_adv : forall n s s', wf s -> parse_number n s = Some (Ok s') ->
  exists w, adv true s w s' /\ pp_rest w /\
    ~ (digit (hd 0 (lv s')) \/ nondigit (hd 0 (lv s')) \/ hd 0 (lv s') = 46 \/ hd 0 (lv s') = 39) /\
    (exponent (last w 0) -> ~ sign (hd 0 (lv s'))) /\ (sep s' = false -> ~ In 39 w).
Proof.
  induction n as [|n IH]; intros s s' W H; [discriminate|]. cbn [parse_number] in H.
  destruct (lv_cons s W) as (x0 & l0 & L0 & C0 & B0 & Z0).
  assert (last0 : forall P : Prop, exponent (last [] 0) -> P). { intros P [Q|[Q|[Q|[Q|[]]]]]; discriminate. }
  destruct (Z.eqb_spec (chr s) EQ_EXPONENT) as [Q|Q].
  - ebind H. nadv E W. rewrite C in Q. apply class_exp in Q; [|lia].
    destruct (is_one_of (chr s0) [43; 45]) eqn:G.
    + ebind H. nadv E0 W0. rewrite C1, sign_class in G by lia.
      destruct (IH _ _ W1 H) as (w & A2 & F & N & S & S39). exists (x :: x1 :: w). split.
      { exact (adv_trans _ _ [x] _ _ _ (adv_mono _ _ _ _ A) (adv_trans _ _ [x1] _ _ _ (adv_mono _ _ _ _ A0) A2)). }
      split; [apply pp_exp; auto|]. split; auto. split; [destruct w as [|a w]|].
      * cbn [last]. intros Ex. destruct G as [<-|[<-|[]]]; destruct Ex as [R|[R|[R|[R|[]]]]]; discriminate.
      * rewrite (last_app_ne [x; x1] (a :: w)) by discriminate. exact S.
      * intros Sf [->|[->|I]]; [destruct Q as [Q|[Q|[Q|[Q|[]]]]]; discriminate|destruct G as [G|[G|[]]]; discriminate|now apply S39].
    + destruct (IH _ _ W0 H) as (w & A2 & F & N & S & S39). exists (x :: w). split.
      { exact (adv_trans _ _ [x] _ _ _ (adv_mono _ _ _ _ A) A2). }
      split. { constructor; auto. right; left. unfold nondigit. destruct Q as [<-|[<-|[<-|[<-|[]]]]]; cbn; lia. }
      split; auto. split; [destruct w as [|a w]|].
      * intros _. destruct A2 as (_ & L2 & _). cbn in L2. rewrite <- L2. destruct (lv_cons s0 W0) as (x1 & l1 & L1 & C1 & B1 & _).
        rewrite L1. cbn [hd]. rewrite <- sign_class by lia. rewrite <- C1, G. discriminate.
      * rewrite (last_app_ne [x] (a :: w)) by discriminate. exact S.
      * intros Sf [->|I]; [destruct Q as [Q|[Q|[Q|[Q|[]]]]]; discriminate|now apply S39].
  - destruct (Z.eqb_spec (chr s) 39) as [Q1|Q1].
    + ebind H. nadv E W. rewrite C in Q1. apply class_self in Q1; [|lia|lia]. subst x.
      destruct (is_one_of (chr s0) _) eqn:G; [|discriminate].
      assert (Ws : wf (with_sep s0)) by (revert W0; apply wf_flags; reflexivity).
      ebind H. nadv E0 Ws. change (chr (with_sep s0)) with (chr s0) in C1. rewrite C1 in G. apply class_sep in G; [|lia].
      destruct (IH _ _ W1 H) as (w & A2 & F & N & S & S39). exists (39 :: x :: w). split.
      { refine (adv_trans _ _ [39] (with_sep s0) _ _ (adv_sep _ _ _ (adv_mono _ _ _ _ A) _) (adv_trans _ _ [x] _ _ _ (adv_mono _ _ _ _ A0) A2)). now left. }
      split; [apply pp_sep; tauto|]. split; auto. split; [destruct w as [|a w]|].
      * cbn [last]. intros Ex. exfalso. tauto.
      * rewrite (last_app_ne [39; x] (a :: w)) by discriminate. exact S.
      * intros Sf. exfalso. destruct A2 as (_ & _ & [P2|(_ & _ & P2)] & _); [|congruence].
        destruct A0 as (_ & _ & [P0|(P0 & _)] & _); [|discriminate]. cbn in P0. congruence.
    + destruct (is_one_of (chr s) _) eqn:I.
      * ebind H. nadv E W. destruct (IH _ _ W0 H) as (w & A2 & F & N & S & S39). exists (x :: w). split.
        { exact (adv_trans _ _ [x] _ _ _ (adv_mono _ _ _ _ A) A2). }
        rewrite C, class_num in I by lia. rewrite !orb_true_iff, digitb_spec, nondigitb_spec, Z.eqb_eq in I.
        split; [constructor; auto; tauto|]. split; auto. split; [destruct w as [|a w]|].
        -- cbn [last]. rewrite <- class_exp by lia. congruence.
        -- rewrite (last_app_ne [x] (a :: w)) by discriminate. exact S.
        -- intros Sf [->|J]; [apply Q1; rewrite C; reflexivity|now apply S39].
      * injection H as <-. exists []. split; [now apply adv_refl|]. split; [constructor|]. split; [|split; [apply last0|auto]].
        rewrite L0. cbn. rewrite C0, class_num in I by lia. rewrite !orb_false_iff in I. destruct I as [[I1 I2] I3].
        rewrite <- digitb_spec, <- nondigitb_spec, I1, I2. apply Z.eqb_neq in I3.
        intros [?|[?|[?|?]]]; try discriminate; try lia. apply Q1. rewrite C0. subst. reflexivity.
Qed.

Lemma string_adv : forall n q s s', In q [34; 39; 62] -> wf s -> parse_string_like n q s = Some (Ok s') ->
  exists b, adv false s (b ++ [q]) s' /\ quoted q b.
Proof.
  induction n as [|n IH]; intros q s s' Iq W H; [discriminate|]. cbn [parse_string_like] in H.
  assert (Oq : own q = true /\ 33 <= q) by (destruct Iq as [<-|[<-|[<-|[]]]]; split; try reflexivity; lia).
  destruct Oq as [Oq Gq].
  destruct (is_one_of (chr s) [10; q; EQ_NULL]) eqn:G.
  - destruct (Z.eqb_spec (chr s) q) as [Q|Q]; [|discriminate]. injection H as H. nadv H W.
    rewrite C in Q. apply class_self in Q; [|lia|lia]. subst x. exists []. split; [exact A|constructor].
  - apply not_one_of in G. destruct (Z.eqb_spec (chr s) 92) as [Q|Q].
    + ebind H. nadv E W. rewrite C in Q. apply class_self in Q; [|lia|lia]. subst x.
      destruct (is_one_of (chr s0) [117; 85]) eqn:U.
      * ebind H. nadv E0 W0. assert (Hx : In x [117; 85]).
        { apply one_of in U. rewrite C0 in U. apply class_in; [lia|repeat constructor; lia|exact U]. }
        ebind H. assert (We : wf (with_esc s1)) by (revert W1; apply wf_flags; reflexivity).
        nadv E1 We. destruct (IH _ _ _ Iq W2 H) as (b & A3 & Hb). exists (92 :: x :: x0 :: b). split.
        { exact (adv_trans _ _ [92] _ _ _ A (adv_trans _ _ [x] _ _ _ (adv_esc _ _ _ _ A0) (adv_trans _ _ [x0] _ _ _ A1 A3))). }
        now constructor.
      * ebind H. nadv E0 W0. destruct (IH _ _ _ Iq W1 H) as (b & A3 & Hb). exists (92 :: x :: b). split.
        { exact (adv_trans _ _ [92] _ _ _ A (adv_trans _ _ [x] _ _ _ A0 A3)). }
        apply q_escape; auto. apply not_one_of in U. rewrite C0 in U. intros I. apply U. destruct I as [<-|[<-|[]]]; cbn; auto.
    + ebind H. nadv E W. destruct (IH _ _ _ Iq W0 H) as (b & A3 & Hb). exists (x :: b). split.
      { exact (adv_trans _ _ [x] _ _ _ A A3). }
      rewrite C in *. apply q_char; auto.
      * intros ->. apply G. right; left. symmetry. now apply Z.eqb_eq.
      * intros ->. apply G. now left.
      * intros ->. now apply Q.
Qed.

Lemma line_adv : forall n s s', wf s -> line_comment n s = Some (Ok s') ->
  exists w, adv false s w s' /\ ~ In 10 w /\ (hd 0 (lv s') = 10 \/ lv s' = [0]).
Proof.
  induction n as [|n IH]; intros s s' W H; [discriminate|]. cbn [line_comment] in H.
  destruct (lv_cons s W) as (x0 & l0 & L0 & C0 & B0 & Z0).
  destruct (is_one_of (chr s) [10; EQ_NULL]) eqn:G.
  - injection H as <-. exists []. split; [now apply adv_refl|]. split; [auto|].
    apply one_of in G. rewrite C0 in G. rewrite L0. cbn [hd]. destruct G as [G|[G|[]]].
    + left. apply class_self; [lia|now symmetry|lia].
    + right. symmetry in G. apply class_null in G; [|lia]. rewrite (Z0 G). now subst.
  - ebind H. nadv E W. destruct (IH _ _ W0 H) as (w & A2 & N & Hd). exists (x :: w). split.
    { exact (adv_trans _ _ [x] _ _ _ A A2). }
    split; auto. intros [->|I]; auto. apply not_one_of in G. apply G. rewrite C. now left.
Qed.
(** Bodies of block comments as the tokenizer finds them. *)
Inductive body : list Z -> Prop :=
| body_nil : body []
| body_char x b : x <> 42 -> body b -> body (x :: b)
| body_star y b : y <> 47 -> body b -> body (42 :: y :: b).
Lemma block_adv : forall n s s', wf s -> block_comment n s = Some (Ok s') ->
  exists x b, adv false s (x :: b ++ [42; 47]) s' /\ body b /\ chr s = class x /\ 0 <= x < 256.
Proof.
  induction n as [|n IH]; intros s s' W H; [discriminate|]. cbn [block_comment] in H.
  ebind H. nadv E W. destruct (Z.eqb_spec (chr s0) 42) as [Q|Q].
  - ebind H. nadv E0 W0. rewrite C0 in Q. apply class_self in Q; [|lia|lia]. subst x0.
    destruct (Z.eqb_spec (chr s1) 47) as [Q2|Q2].
    + injection H as H. nadv H W1. rewrite C1 in Q2. apply class_self in Q2; [|lia|lia]. subst x0.
      exists x, []. split; [|repeat split; auto; try constructor; lia].
      exact (adv_trans _ _ [x] _ _ _ A (adv_trans _ _ [42] _ _ _ A0 A1)).
    + destruct (IH _ _ W1 H) as (y & b & A3 & Hb & Cy & By). exists x, (42 :: y :: b). split; [|repeat split; auto; try lia].
      * exact (adv_trans _ _ [x] _ _ _ A (adv_trans _ _ [42] _ _ _ A0 A3)).
      * apply body_star; auto. intros ->. now apply Q2.
  - destruct (chr s0 =? EQ_NULL); [discriminate|].
    destruct (IH _ _ W0 H) as (y & b & A3 & Hb & Cy & By). exists x, (y :: b). split; [|repeat split; auto; try lia].
    + exact (adv_trans _ _ [x] _ _ _ A A3).
    + constructor; auto. intros ->. now apply Q.
Qed.
