(** The tokenizer accepts texts of tokens with white space between them. *)
From Coq Require Import String.
From Verif Require Import Base CharTypes Tokens MacroTable Fuel Expander Directives Tokenizer TokenizerSpec TokenizerProofs ScanProofs TilingProofs PrintTokens PrintSpec PrintProofs.
Local Open Scope Z_scope.
Local Open Scope list_scope.
Ltac Zify.zify_post_hook ::= idtac.

Definition byte_ok (b : Z) : Prop := 1 <= b < 128 /\ b <> 92.
(** The state before the text [u]. *)
Definition before (s : tk) (u : list Z) : Prop := at_c s = u ++ [0] /\ chr s = class (ahead u) /\ esc s = false.

Lemma next_before s c u : before s (c :: u) -> Forall byte_ok u -> exists s', next_char s = Ok s' /\ before s' u.
Proof.
  intros (A & _ & E) F. unfold next_char. rewrite A, E. cbn [tl app].
  destruct u as [|d u]; [cbn; eexists; split; [reflexivity|repeat split; reflexivity]|].
  inversion F as [|? ? [D1 D2] _]; subst. cbn [app].
  assert (R : forall m e sp l, read_char (d :: m) e sp l = Ok {| chr := class d; at_c := d :: m; esc := e; sep := sp; ln := if d =? 10 then l + 1 else l |}).
  { intros m e sp l. apply read_plain. intros S. destruct S as [[r R]|[r R]]; injection R as -> _; congruence. }
  rewrite R. eexists. split; [reflexivity|]. repeat split; reflexivity.
Qed.
Lemma before_flags s u : before s u -> before (no_flags s) u.
Proof. intros (A & B & _). repeat split; auto. Qed.

Lemma ends_class r : ends r -> class (ahead r) = EQ_NULL \/ class (ahead r) = EQ_SPACE \/ class (ahead r) = 10.
Proof. intros E. apply ends_ahead in E as [->|[->| ->]]; vm_compute; auto. Qed.
Lemma id_class c : nondigit c \/ digit c -> is_one_of (class c) [EQ_ALPHA; 117; 85; EQ_EXPONENT; 76; EQ_DECIMAL; 56; EQ_UTF8] = true.
Proof.
  intros H. rewrite class_id by (unfold nondigit, digit in H; lia). rewrite !orb_true_iff, digitb_spec, nondigitb_spec. unfold nondigit, digit in *. tauto.
Qed.
Lemma ident_fwd : forall w n s r, before s (w ++ r) -> Forall (fun d => nondigit d \/ digit d) w -> ends r -> Forall byte_ok (w ++ r) -> (length w < n)%nat ->
  exists s', parse_identifier n s = Some (Ok s') /\ before s' r.
Proof.
  induction w as [|c w IH]; intros n s r B F E K L; destruct n as [|n]; try lia; cbn [parse_identifier].
  - cbn [app] in B. exists s. split; [|exact B]. destruct B as (_ & -> & _). destruct (ends_class _ E) as [->|[->| ->]]; reflexivity.
  - inversion F as [|? ? C F']; inversion K as [|? ? _ K']; subst. assert (Cs : chr s = class c) by apply B. rewrite Cs, (id_class c C).
    destruct (next_before _ _ _ B K') as (s' & -> & B'). cbn [exbind]. apply IH; auto. cbn in L. lia.
Qed.
Lemma exp_class c : exponent c -> class c = EQ_EXPONENT.
Proof. intros H. apply class_exp; auto. unfold exponent in H. cbn in H. lia. Qed.
Lemma num_class c : digit c \/ nondigit c \/ c = 46 -> is_one_of (class c) [EQ_DECIMAL; 56; EQ_ALPHA; 117; 85; EQ_EXPONENT; 76; 46] = true.
Proof.
  intros H. rewrite class_num by (unfold nondigit, digit in H; lia). rewrite !orb_true_iff, digitb_spec, nondigitb_spec, Z.eqb_eq. unfold nondigit, digit in *. tauto.
Qed.
Lemma sign_class c : 0 <= c < 256 -> is_one_of (class c) [43; 45] = true <-> sign c.
Proof.
  intros X. unfold sign. split.
  - intros H. apply one_of in H. apply class_in in H; [exact H|exact X|repeat constructor; lia].
  - intros [<-|[<-|[]]]; reflexivity.
Qed.
Lemma number_fwd : forall n w s r, pp_rest w -> ~ In 39 w -> before s (w ++ r) -> ends r -> Forall byte_ok (w ++ r) -> (length w < n)%nat ->
  exists s', parse_number n s = Some (Ok s') /\ before s' r.
Proof.
  induction n as [|n IH]; intros w s r P N B E K L; [lia|]. cbn [parse_number].
  inversion P as [|c x C P'|c sg x C S P'|c x C P']; subst.
  - exists s. split; [|exact B]. destruct B as (_ & -> & _). cbn [app]. destruct (ends_class _ E) as [->|[->| ->]]; reflexivity.
  - cbn [app] in B, K. inversion K as [|? ? Kc K']; subst. assert (Cs : chr s = class c) by apply B. rewrite Cs.
    destruct (next_before _ _ _ B K') as (s' & E' & B'). cbn [In] in N.
    assert (NS : is_one_of (chr s') [43; 45] = false).
    { destruct (is_one_of (chr s') [43; 45]) eqn:Q; auto. exfalso. assert (C' : chr s' = class (ahead (x ++ r))) by apply B'. rewrite C' in Q.
      destruct x as [|d x].
      - cbn [app] in Q. destruct (ends_class _ E) as [Q'|[Q'|Q']]; rewrite Q' in Q; discriminate.
      - cbn [app ahead hd] in Q. apply sign_class in Q; [exact (no_sign _ _ P' Q)|]. inversion K' as [|? ? [K1 _] _]; subst. lia. }
    destruct (IH x s' r P' ltac:(tauto) B' E K' ltac:(cbn in L; lia)) as (s2 & E2 & B2).
    destruct (Z.eqb_spec (class c) EQ_EXPONENT) as [Q|Q].
    + rewrite E'. cbn [exbind]. rewrite NS. eauto.
    + destruct (Z.eqb_spec (class c) 39) as [Q2|Q2]; [exfalso; apply class_self in Q2; [tauto|destruct Kc; lia|lia]|].
      rewrite (num_class c C), E'. cbn [exbind]. eauto.
  - cbn [app] in B, K. inversion K as [|? ? Kc K']; subst. inversion K' as [|? ? Ks K2]; subst.
    assert (Cs : chr s = class c) by apply B. rewrite Cs, (exp_class c C). cbn [Z.eqb]. change (EQ_EXPONENT =? EQ_EXPONENT) with true. cbv iota.
    destruct (next_before _ _ _ B K') as (s' & -> & B'). cbn [exbind].
    assert (Cs' : chr s' = class sg) by apply B'. rewrite Cs', (proj2 (sign_class sg ltac:(destruct Ks; lia)) S).
    destruct (next_before _ _ _ B' K2) as (s2 & -> & B2). cbn [exbind]. cbn [In] in N. apply IH with (w := x); auto. cbn in L. lia.
  - exfalso. apply N. now left.
Qed.

Definition scans (n : nat) (first : bool) (s : tk) (k : Z) (r : list Z) : Prop := exists s', scan n false first s = Some (Ok (k, s', false)) /\ before s' r.

Lemma symbol_fwd k x : In (k, x) symbols -> forall n first s r, before s (x ++ r) -> ends r -> scans n first s k r.
Proof.
  intros I n first [c m e sp l] r (A & C & Es) E. cbn [at_c chr esc] in A, C, Es. subst c m e. unfold scans.
  assert (R : r = [] \/ exists r', r = 32 :: r' \/ r = 10 :: r').
  { destruct r as [|b r]; auto. right. destruct E as [E|[E|E]]; [discriminate| |]; cbn in E; subst; eauto. }
  clear E. cbn [In symbols] in I.
  repeat (destruct I as [I|I]; [injection I as <- <-; destruct R as [->|(r' & [->| ->])]; (eexists; split; [reflexivity|repeat split; reflexivity])|]).
  destruct I.
Qed.

Lemma nondigit_class c : nondigit c -> In (class c) [117; 76; 85; EQ_EXPONENT; EQ_ALPHA].
Proof.
  intros H. assert (X : 0 <= c < 256) by (unfold nondigit in H; lia).
  assert (G : negb (nondigitb c) || is_one_of (class c) [117; 76; 85; EQ_EXPONENT; EQ_ALPHA] = true).
  { clear H. revert c X. apply (class_check (fun x k => negb (nondigitb x) || is_one_of k [117; 76; 85; EQ_EXPONENT; EQ_ALPHA])). vm_compute. reflexivity. }
  apply nondigitb_spec in H. rewrite H in G. cbn [negb orb] in G. now apply one_of.
Qed.
Lemma digit_class c : digit c -> class c = EQ_DECIMAL \/ class c = 56.
Proof.
  intros H. assert (K : In c [48; 49; 50; 51; 52; 53; 54; 55; 56; 57]) by (unfold digit in H; cbn; lia).
  cbn in K. repeat (destruct K as [<-|K]; [vm_compute; auto|]). destruct K.
Qed.
Lemma word_class u : (u = [] \/ exists c r, u = c :: r /\ (nondigit c \/ digit c)) \/ ends u -> is_one_of (class (ahead u)) [34] = false /\ is_one_of (class (ahead u)) [34; 39] = false.
Proof.
  intros [[->|(c & r & -> & C)]|E]; [split; reflexivity| |].
  - cbn [ahead hd]. destruct C as [C|C].
    + apply nondigit_class in C. cbn [In] in C. destruct C as [<-|[<-|[<-|[<-|[<-|[]]]]]]; split; reflexivity.
    + apply digit_class in C as [->| ->]; split; reflexivity.
  - destruct (ends_class _ E) as [->|[->| ->]]; split; reflexivity.
Qed.
Lemma word_ahead w r : Forall (fun d => nondigit d \/ digit d) w -> ends r -> (w ++ r = [] \/ exists c t, w ++ r = c :: t /\ (nondigit c \/ digit c)) \/ ends (w ++ r).
Proof. intros F E. destruct F as [|c w C F]; [right; exact E|]. left. right. exists c, (w ++ r). auto. Qed.
Lemma prefix_fwd n e s w r : incl e [34; 39] -> before s (w ++ r) -> Forall (fun d => nondigit d \/ digit d) w -> ends r -> Forall byte_ok (w ++ r) -> (length w < n)%nat ->
  exists s', after_prefix n e s = Some (Ok (T_IDENT, s')) /\ before s' r.
Proof.
  intros In_e B F E K L. unfold after_prefix. assert (Q : is_one_of (chr s) e = false).
  { destruct (is_one_of (chr s) e) eqn:Q; auto. exfalso. assert (C : chr s = class (ahead (w ++ r))) by apply B. rewrite C in Q.
    destruct (word_class _ (word_ahead w r F E)) as [_ W]. apply one_of in Q. apply In_e in Q. apply one_of in Q. congruence. }
  rewrite Q. destruct (ident_fwd w n s r B F E K L) as (s' & -> & B'). cbn [exbind]. exists s'. auto.
Qed.
Lemma word_fwd n first c w s r : nondigit c -> Forall (fun d => nondigit d \/ digit d) w -> before s ((c :: w) ++ r) -> ends r -> Forall byte_ok (w ++ r) -> (length w < n)%nat ->
  scans n first s T_IDENT r.
Proof.
  intros C F B E K L. unfold scans, scan. cbn [app] in B. destruct (next_before _ _ _ B K) as (s1 & E1 & B1).
  assert (Cs : chr s = class c) by apply B. rewrite Cs. cbv zeta. apply nondigit_class in C. cbn [In] in C.
  assert (I1 : incl [34; 39] [34; 39]) by apply incl_refl.
  assert (I2 : incl [34] [34; 39]) by (intros x [<-|[]]; now left).
  destruct (prefix_fwd n [34; 39] s1 w r I1 B1 F E K L) as (s2 & E2 & B2).
  destruct (ident_fwd w n s1 r B1 F E K L) as (s3 & E3 & B3).
  destruct C as [<-|[<-|[<-|[<-|[<-|[]]]]]].
  - change (117 =? 117) with true. cbv iota. rewrite E1. cbn [exbind]. destruct (Z.eqb_spec (chr s1) 56) as [Q|Q].
    + assert (W : exists w', w = 56 :: w').
      { assert (C1 : chr s1 = class (ahead (w ++ r))) by apply B1. rewrite C1 in Q. destruct w as [|d w].
        - exfalso. cbn [app] in Q. destruct (ends_class _ E) as [Q'|[Q'|Q']]; rewrite Q' in Q; discriminate.
        - cbn [app ahead hd] in Q. apply class_self in Q; [|inversion K as [|? ? [K1 _] _]; subst; lia|lia]. subst d. eauto. }
      destruct W as (w' & ->). cbn [app] in B1, K. inversion K as [|? ? _ K']; inversion F as [|? ? _ F']; subst.
      destruct (next_before _ _ _ B1 K') as (s4 & E4 & B4). rewrite E4. cbn [exbind].
      destruct (prefix_fwd n [34] s4 w' r I2 B4 F' E K' ltac:(cbn in L; lia)) as (s5 & E5 & B5). rewrite E5. cbn [exbind]. exists s5. auto.
    + rewrite E2. cbn [exbind]. exists s2. auto.
  - change (76 =? 117) with false. change (is_one_of 76 [76; 85]) with true. cbv iota. rewrite E1. cbn [exbind]. rewrite E2. cbn [exbind]. exists s2. auto.
  - change (85 =? 117) with false. change (is_one_of 85 [76; 85]) with true. cbv iota. rewrite E1. cbn [exbind]. rewrite E2. cbn [exbind]. exists s2. auto.
  - cbn [Z.eqb is_one_of existsb orb]. change (EQ_EXPONENT =? 117) with false. change (is_one_of EQ_EXPONENT [76; 85]) with false.
    change (EQ_EXPONENT =? 34) with false. change (EQ_EXPONENT =? 39) with false. change (is_one_of EQ_EXPONENT [EQ_EXPONENT; EQ_UTF8; EQ_ALPHA]) with true.
    cbv iota. rewrite E1. cbn [exbind]. rewrite E3. cbn [exbind]. exists s3. auto.
  - change (EQ_ALPHA =? 117) with false. change (is_one_of EQ_ALPHA [76; 85]) with false.
    change (EQ_ALPHA =? 34) with false. change (EQ_ALPHA =? 39) with false. change (is_one_of EQ_ALPHA [EQ_EXPONENT; EQ_UTF8; EQ_ALPHA]) with true.
    cbv iota. rewrite E1. cbn [exbind]. rewrite E3. cbn [exbind]. exists s3. auto.
Qed.
Lemma num_fwd n first d x w s r : digit d -> x = [d] \/ x = [46; d] -> pp_rest w -> ~ In 39 w -> before s ((x ++ w) ++ r) -> ends r -> Forall byte_ok ((x ++ w) ++ r) -> (length w < n)%nat ->
  scans n first s T_NUM r.
Proof.
  intros D X P N B E K L. unfold scans, scan. destruct X as [->| ->]; cbn [app] in B, K; inversion K as [|? ? _ K']; subst; destruct (next_before _ _ _ B K') as (s1 & E1 & B1).
  - assert (Cs : chr s = class d) by apply B. rewrite Cs. cbv zeta. destruct (number_fwd n w s1 r P N B1 E K' L) as (s2 & E2 & B2).
    exists s2. split; [|exact B2]. destruct (digit_class d D) as [->| ->].
    + change (EQ_DECIMAL =? 117) with false. change (is_one_of EQ_DECIMAL [76; 85]) with false. change (EQ_DECIMAL =? 34) with false. change (EQ_DECIMAL =? 39) with false.
      change (is_one_of EQ_DECIMAL [EQ_EXPONENT; EQ_UTF8; EQ_ALPHA]) with false. change (is_one_of EQ_DECIMAL [56; EQ_DECIMAL]) with true. cbv iota.
      rewrite E1. cbn [exbind]. rewrite E2. reflexivity.
    + change (56 =? 117) with false. change (is_one_of 56 [76; 85]) with false. change (56 =? 34) with false. change (56 =? 39) with false.
      change (is_one_of 56 [EQ_EXPONENT; EQ_UTF8; EQ_ALPHA]) with false. change (is_one_of 56 [56; EQ_DECIMAL]) with true. cbv iota.
      rewrite E1. cbn [exbind]. rewrite E2. reflexivity.
  - assert (Cs : chr s = 46) by (destruct B as (_ & -> & _); reflexivity). rewrite Cs. cbv zeta. inversion K' as [|? ? _ K2]; subst.
    destruct (next_before _ _ _ B1 K2) as (s2 & E2 & B2). destruct (number_fwd n w s2 r P N B2 E K2 L) as (s3 & E3 & B3).
    exists s3. split; [|exact B3].
    change (46 =? 117) with false. change (is_one_of 46 [76; 85]) with false. change (46 =? 34) with false. change (46 =? 39) with false.
    change (is_one_of 46 [EQ_EXPONENT; EQ_UTF8; EQ_ALPHA]) with false. change (is_one_of 46 [56; EQ_DECIMAL]) with false. change (46 =? 46) with true. cbv iota.
    rewrite E1. cbn [exbind]. assert (C1 : chr s1 = class d) by apply B1. rewrite C1.
    assert (G : is_one_of (class d) [EQ_DECIMAL; 56] = true) by (destruct (digit_class d D) as [->| ->]; reflexivity). rewrite G, E2. cbn [exbind]. rewrite E3. reflexivity.
Qed.
Lemma good_fwd n first k x s r : good k x -> before s (x ++ r) -> ends r -> Forall byte_ok (x ++ r) -> (length x < n)%nat -> scans n first s k r.
Proof.
  intros G B E K L. destruct G as [c w C W|x w (d & D & X) P N|k x S].
  - apply (word_fwd n first c w); auto; [inversion K; auto|cbn in L; lia].
  - apply (num_fwd n first d x w); auto. rewrite app_length in L. lia.
  - now apply (symbol_fwd k x S).
Qed.

Lemma text_plain s0 s : esc s = false -> exists str, token_text s0 s = Some (Ok str).
Proof. intros E. unfold token_text. rewrite E. cbn [ok exbind]. destruct (sep s); eexists; reflexivity. Qed.

Lemma finish_fwd n s k r ws first : scans n first (no_flags s) k r -> (k =? T_EOI) = false \/ True ->
  exists t s', (let! (ty, s1, st) := scan n false first (no_flags s) in
        let! str := token_text (no_flags s) s1 in
        if (ty =? T_IDENT) && (false || st) then ok (make_token ty str ws (first || (ty =? T_EOI)) (ln (no_flags s)), sv_cmp str (chars "include"), false, s1)
        else ok (make_token ty str ws (first || (ty =? T_EOI)) (ln (no_flags s)), false, false || st, s1)) = Some (Ok (t, false, false, s')) /\ ty t = k /\ before s' r.
Proof.
  intros (s' & E & B) _. rewrite E. cbn [exbind]. destruct (text_plain (no_flags s) s' (proj2 (proj2 B))) as (str & ->). cbn [exbind orb].
  rewrite andb_false_r. do 2 eexists. split; [reflexivity|]. split; [reflexivity|exact B].
Qed.
Lemma next_fwd k x r : good k x -> ends r -> forall g n ws first s, Forall blank_char g -> before s (g ++ x ++ r) -> Forall byte_ok (g ++ x ++ r) -> (length g + length x + 1 < n)%nat ->
  exists t s', tokenizer_next n false false ws first s = Some (Ok (t, false, false, s')) /\ ty t = k /\ before s' r.
Proof.
  intros G E. induction g as [|b g IH]; intros n ws first s F B K L; destruct n as [|n]; try lia; cbn [tokenizer_next]; cbv zeta.
  - cbn [app] in B, K. assert (B0 := before_flags _ _ B). cbn [length] in L.
    assert (Sc : scans n first (no_flags s) k r) by (apply (good_fwd n first k x); auto; lia).
    destruct (finish_fwd n s k r ws first Sc (or_intror I)) as (t & s' & Fi & Ht & Hb).
    destruct (good_first _ _ _ G E) as (c & w & -> & W & N & C1 & C2). assert (Cs : chr (no_flags s) = class c) by apply B0.
    assert (Kc : 0 <= c < 256) by (inversion K as [|? ? [K1 _] _]; subst; lia).
    assert (Q1 : (class c =? EQ_SPACE) = false).
    { destruct (Z.eqb_spec (class c) EQ_SPACE) as [Q|Q]; auto. exfalso. apply W.
      assert (T : negb (class c =? EQ_SPACE) || is_one_of c [9; 13; 32] = true).
      { clear -Kc. revert c Kc. apply (class_check (fun x k => negb (k =? EQ_SPACE) || is_one_of x [9; 13; 32])). vm_compute. reflexivity. }
      rewrite Q in T. cbn [Z.eqb negb orb] in T. change (EQ_SPACE =? EQ_SPACE) with true in T. cbn [negb orb] in T. now apply one_of. }
    assert (Q2 : (class c =? 10) = false) by (destruct (Z.eqb_spec (class c) 10) as [Q|Q]; auto; apply class_self in Q; [congruence|exact Kc|lia]).
    rewrite Cs, Q1, Q2. destruct (Z.eqb_spec (class c) 47) as [Q|Q]; [|exists t, s'; auto].
    apply class_self in Q; [subst c|exact Kc|lia]. inversion K as [|? ? _ K']; subst. destruct (next_before _ _ _ B0 K') as (s1 & -> & B1). cbn [exbind].
    assert (A1 : chr s1 = class (ahead (w ++ r))) by apply B1.
    assert (Ka : forall z, ahead (w ++ r) <> z -> 33 <= z -> (chr s1 =? z) = false).
    { intros z Nz Z33. rewrite A1. destruct (Z.eqb_spec (class (ahead (w ++ r))) z) as [Q|Q]; auto. exfalso. apply Nz. apply class_self; auto.
      destruct (w ++ r) as [|y l]; [cbn; lia|]. inversion K' as [|? ? [Ky _] _]; subst. cbn. lia. }
    rewrite (Ka 47), (Ka 42); [exists t, s'; auto| |lia| |lia].
    + intros Q. apply C2. destruct (w ++ r) as [|y l] eqn:El; [discriminate Q|]. cbn in Q. subst y. exists l. cbn [app]. rewrite El. reflexivity.
    + intros Q. apply C1. destruct (w ++ r) as [|y l] eqn:El; [discriminate Q|]. cbn in Q. subst y. exists l. cbn [app]. rewrite El. reflexivity.
  - cbn [app length] in B, K, L. inversion F as [|? ? Bb F']; inversion K as [|? ? _ K']; subst. assert (B0 := before_flags _ _ B).
    destruct (next_before _ _ _ B0 K') as (s1 & E1 & B1). assert (Cs : chr (no_flags s) = class b) by apply B0. rewrite Cs.
    destruct Bb as [->| ->].
    + change (class 32 =? EQ_SPACE) with true. cbv iota. rewrite E1. cbn [exbind]. apply IH; auto; lia.
    + change (class 10 =? EQ_SPACE) with false. change (class 10 =? 10) with true. cbv iota. rewrite E1. cbn [exbind]. apply IH; auto; lia.
Qed.
Lemma end_fwd : forall g n ws first s, Forall blank_char g -> before s g -> (length g < n)%nat ->
  exists t s', tokenizer_next n false false ws first s = Some (Ok (t, false, false, s')) /\ ty t = T_EOI.
Proof.
  induction g as [|b g IH]; intros n ws first s F B L; destruct n as [|n]; try lia; cbn [tokenizer_next]; cbv zeta; assert (B0 := before_flags _ _ B).
  - assert (Cs : chr (no_flags s) = EQ_NULL) by apply B0.
    assert (Sc : scan n false first (no_flags s) = Some (Ok (T_EOI, no_flags s, false))) by (unfold scan; rewrite Cs; reflexivity).
    rewrite Cs, Sc. change (EQ_NULL =? EQ_SPACE) with false. change (EQ_NULL =? 10) with false. change (EQ_NULL =? 47) with false. cbv iota. cbn [exbind].
    destruct (text_plain (no_flags s) (no_flags s) eq_refl) as (str & ->). cbn [exbind orb]. rewrite andb_false_r. do 2 eexists. split; reflexivity.
  - inversion F as [|? ? Bb F']; subst. cbn [length] in L. assert (K : Forall byte_ok g) by (eapply Forall_impl; [|exact F']; unfold blank_char, byte_ok; lia).
    destruct (next_before _ _ _ B0 K) as (s1 & E1 & B1). assert (Cs : chr (no_flags s) = class b) by apply B0. rewrite Cs.
    destruct Bb as [->| ->].
    + change (class 32 =? EQ_SPACE) with true. cbv iota. rewrite E1. cbn [exbind]. apply IH; auto; lia.
    + change (class 10 =? EQ_SPACE) with false. change (class 10 =? 10) with true. cbv iota. rewrite E1. cbn [exbind]. apply IH; auto; lia.
Qed.
Lemma good_eoi k x : good k x -> k <> T_EOI.
Proof.
  intros [c w _ _|y w _ _ _|k' s' S]; try discriminate.
  assert (G : forallb (fun p => negb (fst p =? T_EOI)) symbols = true) by (vm_compute; reflexivity). rewrite forallb_forall in G.
  specialize (G _ S). cbn [fst] in G. intros ->. discriminate.
Qed.
(** The tokens from a state on, the first of them still to be read. *)
Lemma rest_fwd ks u : reads ks u -> Forall byte_ok u -> forall n ws first s, before s u -> (length u + 3 <= n)%nat ->
  exists l, (let! (t, hdr, dir, s) := tokenizer_next n false false ws first s in tokenize_rest n t hdr dir s) = Some (Ok l).
Proof.
  intros R. induction R as [g F|k x ks g r F G E R IH]; intros K n ws first s B L.
  - destruct (end_fwd g n ws first s F B ltac:(lia)) as (t & s' & -> & Ht). cbn [exbind]. destruct n as [|n]; [lia|]. cbn [tokenize_rest]. rewrite Ht. eexists. reflexivity.
  - rewrite !app_length in L. destruct (good_first _ _ _ G E) as (c & w & Ex & _). assert (Lx : (1 <= length x)%nat) by (rewrite Ex; cbn; lia).
    destruct (next_fwd k x r G E g n ws first s F B K ltac:(lia)) as (t & s' & -> & Ht & B'). cbn [exbind]. destruct n as [|n]; [lia|]. cbn [tokenize_rest].
    rewrite Ht, (proj2 (Z.eqb_neq _ _) (good_eoi _ _ G)). apply Forall_app in K as [_ K]. apply Forall_app in K as [_ K].
    destruct (IH K n false false s' B' ltac:(lia)) as (l & El). destruct (tokenizer_next n false false false false s') as [[[[[t2 h2] d2] s2]| |]|]; cbn [exbind] in *; try discriminate.
    rewrite El. cbn [exbind]. eexists. reflexivity.
Qed.
Theorem reads_accepted ks u : reads ks u -> exists l, tokenize_input u = Some (Ok l).
Proof.
  intros R. assert (K := reads_bytes _ _ R). assert (Bo : skip_bom (u ++ [0]) = u ++ [0]).
  { unfold skip_bom. destruct u as [|c u]; [reflexivity|]. inversion K as [|? ? [H _] _]; subst. cbn [app].
    repeat match goal with |- match ?x with _ => _ end = _ => destruct x end; try reflexivity; exfalso; lia. }
  unfold tokenize_input, tokenize. rewrite Bo. apply (rest_fwd ks (10 :: u)).
  - inversion R as [g F|k s l g r F G E R']; subst; [constructor; constructor; auto; now right|]. apply (rd_cons k s l (10 :: g) r); auto. constructor; auto. now right.
  - constructor; [unfold byte_ok; lia|exact K].
  - repeat split.
  - cbn. lia.
Qed.
