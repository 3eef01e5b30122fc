From Coq Require Import String.
From Verif Require Import Base CharTypes Utf8 Tokens MacroTable Fuel Expander Directives Tokenizer TokenizerSpec TokenizerProofs ScanProofs TilingProofs.
Local Open Scope list_scope.

(** * The tokenizer ends, and stays within a source that ends in a newline *)
Definition good (s : tk) : Prop := (exists v, lv s = v ++ [10; 0]) \/ lv s = [0].
Definition len (s : tk) : nat := length (lv s).
(** Outcomes: with [safe] nothing undefined happens and the state stays good. *)
Definition T (safe : bool) (s : tk) (r : ex tk) : Prop :=
  match r with
  | Some (Ok s') => wf s' /\ (len s' <= len s)%nat /\ (safe = true -> good s')
  | Some Fail => True
  | Some Undef => safe = false
  | None => False
  end.
Definition st_ok (safe : bool) (s : tk) : Prop := wf s /\ (safe = true -> good s).

Lemma step_ok safe s : st_ok safe s -> chr s <> EQ_NULL ->
  (exists s', next_char s = Ok s' /\ st_ok safe s' /\ (len s' < len s)%nat /\ (safe = true -> chr s <> 10 -> chr s' <> EQ_NULL)) \/
  (next_char s = Undef /\ safe = false).
Proof.
  intros [W G] N. destruct (next_char s) as [s'| |] eqn:E.
  - left. exists s'. split; auto. nadv E W. split; [|split].
    + split; auto. intros Hs. destruct A as (_ & L & _). destruct (G Hs) as [[v V]|V].
      * rewrite V in L. destruct v as [|y v]; cbn in L; injection L as _ L; [right; auto|left; exists v; auto].
      * rewrite V in L. cbn in L. injection L as <- _. lia.
    + destruct A as (_ & L & _). unfold len. rewrite L. cbn. lia.
    + intros Hs N10 N0. destruct A as (_ & L & _). destruct (lv_cons s' W0) as (z & l & L2 & C2 & B2 & Z2). rewrite C2 in N0. apply class_null in N0; [|lia].
      rewrite L2, (Z2 N0) in L. subst z. destruct (G Hs) as [[v V]|V]; rewrite V in L.
      * destruct v as [|y [|y' v]]; cbn in L; try discriminate.
        -- injection L as <-. apply N10. rewrite C. reflexivity.
        -- injection L. intros Q. apply (f_equal (@length Z)) in Q. rewrite app_length in Q. cbn in Q. lia.
      * discriminate.
  - exfalso. unfold next_char in E. assert (R : forall k m e sp l, (length m <= k)%nat -> read_char m e sp l <> Fail).
    { induction k as [|k IH]; intros m e sp l Lk; [destruct m; [discriminate|cbn in Lk; lia]|].
      destruct m as [|x m]; [discriminate|]. destruct (splice_dec (x :: m)) as [[[r R]|[r R]]|Ns].
      - rewrite R in *. cbn [read_char]. apply IH. cbn in Lk. lia.
      - rewrite R in *. cbn [read_char]. apply IH. cbn in Lk. lia.
      - rewrite read_plain by exact Ns. discriminate. }
    exact (R _ _ _ _ _ (le_n _) E).
  - right. split; auto. destruct safe; auto. exfalso. destruct (lv_cons s W) as (x & l & L & C & B & _).
    assert (exists y l', l = y :: l').
    { destruct (G eq_refl) as [[v V]|V]; rewrite L in V.
      - destruct v as [|y v]; cbn in V; injection V as _ ->; [eauto|destruct v; cbn; eauto].
      - injection V as -> ->. exfalso. apply N. rewrite C. reflexivity. }
    destruct H as (y & l' & ->). destruct (next_ok s x y l' W L) as [s' E']. congruence.
Qed.
Lemma T_le safe s s1 r : (len s1 <= len s)%nat -> T safe s1 r -> T safe s r.
Proof. unfold T. destruct r as [[s'| |]|]; auto. intros L (A & B & C). split; [exact A|]. split; [lia|exact C]. Qed.
Lemma T_ok safe s : st_ok safe s -> T safe s (ok s).
Proof. intros [W G]. split; [exact W|]. split; [lia|exact G]. Qed.
Lemma T_step safe s f : st_ok safe s -> chr s <> EQ_NULL ->
  (forall s', st_ok safe s' -> (len s' < len s)%nat -> (safe = true -> chr s <> 10 -> chr s' <> EQ_NULL) -> T safe s' (f s')) ->
  T safe s (exbind (Some (next_char s)) f).
Proof.
  intros O N H. destruct (step_ok safe s O N) as [(s' & -> & O' & L & K)|[-> ->]]; cbn [exbind]; [|reflexivity].
  apply (T_le _ _ s'); [lia|auto].
Qed.
Lemma T_flag safe s s1 r : len s1 = len s -> T safe s1 r -> T safe s r.
Proof. intros E. apply T_le. lia. Qed.
Lemma st_esc safe s : st_ok safe s -> st_ok safe (with_esc s).
Proof. intros [W G]. split; [revert W; apply wf_flags; reflexivity|exact G]. Qed.
Lemma st_sep safe s : st_ok safe s -> st_ok safe (with_sep s).
Proof. intros [W G]. split; [revert W; apply wf_flags; reflexivity|exact G]. Qed.
Lemma st_flags safe s : st_ok safe s -> st_ok safe (no_flags s).
Proof. intros [W G]. split; [revert W; apply wf_flags; reflexivity|exact G]. Qed.
Lemma not_null c l : is_one_of c l = true -> ~ In EQ_NULL l -> c <> EQ_NULL.
Proof. intros H N ->. apply N. now apply one_of. Qed.
Ltac nn := let H := fresh in intros H; cbn in H; repeat destruct H as [H|H]; try discriminate; auto.

Lemma ident_T safe : forall n s, st_ok safe s -> (len s < n)%nat -> T safe s (parse_identifier n s).
Proof.
  induction n as [|n IH]; intros s O L; [lia|]. cbn [parse_identifier].
  destruct (is_one_of (chr s) _) eqn:I.
  - apply T_step; auto; [apply (not_null _ _ I); nn|]. intros s' O' L' _. apply IH; auto; lia.
  - destruct (Z.eqb_spec (chr s) 92) as [Q|Q].
    + apply T_step; auto; [rewrite Q; discriminate|]. intros s' O' L' _. destruct (is_one_of (chr s') [117; 85]) eqn:U.
      * apply T_step; auto; [apply (not_null _ _ U); nn|]. intros s2 O2 L2 _. apply (T_flag _ _ (with_esc s2)); [reflexivity|].
        apply IH; [now apply st_esc|]. unfold len in *. change (lv (with_esc s2)) with (lv s2). lia.
      * apply IH; auto; lia.
    + now apply T_ok.
Qed.
Lemma number_T safe : forall n s, st_ok safe s -> (len s < n)%nat -> T safe s (parse_number n s).
Proof.
  induction n as [|n IH]; intros s O L; [lia|]. cbn [parse_number].
  destruct (Z.eqb_spec (chr s) EQ_EXPONENT) as [Q|Q].
  - apply T_step; auto; [rewrite Q; discriminate|]. intros s' O' L' _. destruct (is_one_of (chr s') [43; 45]) eqn:U.
    + apply T_step; auto; [apply (not_null _ _ U); nn|]. intros s2 O2 L2 _. apply IH; auto; lia.
    + apply IH; auto; lia.
  - destruct (Z.eqb_spec (chr s) 39) as [Q1|Q1].
    + apply T_step; auto; [rewrite Q1; discriminate|]. intros s' O' L' _. destruct (is_one_of (chr s') _) eqn:U; [|exact I].
      apply (T_flag _ _ (with_sep s')); [reflexivity|]. apply T_step; [now apply st_sep|apply (not_null _ _ U); nn|].
      intros s2 O2 L2 _. apply IH; auto. unfold len in *. change (lv (with_sep s')) with (lv s') in L2. lia.
    + destruct (is_one_of (chr s) _) eqn:U.
      * apply T_step; auto; [apply (not_null _ _ U); nn|]. intros s' O' L' _. apply IH; auto; lia.
      * now apply T_ok.
Qed.
Lemma step_T safe s : st_ok safe s -> chr s <> EQ_NULL -> T safe s (Some (next_char s)).
Proof.
  intros O N. destruct (step_ok safe s O N) as [(s' & -> & [W G] & L & K)|[-> ->]]; [|reflexivity]. split; [exact W|]. split; [lia|exact G].
Qed.
Lemma string_T safe q : forall n s, q <> EQ_NULL -> st_ok safe s -> (len s < n)%nat -> T safe s (parse_string_like n q s).
Proof.
  induction n as [|n IH]; intros s Nq O L; [lia|]. cbn [parse_string_like].
  destruct (is_one_of (chr s) _) eqn:Iq.
  - destruct (Z.eqb_spec (chr s) q) as [Q|Q]; [|exact I]. apply step_T; auto. now rewrite Q.
  - apply not_one_of in Iq. assert (N0 : chr s <> EQ_NULL) by (intros Q; apply Iq; rewrite Q; cbn; auto).
    assert (N10 : chr s <> 10) by (intros Q; apply Iq; rewrite Q; cbn; auto).
    destruct (Z.eqb_spec (chr s) 92) as [Q|Q].
    + destruct safe.
      * apply T_step; auto. intros s' O' L' K'. specialize (K' eq_refl N10). destruct (is_one_of (chr s') [117; 85]) eqn:U.
        -- apply T_step; auto. intros s2 O2 L2 K2. assert (N2 : chr s2 <> EQ_NULL).
           { apply K2; auto. apply one_of in U. destruct U as [<-|[<-|[]]]; lia. }
           apply (T_flag _ _ (with_esc s2)); [reflexivity|]. apply T_step; [now apply st_esc|exact N2|].
           intros s3 O3 L3 _. apply IH; auto. unfold len in *. change (lv (with_esc s2)) with (lv s2) in L3. lia.
        -- apply T_step; auto. intros s2 O2 L2 _. apply IH; auto; lia.
      * (* the terminator may be passed *)
        assert (U : forall s f, st_ok false s -> (forall s', st_ok false s' -> (len s' < len s)%nat -> T false s' (f s')) -> T false s (exbind (Some (next_char s)) f)).
        { intros s1 f O1 H. destruct (Z.eq_dec (chr s1) EQ_NULL) as [E|E].
          - destruct O1 as [W1 _]. destruct (next_char s1) eqn:En; cbn [exbind]; [|exact I|reflexivity].
      exfalso. nadv En W1. rewrite C in E. apply class_null in E; lia.
          - apply T_step; auto. }
        apply U; auto. intros s' O' L'. destruct (is_one_of (chr s') [117; 85]).
        -- apply U; auto. intros s2 O2 L2. apply (T_flag _ _ (with_esc s2)); [reflexivity|]. apply U; [now apply st_esc|].
           intros s3 O3 L3. apply IH; auto. unfold len in *. change (lv (with_esc s2)) with (lv s2) in L3. lia.
        -- apply U; auto. intros s2 O2 L2. apply IH; auto; lia.
    + apply T_step; auto. intros s' O' L' _. apply IH; auto; lia.
Qed.
Lemma line_T safe : forall n s, st_ok safe s -> (len s < n)%nat -> T safe s (line_comment n s).
Proof.
  induction n as [|n IH]; intros s O L; [lia|]. cbn [line_comment]. destruct (is_one_of (chr s) _) eqn:Iq.
  - now apply T_ok.
  - apply not_one_of in Iq. apply T_step; auto; [intros Q; apply Iq; rewrite Q; cbn; auto|]. intros s' O' L' _. apply IH; auto; lia.
Qed.
Lemma block_T safe : forall n s, st_ok safe s -> (safe = true -> chr s <> EQ_NULL) -> (len s < n)%nat -> T safe s (block_comment n s).
Proof.
  assert (U : forall s f, st_ok false s -> (forall s', st_ok false s' -> (len s' < len s)%nat -> T false s' (f s')) -> T false s (exbind (Some (next_char s)) f)).
  { intros s1 f O1 H. destruct (Z.eq_dec (chr s1) EQ_NULL) as [E|E].
    - destruct O1 as [W1 _]. destruct (next_char s1) eqn:En; cbn [exbind]; [|exact I|reflexivity].
      exfalso. nadv En W1. rewrite C in E. apply class_null in E; lia.
    - apply T_step; auto. }
  induction n as [|n IH]; intros s O N L; [lia|]. cbn [block_comment]. destruct safe.
  - apply T_step; auto. intros s' O' L' K'. destruct (Z.eqb_spec (chr s') 42) as [Q|Q].
    + apply T_step; auto; [rewrite Q; discriminate|]. intros s2 O2 L2 K2.
      assert (N2 : chr s2 <> EQ_NULL) by (apply K2; auto; rewrite Q; lia).
      destruct (Z.eqb_spec (chr s2) 47) as [Q2|Q2]; [now apply step_T|]. apply IH; auto; lia.
    + destruct (Z.eqb_spec (chr s') EQ_NULL) as [Q2|Q2]; [exact I|]. apply IH; auto; lia.
  - apply U; auto. intros s' O' L'. destruct (Z.eqb_spec (chr s') 42) as [Q|Q].
    + apply U; auto. intros s2 O2 L2. destruct (Z.eqb_spec (chr s2) 47) as [Q2|Q2].
      * apply step_T; auto. rewrite Q2. discriminate.
      * apply IH; auto; lia.
    + destruct (Z.eqb_spec (chr s') EQ_NULL) as [Q2|Q2]; [exact I|]. apply IH; auto; lia.
Qed.

Definition T' {A} (f : A -> tk) (safe : bool) (s : tk) (r : ex A) : Prop :=
  match r with
  | Some (Ok a) => wf (f a) /\ (len (f a) <= len s)%nat /\ (safe = true -> good (f a))
  | Some Fail => True
  | Some Undef => safe = false
  | None => False
  end.
Lemma T'_le {A} (f : A -> tk) safe s s1 r : (len s1 <= len s)%nat -> T' f safe s1 r -> T' f safe s r.
Proof. unfold T'. destruct r as [[s'| |]|]; auto. intros L (B & C & D). split; [exact B|]. split; [lia|exact D]. Qed.
Lemma T'_bind {A} (f : A -> tk) safe s e k : T safe s e ->
  (forall s', st_ok safe s' -> (len s' <= len s)%nat -> T' f safe s' (k s')) -> T' f safe s (exbind e k).
Proof.
  intros H K. destruct e as [[s'| |]|]; cbn [exbind]; auto. destruct H as (W & L & G). apply (T'_le _ _ _ s'); [lia|]. apply K; [split; auto|lia].
Qed.
Lemma T'_step {A} (f : A -> tk) safe s k : st_ok safe s -> chr s <> EQ_NULL ->
  (forall s', st_ok safe s' -> (len s' < len s)%nat -> T' f safe s' (k s')) -> T' f safe s (exbind (Some (next_char s)) k).
Proof.
  intros O N H. destruct (step_ok safe s O N) as [(s' & -> & O' & L & K)|[-> ->]]; cbn [exbind]; [|reflexivity].
  apply (T'_le _ _ _ s'); [lia|auto].
Qed.
Lemma T'_ok {A} (f : A -> tk) safe s a : st_ok safe s -> f a = s -> T' f safe s (ok a).
Proof. intros [W G] <-. split; [exact W|]. split; [lia|exact G]. Qed.
Lemma T'_map {A B} (f : A -> tk) (g : B -> tk) safe s (e : ex A) (h : A -> B) : T' f safe s e -> (forall a, g (h a) = f a) ->
  T' g safe s (exbind e (fun a => ok (h a))).
Proof. intros H E. destruct e as [[a| |]|]; cbn in *; auto. rewrite E. exact H. Qed.

Lemma after_prefix_T n ends safe s : st_ok safe s -> (len s < n)%nat -> incl ends [34; 39] -> T' snd safe s (after_prefix n ends s).
Proof.
  intros O L Ie. unfold after_prefix. destruct (is_one_of (chr s) ends) eqn:Iq.
  - apply one_of in Iq. apply Ie in Iq. assert (N : chr s <> EQ_NULL) by (destruct Iq as [<-|[<-|[]]]; discriminate).
    apply T'_step; auto. intros s' O' L'. eapply T'_bind; [apply string_T; auto; lia|]. intros s2 O2 L2. now apply T'_ok.
  - eapply T'_bind; [apply ident_T; auto|]. intros s2 O2 L2. now apply T'_ok.
Qed.
Lemma switch_T w : forall safe s, (exists k, In (k, w) punctuators) -> st_ok safe s -> chr s <> EQ_NULL -> T' snd safe s (Some (run_switch w s)).
Proof.
  intros safe s [k I] O N.
  assert (St : forall w s, st_ok safe s -> chr s <> EQ_NULL -> (forall s', st_ok safe s' -> (len s' < len s)%nat -> T' snd safe s' (Some (w s'))) ->
    T' snd safe s (Some (let* s := next_char s in w s : res (Z * tk)))).
  { intros w1 s1 O1 N1 H. destruct (step_ok safe s1 O1 N1) as [(s' & -> & O' & L & K)|[-> ->]]; cbn [bind]; [|reflexivity].
    apply (T'_le _ _ _ s'); [lia|auto]. }
  assert (Dn : forall s (t : Z), st_ok safe s -> T' snd safe s (Some (Ok (t, s)))) by (intros s1 t O1; now apply (T'_ok snd safe s1 (t, s1))).
  unfold punctuators in I. cbn [In] in I.
  repeat (destruct I as [I|I]); [injection I as <- <-; cbn [run_switch one]; apply St; [exact O|exact N|intros s1 O1 L1] ..|destruct I].
  all: repeat match goal with
       | |- T' _ _ _ (Some (if chr ?a =? ?b then _ else _)) => let Q := fresh "Q" in destruct (Z.eqb_spec (chr a) b) as [Q|Q]
       | |- T' _ _ _ (Some (Ok _)) => apply Dn; assumption
       | Q : chr ?a = _ |- T' _ _ ?a (Some (bind (next_char ?a) _)) =>
           apply St; [assumption|rewrite Q; discriminate|let s2 := fresh "s" in let O2 := fresh "O" in let L2 := fresh "L" in intros s2 O2 L2; clear Q]
       end.
Qed.
Definition mid (p : Z * tk * bool) : tk := snd (fst p).
Lemma scan_T n hdr first safe s : st_ok safe s -> (len s <= n)%nat -> T' mid safe s (scan n hdr first s).
Proof.
  intros O L. unfold scan.
  assert (P : forall r : ex (Z * tk), T' snd safe s r -> T' mid safe s (let! (ty, s) := r in ok (ty, s, false))).
  { intros r H. replace (let! (ty, s) := r in ok (ty, s, false)) with (exbind r (fun a => ok (fst a, snd a, false))); [apply (T'_map snd); auto|].
    destruct r as [[[a b]| |]|]; reflexivity. }
  destruct (Z.eqb_spec (chr s) 117) as [K|K].
  { apply P. apply T'_step; auto; [rewrite K; discriminate|]. intros s1 O1 L1. destruct (Z.eqb_spec (chr s1) 56) as [Q|Q].
    - apply T'_step; auto; [rewrite Q; discriminate|]. intros s2 O2 L2. apply after_prefix_T; auto; [lia|]. intros z [<-|[]]; cbn; auto.
    - apply after_prefix_T; auto; [lia|]. intros z Hz; exact Hz. }
  destruct (is_one_of (chr s) [76; 85]) eqn:I1.
  { apply P. apply T'_step; auto; [apply (not_null _ _ I1); nn|]. intros s1 O1 L1. apply after_prefix_T; auto; [lia|]. intros z Hz; exact Hz. }
  destruct (Z.eqb_spec (chr s) 34) as [K1|K1].
  { apply P. apply T'_step; auto; [rewrite K1; discriminate|]. intros s1 O1 L1. eapply T'_bind; [apply string_T; auto; [discriminate|lia]|]. intros s2 O2 L2. now apply T'_ok. }
  destruct (Z.eqb_spec (chr s) 39) as [K2|K2].
  { apply P. apply T'_step; auto; [rewrite K2; discriminate|]. intros s1 O1 L1. eapply T'_bind; [apply string_T; auto; [discriminate|lia]|]. intros s2 O2 L2. now apply T'_ok. }
  destruct (is_one_of (chr s) [EQ_EXPONENT; EQ_UTF8; EQ_ALPHA]) eqn:I2.
  { apply P. apply T'_step; auto; [apply (not_null _ _ I2); nn|]. intros s1 O1 L1. eapply T'_bind; [apply ident_T; auto; lia|]. intros s2 O2 L2. now apply T'_ok. }
  destruct (is_one_of (chr s) [56; EQ_DECIMAL]) eqn:I3.
  { apply P. apply T'_step; auto; [apply (not_null _ _ I3); nn|]. intros s1 O1 L1. eapply T'_bind; [apply number_T; auto; lia|]. intros s2 O2 L2. now apply T'_ok. }
  destruct (Z.eqb_spec (chr s) 46) as [K3|K3].
  { apply P. apply T'_step; auto; [rewrite K3; discriminate|]. intros s1 O1 L1. destruct (is_one_of (chr s1) _) eqn:I4.
    - apply T'_step; auto; [apply (not_null _ _ I4); nn|]. intros s2 O2 L2. eapply T'_bind; [apply number_T; auto; lia|]. intros s3 O3 L3. now apply T'_ok.
    - destruct (Z.eqb_spec (chr s1) 46) as [Q|Q]; [|now apply T'_ok].
      apply T'_step; auto; [rewrite Q; discriminate|]. intros s2 O2 L2. destruct (Z.eqb_spec (chr s2) 46) as [Q2|Q2]; [|exact I].
      apply T'_step; auto; [rewrite Q2; discriminate|]. intros s3 O3 L3. now apply T'_ok. }
  destruct (Z.eqb_spec (chr s) 35) as [K4|K4].
  { apply T'_step; auto; [rewrite K4; discriminate|]. intros s1 O1 L1. destruct (Z.eqb_spec (chr s1) 35) as [Q|Q]; [|now apply T'_ok].
    apply T'_step; auto; [rewrite Q; discriminate|]. intros s2 O2 L2. now apply T'_ok. }
  destruct ((chr s =? 60) && hdr) eqn:K5.
  { apply andb_true_iff in K5 as [K5 ->]. apply Z.eqb_eq in K5. apply P. apply T'_step; auto; [rewrite K5; discriminate|]. intros s1 O1 L1.
    eapply T'_bind; [apply string_T; auto; [discriminate|lia]|]. intros s2 O2 L2. now apply T'_ok. }
  destruct (Z.eqb_spec (chr s) EQ_NULL) as [K6|K6]; [now apply T'_ok|].
  destruct (find (fun p => fst p =? chr s) punctuators) as [[k w]|] eqn:F; [|exact I].
  apply find_some in F. destruct F as [F1 F2]. apply P. apply switch_T; eauto.
Qed.
(** The text of a token. *)
Lemma hex_digits_ok : forall n l cp, match hex_digits n l cp with Ok (_, r) => (length r <= length l)%nat | Fail => True | Undef => False end.
Proof.
  induction n as [|n IH]; intros l cp; cbn [hex_digits]; [lia|]. destruct l as [|c l]; [exact I|]. destruct (hex_digit c); [|exact I].
  specialize (IH l (Z.lor (wrap 32 (cp * 16)) z)). destruct (hex_digits n l _) as [[cp' r]| |]; auto. cbn. lia.
Qed.
Lemma decode_ok : forall n l, (length l < n)%nat -> exists r, decode_ucns n l = Some r /\ r <> Undef.
Proof.
  induction n as [|n IH]; intros l L; [lia|]. cbn [decode_ucns]. destruct l as [|x l]; [eexists; split; [reflexivity|discriminate]|].
  cbn [length] in L. destruct (_ && _) eqn:E.
  - set (d := match l with 117 :: _ => 4%nat | _ => 8%nat end). assert (H := hex_digits_ok d (tl l) 0).
    destruct (hex_digits d (tl l) 0) as [[cp r]| |]; [|eexists; split; [reflexivity|discriminate]|contradiction]. cbn [exbind].
    assert (U : utf8_encode cp <> Undef).
    { unfold utf8_encode. repeat match goal with |- (if ?b then _ else _) <> _ => destruct b end; discriminate. }
    destruct (utf8_encode cp) as [e| |]; [|eexists; split; [reflexivity|discriminate]|congruence]. cbn [exbind].
    assert (length (tl l) <= length l)%nat by (destruct l; cbn; lia).
    destruct (IH r ltac:(lia)) as (v & -> & Nv). destruct v as [v| |]; [..|congruence]; eexists; (split; [reflexivity|discriminate]).
  - destruct (IH l ltac:(lia)) as (v & -> & Nv). destruct v as [v| |]; [..|congruence]; eexists; (split; [reflexivity|discriminate]).
Qed.
Lemma text_ok s0 s : exists r, token_text s0 s = Some r /\ r <> Undef.
Proof.
  unfold token_text. destruct (esc s).
  - unfold remove_escape_sequences. set (l := remove_splices _). destruct (decode_ok (S (length l)) l ltac:(lia)) as (v & -> & Nv).
    destruct v as [v| |]; [..|congruence]; eexists; (split; [reflexivity|discriminate]).
  - eexists. split; [reflexivity|discriminate].
Qed.
Definition last_s (p : dtok * bool * bool * tk) : tk := snd p.
Lemma next_T safe : forall n hdr dir ws first s, st_ok safe s -> (len s < n)%nat -> T' last_s safe s (tokenizer_next n hdr dir ws first s).
Proof.
  induction n as [|n IH]; intros hdr dir ws first s O L; [lia|]. cbn [tokenizer_next].
  assert (O0 := st_flags _ _ O). set (s0 := no_flags s) in *.
  assert (L0 : len s0 = len s) by reflexivity. clearbody s0. apply (T'_le _ _ _ s0); [lia|].
  assert (tok : T' last_s safe s0 (exbind (scan n hdr first s0) (fun '(ty, s, starts) =>
        let! str := token_text s0 s in
        let dir := dir || starts in
        let first := first || (ty =? T_EOI) in
        let t := make_token ty str ws first (ln s0) in
        if (ty =? T_IDENT) && dir then ok (t, sv_cmp str (chars "include"), false, s) else ok (t, hdr, dir, s)))).
  { assert (H := scan_T n hdr first safe s0 O0 ltac:(lia)). destruct (scan n hdr first s0) as [[[[k s'] st]| |]|]; cbn [exbind]; auto.
    destruct (text_ok s0 s') as (v & -> & Nv). destruct v as [v| |]; cbn [exbind]; [|exact I|congruence].
    cbv zeta. destruct (_ && _); exact H. }
  destruct (Z.eqb_spec (chr s0) EQ_SPACE) as [Q|Q]. { apply T'_step; auto; [rewrite Q; discriminate|]. intros s1 O1 L1. apply IH; auto; lia. }
  destruct (Z.eqb_spec (chr s0) 10) as [Q1|Q1]. { apply T'_step; auto; [rewrite Q1; discriminate|]. intros s1 O1 L1. apply IH; auto; lia. }
  destruct (Z.eqb_spec (chr s0) 47) as [Q2|Q2]; [|exact tok].
  destruct (step_ok safe s0 O0 ltac:(rewrite Q2; discriminate)) as [(s' & -> & O' & L' & K)|[-> ->]]; cbn [exbind]; [|reflexivity].
  destruct (Z.eqb_spec (chr s') 47) as [Q3|Q3].
  { apply (T'_le _ _ _ s'); [lia|]. eapply T'_bind; [apply line_T; auto; lia|]. intros s2 O2 L2. apply IH; auto; lia. }
  destruct (Z.eqb_spec (chr s') 42) as [Q4|Q4]; [|exact tok].
  apply (T'_le _ _ _ s'); [lia|]. eapply T'_bind; [apply block_T; [exact O'|intros _; rewrite Q4; discriminate|lia]|]. intros s2 O2 L2. apply IH; auto; lia.
Qed.
Definition outcome {A} (safe : bool) (r : ex A) : Prop := exists v, r = Some v /\ (v = Undef -> safe = false).
Lemma rest_T safe : forall n prev hdr dir s, st_ok safe s -> (len s + 2 <= n)%nat \/ (ty prev = T_EOI /\ 0 < n)%nat -> outcome safe (tokenize_rest n prev hdr dir s).
Proof.
  induction n as [|n IH]; intros prev hdr dir s O L; [lia|]. cbn [tokenize_rest].
  destruct (Z.eqb_spec (ty prev) T_EOI) as [Q|Q]; [eexists; split; [reflexivity|discriminate]|].
  destruct L as [L|[L _]]; [|contradiction].
  assert (H := next_T safe n hdr dir false false s O ltac:(lia)).
  destruct (tokenizer_next n hdr dir false false s) as [[[[[t hdr'] dir'] s']| |]|] eqn:E; cbn [exbind].
  - destruct H as (W & Ls & G). cbn [last_s snd] in *. destruct (tail_exists s (proj1 O)) as (u & Tu & _).
    destruct (next_tiles _ _ _ _ _ _ _ _ _ _ _ (proj1 O) Tu E) as (g & x & r' & nl & [Nw Ns Nt Nx Ng Nws Nf Ntok]).
    assert (Hr : outcome safe (tokenize_rest n t hdr' dir' s')).
    { apply IH; [split; auto|]. destruct Ntok as [(Ht & _)|(Ht & X & _)]; [right; split; auto; lia|left].
      unfold len, tail_of in *. rewrite Nt. rewrite Tu, Nx in L. rewrite !app_length in *. destruct x; [congruence|]. cbn in *. lia. }
    destruct Hr as (v & -> & Hv). destruct v as [v| |]; cbn [exbind]; eexists; (split; [reflexivity|]); [discriminate..|auto].
  - eexists; split; [reflexivity|discriminate].
  - eexists; split; [reflexivity|auto].
  - contradiction.
Qed.
Lemma unsplice_len : forall k l, (length l <= k)%nat -> (length (unsplice l) <= length l)%nat.
Proof.
  induction k as [|k IH]; intros l L; [destruct l; cbn in *; lia|]. destruct l as [|x l]; [cbn; lia|].
  destruct (splice_dec (x :: l)) as [[[r R]|[r R]]|N].
  - rewrite R in *. cbn in *. specialize (IH r ltac:(lia)). lia.
  - rewrite R in *. cbn in *. specialize (IH r ltac:(lia)). lia.
  - rewrite unsplice_plain by exact N. cbn in *. specialize (IH l ltac:(lia)). lia.
Qed.
Theorem tokenize_ends safe src : bytes_ok src -> (safe = true -> logical src = [] \/ exists v, logical src = v ++ [10]) -> outcome safe (tokenize_input src).
Proof.
  intros F Hs. destruct (start_wf src F) as [W Ts]. unfold tokenize_input, tokenize. set (s0 := tk_start (skip_bom (src ++ [0]))) in *.
  assert (O : st_ok safe s0).
  { split; auto. intros S. unfold good. unfold tail_of in Ts. rewrite Ts. left. destruct (Hs S) as [E|[v E]]; rewrite E; [now exists []|]. exists (10 :: v). cbn. now rewrite <- app_assoc. }
  assert (L : (len s0 <= length src + 2)%nat).
  { unfold len. unfold tail_of in Ts. rewrite Ts. cbn. rewrite app_length. cbn. unfold logical. destruct (bom_suffix src) as [a A].
    assert (H := unsplice_len _ (without_bom src) (le_n _)). apply (f_equal (@length Z)) in A. rewrite app_length in A. lia. }
  set (n := (length src + 5)%nat) in *. assert (Ln : (len s0 + 3 <= n)%nat) by (unfold n; lia).
  assert (H := next_T safe n false false false false s0 O ltac:(lia)).
  destruct (tokenizer_next n false false false false s0) as [[[[[t hdr'] dir'] s']| |]|] eqn:E; cbn [exbind].
  - destruct H as (W' & Ls & G). cbn [last_s snd] in *. apply rest_T; [split; auto|left; lia].
  - eexists; split; [reflexivity|discriminate].
  - eexists; split; [reflexivity|auto].
  - contradiction.
Qed.
