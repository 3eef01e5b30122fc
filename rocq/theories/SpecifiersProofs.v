From Coq Require Import Permutation.
From Verif Require Import Base Arch Specifiers SpecifiersSpec.

(** ** The chain processes keywords one after another *)
Fixpoint seqk (ks : list keyword) (s : Z) : res Z :=
  match ks with
  | [] => Ok s
  | k :: t => let (p, s') := mark k s in if p then Fail else seqk t s'
  end.
Lemma seqk_app a b s : seqk (a ++ b) s = let* s' := seqk a s in seqk b s'.
Proof. revert s; induction a; cbn; intros; auto. destruct (mark a s) as [[|] s']; cbn; auto. Qed.

Lemma chain_spec order : forall toks s,
  exists ks rest, toks = map Tok_kw ks ++ rest /\
    chain order toks s = (match seqk ks s with Ok s' => Ok (s', rest) | Fail => Fail | Undef => Undef end) /\
    (length ks <= length order)%nat.
Proof.
  induction order as [|k order IH]; intros toks s.
  - exists [], toks. cbn. auto.
  - cbn [chain].
    assert (D : (exists rest, toks = Tok_kw k :: rest) \/ chain (k :: order) toks s = chain order toks s).
    { destruct toks as [|[k'|o| |n] r]; cbn [chain]; auto.
      destruct (kw_eq_dec k k'); subst; eauto. }
    destruct D as [[rest ->]|E].
    + destruct (kw_eq_dec k k) as [_|N]; [|congruence].
      destruct (mark k s) as [[|] s'] eqn:M.
      * exists [k], rest. cbn. rewrite M. split; auto. split; auto. lia.
      * destruct (IH rest s') as (ks & r & E1 & E2 & E3).
        exists (k :: ks), r. subst rest. cbn. rewrite M. split; auto. split; auto. lia.
    + change (exists ks rest, toks = map Tok_kw ks ++ rest /\
        chain (k :: order) toks s = (match seqk ks s with Ok s' => Ok (s', rest) | Fail => Fail | Undef => Undef end) /\
        (length ks <= length (k :: order))%nat).
      rewrite E. destruct (IH toks s) as (ks & r & E1 & E2 & E3).
      exists ks, r. split; auto. split; auto. cbn; lia.
Qed.

Lemma chain_head order : forall k toks s, In k order ->
  exists ks rest, toks = map Tok_kw ks ++ rest /\
    chain order (Tok_kw k :: toks) s = (match seqk (k :: ks) s with Ok s' => Ok (s', rest) | Fail => Fail | Undef => Undef end).
Proof.
  induction order as [|k0 order IH]; intros k toks s HI; [destruct HI|].
  cbn [chain]. destruct (kw_eq_dec k0 k) as [->|N].
  - destruct (mark k s) as [[|] s'] eqn:M.
    + exists [], toks. cbn. rewrite M. auto.
    + destruct (chain_spec order toks s') as (ks & r & E1 & E2 & _).
      exists ks, r. split; auto. cbn. rewrite M. exact E2.
  - apply IH. destruct HI; congruence.
Qed.

Lemma in_chain_order k : In k chain_order.
Proof. destruct k; cbn; intuition. Qed.

(** ** Bits *)
Definition bit_of (k : keyword) : Z :=
  match k with
  | KVOID => 0 | KCHAR => 1 | KSHORT => 2 | KINT => 3 | KLONG => 4 | KFLOAT => 6 | KDOUBLE => 7
  | KSIGNED => 8 | KUNSIGNED => 9 | KBOOL => 10 | KCOMPLEX => 11
  end.

Lemma pow2_testbit n m : 0 <= n -> Z.testbit (2 ^ n) m = (n =? m).
Proof. intros. apply Z.pow2_bits_eqb. auto. Qed.

Lemma land_pow2 s n : 0 <= n -> (Z.land s (2 ^ n) =? 0) = negb (Z.testbit s n).
Proof.
  intros Hn. destruct (Z.testbit s n) eqn:T.
  - cbn [negb]. apply Z.eqb_neq. intros E.
    assert (Z.testbit (Z.land s (2 ^ n)) n = false) by (rewrite E; apply Z.bits_0).
    rewrite Z.land_spec, T, pow2_testbit, Z.eqb_refl in H by auto. discriminate.
  - cbn [negb]. apply Z.eqb_eq. apply Z.bits_inj'. intros m Hm.
    rewrite Z.land_spec, Z.bits_0, pow2_testbit by auto.
    destruct (Z.eqb_spec n m); subst; rewrite ?T, ?andb_false_r; auto.
Qed.

Lemma set_sbit_spec s n : 0 <= n ->
  set_sbit s (2 ^ n) = if Z.testbit s n then (true, s) else (false, Z.setbit s n).
Proof.
  intros. unfold set_sbit. rewrite land_pow2 by auto.
  destruct (Z.testbit s n); cbn [negb]; auto.
  f_equal. apply Z.bits_inj'. intros m Hm.
  rewrite Z.lor_spec, Z.setbit_eqb, pow2_testbit, orb_comm by auto. reflexivity.
Qed.

Lemma mark_simple k s : k <> KLONG ->
  mark k s = if Z.testbit s (bit_of k) then (true, s) else (false, Z.setbit s (bit_of k)).
Proof. intros N. destruct k; try congruence; apply set_sbit_spec; cbn; lia. Qed.
Lemma mark_long s :
  mark KLONG s = if Z.testbit s 4 then (if Z.testbit s 5 then (true, s) else (false, Z.setbit s 5))
                 else (false, Z.setbit s 4).
Proof.
  cbn [mark]. unfold TSF_LONG1, TSF_LONG2. rewrite set_sbit_spec by lia.
  destruct (Z.testbit s 4); auto. apply set_sbit_spec. lia.
Qed.

(** ** Counting invariant *)
Notation cnt := (count_occ kw_eq_dec).
Definition cap (k : keyword) : nat := match k with KLONG => 2 | _ => 1 end.
Definition okc (ks : list keyword) : Prop := forall k, (cnt ks k <= cap k)%nat.

Definition good (ks : list keyword) (s : Z) : Prop :=
  (forall k, Z.testbit s (bit_of k) = Nat.leb 1 (cnt ks k)) /\
  Z.testbit s 5 = Nat.leb 2 (cnt ks KLONG) /\
  (forall n, 12 <= n -> Z.testbit s n = false).

Lemma bit_of_inj a b : bit_of a = bit_of b -> a = b.
Proof. destruct a, b; cbn; congruence. Qed.
Lemma bit_of_5 a : bit_of a <> 5.
Proof. destruct a; cbn; congruence. Qed.
Lemma bit_of_range a : 0 <= bit_of a < 12.
Proof. destruct a; cbn; lia. Qed.

Lemma good_nil : good [] 0.
Proof. repeat split; intros; rewrite ?Z.bits_0; auto. Qed.

Lemma cnt_snoc ks k x : cnt (ks ++ [k]) x = (cnt ks x + (if kw_eq_dec k x then 1 else 0))%nat.
Proof. rewrite count_occ_app. cbn. destruct (kw_eq_dec k x); auto. Qed.

Lemma setbit_other s i n : 0 <= i -> i <> n -> Z.testbit (Z.setbit s i) n = Z.testbit s n.
Proof. intros. rewrite Z.setbit_eqb by auto. rewrite (proj2 (Z.eqb_neq i n)) by auto. auto. Qed.
Lemma setbit_same s i : 0 <= i -> Z.testbit (Z.setbit s i) i = true.
Proof. intros. rewrite Z.setbit_eqb by auto. rewrite Z.eqb_refl. auto. Qed.

Lemma leb1_add0 n : Nat.leb 1 (n + 0) = Nat.leb 1 n. Proof. f_equal. lia. Qed.

Lemma good_step ks s k : good ks s -> okc ks ->
  (okc (ks ++ [k]) /\ exists s', mark k s = (false, s') /\ good (ks ++ [k]) s') \/
  (~ okc (ks ++ [k]) /\ exists s', mark k s = (true, s')).
Proof.
  intros (G1 & G2 & G3) HO. destruct (kw_eq_dec k KLONG) as [->|N].
  - rewrite mark_long. pose proof (G1 KLONG) as T4. cbn [bit_of] in T4. rewrite T4, G2.
    pose proof (HO KLONG) as HL. cbn [cap] in HL.
    destruct (cnt ks KLONG) as [|[|[|c]]] eqn:E; cbn [Nat.leb].
    + left. split.
      * intros x. specialize (HO x). rewrite cnt_snoc. destruct (kw_eq_dec KLONG x); subst; cbn [cap] in *; lia.
      * eexists; split; [reflexivity|]. split; [|split].
        -- intros x. rewrite cnt_snoc. destruct (kw_eq_dec KLONG x) as [<-|Nx].
           ++ cbn [bit_of]. rewrite setbit_same by lia. rewrite E. auto.
           ++ rewrite setbit_other, leb1_add0; auto; [lia|]. intros F. apply Nx. apply bit_of_inj. auto.
        -- rewrite setbit_other by lia. rewrite G2, cnt_snoc, E. auto.
        -- intros n Hn. rewrite setbit_other by lia. auto.
    + left. split.
      * intros x. specialize (HO x). rewrite cnt_snoc. destruct (kw_eq_dec KLONG x); subst; cbn [cap] in *; lia.
      * eexists; split; [reflexivity|]. split; [|split].
        -- intros x. rewrite setbit_other; [| lia | intros F; exact (bit_of_5 x (eq_sym F))].
           rewrite cnt_snoc. destruct (kw_eq_dec KLONG x) as [<-|Nx].
           ++ cbn [bit_of]. rewrite T4, E. auto.
           ++ rewrite leb1_add0; auto.
        -- rewrite setbit_same by lia. rewrite cnt_snoc, E. auto.
        -- intros n Hn. rewrite setbit_other by lia. auto.
    + right. split; [|eauto]. intros H. specialize (H KLONG). rewrite cnt_snoc, E in H. cbn in H. lia.
    + lia.
  - rewrite mark_simple by auto. rewrite G1. pose proof (HO k) as HL.
    assert (Hc : cap k = 1%nat) by (destruct k; congruence || auto). rewrite Hc in HL.
    destruct (cnt ks k) as [|[|c]] eqn:E; cbn [Nat.leb]; [| |lia].
    + left. split.
      * intros x. specialize (HO x). rewrite cnt_snoc. destruct (kw_eq_dec k x); subst; lia.
      * eexists; split; [reflexivity|]. pose proof (bit_of_range k) as R. split; [|split].
        -- intros x. rewrite cnt_snoc. destruct (kw_eq_dec k x) as [<-|Nx].
           ++ rewrite setbit_same by lia. rewrite E. auto.
           ++ rewrite setbit_other, leb1_add0; auto; [lia|]. intros F. apply Nx. apply bit_of_inj. auto.
        -- rewrite setbit_other; [| lia | apply bit_of_5]. rewrite G2, cnt_snoc.
           destruct (kw_eq_dec k KLONG); [congruence|]. f_equal. lia.
        -- intros n Hn. rewrite setbit_other by lia. auto.
    + right. split; [|eauto]. intros H. specialize (H k). rewrite cnt_snoc, E, Hc in H.
      destruct (kw_eq_dec k k); [lia|congruence].
Qed.

Lemma okc_prefix a b : okc (a ++ b) -> okc a.
Proof. intros H k. specialize (H k). rewrite count_occ_app in H. lia. Qed.

Lemma seqk_good b : forall a s, good a s -> okc a ->
  (okc (a ++ b) /\ exists s', seqk b s = Ok s' /\ good (a ++ b) s') \/
  (~ okc (a ++ b) /\ seqk b s = Fail).
Proof.
  induction b as [|k b IH]; intros a s G HO.
  - rewrite app_nil_r. left. split; auto. exists s. auto.
  - cbn [seqk]. replace (a ++ k :: b) with ((a ++ [k]) ++ b) by (rewrite <- app_assoc; auto).
    destruct (good_step a s k G HO) as [(O' & s' & M & G')|(NO & s' & M)]; rewrite M.
    + apply IH; auto.
    + right. split; auto. intros F. apply NO. apply okc_prefix in F. auto.
Qed.

(** ** The while loop over a specifier list *)
Lemma seqk_mark_changes k ks s s' : seqk (k :: ks) s = Ok s' -> (s' =? s) = false.
Proof.
  intros H.
  assert (M : forall k s p s1, mark k s = (p, s1) -> p = false ->
      (exists i, 0 <= i /\ Z.testbit s i = false /\ s1 = Z.setbit s i)).
  { intros k0 s0 p s1 E ->. destruct (kw_eq_dec k0 KLONG) as [->|N].
    - rewrite mark_long in E. destruct (Z.testbit s0 4) eqn:T4.
      + destruct (Z.testbit s0 5) eqn:T5; inversion E. exists 5. repeat split; auto; lia.
      + inversion E. exists 4. repeat split; auto; lia.
    - rewrite mark_simple in E by auto. destruct (Z.testbit s0 (bit_of k0)) eqn:T; inversion E.
      exists (bit_of k0). repeat split; auto. apply bit_of_range. }
  assert (Mono : forall l s s', seqk l s = Ok s' -> forall i, Z.testbit s i = true -> Z.testbit s' i = true).
  { induction l as [|k0 l IH]; cbn; intros s0 s1 E i T; [congruence|].
    destruct (mark k0 s0) as [[|] s2] eqn:E2; [discriminate|].
    destruct (M _ _ _ _ E2 eq_refl) as (j & Hj & Tj & ->).
    apply (IH _ _ E). rewrite Z.setbit_eqb, T, orb_true_r by auto. auto. }
  cbn in H. destruct (mark k s) as [[|] s1] eqn:E; [discriminate|].
  destruct (M _ _ _ _ E eq_refl) as (j & Hj & Tj & ->).
  apply Z.eqb_neq. intros ->.
  assert (Z.testbit s j = true) by (apply (Mono _ _ _ H); apply setbit_same; auto). congruence.
Qed.

Lemma keywords_map ks l : keywords (map Tok_kw ks ++ l) = ks ++ keywords l.
Proof. induction ks; cbn; congruence. Qed.
Lemma others_map ks l : others (map Tok_kw ks ++ l) = others l.
Proof. induction ks; cbn; auto. Qed.

Lemma split_rest (l rest : list stok) ks r :
  Forall is_spec_tok l -> not_spec_head rest -> l ++ rest = map Tok_kw ks ++ r ->
  exists l', l = map Tok_kw ks ++ l' /\ r = l' ++ rest /\ Forall is_spec_tok l'.
Proof.
  revert l; induction ks as [|k ks IH]; intros l HF HR E; cbn in *.
  - exists l. auto.
  - destruct l as [|x l]; cbn in E.
    + subst rest. destruct HR.
    + inversion E; subst. inversion HF; subst. destruct (IH l ltac:(assumption) HR ltac:(assumption)) as (l' & -> & -> & F).
      exists l'. auto.
Qed.

Lemma chain_notkw order l : match l with Tok_kw _ :: _ => False | _ => True end ->
  forall s, chain order l s = Ok (s, l).
Proof. intros H. induction order; intros s; cbn; auto. destruct l as [|[]]; auto; destruct H. Qed.

Lemma parse_loop_spec rest : not_spec_head rest -> forall fuel l st,
  Forall is_spec_tok l -> (length l < fuel)%nat ->
  parse_loop fuel st (l ++ rest) =
  let* s := seqk (keywords l) (specifiers st) in
  Ok ({| specifiers := s; counted := rev (others l) ++ counted st |}, rest).
Proof.
  intros HR. induction fuel as [|fuel IH]; intros l st HF HL; [lia|].
  cbn [parse_loop]. destruct l as [|x l].
  - cbn [app keywords seqk bind others rev]. unfold parse_specifier.
    rewrite chain_notkw by (destruct rest as [|[]]; cbn in HR; auto).
    cbn [bind]. rewrite Z.eqb_refl. cbn [negb]. destruct st.
    destruct rest as [|[]]; cbn in HR; try contradiction; cbn [bind]; auto.
  - inversion HF as [|? ? Hx HF']; subst. destruct x as [k|o| |n]; cbn in Hx; try contradiction.
    + unfold parse_specifier. cbn [app].
      destruct (chain_head chain_order k (l ++ rest) (specifiers st) (in_chain_order k)) as (ks & r & E1 & E2).
      rewrite E2. destruct (split_rest l rest ks r HF' HR E1) as (l' & -> & -> & F').
      cbn [keywords others]. rewrite keywords_map, others_map.
      change (k :: ks ++ keywords l') with ((k :: ks) ++ keywords l'). rewrite seqk_app.
      destruct (seqk (k :: ks) (specifiers st)) as [s'| |] eqn:ES; cbn [bind]; auto.
      rewrite (seqk_mark_changes _ _ _ _ ES). cbn [negb bind].
      rewrite IH; auto. cbn [length] in HL. rewrite app_length in HL. lia.
    + unfold parse_specifier. cbn [app]. rewrite chain_notkw by auto. cbn [bind].
      rewrite Z.eqb_refl. cbn [negb bind]. rewrite IH; auto; [|cbn in HL; lia].
      cbn [specifiers keywords others counted rev]. destruct (seqk _ _); cbn [bind]; auto.
      rewrite <- app_assoc. auto.
Qed.

Lemma parse_specifiers_spec l rest : Forall is_spec_tok l -> not_spec_head rest ->
  parse_specifiers (l ++ rest) =
  let* s := seqk (keywords l) 0 in Ok ({| specifiers := s; counted := rev (others l) |}, rest).
Proof.
  intros HF HR. unfold parse_specifiers.
  rewrite (parse_loop_spec rest HR) by (auto; rewrite app_length; lia).
  cbn [specifiers counted]. rewrite app_nil_r. auto.
Qed.

(** ** Bits against the table *)
Lemma good_bits_eq ks s B : good ks s -> 0 <= B < 2 ^ 12 ->
  (forall k, Z.testbit B (bit_of k) = Nat.leb 1 (cnt ks k)) ->
  Z.testbit B 5 = Nat.leb 2 (cnt ks KLONG) -> s = B.
Proof.
  intros (G1 & G2 & G3) HB H1 H2. apply Z.bits_inj'. intros n Hn.
  destruct (Z.lt_ge_cases n 12) as [L|L].
  - assert (C : n = 5 \/ exists k, n = bit_of k).
    { assert (D : n = 0 \/ n = 1 \/ n = 2 \/ n = 3 \/ n = 4 \/ n = 5 \/ n = 6 \/ n = 7 \/ n = 8 \/ n = 9 \/ n = 10 \/ n = 11) by lia.
      destruct D as [->|[->|[->|[->|[->|[->|[->|[->|[->|[->|[->| ->]]]]]]]]]]]; auto; right;
        [exists KVOID|exists KCHAR|exists KSHORT|exists KINT|exists KLONG|exists KFLOAT|exists KDOUBLE
        |exists KSIGNED|exists KUNSIGNED|exists KBOOL|exists KCOMPLEX]; auto. }
    destruct C as [->|(k & ->)]; [rewrite G2, H2|rewrite G1, H1]; auto.
  - rewrite G3 by auto. symmetry. destruct (Z.eq_dec B 0) as [->|Nz]; [apply Z.bits_0|].
    apply Z.bits_above_log2; [lia|]. apply Z.log2_lt_pow2; [lia|].
    apply Z.lt_le_trans with (2 ^ 12); [lia|]. apply Z.pow_le_mono_r; lia.
Qed.

(** Bit pattern of a valid keyword multiset. *)
Definition pattern (ks : list keyword) : Z :=
  match seqk ks 0 with Ok s => s | _ => 0 end.
Definition kws : list keyword := chain_order.
Definition okcb (ks : list keyword) : bool := forallb (fun k => Nat.leb (cnt ks k) (cap k)) kws.
Lemma okcb_ok ks : okcb ks = true -> okc ks.
Proof.
  intros H k. unfold okcb in H. rewrite forallb_forall in H. apply Nat.leb_le, H, in_chain_order.
Qed.

Lemma same_pattern a b s : okc a -> okc b -> good a s -> good b s -> Permutation a b.
Proof.
  intros Oa Ob (A1 & A2 & _) (B1 & B2 & _). rewrite (Permutation_count_occ kw_eq_dec). intros k.
  pose proof (A1 k) as X. rewrite B1 in X. specialize (Oa k). specialize (Ob k).
  destruct (kw_eq_dec k KLONG) as [->|N].
  - rewrite A2 in B2. cbn [cap] in *. destruct (cnt a KLONG) as [|[|[]]], (cnt b KLONG) as [|[|[]]]; cbn in *; try lia; congruence.
  - assert (cap k = 1%nat) by (destruct k; congruence || auto).
    destruct (cnt a k) as [|[]], (cnt b k) as [|[]]; cbn in *; try lia; congruence.
Qed.

Lemma perm_okc a b : Permutation a b -> okc a -> okc b.
Proof. intros P H k. rewrite <- (proj1 (Permutation_count_occ kw_eq_dec a b) P k). auto. Qed.
Lemma perm_good a b s : Permutation a b -> good a s -> good b s.
Proof.
  intros P. pose proof (proj1 (Permutation_count_occ kw_eq_dec a b) P) as E.
  intros (A1 & A2 & A3). repeat split; auto; [intros k; rewrite <- E; auto|rewrite <- E; auto].
Qed.
Lemma good_unique a s s' : good a s -> good a s' -> s = s'.
Proof.
  intros (A1 & A2 & A3) (B1 & B2 & B3). apply Z.bits_inj'. intros n Hn.
  destruct (Z.lt_ge_cases n 12) as [L|L]; [|rewrite A3, B3; auto].
  assert (D : n = 0 \/ n = 1 \/ n = 2 \/ n = 3 \/ n = 4 \/ n = 5 \/ n = 6 \/ n = 7 \/ n = 8 \/ n = 9 \/ n = 10 \/ n = 11) by lia.
  pose proof (A1 KVOID); pose proof (A1 KCHAR); pose proof (A1 KSHORT); pose proof (A1 KINT); pose proof (A1 KLONG);
  pose proof (A1 KFLOAT); pose proof (A1 KDOUBLE); pose proof (A1 KSIGNED); pose proof (A1 KUNSIGNED);
  pose proof (A1 KBOOL); pose proof (A1 KCOMPLEX).
  rewrite <- B1 in *. rewrite <- B2 in A2. cbn [bit_of] in *.
  destruct D as [->|[->|[->|[->|[->|[->|[->|[->|[->|[->|[->| ->]]]]]]]]]]]; auto.
Qed.

(** The SPEC lines are the C11 table with bit patterns, in the same order, except
    for the type of long double. *)
Definition code_type (t : simple_type) : simple_type :=
  match t with ST_LDOUBLE => ST_DOUBLE | _ => t end.
Lemma lines_table :
  spec_lines = map (fun e => (code_type (snd e), pattern (fst e))) c11_specifiers.
Proof. vm_compute. reflexivity. Qed.
Lemma table_ok : forallb (fun e => okcb (fst e)) c11_specifiers = true.
Proof. vm_compute. reflexivity. Qed.
Lemma entry_ok e t : In (e, t) c11_specifiers -> okc e /\ seqk e 0 = Ok (pattern e) /\ good e (pattern e).
Proof.
  intros H. pose proof table_ok as T. rewrite forallb_forall in T. apply T in H. cbn in H.
  apply okcb_ok in H. split; auto. unfold pattern.
  destruct (seqk_good e [] 0 good_nil) as [(_ & s' & E & G)|(N & _)].
  - intros k. cbn. lia.
  - rewrite E. auto.
  - contradiction.
Qed.

Lemma find_table (f : list keyword * simple_type -> simple_type * Z) (s : Z) l :
  find (fun x : simple_type * Z => s =? snd x) (map f l) =
  match find (fun e => s =? snd (f e)) l with Some e => Some (f e) | None => None end.
Proof. induction l; cbn; auto. destruct (s =? snd (f a)); auto. Qed.

Lemma type_of_good ks s : okc ks -> good ks s ->
  (exists t, denotes ks t /\ specifiers_to_type s = Ok (code_type t)) \/
  ((forall t, ~ denotes ks t) /\ specifiers_to_type s = Fail).
Proof.
  intros HO HG. unfold specifiers_to_type. rewrite lines_table, find_table. cbn [snd].
  destruct (find (fun e => s =? pattern (fst e)) c11_specifiers) as [[e t]|] eqn:F.
  - left. exists t. apply find_some in F. destruct F as [HI HE]. cbn [fst snd] in *. apply Z.eqb_eq in HE.
    split; auto. exists e. split; auto. destruct (entry_ok e t HI) as (Oe & _ & Ge).
    apply (same_pattern ks e s); auto. rewrite HE. auto.
  - right. split; auto. intros t (e & HI & P).
    pose proof (find_none _ _ F _ HI) as X. cbn [fst] in X. apply Z.eqb_neq in X. apply X.
    destruct (entry_ok e t HI) as (_ & _ & Ge).
    apply (good_unique e); auto. apply (perm_good ks); auto.
Qed.

Lemma denotes_ok ks t : denotes ks t -> okc ks.
Proof.
  intros (e & HI & P). apply (perm_okc e); [symmetry; auto|]. apply (entry_ok e t HI).
Qed.

Lemma count_rev (l : list other) o : count_occ other_eq_dec (rev l) o = count_occ other_eq_dec l o.
Proof.
  induction l; cbn [rev]; auto. rewrite count_occ_app, IHl. cbn.
  destruct (other_eq_dec a o); lia.
Qed.

Theorem declared_type_spec l rest :
  Forall is_spec_tok l -> not_spec_head rest ->
  (exists t, denotes (keywords l) t /\
     declared_type (l ++ rest) = Ok (code_type t, Nat.eqb (count_occ other_eq_dec (others l) KCONST) 1, rest)) \/
  ((forall t, ~ denotes (keywords l) t) /\ declared_type (l ++ rest) = Fail).
Proof.
  intros HF HR. unfold declared_type. rewrite parse_specifiers_spec by auto.
  destruct (seqk_good (keywords l) [] 0 good_nil) as [(HO & s & E & G)|(N & E)].
  { intros k. cbn. lia. }
  - rewrite E. cbn [bind specifiers counted]. cbn [app] in *. unfold made_const. rewrite count_rev.
    destruct (type_of_good _ _ HO G) as [(t & D & T)|(ND & T)]; rewrite T; cbn [bind]; eauto.
  - right. rewrite E. cbn [bind]. split; auto. intros t D. apply N. cbn. eapply denotes_ok; eauto.
Qed.

(** A multiset denotes at most one type. *)
Lemma table_entry_unique : forall e1 t1 e2 t2, In (e1, t1) c11_specifiers -> In (e2, t2) c11_specifiers ->
  pattern e1 = pattern e2 -> t1 = t2.
Proof.
  assert (H : forallb (fun x => forallb (fun y => negb (pattern (fst x) =? pattern (fst y)) || st_eqb (snd x) (snd y))
     c11_specifiers) c11_specifiers = true) by (vm_compute; reflexivity).
  intros e1 t1 e2 t2 H1 H2 E. rewrite forallb_forall in H. apply H in H1. cbn [fst snd] in H1.
  rewrite forallb_forall in H1. apply H1 in H2. cbn [fst snd] in H2. rewrite E, Z.eqb_refl in H2. cbn in H2.
  destruct (st_eqb_spec t1 t2); congruence.
Qed.
Lemma denotes_unique ks t t' : denotes ks t -> denotes ks t' -> t = t'.
Proof.
  intros (e & HI & P) (e' & HI' & P'). apply (table_entry_unique e t e' t'); auto.
  destruct (entry_ok e t HI) as (_ & _ & Ge), (entry_ok e' t' HI') as (_ & _ & Ge').
  apply (good_unique e); auto. apply (perm_good e'); auto. rewrite <- P', P. auto.
Qed.
