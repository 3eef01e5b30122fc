From Coq Require Import String.
From Verif Require Import Base CharTypes Utf8 Tokens MacroTable Fuel Expander Directives Tokenizer TokenizerSpec TokenizerProofs ScanProofs.
Local Open Scope list_scope.

(** * The text of a token *)
Lemma decode_plain : forall n l, (length l < n)%nat -> ~ In 92 l -> decode_ucns n l = ok l.
Proof.
  induction n as [|n IH]; intros l L N; [lia|]. destruct l as [|x l]; [reflexivity|]. cbn [decode_ucns].
  destruct (Z.eqb_spec x 92) as [->|Q]; [exfalso; apply N; now left|]. cbn [andb].
  rewrite IH; [reflexivity|cbn in L; lia|]. intros I. apply N. now right.
Qed.
Lemma filter_none x : ~ In 39 x -> filter (fun c => negb (c =? 39)) x = x.
Proof.
  induction x as [|a x IH]; intros N; auto. cbn. destruct (Z.eqb_spec a 39) as [->|Q]; [exfalso; apply N; now left|].
  cbn. f_equal. apply IH. intros I. apply N. now right.
Qed.
Lemma no92_splices l : ~ In 92 l -> remove_splices l = l.
Proof.
  induction l as [|a l IH]; intros N; auto. assert (a <> 92) by (intros ->; apply N; now left).
  cbn [remove_splices]. rewrite IH by (intros I; apply N; now right).
  destruct a as [|p|p]; try reflexivity. repeat (destruct p as [p|p|]; try reflexivity). congruence.
Qed.
Lemma text_spelled k b s0 x s str ws first l : adv b s0 x s -> esc s0 = false -> sep s0 = false -> b = (k =? T_NUM) ->
  (sep s = false -> b = true -> ~ In 39 x) ->
  token_text s0 s = Some (Ok str) -> spelled (at_c s0) (make_token k str ws first l) x.
Proof.
  intros (W & L & P & raw & A & E & R) F G -> Hs H. unfold token_text in H.
  assert (Hr : raw_text s0 s = raw).
  { unfold raw_text. rewrite A, app_length. replace (length raw + length (at_c s) - length (at_c s))%nat with (length raw + 0)%nat by lia.
    rewrite firstn_app_2. cbn. apply app_nil_r. }
  rewrite Hr in H. unfold spelled, ty, text, make_token. cbn [dt e_type e_str]. split.
  - intros NC N92 N39. specialize (R NC [] (at_c s) eq_refl). rewrite !app_nil_r in R.
    assert (Sp : sep s = false). { destruct P as [P|(P & I & _)]; [congruence|]. exfalso. apply Z.eqb_eq in P. tauto. }
    rewrite Sp in H. destruct (esc s) eqn:Es.
    + unfold remove_escape_sequences in H. rewrite R, decode_plain in H; [|lia|exact N92]. cbn in H. injection H as <-. reflexivity.
    + destruct (E eq_refl) as [_ ->]. cbn in H. injection H as <-. reflexivity.
  - intros N92. assert (NC : no_crlf (at_c s0)).
    { intros [a [c Q]]. apply N92. rewrite Q. apply in_or_app. right. now left. }
    specialize (R NC [] (at_c s) eq_refl). rewrite !app_nil_r in R.
    assert (Nr : ~ In 92 raw) by (intros I; apply N92; rewrite A; apply in_or_app; now left).
    rewrite no92_splices in R by exact Nr. subst raw.
    assert (H' : ok (if sep s then remove_digit_separator x else x) = Some (Ok str)).
    { revert H. destruct (esc s); [|exact (fun h => h)]. unfold remove_escape_sequences. rewrite no92_splices, decode_plain by (auto; lia). exact (fun h => h). }
    injection H' as <-. destruct (sep s) eqn:Sp.
    + destruct P as [P|(P & _)]; [congruence|]. rewrite P. reflexivity.
    + destruct (k =? T_NUM) eqn:K; [|reflexivity]. symmetry. apply filter_none. now apply Hs.
Qed.

(** * White space, comments and one token *)
Lemma class_space x : 0 <= x < 256 -> class x = EQ_SPACE -> white x.
Proof.
  intros X H. apply one_of. assert (C : negb (class x =? EQ_SPACE) || is_one_of x [9; 13; 32] = true).
  { clear H. revert x X. apply (class_check (fun x c => negb (c =? EQ_SPACE) || is_one_of x _)). vm_compute. reflexivity. }
  rewrite H in C. exact C.
Qed.
Lemma spelled_suffix a src t x : spelled src t x -> spelled (a ++ src) t x.
Proof.
  intros [H1 H2]. split.
  - intros NC. apply H1. exact (no_crlf_app _ _ NC).
  - intros N. apply H2. intros I. apply N. apply in_or_app. now right.
Qed.
Lemma adv_raw b s x s' : adv b s x s' -> exists raw, at_c s = raw ++ at_c s'.
Proof. intros (_ & _ & _ & raw & A & _). now exists raw. Qed.

(** Tokens do not start with white space. *)
Lemma puncts_start : forallb (fun p => match snd p with c :: _ => negb (is_one_of c [9; 13; 32; 10]) | [] => false end) all_puncts = true.
Proof. vm_compute. reflexivity. Qed.
Lemma not_blank c l : ~ In c [9; 13; 32; 10; 47] -> ~ blank (c :: l).
Proof.
  intros N [H|[H|[[b H]|[b H]]]]; apply N; cbn in *; [tauto|subst; tauto|injection H as -> _; tauto ..].
Qed.
Lemma lexeme_not_blank k x r : lexeme k x r -> x <> [] -> ~ blank (x ++ r).
Proof.
  intros L X. inversion L; subst.
  - cbn [app]. apply not_blank. unfold id_start, nondigit in H. cbn. lia.
  - destruct H as (d & D & [->| ->]); cbn [app]; apply not_blank; unfold digit in D; cbn; lia.
  - destruct H as [<-|[<-|[<-|[<-|[<-|[]]]]]]; cbn [app chars]; apply not_blank; cbn; lia.
  - destruct H as [<-|[<-|[<-|[<-|[]]]]]; cbn [app chars]; apply not_blank; cbn; lia.
  - cbn [app]. apply not_blank; cbn; lia.
  - intros [B|[B|[B|B]]]; try contradiction.
    all: apply punct_in in H; assert (G := puncts_start); rewrite forallb_forall in G; specialize (G _ H); cbn [snd] in G.
    all: destruct x as [|c x]; [discriminate|]; apply negb_true_iff, not_one_of in G; apply G; cbn in B |- *; first [tauto|subst; tauto].
Qed.
Record next_token (src : list Z) (before : list Z) (ws first : bool) (s' : tk) (t : dtok) (g x r : list Z) (nl : bool) : Prop := {
  nt_wf : wf s';
  nt_suffix : exists raw, src = raw ++ at_c s';
  nt_tail : tail_of s' r;
  nt_text : before = g ++ x ++ r;
  nt_gap : gap body nl g (x ++ r);
  nt_ws : e_ws (dt t) = ws || nonempty g;
  nt_fol : fol t = first || nl || (ty t =? T_EOI);
  nt_tok : (ty t = T_EOI /\ x = [] /\ r = []) \/ (ty t <> T_EOI /\ x <> [] /\ lexeme (ty t) x r /\ spelled src t x)
}.
Lemma tail_inj s r r' : tail_of s r -> tail_of s r' -> r = r'.
Proof. unfold tail_of. intros -> E. now apply app_inj_tail in E. Qed.
Lemma adv_tail b s x s' r r' : adv b s x s' -> tail_of s r -> tail_of s' r' -> r = x ++ r'.
Proof. unfold tail_of. intros (_ & L & _) T T'. rewrite T, T', app_assoc in L. now apply app_inj_tail in L. Qed.
Lemma no_flags_wf s : wf s -> wf (no_flags s).
Proof. apply wf_flags; reflexivity. Qed.

Lemma next_tiles : forall n hdr dir ws first s t hdr' dir' s' u, wf s -> tail_of s u ->
  tokenizer_next n hdr dir ws first s = Some (Ok (t, hdr', dir', s')) ->
  exists g x r nl, next_token (at_c s) u ws first s' t g x r nl.
Proof.
  induction n as [|n IH]; intros hdr dir ws first s t hdr' dir' s' u W0 T0 H; [discriminate|]. cbn [tokenizer_next] in H.
  set (s0 := no_flags s) in *.
  assert (W : wf s0) by now apply no_flags_wf. assert (T : tail_of s0 u) by exact T0. change (at_c s) with (at_c s0).
  assert (Fe : esc s0 = false) by reflexivity. assert (Fs : sep s0 = false) by reflexivity. clearbody s0. clear W0 T0 s.
  assert (tok : (chr s0 = 47 -> forall s1, next_char s0 = Ok s1 -> chr s1 <> 47 /\ chr s1 <> 42) -> chr s0 <> 10 -> chr s0 <> EQ_SPACE ->
    exbind (scan n hdr first s0) (fun '(ty, s, starts) =>
        let! str := token_text s0 s in
        let dir := dir || starts in
        let first := first || (ty =? T_EOI) in
        let t := make_token ty str ws first (ln s0) in
        if (ty =? T_IDENT) && dir then ok (t, sv_cmp str (chars "include"), false, s) else ok (t, hdr, dir, s)) = Some (Ok (t, hdr', dir', s')) ->
    exists g x r nl, next_token (at_c s0) u ws first s' t g x r nl).
  { intros D N10 Nsp G. ebind G. destruct v as [[k s2] st]. ebind G.
    destruct (scan_adv _ _ _ _ _ _ _ W N10 Nsp D E) as (R & _).
    assert (Q : make_token k v ws (first || (k =? T_EOI)) (ln s0) = t /\ s2 = s').
    { revert G. cbv zeta. destruct ((k =? T_IDENT) && (dir || st)); intros G; injection G; auto. }
    destruct Q as [<- ->]. destruct R as [(-> & -> & L)|(Nk & x & r & A & Tr & X & Lx & S39)].
    - exists [], [], [], false. assert (Tn : tail_of s0 []) by (unfold tail_of; rewrite L; reflexivity).
      assert (U := tail_inj _ _ _ T Tn). subst u. constructor.
      + exact W.
      + now exists [].
      + exact Tn.
      + reflexivity.
      + constructor.
      + cbn. now rewrite orb_false_r.
      + cbn. now rewrite orb_true_r, orb_true_r.
      + now left.
    - exists [], x, r, false. assert (U := adv_tail _ _ _ _ _ _ A T Tr). constructor.
      + exact (proj1 A).
      + exact (adv_raw _ _ _ _ A).
      + exact Tr.
      + exact U.
      + constructor.
      + cbn. now rewrite orb_false_r.
      + cbn. now rewrite orb_false_r.
      + right. split; [exact Nk|]. split; [exact X|]. split; [exact Lx|].
        refine (text_spelled _ _ _ _ _ _ _ _ _ A Fe Fs eq_refl _ E0).
        intros Sf Kn. apply Z.eqb_eq in Kn. now apply S39. }
  assert (skip : forall hd1 dir1 first1 s1 g1 nl1 u1, wf s1 -> tail_of s1 u1 -> (exists raw, at_c s0 = raw ++ at_c s1) -> u = g1 ++ u1 ->
    (forall nl g x r, u1 = g ++ x ++ r -> ~ blank (x ++ r) -> gap body nl g (x ++ r) -> gap body (nl1 || nl) (g1 ++ g) (x ++ r)) -> g1 <> [] -> first1 = first || nl1 ->
    tokenizer_next n hd1 dir1 true first1 s1 = Some (Ok (t, hdr', dir', s')) ->
    exists g x r nl, next_token (at_c s0) u ws first s' t g x r nl).
  { intros hd1 dir1 first1 s1 g1 nl1 u1 W1 T1 [raw A1] U G1 Ng F1 H1.
    destruct (IH _ _ _ _ _ _ _ _ _ _ W1 T1 H1) as (g & x & r & nl & [Nw Ns Nt Nx Ng' Nws Nf Ntok]).
    assert (Nb : ~ blank (x ++ r)).
    { destruct Ntok as [(_ & -> & ->)|(_ & X & Lx & _)]; [|now apply (lexeme_not_blank (ty t))].
      intros [[B|[B|[B|[]]]]|[B|[[b B]|[b B]]]]; discriminate. }
    exists (g1 ++ g), x, r, (nl1 || nl). constructor.
    - exact Nw.
    - destruct Ns as [raw' Ns]. exists (raw ++ raw'). now rewrite A1, Ns, app_assoc.
    - exact Nt.
    - rewrite U, Nx. now rewrite app_assoc.
    - now apply G1.
    - rewrite Nws. destruct g1; [congruence|]. cbn. now rewrite orb_true_r.
    - rewrite Nf, F1. now rewrite orb_assoc.
    - destruct Ntok as [N|(N1 & N2 & N3 & N4)]; [now left|right]. split; [exact N1|]. split; [exact N2|]. split; [exact N3|]. rewrite A1. now apply spelled_suffix. }
  destruct (Z.eqb_spec (chr s0) EQ_SPACE) as [Q|Q].
  { ebind H. nadv E W. rewrite C in Q. apply class_space in Q; [|lia]. destruct (tail_exists s W0) as (u1 & T1 & _).
    refine (skip _ _ _ _ [x] false u1 W0 T1 (adv_raw _ _ _ _ A) (adv_tail _ _ _ _ _ _ A T T1) _ _ _ H).
    - intros. cbn. now apply gap_white.
    - discriminate.
    - now rewrite orb_false_r. }
  destruct (Z.eqb_spec (chr s0) 10) as [Q1|Q1].
  { ebind H. nadv E W. selfx C Q1 x. destruct (tail_exists s W0) as (u1 & T1 & _).
    refine (skip _ _ _ _ [10] true u1 W0 T1 (adv_raw _ _ _ _ A) (adv_tail _ _ _ _ _ _ A T T1) _ _ _ H).
    - intros. cbn. now apply gap_newline with nl.
    - discriminate.
    - now rewrite orb_true_r. }
  destruct (Z.eqb_spec (chr s0) 47) as [Q2|Q2].
  { ebind H. nadv E W. selfx C Q2 x. destruct (Z.eqb_spec (chr s) 47) as [Q3|Q3].
    - ebind H. rename v into sl. destruct (lv_cons s W0) as (x & l & L & Cx & Bx & _). rewrite Cx in Q3. apply class_self in Q3; [|lia|lia]. subst x.
      destruct (line_adv _ _ _ W0 E0) as (w & A2 & N & Hd). destruct (tail_exists sl (proj1 A2)) as (u1 & T1 & _).
      destruct w as [|y w].
      { exfalso. destruct A2 as (_ & L2 & _). cbn in L2. rewrite <- L2, L in Hd. destruct Hd as [Hd|Hd]; discriminate. }
      assert (y = 47). { destruct A2 as (_ & L2 & _). rewrite L in L2. now injection L2. } subst y.
      assert (A3 := adv_trans _ _ [47] _ _ _ A A2).
      refine (skip _ _ _ _ (47 :: 47 :: w) false u1 (proj1 A2) T1 (adv_raw _ _ _ _ A3) (adv_tail _ _ _ _ _ _ A3 T T1) _ _ _ H).
      + intros nl g x r Eu Nb G. change (gap body nl (chars "//" ++ w ++ g) (x ++ r)). apply gap_line; auto.
        * intros I. apply N. now right.
        * unfold tail_of in T1. rewrite Eu in T1. destruct g as [|c g].
          -- left. cbn in *. destruct (x ++ r) as [|c q] eqn:Qx; auto. rewrite T1 in Hd. exfalso. cbn [hd app] in Hd.
             destruct Hd as [->|Hd]; [|destruct q; discriminate].
             apply Nb. right; left. reflexivity.
          -- right. rewrite T1 in Hd. cbn in Hd. destruct Hd as [->|Hd]; [eauto|]. destruct (g ++ x ++ r); discriminate.
      + discriminate.
      + now rewrite orb_false_r.
    - destruct (Z.eqb_spec (chr s) 42) as [Q4|Q4].
      + ebind H. rename v into sl. destruct (block_adv _ _ _ W0 E0) as (x & b & A2 & Hb & Cx & Bx).
        rewrite Cx in Q4. apply class_self in Q4; [|lia|lia]. subst x. destruct (tail_exists sl (proj1 A2)) as (u1 & T1 & _).
        assert (A3 := adv_trans _ _ [47] _ _ _ A A2).
        refine (skip _ _ _ _ ([47; 42] ++ b ++ [42; 47]) false u1 (proj1 A2) T1 (adv_raw _ _ _ _ A3) (adv_tail _ _ _ _ _ _ A3 T T1) _ _ _ H).
        * intros nl g x r Eu _ G. rewrite <- !app_assoc. apply (gap_block body b nl g (x ++ r)); auto.
        * discriminate.
        * now rewrite orb_false_r.
      + apply tok; auto. intros _ s1 E1. assert (s1 = s) by congruence. subst. auto. }
  apply tok; auto.
Qed.

(** * The whole source *)
Definition token_at (src : list Z) (start : bool) (g : list Z) (nl : bool) (t : dtok) (x r : list Z) : Prop :=
  lexeme (ty t) x r /\ spelled src t x /\ e_ws (dt t) = start || nonempty g /\ fol t = start || nl /\ (e_wsa (dt t) = true <-> blank r).
Definition set_wsa (t : dtok) (b : bool) : dtok := {| dt := with_wsa (dt t) b; fol := fol t |}.
Lemma gap_blank nl g r : gap body nl g r -> g <> [] -> blank (g ++ r).
Proof.
  intros G N. inversion G; subst.
  - congruence.
  - left. assumption.
  - right; left. reflexivity.
  - right; right; left. rewrite <- !app_assoc. eexists. reflexivity.
  - right; right; right. rewrite <- !app_assoc. eexists. reflexivity.
Qed.
Lemma token_not_blank (t : dtok) x r src :
  (ty t = T_EOI /\ x = [] /\ r = []) \/ (ty t <> T_EOI /\ x <> [] /\ lexeme (ty t) x r /\ spelled src t x) -> ~ blank (x ++ r).
Proof.
  intros [(_ & -> & ->)|(_ & X & Lx & _)]; [|now apply (lexeme_not_blank (ty t))].
  intros [[B|[B|[B|[]]]]|[B|[[b B]|[b B]]]]; discriminate.
Qed.
Lemma rest_tiles : forall n src prev hdr dir s r l, wf s -> tail_of s r -> (exists raw, src = raw ++ at_c s) -> ty prev <> T_EOI ->
  tokenize_rest n prev hdr dir s = Some (Ok l) ->
  exists b l', l = set_wsa prev b :: l' /\ (b = true <-> blank r) /\ tiles body (token_at src) false l' r.
Proof.
  induction n as [|n IH]; intros src prev hdr dir s r l W T [raw S] Np H; [discriminate|]. cbn [tokenize_rest] in H.
  apply Z.eqb_neq in Np. rewrite Np in H.
  ebind H. destruct v as [[[t hdr'] dir'] s']. ebind H. injection H as <-.
  destruct (next_tiles _ _ _ _ _ _ _ _ _ _ _ W T E) as (g & x & r' & nl & [Nw Ns Nt Nx Ng Nws Nf Ntok]).
  exists (e_ws (dt t)), v. split; [reflexivity|]. split.
  { rewrite Nws. cbn [orb]. rewrite Nx. destruct g as [|c g].
    - cbn. split; [discriminate|]. intros B. exfalso. exact (token_not_blank _ _ _ _ Ntok B).
    - split; [|reflexivity]. intros _. apply (gap_blank nl); [exact Ng|discriminate]. }
  destruct Ntok as [(Ht & -> & ->)|(Ht & X & Lx & Sp)].
  - destruct n as [|n]; [discriminate|]. cbn [tokenize_rest] in E0. rewrite Ht in E0. cbn in E0. injection E0 as <-.
    rewrite Nx, !app_nil_r. apply (tiles_end _ _ _ nl). exact Ng.
  - destruct Ns as [raw' Ns].
    assert (Ss : exists raw, src = raw ++ at_c s') by (exists (raw ++ raw'); now rewrite S, Ns, app_assoc).
    destruct (IH src t hdr' dir' s' r' v Nw Nt Ss Ht E0) as (b & l' & -> & Hb & Tl).
    rewrite Nx. apply (tiles_token _ _ _ nl); auto.
    split; [exact Lx|]. split; [rewrite S; now apply spelled_suffix|]. split; [exact Nws|]. split; [|exact Hb].
    cbn [fol set_wsa]. rewrite Nf. apply Z.eqb_neq in Ht. now rewrite Ht, orb_false_r.
Qed.
Lemma unsplice_end : forall k l, (length l <= k)%nat -> unsplice (l ++ [0]) = unsplice l ++ [0].
Proof.
  induction k as [|k IH]; intros l L; [destruct l; [reflexivity|cbn in L; lia]|].
  destruct l as [|x l]; [reflexivity|]. destruct (splice_dec (x :: l)) as [[[r R]|[r R]]|N].
  - rewrite R in *. cbn in *. apply IH. lia.
  - rewrite R in *. cbn in *. apply IH. lia.
  - rewrite unsplice_plain by exact N. cbn [app]. rewrite unsplice_plain, IH; [reflexivity|cbn in L; lia|].
    intros [[r R]|[r R]]; apply N.
    + destruct l as [|y l]; cbn in R; [discriminate|]. injection R as -> -> _. left. eauto.
    + destruct l as [|y [|z l]]; cbn in R; try discriminate. injection R as -> -> -> _. right. eauto.
Qed.
Lemma bom_end l : skip_bom (l ++ [0]) = without_bom l ++ [0].
Proof.
  assert (H : (exists r, l = 239 :: 187 :: 191 :: r) \/ (skip_bom (l ++ [0]) = l ++ [0] /\ without_bom l = l)).
  { destruct l as [|a l]; [now right|]. destruct (Z.eq_dec a 239) as [->|N].
    2:{ right. split; cbn; destruct a as [|p|p]; try reflexivity; repeat (destruct p as [p|p|]; try reflexivity); congruence. }
    destruct l as [|b l]; [now right|]. destruct (Z.eq_dec b 187) as [->|N].
    2:{ right. split; cbn; destruct b as [|p|p]; try reflexivity; repeat (destruct p as [p|p|]; try reflexivity); congruence. }
    destruct l as [|c l]; [now right|]. destruct (Z.eq_dec c 191) as [->|N]; [left; eauto|].
    right. split; cbn; destruct c as [|p|p]; try reflexivity; repeat (destruct p as [p|p|]; try reflexivity); congruence. }
  destruct H as [[r ->]|[-> ->]]; reflexivity.
Qed.
Lemma bom_suffix l : exists a, l = a ++ without_bom l.
Proof.
  destruct l as [|a l]; [now exists []|]. destruct (Z.eq_dec a 239) as [->|N].
  2:{ exists []. cbn. destruct a as [|p|p]; try reflexivity; repeat (destruct p as [p|p|]; try reflexivity); congruence. }
  destruct l as [|b l]; [now exists []|]. destruct (Z.eq_dec b 187) as [->|N].
  2:{ exists []. cbn. destruct b as [|p|p]; try reflexivity; repeat (destruct p as [p|p|]; try reflexivity); congruence. }
  destruct l as [|c l]; [now exists []|]. destruct (Z.eq_dec c 191) as [->|N]; [now exists [239; 187; 191]|].
  exists []. cbn. destruct c as [|p|p]; try reflexivity; repeat (destruct p as [p|p|]; try reflexivity); congruence.
Qed.
Definition bytes_ok (src : list Z) : Prop := Forall (fun b => 1 <= b < 256) src.
Lemma start_wf src : bytes_ok src -> wf (tk_start (skip_bom (src ++ [0]))) /\ tail_of (tk_start (skip_bom (src ++ [0]))) (10 :: logical src).
Proof.
  intros F. rewrite bom_end. unfold tk_start. split; [split; [|split]|]; cbn [at_c chr].
  - exists (10 :: without_bom src). split; [reflexivity|]. constructor; [lia|]. destruct (bom_suffix src) as [a A]. unfold bytes_ok in F. rewrite A in F. apply Forall_app in F. tauto.
  - intros [[r R]|[r R]]; discriminate.
  - reflexivity.
  - unfold tail_of, lv, logical. cbn [at_c]. rewrite unsplice_plain by (intros [[r R]|[r R]]; discriminate).
    rewrite (unsplice_end (length (without_bom src))) by lia. reflexivity.
Qed.
Lemma gap_newline_inv nl g r : gap body nl (10 :: g) r -> nl = true /\ exists nl', gap body nl' g r.
Proof.
  intros G. inversion G; subst; eauto. match goal with H : white 10 |- _ => destruct H as [H|[H|[H|[]]]]; discriminate end.
Qed.
Lemma spelled_src src t x : spelled (10 :: without_bom src ++ [0]) t x -> spelled src t x.
Proof.
  destruct (bom_suffix src) as [a A]. intros H. rewrite A. apply spelled_suffix. destruct H as [H1 H2]. set (w := without_bom src) in *. split.
  - intros NC. apply H1. intros (p & q & Q). destruct p as [|y p]; [discriminate|]. injection Q as _ Q. apply NC.
    destruct q as [|z0 q].
    + change (w ++ [0] = p ++ [92; 13] ++ [10]) in Q. rewrite app_assoc in Q. apply app_inj_tail in Q as [_ Q]. discriminate.
    + destruct (exists_last (l := z0 :: q) ltac:(discriminate)) as (q' & z & Qz).
      change (w ++ [0] = p ++ [92; 13; 10] ++ z0 :: q) in Q. rewrite Qz, !app_assoc in Q. apply app_inj_tail in Q as [-> _]. exists p, q'. now rewrite app_assoc.
  - intros N. apply H2. intros [I|I]; [discriminate|]. apply in_app_or in I as [I|[I|[]]]; [auto|discriminate].
Qed.
Lemma tiles_mono ok (P P' : bool -> list Z -> bool -> dtok -> list Z -> list Z -> Prop) b l u :
  (forall s g nl t x r, P s g nl t x r -> P' s g nl t x r) -> tiles ok P b l u -> tiles ok P' b l u.
Proof. intros H T. induction T; [eapply tiles_end|eapply tiles_token]; eauto. Qed.
Theorem tokenize_tiles n src l : bytes_ok src -> tokenize n src = Some (Ok l) -> tiles body (token_at src) true l (logical src).
Proof.
  intros F H. destruct (start_wf src F) as [W T]. unfold tokenize in H. ebind H. destruct v as [[[t hdr'] dir'] s'].
  set (s0 := tk_start (skip_bom (src ++ [0]))) in *.
  assert (As : at_c s0 = 10 :: without_bom src ++ [0]) by (unfold s0; cbn [tk_start at_c]; now rewrite bom_end).
  destruct (next_tiles _ _ _ _ _ _ _ _ _ _ _ W T E) as (g & x & r' & nl & [Nw Ns Nt Nx Ng Nws Nf Ntok]).
  assert (Hg : exists g', g = 10 :: g' /\ logical src = g' ++ x ++ r').
  { destruct g as [|c g]; [|injection Nx as -> Nx; eauto]. exfalso. cbn in Nx. apply (token_not_blank _ _ _ _ Ntok).
    rewrite <- Nx. right; left. reflexivity. }
  destruct Hg as (g' & -> & Lg). apply gap_newline_inv in Ng as [-> [nl' Ng]].
  destruct Ntok as [(Ht & -> & ->)|(Ht & X & Lx & Sp)].
  - destruct n as [|n]; [discriminate|]. cbn [tokenize_rest] in H. rewrite Ht in H. cbn in H. injection H as <-.
    rewrite Lg, !app_nil_r. apply (tiles_end _ _ _ nl'). exact Ng.
  - destruct (rest_tiles _ (at_c s0) _ _ _ _ _ _ Nw Nt Ns Ht H) as (b & l' & -> & Hb & Tl).
    rewrite Lg. apply (tiles_token _ _ _ nl'); auto.
    + split; [exact Lx|]. split; [rewrite As in Sp; exact (spelled_src _ _ _ Sp)|]. split; [exact Nws|]. split; [|exact Hb].
      cbn [fol set_wsa]. rewrite Nf. apply Z.eqb_neq in Ht. now rewrite Ht, orb_false_r.
    + revert Tl. apply tiles_mono. intros s g nl t1 x1 r1 (P1 & P2 & P3). rewrite As in P2. split; [exact P1|]. split; [exact (spelled_src _ _ _ P2)|exact P3].
Qed.
