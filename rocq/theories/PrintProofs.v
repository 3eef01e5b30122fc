(** Tokens printed with white space between them are read back. *)
From Coq Require Import String.
From Verif Require Import Base CharTypes Tokens Fuel Expander Directives Tokenizer TokenizerSpec TokenizerProofs ScanProofs TilingProofs PrintTokens PrintSpec MacroTable.
Local Open Scope Z_scope.
Local Open Scope list_scope.
Ltac Zify.zify_post_hook ::= idtac.

Definition blank_char (c : Z) : Prop := c = 32 \/ c = 10.
Definition ends (r : list Z) : Prop := r = [] \/ blank_char (ahead r).
Inductive good : Z -> list Z -> Prop :=
| g_ident c w : nondigit c -> Forall (fun d => nondigit d \/ digit d) w -> good T_IDENT (c :: w)
| g_num x w : (exists d, digit d /\ (x = [d] \/ x = [46; d])) -> pp_rest w -> ~ In 39 w -> good T_NUM (x ++ w)
| g_sym k s : In (k, s) symbols -> good k s.

(** Two maximal runs of the same characters are equal. *)
Lemma run_unique (p : Z -> Prop) : forall a a' r r', Forall p a -> Forall p a' -> ~ p (ahead r) -> ~ p (ahead r') -> a ++ r = a' ++ r' -> a = a'.
Proof.
  induction a as [|c a IH]; intros [|c' a'] r r' F F' N N' E; auto.
  - cbn in E. subst r. inversion F'. cbn in N. tauto.
  - cbn in E. subst r'. inversion F. cbn in N'. tauto.
  - injection E as -> E. inversion F; inversion F'; subst. f_equal. eauto.
Qed.

Lemma ends_ahead r : ends r -> ahead r = 0 \/ ahead r = 32 \/ ahead r = 10.
Proof. intros [->|[H|H]]; auto. Qed.
Lemma not_id c : c = 0 \/ c = 32 \/ c = 10 -> ~ id_char c.
Proof. unfold id_char, id_start, nondigit, digit. lia. Qed.
Lemma ascii_id w : Forall (fun d => nondigit d \/ digit d) w -> Forall id_char w.
Proof. intros F. eapply Forall_impl; [|exact F]. unfold id_char, id_start. tauto. Qed.

(** Facts about the table of punctuators. *)
Definition first_ok (c : Z) : bool := negb ((65 <=? c) && (c <=? 90) || (97 <=? c) && (c <=? 122) || (c =? 95) || (c =? 36) || (48 <=? c) && (c <=? 57) || (128 <=? c) || (c =? 34) || (c =? 39)).
Definition punct_ok (x : list Z) : bool :=
  match x with
  | [] => false
  | c :: w => first_ok c && forallb (fun d => negb ((d =? 32) || (d =? 10))) x && (negb (c =? 46) || match w with [] => true | d :: _ => d =? 46 end)
      && (negb (c =? 47) || match w with [] => true | d :: _ => d =? 61 end)
  end.
Lemma puncts_ok : forallb (fun p => punct_ok (snd p)) all_puncts = true. Proof. vm_compute. reflexivity. Qed.
Lemma punct_facts k x : punctuator k x -> exists c w, x = c :: w /\ first_ok c = true /\ Forall (fun d => d <> 32 /\ d <> 10) x /\
  (c = 46 -> w = [] \/ ahead w = 46) /\ (c = 47 -> w = [] \/ ahead w = 61).
Proof.
  intros P. apply punct_in in P. assert (G := puncts_ok). rewrite forallb_forall in G. specialize (G _ P). cbn [snd] in G.
  destruct x as [|c w]; [discriminate|]. exists c, w. unfold punct_ok in G. apply andb_true_iff in G as [G G4]. apply andb_true_iff in G as [G G3].
  apply andb_true_iff in G as [G1 G2]. split; [reflexivity|]. split; [exact G1|]. split; [|split].
  - rewrite forallb_forall in G2. apply Forall_forall. intros d D. specialize (G2 _ D). lia.
  - intros ->. destruct w; auto. right. cbn in G3 |- *. lia.
  - intros ->. destruct w; auto. right. cbn in G4 |- *. lia.
Qed.
Lemma sym_punct k s : In (k, s) symbols -> punctuator k s. Proof. left; auto. Qed.
Definition zlist_eqb (a b : list Z) : bool := if list_eq_dec Z.eq_dec a b then true else false.
Lemma spell_unique : forallb (fun p => forallb (fun q => negb (zlist_eqb (snd p) (snd q)) || (fst p =? fst q)) all_puncts) symbols = true.
Proof. vm_compute. reflexivity. Qed.
Lemma spelled_once k k' s : In (k, s) symbols -> punctuator k' s -> k' = k.
Proof.
  intros I P. apply punct_in in P. assert (G := spell_unique). rewrite forallb_forall in G. specialize (G _ I). rewrite forallb_forall in G.
  specialize (G _ P). cbn [fst snd] in G. unfold zlist_eqb in G. destruct (list_eq_dec Z.eq_dec s s); [cbn in G; lia|congruence].
Qed.

(** pp-numbers. *)
Lemma pp_first c x : pp_rest (c :: x) -> digit c \/ nondigit c \/ c = 46 \/ c = 39.
Proof.
  intros H. inversion H as [|c1 x1 C1 P1|c1 s1 x1 C1 S1 P1|c1 x1 C1 P1]; subst; try tauto. right; left. unfold exponent in C1. cbn in C1. unfold nondigit. lia.
Qed.
Lemma no_sign c x : pp_rest (c :: x) -> ~ sign c.
Proof. intros H S. apply pp_first in H. unfold sign in S. cbn in S. unfold digit, nondigit in H. lia. Qed.
Lemma pp_unique : forall w, pp_rest w -> forall w' r r', pp_rest w' ->
  ~ (digit (ahead r) \/ nondigit (ahead r) \/ ahead r = 46 \/ ahead r = 39) -> (exponent (last w 0) -> ~ sign (ahead r)) -> ends r' ->
  w ++ r = w' ++ r' -> w = w'.
Proof.
  assert (Z0 : ~ exponent 0) by (unfold exponent; cbn; lia).
  assert (L : forall c x, (exponent (last (c :: x) 0) -> exponent (last x 0) \/ (x = [] /\ exponent c)) /\ (exponent (last x 0) -> exponent (last (c :: x) 0))).
  { intros c [|d x]; [|cbn [last]; tauto]. cbn [last]. tauto. }
  assert (NE : forall c x r', ends r' -> pp_rest (c :: x) -> ahead r' <> c).
  { intros c x r' E P. apply ends_ahead in E. apply pp_first in P. unfold digit, nondigit in P. lia. }
  intros w P. induction P as [|c x C P IH|c s x C S P IH|c x C P IH]; intros w' r r' P' N X E Q.
  - cbn in Q. subst r. inversion P' as [|c x C P|c s x C S P|c x C P]; auto; subst; exfalso; apply N; apply (pp_first _ _ P').
  - inversion P' as [|c1 x1 C1 P1|c1 s1 x1 C1 S1 P1|c1 x1 C1 P1]; subst.
    + exfalso. cbn in Q. subst r'. refine (NE c x _ E _ eq_refl). now apply pp_char.
    + injection Q as -> Q. f_equal. eapply IH; eauto. intros H. apply X. now apply (L c1 x).
    + exfalso. injection Q as -> Q. destruct x as [|d x].
      * cbn in Q. subst r. now apply X.
      * injection Q as -> Q. exact (no_sign _ _ P S1).
    + exfalso. injection Q as -> Q. unfold digit, nondigit in C. lia.
  - assert (PP : pp_rest (c :: s :: x)) by now apply pp_exp. inversion P' as [|c1 x1 C1 P1|c1 s1 x1 C1 S1 P1|c1 x1 C1 P1]; subst.
    + exfalso. cbn in Q. subst r'. exact (NE c _ _ E PP eq_refl).
    + exfalso. injection Q as -> Q. destruct x1 as [|d x1].
      * cbn in Q. subst r'. apply ends_ahead in E. cbn in E. unfold sign in S. cbn in S. lia.
      * injection Q as -> Q. exact (no_sign _ _ P1 S).
    + injection Q as -> -> Q. do 2 f_equal. eapply IH; eauto. intros H. apply X. apply (L c1 (s1 :: x)). now apply (L s1 x).
    + exfalso. injection Q as -> Q. unfold exponent in C. cbn in C. lia.
  - assert (PP : pp_rest (39 :: c :: x)) by now apply pp_sep. inversion P' as [|c1 x1 C1 P1|c1 s1 x1 C1 S1 P1|c1 x1 C1 P1]; subst.
    + exfalso. cbn in Q. subst r'. exact (NE 39 _ _ E PP eq_refl).
    + exfalso. injection Q as <- Q. unfold digit, nondigit in C1. lia.
    + exfalso. injection Q as <- Q. unfold exponent in C1. cbn in C1. lia.
    + injection Q as -> Q. do 2 f_equal. eapply IH; eauto. intros H. apply X. apply (L 39 (c1 :: x)). now apply (L c1 x).
Qed.

Lemma first_ok_not c : first_ok c = true -> ~ id_start c /\ ~ digit c /\ c <> 34 /\ c <> 39.
Proof.
  unfold first_ok, id_start, nondigit, digit. intros H. apply negb_true_iff in H. repeat (apply orb_false_iff in H as [H ?]).
  repeat match goal with H : _ && _ = false |- _ => apply andb_false_iff in H end. lia.
Qed.

(** After a quote prefix there is a quote, not the end of a word. *)
Lemma prefix_ids pre : In pre [[]; chars "u8"; chars "u"; chars "U"; chars "L"] -> Forall id_char pre.
Proof. intros [<-|[<-|[<-|[<-|[<-|[]]]]]]; cbn; repeat apply Forall_cons; try apply Forall_nil; unfold id_char, id_start, nondigit, digit; lia. Qed.
Lemma prefix_start pre q b : In pre [[]; chars "u8"; chars "u"; chars "U"; chars "L"] -> exists c w, pre ++ [q] ++ b = c :: w /\ (c = q \/ nondigit c).
Proof. intros [<-|[<-|[<-|[<-|[<-|[]]]]]]; cbn; do 2 eexists; (split; [reflexivity|]); unfold nondigit; lia. Qed.

Lemma not_quoted s k r' pre q b r : (q = 34 \/ q = 39) -> good k s -> ends r' -> In pre [[]; chars "u8"; chars "u"; chars "U"; chars "L"] ->
  (pre ++ [q] ++ b) ++ r = s ++ r' -> False.
Proof.
  intros Q G E I H. destruct G as [c w C W|x w (d & D & X) P N|k s S].
  - rewrite <- app_assoc in H. assert (A := run_unique id_char pre (c :: w) ([q] ++ b ++ r) r' (prefix_ids _ I)).
    rewrite <- !app_assoc in H. assert (B : pre = c :: w).
    { apply A; auto. - constructor; [unfold id_char, id_start; auto|now apply ascii_id]. - cbn. unfold id_char, id_start, nondigit, digit. lia.
      - apply not_id, ends_ahead, E. }
    rewrite B in H. apply app_inv_head in H. subst r'. apply ends_ahead in E. cbn in E. lia.
  - destruct (prefix_start pre q b I) as (c & v & V & C). rewrite V in H. destruct X as [->| ->]; cbn in H; injection H as -> H; unfold digit, nondigit in *; lia.
  - destruct (prefix_start pre q b I) as (c & v & V & C). rewrite V in H. destruct (punct_facts _ _ (sym_punct _ _ S)) as (c' & w & -> & F & _).
    cbn in H. injection H as -> H. apply first_ok_not in F. unfold id_start in F. destruct C as [->|C]; tauto || lia.
Qed.

Lemma lex_unique k s r' k2 x r : good k s -> ends r' -> lexeme k2 x r -> k2 <> PP_HEADER_NAME_H -> x ++ r = s ++ r' -> k2 = k /\ x = s.
Proof.
  intros G E L NH H. assert (EA := ends_ahead _ E). inversion L as [c0 w0 r0 C0 W0 N0 U1 U2|x0 w0 r0 D0 P0 N0 X0|pre b r0 I Q|pre b r0 I Q|b r0 Q|k0 x0 r0 P0 M S1 S2 DD]; subst; try congruence.
  - destruct G as [c w C W|x w (d & D & X) P N|k s S].
    + split; auto. apply (run_unique id_char) with (r := r) (r' := r'); auto.
      * constructor; auto. unfold id_char; auto.
      * constructor; [unfold id_char, id_start; auto|now apply ascii_id].
      * now apply not_id.
    + exfalso. unfold id_start, nondigit, digit in *. destruct X as [->| ->]; cbn in H; injection H as -> H; lia.
    + exfalso. destruct (punct_facts _ _ (sym_punct _ _ S)) as (c' & v & -> & F & _). cbn in H. injection H as -> H. apply first_ok_not in F. tauto.
  - destruct D0 as (d0 & D0 & X1). destruct G as [c w C W|x w (d & D & X) P N|k s S].
    + exfalso. unfold nondigit, digit in *. destruct X1 as [->| ->]; cbn in H; injection H as <- H; lia.
    + split; auto. rewrite <- !app_assoc in H.
      assert (B : x0 = x /\ w0 ++ r = w ++ r').
      { unfold digit in *. destruct X as [->| ->], X1 as [->| ->]; cbn in H; injection H as H1 H2; subst; try (exfalso; lia); auto. }
      destruct B as [-> B]. f_equal. eapply pp_unique; eauto.
    + exfalso. destruct (punct_facts _ _ (sym_punct _ _ S)) as (c' & v & -> & F & _ & F46 & _).
      apply first_ok_not in F as (_ & F & _). destruct X1 as [->| ->]; cbn in H; injection H as H1 H; [subst; tauto|].
      destruct (F46 (eq_sym H1)) as [->|A].
      * cbn in H. subst r'. cbn in EA. unfold digit in D0. lia.
      * destruct v as [|v0 v]; [discriminate A|]. cbn in A. injection H as -> _. unfold digit in D0. lia.
  - exfalso. eapply (not_quoted s k r' pre 34 (b ++ [34]) r); eauto.
  - exfalso. eapply (not_quoted s k r' pre 39 (b ++ [39]) r); eauto. cbn in I |- *. tauto.
  - destruct (punct_facts _ _ P0) as (c' & v & -> & F & NB & F46 & _). apply first_ok_not in F as (F1 & F2 & _). destruct G as [c w C W|x w (d & D & X) P N|k s S].
    + exfalso. injection H as -> H. unfold id_start in F1. tauto.
    + exfalso. destruct X as [->| ->]; cbn in H; injection H as -> H; [tauto|]. destruct (F46 eq_refl) as [->|A].
      * cbn in H. subst r. apply DD. split; [reflexivity|exact D].
      * destruct v as [|v0 v]; [discriminate A|]. cbn in A. injection H as -> _. unfold digit in D. lia.
    + assert (B : c' :: v = s).
      { assert (LE : (length s <= length (c' :: v))%nat). { apply (M k s); [now left|]. exists r'. exact H. }
        assert (T : firstn (length (c' :: v)) (s ++ r') = c' :: v) by (rewrite <- H, firstn_app, Nat.sub_diag, firstn_all, app_nil_r; reflexivity).
        rewrite firstn_app, firstn_all2 in T by exact LE. destruct (length (c' :: v) - length s)%nat as [|m] eqn:Em.
        - rewrite <- T. now rewrite app_nil_r.
        - exfalso. destruct r' as [|b r'].
          + apply (f_equal (@length Z)) in T. rewrite app_length in T. cbn [firstn length] in T. cbn [length] in Em. lia.
          + destruct E as [E|E]; [discriminate|]. cbn in E. cbn [firstn] in T. rewrite Forall_forall in NB. destruct (NB b).
            * rewrite <- T. apply in_or_app. right. now left.
            * destruct E; congruence. }
      split; [|exact B]. rewrite B in P0. eapply spelled_once; eauto.
Qed.

(** White space before a token. *)
Lemma good_first k s r' : good k s -> ends r' -> exists c w, s = c :: w /\ ~ white c /\ c <> 10 /\ ~ starts (chars "//") (s ++ r') /\ ~ starts (chars "/*") (s ++ r').
Proof.
  intros G E. assert (EA := ends_ahead _ E).
  assert (K : forall c w, (c <> 47 \/ w = [] \/ ahead w = 61) -> ~ starts (chars "//") ((c :: w) ++ r') /\ ~ starts (chars "/*") ((c :: w) ++ r')).
  { intros c w H. split; intros [b B]; cbn in B; injection B as -> B; (destruct H as [H|[->|H]]; [congruence| |]);
      [cbn in B; subst r'; cbn in EA; lia|destruct w; cbn in H; [lia|injection B as -> _; lia]|cbn in B; subst r'; cbn in EA; lia|destruct w; cbn in H; [lia|injection B as -> _; lia]]. }
  destruct G as [c w C W|x w (d & D & X) P N|k s S].
  - exists c, w. unfold nondigit, white in *. cbn. repeat split; try lia; apply K; lia.
  - unfold digit, white in *. destruct X as [->| ->]; cbn; do 2 eexists; (split; [reflexivity|]); repeat split; try lia;
      [apply (K d w)|apply (K d w)|apply (K 46 (d :: w))|apply (K 46 (d :: w))]; lia.
  - destruct (punct_facts _ _ (sym_punct _ _ S)) as (c & w & -> & F & NB & F46 & F47). exists c, w.
    split; [reflexivity|]. inversion NB as [|? ? N1 N2]; subst.
    assert (W : ~ white c).
    { intros [<-|[<-|[<-|[]]]]; [| |tauto].
      - assert (G : forallb (fun p => negb (hd 0 (snd p) =? 9)) symbols = true) by (vm_compute; reflexivity). rewrite forallb_forall in G. specialize (G _ S). discriminate.
      - assert (G : forallb (fun p => negb (hd 0 (snd p) =? 13)) symbols = true) by (vm_compute; reflexivity). rewrite forallb_forall in G. specialize (G _ S). discriminate. }
    split; [exact W|]. split; [tauto|]. apply K. destruct (Z.eq_dec c 47); auto.
Qed.
Lemma gap_strip ok k s r' : good k s -> ends r' -> forall g' nl g r0, Forall blank_char g' -> gap ok nl g r0 ->
  (r0 = [] \/ ~ blank r0) -> g ++ r0 = g' ++ s ++ r' -> g = g'.
Proof.
  intros G E. destruct (good_first _ _ _ G E) as (c & w & -> & W & N & C1 & C2).
  induction g' as [|b g' IH]; intros nl g r0 F Gp R H.
  - cbn [app] in H. inversion Gp as [|c1 nl1 g1 r1 W1 G1|nl1 g1 r1 G1|b nl1 g1 r1 B1 B2 G1|b nl1 g1 r1 B1 G1]; subst; auto; exfalso.
    + injection H as -> _. tauto.
    + injection H as <- _. tauto.
    + apply C1. exists ((b ++ g1) ++ r0). cbn [app] in H |- *. symmetry. exact H.
    + apply C2. exists ((b ++ chars "*/" ++ g1) ++ r0). symmetry. exact H.
  - inversion F as [|? ? B F']; subst. inversion Gp as [|c1 nl1 g1 r1 W1 G1|nl1 g1 r1 G1|b1 nl1 g1 r1 B1 B2 G1|b1 nl1 g1 r1 B1 G1]; subst.
    + exfalso. cbn in H. destruct R as [->|R]; [discriminate|]. apply R. rewrite H. unfold blank. cbn [ahead hd app]. destruct B as [->| ->]; [left; cbn; tauto|tauto].
    + injection H as -> H. f_equal. eapply IH; eauto.
    + injection H as -> H. f_equal. eapply IH; eauto.
    + exfalso. cbn in H. injection H as <- _. destruct B; lia.
    + exfalso. cbn in H. injection H as <- _. destruct B; lia.
Qed.

(** Texts made of tokens with white space between them. *)
Inductive reads : list (Z * list Z) -> list Z -> Prop :=
| rd_nil g : Forall blank_char g -> reads [] g
| rd_cons k s l g r : Forall blank_char g -> good k s -> ends r -> reads l r -> reads ((k, s) :: l) (g ++ s ++ r).
(** Header names come after a directive. *)
Inductive calm : list dtok -> Prop :=
| calm_nil : calm []
| calm_cons t l : ty t <> PP_HEADER_NAME_H -> (ty t = PP_DIRECTIVE \/ calm l) -> calm (t :: l).

Lemma good_kind k s : good k s -> k <> PP_DIRECTIVE.
Proof.
  intros [c w _ _|x w _ _ _|k' s' S]; try discriminate.
  assert (G : forallb (fun p => negb (fst p =? PP_DIRECTIVE)) symbols = true) by (vm_compute; reflexivity). rewrite forallb_forall in G.
  specialize (G _ S). cbn [fst] in G. intros ->. discriminate.
Qed.
Lemma good_no_39 s : good T_NUM s -> ~ In 39 s.
Proof.
  intros G. inversion G as [|x w (d & D & X) P N|k s' S]; subst.
  - intros I. apply in_app_or in I as [I|I]; [|tauto]. unfold digit in D. destruct X as [->| ->]; cbn in I; lia.
  - assert (K : forallb (fun p => negb (fst p =? T_NUM)) symbols = true) by (vm_compute; reflexivity). rewrite forallb_forall in K.
    specialize (K _ S). discriminate.
Qed.
Lemma filter_none (s : list Z) : ~ In 39 s -> filter (fun c => negb (c =? 39)) s = s.
Proof.
  induction s as [|c s IH]; intros N; [reflexivity|]. cbn [filter]. cbn in N. destruct (Z.eqb_spec c 39); [exfalso; tauto|]. cbn [negb]. f_equal. tauto.
Qed.

Lemma tiles_read ok src (P : bool -> list Z -> bool -> dtok -> list Z -> list Z -> Prop) :
  (forall st g nl t x r, P st g nl t x r -> lexeme (ty t) x r /\ spelled src t x) -> ~ In 92 src ->
  forall ks u, reads ks u -> forall st l, tiles ok P st l u -> calm l -> map (fun t => (ty t, text t)) l = ks.
Proof.
  intros HP NS ks u R. induction R as [g F|k s ks g r F G E R IH]; intros st l T C.
  - inversion T as [|st0 nl g0 t x r l0 Gp X HT Tl]; subst; [reflexivity|]. exfalso.
    destruct (HP _ _ _ _ _ _ HT) as [Lx _]. apply (fun L => lexeme_not_blank _ _ _ L X) in Lx.
    destruct x as [|c x]; [congruence|]. rewrite Forall_forall in F. assert (B : blank_char c) by (apply F; apply in_or_app; right; now left).
    apply Lx. unfold blank. cbn [ahead hd app]. destruct B as [->| ->]; [left; cbn; tauto|tauto].
  - destruct (good_first _ _ _ G E) as (c & w & Es & _). inversion T as [st0 nl g0 Gp|st0 nl g0 t x r0 l0 Gp X HT Tl]; subst.
    + exfalso. assert (A := gap_strip _ _ _ _ G E g nl (g ++ (c :: w) ++ r) [] F Gp (or_introl eq_refl)). rewrite app_nil_r in A. specialize (A eq_refl).
      apply (f_equal (@length Z)) in A. rewrite app_length in A. cbn in A. lia.
    + destruct (HP _ _ _ _ _ _ HT) as [Lx Sp]. inversion C as [|? ? C1 C2]; subst.
      assert (A : g0 = g). { eapply (gap_strip _ _ _ _ G E); eauto. right. eapply lexeme_not_blank; eauto. }
      subst g0. match goal with Q : g ++ _ = g ++ _ |- _ => apply app_inv_head in Q; rename Q into Hq end.
      destruct (lex_unique _ _ _ _ _ _ G E Lx C1 Hq) as [Kt ->]. apply app_inv_head in Hq. subst r0.
      cbn [map]. f_equal.
      * f_equal; [exact Kt|]. destruct Sp as [_ Sp]. rewrite (Sp NS). destruct (Z.eqb_spec (ty t) T_NUM) as [e|]; [|reflexivity].
        apply filter_none. apply good_no_39. rewrite <- e, Kt. exact G.
      * eapply IH; eauto. destruct C2 as [C2|C2]; auto. exfalso. rewrite Kt in C2. eapply good_kind; eauto.
Qed.

(** A header name is read only after #include. *)
Lemma scan_calm n first s ty s' st : scan n false first s = Some (Ok (ty, s', st)) -> ty <> PP_HEADER_NAME_H /\ (st = true -> ty = PP_DIRECTIVE).
Proof.
  unfold scan. intros H.
  assert (AP : forall n e s k s', after_prefix n e s = Some (Ok (k, s')) -> k <> PP_HEADER_NAME_H).
  { clear. intros n e s k s' H. unfold after_prefix in H. destruct (is_one_of _ _).
    - ebind H. ebind H. injection H as <- <-. destruct (_ =? 34); discriminate.
    - ebind H. injection H as <- <-. discriminate. }
  rewrite andb_false_r in H. cbv zeta in H.
  repeat match type of H with (if ?b then _ else _) = _ => destruct b end;
  try match type of H with exbind _ (fun '(ty, s) => ok (ty, s, false)) = _ => ebind H; match type of H with (let '(_, _) := ?v in _) = _ => destruct v as [k0 t0] end; injection H as <- <- <-; split; [|discriminate] end.
  - ebind E. destruct (_ =? 56); [ebind E|]; eapply AP; eauto.
  - ebind E. eapply AP; eauto.
  - ebind E. ebind E. injection E as <- <-. discriminate.
  - ebind E. ebind E. injection E as <- <-. discriminate.
  - ebind E. ebind E. injection E as <- <-. discriminate.
  - ebind E. ebind E. injection E as <- <-. discriminate.
  - ebind E. destruct (is_one_of _ _); [ebind E; ebind E; injection E as <- <-; discriminate|].
    destruct (_ =? 46); [ebind E; destruct (_ =? 46); [ebind E; injection E as <- <-; discriminate|discriminate]|injection E as <- <-; discriminate].
  - ebind H. destruct (_ =? 35); [ebind H; injection H as <- <- <-; split; discriminate|]. injection H as <- <- <-. destruct first; split; auto; discriminate.
  - injection H as <- <- <-. split; discriminate.
  - destruct (find _ _) as [[k w]|] eqn:F; [|discriminate]. ebind H. destruct s0 as [k0 t0]. injection H as <- <- <-. split; [|discriminate].
    apply find_some in F as [F _]. apply (switch_type _ _ _ _ _ F) in E. unfold PP_HEADER_NAME_H. lia.
Qed.
Lemma next_calm : forall n ws first s t hdr dir s', tokenizer_next n false false ws first s = Some (Ok (t, hdr, dir, s')) ->
  ty t <> PP_HEADER_NAME_H /\ (ty t = PP_DIRECTIVE \/ (hdr = false /\ dir = false)).
Proof.
  induction n as [|n IH]; intros ws first s t hdr dir s' H; [discriminate|]. cbn [tokenizer_next] in H. cbv zeta in H.
  assert (K : forall first0, exbind (scan n false first0 (no_flags s)) (fun '(ty, s1, st) => exbind (token_text (no_flags s) s1) (fun str =>
      if (ty =? T_IDENT) && (false || st) then ok (make_token ty str ws (first0 || (ty =? T_EOI)) (ln (no_flags s)), sv_cmp str (chars "include"), false, s1)
      else ok (make_token ty str ws (first0 || (ty =? T_EOI)) (ln (no_flags s)), false, false || st, s1))) = Some (Ok (t, hdr, dir, s')) ->
    ty t <> PP_HEADER_NAME_H /\ (ty t = PP_DIRECTIVE \/ (hdr = false /\ dir = false))).
  { clear. intros first H. ebind H. destruct v as [[k s1] st]. ebind H. apply scan_calm in E as [N D]. cbn [orb] in H.
    destruct st; [specialize (D eq_refl); subst k; rewrite ?andb_true_r in H; change (PP_DIRECTIVE =? T_IDENT) with false in H; cbn [andb] in H; injection H as <- <- <- <-; split; auto|].
    rewrite andb_false_r in H. injection H as <- <- <- <-. split; auto. }
  destruct (_ =? EQ_SPACE); [ebind H; eauto|]. destruct (_ =? 10); [ebind H; eauto|]. destruct (_ =? 47).
  - ebind H. destruct (_ =? 47); [ebind H; eauto|]. destruct (_ =? 42); [ebind H; eauto|]. eapply K; exact H.
  - eapply K; exact H.
Qed.
Lemma rest_calm : forall n prev hdr dir s l, ty prev <> PP_HEADER_NAME_H -> (ty prev = PP_DIRECTIVE \/ (hdr = false /\ dir = false)) ->
  tokenize_rest n prev hdr dir s = Some (Ok l) -> calm l.
Proof.
  induction n as [|n IH]; intros prev hdr dir s l N D H; [discriminate|]. cbn [tokenize_rest] in H.
  destruct (_ =? T_EOI); [injection H as <-; constructor|]. ebind H. destruct v as [[[t hdr'] dir'] s']. ebind H. injection H as <-.
  constructor; [exact N|]. destruct D as [D|[-> ->]]; [left; exact D|]. right. apply next_calm in E as [N' D']. eapply IH; eauto.
Qed.
Lemma tokenize_calm n src l : tokenize n src = Some (Ok l) -> calm l.
Proof. unfold tokenize. intros H. ebind H. destruct v as [[[t hdr'] dir'] s']. apply next_calm in E as [N D]. eapply rest_calm; eauto. Qed.

(** What is printed. *)
Definition short (s : list Z) : Prop := (length s <= 98)%nat.
Lemma to_nul_id s : ~ In 0 s -> to_nul s = s.
Proof. induction s as [|c s IH]; intros N; [reflexivity|]. cbn in N |- *. destruct (Z.eqb_spec c 0); [exfalso; auto|]. f_equal; auto. Qed.
Lemma find_first (k : Z) (s : list Z) (l : list (Z * list Z)) : In (k, s) l -> NoDup (map fst l) -> find (fun p => fst p =? k) l = Some (k, s).
Proof.
  induction l as [|[a b] l IH]; intros I D; [destruct I|]. cbn [map fst] in D. inversion D as [|? ? N D']; subst. cbn [find fst].
  destruct I as [I|I]; [injection I as -> ->; now rewrite Z.eqb_refl|]. destruct (Z.eqb_spec a k) as [->|]; [|auto].
  exfalso. apply N. apply in_map_iff. exists (k, s). auto.
Qed.
Definition nodupb (l : list Z) : bool := (fix go l := match l with [] => true | x :: r => negb (existsb (Z.eqb x) r) && go r end) l.
Lemma nodupb_ok l : nodupb l = true -> NoDup l.
Proof.
  induction l as [|x l IH]; intros H; [constructor|]. cbn in H. apply andb_true_iff in H as [H1 H2]. constructor; [|now apply IH].
  intros I. apply negb_true_iff in H1. assert (T : existsb (Z.eqb x) l = true) by (apply existsb_exists; exists x; split; [exact I|apply Z.eqb_refl]). congruence.
Qed.
Lemma names_nodup : NoDup (map fst (type_names ++ keywords ++ symbols)). Proof. apply nodupb_ok. vm_compute. reflexivity. Qed.
Definition word_ok (s : list Z) : bool :=
  match s with [] => false | c :: w =>
    let nd c := (65 <=? c) && (c <=? 90) || (97 <=? c) && (c <=? 122) || (c =? 95) || (c =? 36) in nd c && forallb (fun d => nd d || (48 <=? d) && (d <=? 57)) w end.
Lemma keywords_ok : forallb (fun p => word_ok (snd p) && negb (fst p =? T_IDENT) && negb (fst p =? T_NUM) && negb (fst p =? T_STRING)) keywords = true.
Proof. vm_compute. reflexivity. Qed.
Lemma symbols_ok : forallb (fun p => negb (fst p =? T_IDENT) && negb (fst p =? T_NUM) && negb (fst p =? T_STRING)) symbols = true.
Proof. vm_compute. reflexivity. Qed.
Lemma pp_byte w c : pp_rest w -> In c w -> 1 <= c < 128 /\ c <> 92.
Proof.
  intros P. induction P as [|d x D P IH|d s x D S P IH|d x D P IH]; intros I; [destruct I|..]; unfold exponent, sign, digit, nondigit in *; cbn in *; intuition lia.
Qed.
Lemma good_byte k s c : good k s -> In c s -> 1 <= c < 128 /\ c <> 92.
Proof.
  intros [d w D W|x w (d & D & X) P N|k' s' S] I.
  - rewrite Forall_forall in W. destruct I as [<-|I]; [|apply W in I]; unfold nondigit, digit in *; lia.
  - apply in_app_or in I as [I|I]; [|eapply pp_byte; eauto]. unfold digit in D. destruct X as [->| ->]; cbn in I; lia.
  - assert (G : forallb (fun p => forallb (fun c => (1 <=? c) && (c <? 128) && negb (c =? 92)) (snd p)) symbols = true) by (vm_compute; reflexivity).
    rewrite forallb_forall in G. specialize (G _ S). cbn [snd] in G. rewrite forallb_forall in G. specialize (G _ I). lia.
Qed.
Lemma stands_good t k s : stands_for t k s -> good k s.
Proof.
  intros [t' c w T X C W|t' s' I|t' x w T X D P N|t' s' I]; try (constructor; assumption).
  assert (G := keywords_ok). rewrite forallb_forall in G. specialize (G _ I). cbn [fst snd] in G. repeat (apply andb_true_iff in G as [G ?]).
  destruct s' as [|c w]; [discriminate|]. cbn in G. apply andb_true_iff in G as [G1 G2]. constructor; [unfold nondigit; lia|].
  rewrite forallb_forall in G2. apply Forall_forall. intros d I'. specialize (G2 _ I'). unfold nondigit, digit. lia.
Qed.
Lemma stands_string t k s : stands_for t k s -> token_string t = s.
Proof.
  intros F. assert (Z0 : ~ In 0 s) by (intros I; apply (good_byte _ _ _ (stands_good _ _ _ F)) in I; lia). unfold token_string.
  destruct F as [t c w T X C W|t s I|t x w T X D P N|t s I].
  - rewrite T, X. cbn [Z.eqb]. now rewrite to_nul_id.
  - assert (G := keywords_ok). rewrite forallb_forall in G. specialize (G _ I). cbn [fst snd] in G. apply andb_true_iff in G as [G G3]. apply andb_true_iff in G as [G G2].
    apply andb_true_iff in G as [_ G1]. apply negb_true_iff in G1, G2, G3. rewrite G1, G2, G3. unfold dbg_token_type.
    rewrite (find_first (ty t) s); [reflexivity| |exact names_nodup]. apply in_or_app. right. apply in_or_app. now left.
  - rewrite T, X. change (T_NUM =? T_IDENT) with false. change (T_NUM =? T_NUM) with true. cbv iota. now apply to_nul_id.
  - assert (G := symbols_ok). rewrite forallb_forall in G. specialize (G _ I). cbn [fst snd] in G. apply andb_true_iff in G as [G G3]. apply andb_true_iff in G as [G1 G2].
    apply negb_true_iff in G1, G2, G3. rewrite G1, G2, G3. unfold dbg_token_type.
    rewrite (find_first (ty t) s); [reflexivity| |exact names_nodup]. apply in_or_app. right. apply in_or_app. now right.
Qed.
Lemma dbg_short cap t s : (100 <= cap)%nat -> token_string t = s -> short s -> dbg_token cap t = (s, cap).
Proof.
  intros C <- S. unfold dbg_token, dbg_print, short in *. destruct (Nat.ltb_spec cap (length (token_string t) + 1)); [lia|].
  rewrite firstn_all2 by lia. reflexivity.
Qed.
Lemma print_reads cap : (100 <= cap)%nat -> forall ts ks, Forall2 (fun t k => stands_for t (fst k) (snd k) /\ short (snd k)) ts ks -> separated ts ->
  forall g, Forall blank_char g -> reads ks (g ++ print_from cap ts).
Proof.
  intros C ts ks F. induction F as [|t [k s] ts ks [St Sh] F IH]; intros Sep g G.
  - cbn. rewrite app_nil_r. now constructor.
  - cbn [print_from]. cbn [fst snd] in St, Sh. rewrite (dbg_short cap t s C (stands_string _ _ _ St) Sh).
    set (pre := if fol t then [10] else if e_ws (dt t) then [32] else []). set (post := if e_wsa (dt t) then [32] else []).
    replace (g ++ pre ++ s ++ post ++ print_from cap ts) with ((g ++ pre) ++ s ++ (post ++ print_from cap ts)) by now rewrite <- !app_assoc.
    apply rd_cons.
    + apply Forall_app. split; [exact G|]. unfold pre, blank_char. destruct (fol t), (e_ws (dt t)); auto.
    + eapply stands_good; eauto.
    + unfold post. destruct (e_wsa (dt t)) eqn:W; [right; left; reflexivity|]. cbn [app]. destruct ts as [|b ts]; [left; reflexivity|].
      right. cbn [print_from]. destruct (dbg_token cap b) as [sb cb]. cbn [separated] in Sep. destruct Sep as [[S|[S|S]] _]; [congruence|rewrite S; right; reflexivity|].
      rewrite S. destruct (fol b); [right|left]; reflexivity.
    + apply IH; [destruct ts; [exact I|apply Sep]|]. unfold post, blank_char. destruct (e_wsa (dt t)); auto.
Qed.
Lemma reads_bytes ks u : reads ks u -> Forall (fun b => 1 <= b < 128 /\ b <> 92) u.
Proof.
  assert (B : forall g, Forall blank_char g -> Forall (fun b => 1 <= b < 128 /\ b <> 92) g).
  { intros g. apply Forall_impl. unfold blank_char. lia. }
  induction 1 as [g F|k s l g r F G E R IH]; [now apply B|]. apply Forall_app. split; [now apply B|]. apply Forall_app. split; [|exact IH].
  apply Forall_forall. intros c. now apply (good_byte k).
Qed.
Lemma unsplice_id u : ~ In 92 u -> unsplice u = u.
Proof.
  induction u as [|c u IH]; intros N; [reflexivity|]. cbn in N. assert (E : unsplice (c :: u) = c :: unsplice u).
  { cbn [unsplice]. repeat match goal with |- match ?x with _ => _ end = _ => destruct x end; try reflexivity; exfalso; apply N; left; reflexivity. }
  rewrite E. f_equal. apply IH. tauto.
Qed.
Lemma bom_id u : Forall (fun b => 1 <= b < 128 /\ b <> 92) u -> without_bom u = u.
Proof.
  intros F. unfold without_bom. destruct u as [|c u]; [reflexivity|]. inversion F as [|? ? [H _] _]; subst.
  repeat match goal with |- match ?x with _ => _ end = _ => destruct x end; try reflexivity; exfalso; lia.
Qed.
