From Coq Require Import String.
From Verif Require Import Base CharTypes Utf8 Tokens MacroTable Fuel Expander Directives Tokenizer TokenizerSpec TokenizerProofs.
Local Open Scope list_scope.

(** * One token *)
Definition tail_of (s : tk) (r : list Z) : Prop := lv s = r ++ [0].
Lemma tail_exists s : wf s -> exists r, tail_of s r /\ Forall (fun b => 1 <= b < 256) r.
Proof. intros W. destruct (lv_zterm s W) as (r & E & F). now exists r. Qed.
Lemma tail_ahead s r : tail_of s r -> hd 0 (lv s) = ahead r.
Proof. unfold tail_of, ahead. intros ->. now destruct r. Qed.
Lemma tail_class s r : wf s -> tail_of s r -> chr s = class (ahead r) /\ 0 <= ahead r < 256.
Proof.
  intros W T. destruct (lv_cons s W) as (x & l & L & C & B & _). rewrite <- (tail_ahead _ _ T), L. cbn. auto.
Qed.

(** Punctuators. *)
Definition all_puncts : list (Z * list Z) := symbols ++ [(PP_HASH, [35]); (PP_DIRECTIVE, [35]); (PP_HHASH, [35; 35])].
Lemma punct_in k x : punctuator k x <-> In (k, x) all_puncts.
Proof.
  unfold punctuator, all_puncts. rewrite in_app_iff. change (chars "#") with [35]. change (chars "##") with [35; 35]. cbn [In]. split.
  - intros [H|[[-> [->| ->]]|[-> ->]]]; auto.
  - intros [H|[H|[H|[H|[]]]]]; auto; injection H as <- <-; auto.
Qed.
Fixpoint no_start (p x excl : list Z) : bool :=
  match p, x with
  | a :: p, b :: x => negb (a =? b) || no_start p x excl
  | a :: _, [] => is_one_of a excl
  | [], _ => false
  end.
Lemma no_start_spec : forall p x excl r, no_start p x excl = true -> ~ In (ahead r) excl -> ~ starts p (x ++ r) \/ (r = [] /\ (length p > length x)%nat).
Proof.
  induction p as [|a p IH]; intros x excl r H N; [destruct x; discriminate|].
  destruct x as [|b x]; cbn [no_start] in H.
  - destruct r as [|y r]; [right; split; auto; cbn; lia|]. left. intros [q Q]. cbn in Q. injection Q as -> _. apply N. now apply one_of.
  - apply orb_true_iff in H as [H|H].
    + left. intros [q Q]. cbn in Q. injection Q as -> _. rewrite Z.eqb_refl in H. discriminate.
    + destruct (IH _ _ _ H N) as [S|[S L]]; [left|right; split; auto; cbn; lia].
      intros [q Q]. cbn in Q. injection Q as _ Q. apply S. now exists q.
Qed.
Lemma no_start_not p x excl r : no_start p x excl = true -> ~ In (ahead r) excl -> ~ starts p (x ++ r).
Proof.
  intros H N. destruct (no_start_spec _ _ _ _ H N) as [S|[-> L]]; auto. intros [q Q]. apply (f_equal (@length Z)) in Q.
  rewrite !app_length in Q. cbn in Q. lia.
Qed.
Definition good_punct (k : Z) (x excl : list Z) : bool :=
  existsb (fun p => (fst p =? k) && (if list_eq_dec Z.eq_dec (snd p) x then true else false)) all_puncts &&
  forallb (fun p => (length (snd p) <=? length x)%nat || no_start (snd p) x excl) all_puncts &&
  no_start (chars "//") x excl && no_start (chars "/*") x excl &&
  (if list_eq_dec Z.eq_dec x [46] then false else true).
Lemma good_punct_lexeme k x excl r : good_punct k x excl = true -> ~ In (ahead r) excl -> lexeme k x r.
Proof.
  unfold good_punct. rewrite !andb_true_iff. intros ((((H1 & H2) & H3) & H4) & H5) N.
  apply lx_punct.
  - apply punct_in. apply existsb_exists in H1. destruct H1 as ((k' & x') & I & E). apply andb_true_iff in E as [E1 E2].
    apply Z.eqb_eq in E1. cbn [fst snd] in E1, E2. destruct (list_eq_dec Z.eq_dec x' x) as [->|]; [|discriminate E2]. now subst k'.
  - intros k' x' P S. apply punct_in in P. rewrite forallb_forall in H2. specialize (H2 _ P). cbn [snd] in H2.
    apply orb_true_iff in H2 as [H2|H2]; [now apply Nat.leb_le|]. exfalso. exact (no_start_not _ _ _ _ H2 N S).
  - exact (no_start_not _ _ _ _ H3 N).
  - exact (no_start_not _ _ _ _ H4 N).
  - intros [-> _]. destruct (list_eq_dec Z.eq_dec [46] [46]); [discriminate|congruence].
Qed.
(** The characters of [excl] do not follow. *)
Lemma not_ahead s r excl : wf s -> tail_of s r -> forallb own excl = true -> Forall (fun e => chr s <> e) excl -> ~ In (ahead r) excl.
Proof.
  intros W T O F I. destruct (tail_class _ _ W T) as [C _]. rewrite Forall_forall in F. apply (F _ I). rewrite C.
  rewrite forallb_forall in O. specialize (O _ I). now apply Z.eqb_eq.
Qed.
Definition scanned (k : Z) (s s' : tk) : Prop := exists x r, adv false s x s' /\ tail_of s' r /\ x <> [] /\ lexeme k x r.
Lemma punct_done k x excl s s' : adv false s x s' -> x <> [] -> good_punct k x excl = true -> forallb own excl = true ->
  Forall (fun e => chr s' <> e) excl ->
  scanned k s s'.
Proof.
  intros A X G O F. assert (W := proj1 A). destruct (tail_exists s' W) as (r & T & _).
  exists x, r. repeat split; auto; try apply A. apply (good_punct_lexeme _ _ _ _ G). now apply (not_ahead s').
Qed.

Lemma res_inv {A B} (e : res A) (f : A -> res B) r : bind e f = Ok r -> exists a, e = Ok a /\ f a = Ok r.
Proof. destruct e; cbn; try discriminate. eauto. Qed.
Ltac rbind H := let E := fresh "E" in let v := fresh "s" in apply res_inv in H; destruct H as (v & E & H); cbv beta in H.
Ltac selfx C Q x := rewrite C in Q; apply class_self in Q; [|lia|lia]; subst x.

Lemma switch_adv k w s ty s' : In (k, w) punctuators -> chr s = k -> wf s ->
  (k = 47 -> forall s1, next_char s = Ok s1 -> chr s1 <> 47 /\ chr s1 <> 42) ->
  run_switch w s = Ok (ty, s') -> scanned ty s s'.
Proof.
  intros I K W D H. unfold punctuators in I. cbn [In] in I.
  repeat (destruct I as [I|I]); [injection I as <- <-; cbn [run_switch one] in H; rbind H; nadv E W; selfx C K x ..|destruct I].
  all: try (specialize (D eq_refl _ E)).
  all: repeat match type of H with
       | (if chr ?a =? ?b then _ else _) = _ => let Q := fresh "Q" in destruct (Z.eqb_spec (chr a) b) as [Q|Q]
       | bind (next_char ?a) _ = _ =>
           rbind H;
           match goal with E' : next_char a = Ok ?b, W' : wf a, Q : chr a = _ |- _ =>
             let x' := fresh "x" in let A' := fresh "A" in let C' := fresh "C" in let B' := fresh "B" in let W'' := fresh "W" in
             destruct (next_adv _ _ W' E') as (x' & A' & C' & B'); assert (W'' := proj1 A');
             rewrite C' in Q; apply class_self in Q; [|lia|lia]; subst x'
           end
       end.
  all: injection H as <- <-.
  all: match goal with
       | A1 : adv false ?s [?a] ?s1, A2 : adv false ?s1 [?b] ?s2, A3 : adv false ?s2 [?c] ?s3 |- scanned _ ?s ?s3 =>
           eapply (punct_done _ [a; b; c] []); [exact (adv_trans _ _ [a] _ _ _ A1 (adv_trans _ _ [b] _ _ _ A2 A3))|discriminate|vm_compute; reflexivity|reflexivity|constructor]
       | A1 : adv false ?s [?a] ?s1, A2 : adv false ?s1 [?b] ?s2, N : chr ?s2 <> ?e |- scanned _ ?s ?s2 =>
           eapply (punct_done _ [a; b] [e]); [exact (adv_trans _ _ [a] _ _ _ A1 A2)|discriminate|vm_compute; reflexivity|reflexivity|auto]
       | A1 : adv false ?s [?a] ?s1, A2 : adv false ?s1 [?b] ?s2 |- scanned _ ?s ?s2 =>
           eapply (punct_done _ [a; b] []); [exact (adv_trans _ _ [a] _ _ _ A1 A2)|discriminate|vm_compute; reflexivity|reflexivity|constructor]
       | A1 : adv false ?s [47] ?s1, D : chr ?s1 <> 47 /\ chr ?s1 <> 42, N1 : chr ?s1 <> 61 |- scanned _ ?s ?s1 =>
           eapply (punct_done _ [47] [47; 42; 61]); [exact A1|discriminate|vm_compute; reflexivity|reflexivity|repeat constructor; tauto]
       | A1 : adv false ?s [?a] ?s1, N1 : chr ?s1 <> ?e1, N2 : chr ?s1 <> ?e2, N3 : chr ?s1 <> ?e3 |- scanned _ ?s ?s1 =>
           eapply (punct_done _ [a] [e1; e2; e3]); [exact A1|discriminate|vm_compute; reflexivity|reflexivity|repeat constructor; auto]
       | A1 : adv false ?s [?a] ?s1, N1 : chr ?s1 <> ?e1, N2 : chr ?s1 <> ?e2 |- scanned _ ?s ?s1 =>
           eapply (punct_done _ [a] [e1; e2]); [exact A1|discriminate|vm_compute; reflexivity|reflexivity|repeat constructor; auto]
       | A1 : adv false ?s [?a] ?s1, N1 : chr ?s1 <> ?e1 |- scanned _ ?s ?s1 =>
           eapply (punct_done _ [a] [e1]); [exact A1|discriminate|vm_compute; reflexivity|reflexivity|repeat constructor; auto]
       | A1 : adv false ?s [?a] ?s1 |- scanned _ ?s ?s1 =>
           eapply (punct_done _ [a] []); [exact A1|discriminate|vm_compute; reflexivity|reflexivity|constructor]
       end.
Qed.
Definition scanned_as (k : Z) (s s' : tk) : Prop :=
  exists x r, adv (k =? T_NUM) s x s' /\ tail_of s' r /\ x <> [] /\ lexeme k x r /\ (k = T_NUM -> sep s' = false -> ~ In 39 x).
Lemma scanned_as_intro k s s' x r : adv false s x s' -> tail_of s' r -> x <> [] -> lexeme k x r -> k <> T_NUM -> scanned_as k s s'.
Proof. intros A T X L N. exists x, r. split; [now apply adv_mono|]. repeat split; auto. Qed.
Lemma scanned_as_plain k s s' : k <> T_NUM -> scanned k s s' -> scanned_as k s s'.
Proof. intros N (x & r & A & T & X & L). now apply (scanned_as_intro k s s' x r). Qed.

Lemma prefix_adv n ends s0 pre s ty s' : (ends = [34] /\ pre = [117; 56]) \/ (ends = [34; 39] /\ In pre [[117]; [85]; [76]] /\ (pre = [117] -> chr s <> 56)) ->
  adv false s0 pre s -> after_prefix n ends s = Some (Ok (ty, s')) -> scanned_as ty s0 s' /\ In ty [T_STRING; T_CHARACTER_CONSTANT; T_IDENT].
Proof.
  intros P A0 H. assert (W := proj1 A0). unfold after_prefix in H.
  assert (In34 : incl ends [34; 39]).
  { destruct P as [[-> _]|[-> _]]; intros z Hz; cbn in *; tauto. }
  destruct (is_one_of (chr s) ends) eqn:I.
  - apply one_of in I. assert (I2 := In34 _ I). ebind H. nadv E W.
    assert (Q : x = chr s). { rewrite C. apply class_self; [lia|reflexivity|]. rewrite <- C. destruct I2 as [<-|[<-|[]]]; lia. }
    ebind H. injection H as <- <-.
    split; [|destruct (chr s =? 34); cbn; tauto].
    assert (Iq : In (chr s) [34; 39; 62]) by (cbn in I2 |- *; tauto).
    destruct (string_adv _ _ _ _ Iq W0 E0) as (b & A2 & Hb).
    destruct (tail_exists v (proj1 A2)) as (r & T & _).
    apply (scanned_as_intro _ _ _ (pre ++ [chr s] ++ b ++ [chr s]) r); [|exact T| | |destruct (chr s =? 34); discriminate].
    + rewrite Q in A. exact (adv_trans _ _ _ _ _ _ A0 (adv_trans _ _ [chr s] _ _ _ A A2)).
    + now destruct pre.
    + destruct P as [[-> ->]|(-> & Ip & N8)].
      * destruct I as [I|[]]. rewrite <- I in *. apply (lx_string [117; 56]); auto. cbn. tauto.
      * destruct I as [I|[I|[]]]; rewrite <- I in *.
        -- apply lx_string; auto. destruct Ip as [<-|[<-|[<-|[]]]]; cbn; tauto.
        -- apply lx_char; auto. destruct Ip as [<-|[<-|[<-|[]]]]; cbn; tauto.
  - ebind H. injection H as <- <-. split; [|cbn; tauto]. destruct (ident_adv _ _ _ W E) as (w & A2 & F & N).
    destruct (tail_exists v (proj1 A2)) as (r & T & _). rewrite (tail_ahead _ _ T) in N.
    apply (scanned_as_intro _ _ _ (pre ++ w) r); [|exact T| | |discriminate].
    + exact (adv_trans _ _ _ _ _ _ A0 A2).
    + destruct P as [[-> ->]|(-> & [<-|[<-|[<-|[]]]] & _)]; discriminate.
    + apply not_one_of in I.
      assert (K : forall q, In q ends -> pre ++ w = pre -> ahead r <> q).
      { intros q Iq Ew Er. assert (w = []). { rewrite <- (app_nil_r pre) in Ew at 2. now apply app_inv_head in Ew. } subst w.
        destruct A2 as (_ & L & _). cbn in L. assert (T' : tail_of s r) by (unfold tail_of in *; now rewrite L).
        destruct (tail_class _ _ W T') as [C _]. apply I. rewrite C, Er.
        assert (Iq' := In34 _ Iq). destruct Iq' as [<-|[<-|[]]]; exact Iq. }
      assert (S : forall c, In [c] [[117]; [85]; [76]] -> id_start c).
      { intros c [Q|[Q|[Q|[]]]]; injection Q as <-; left; unfold nondigit; lia. }
      destruct P as [[-> ->]|(-> & Ip & N8)].
      * cbn [app]. apply lx_ident; auto.
        -- apply S. cbn. tauto.
        -- constructor; auto. right; left. unfold digit. lia.
        -- intros [Q|[Q|[Q|[]]]]; discriminate.
        -- intros Q. apply K; [now left|exact Q].
      * destruct Ip as [<-|[<-|[<-|[]]]]; cbn [app]; apply lx_ident; auto; try (apply S; cbn; tauto).
        all: try (intros Q; destruct w as [|a w]; [split; (apply K; [cbn; tauto|reflexivity])|exfalso; cbn in Q; destruct Q as [Q|[Q|[Q|[]]]]; discriminate]).
        all: intros Q; try discriminate.
        (* u8 is read by the other branch *)
        exfalso. injection Q as ->. apply (N8 eq_refl). destruct (lv_cons s W) as (z & l & L & C & _). rewrite C.
        destruct A2 as (_ & L2 & _). rewrite L in L2. injection L2 as -> _. reflexivity.
Qed.
Lemma switch_type k w s ty s' : In (k, w) punctuators -> run_switch w s = Ok (ty, s') -> 70 <= ty < 116.
Proof.
  intros I H. unfold punctuators in I. cbn [In] in I.
  repeat (destruct I as [I|I]); [injection I as <- <-; cbn [run_switch one] in H; rbind H ..|destruct I].
  all: repeat match type of H with
       | (if ?b then _ else _) = _ => destruct b
       | bind (next_char ?a) _ = _ => rbind H
       end.
  all: injection H as <- <-; cbv; split; congruence.
Qed.
Lemma class_start x : 0 <= x < 256 -> is_one_of (class x) [EQ_EXPONENT; EQ_UTF8; EQ_ALPHA] = true -> id_start x /\ ~ In x [117; 85; 76].
Proof.
  intros X H.
  assert (C : negb (is_one_of (class x) [EQ_EXPONENT; EQ_UTF8; EQ_ALPHA]) || ((nondigitb x || (128 <=? x)) && negb (is_one_of x [117; 85; 76])) = true).
  { clear H. revert x X. apply (class_check (fun x c => negb (is_one_of c _) || _)). vm_compute. reflexivity. }
  rewrite H in C. cbn [negb orb] in C. apply andb_true_iff in C as [C1 C2]. split.
  - apply orb_true_iff in C1. rewrite nondigitb_spec, Z.leb_le in C1. destruct C1; [left; assumption|right; lia].
  - apply not_one_of. now apply negb_true_iff.
Qed.
Lemma class_digit x : 0 <= x < 256 -> is_one_of (class x) [56; EQ_DECIMAL] = true -> digit x.
Proof.
  intros X H. assert (C : negb (is_one_of (class x) [56; EQ_DECIMAL]) || digitb x = true).
  { clear H. revert x X. apply (class_check (fun x c => negb (is_one_of c _) || _)). vm_compute. reflexivity. }
  rewrite H in C. now apply digitb_spec.
Qed.
Lemma class_digit_in x : 0 <= x < 256 -> digit x -> In (class x) [EQ_DECIMAL; 56].
Proof.
  intros X H. apply one_of. apply digitb_spec in H. assert (C : negb (digitb x) || is_one_of (class x) [EQ_DECIMAL; 56] = true).
  { clear H. revert x X. apply (class_check (fun x c => negb (digitb x) || is_one_of c _)). vm_compute. reflexivity. }
  rewrite H in C. exact C.
Qed.
Lemma dot_symbol : In (T_DOT, [46]) symbols.
Proof. unfold symbols. repeat (try (left; reflexivity); right). Qed.
Lemma dot_longest : forallb (fun p => (length (snd p) <=? length [46])%nat || no_start (snd p) [46] [46]) all_puncts = true.
Proof. vm_compute. reflexivity. Qed.
Lemma scan_adv n hdr first s ty s' st : wf s -> chr s <> 10 -> chr s <> EQ_SPACE ->
  (chr s = 47 -> forall s1, next_char s = Ok s1 -> chr s1 <> 47 /\ chr s1 <> 42) ->
  scan n hdr first s = Some (Ok (ty, s', st)) ->
  ((ty = T_EOI /\ s' = s /\ lv s = [0]) \/ (ty <> T_EOI /\ scanned_as ty s s')) /\
  st = (ty =? PP_DIRECTIVE) /\ (ty = PP_DIRECTIVE -> first = true) /\ (ty = PP_HASH -> first = false) /\
  (ty = PP_HEADER_NAME_H -> hdr = true).
Proof.
  intros W N10 Nsp D H. unfold scan in H.
  assert (easy : forall k, scanned_as k s s' -> ~ In k [T_EOI; PP_DIRECTIVE; PP_HASH; PP_HEADER_NAME_H] ->
    ((k = T_EOI /\ s' = s /\ lv s = [0]) \/ (k <> T_EOI /\ scanned_as k s s')) /\
    false = (k =? PP_DIRECTIVE) /\ (k = PP_DIRECTIVE -> first = true) /\ (k = PP_HASH -> first = false) /\ (k = PP_HEADER_NAME_H -> hdr = true)).
  { intros k S N. cbn [In] in N. split; [right; split; auto; intros ->; tauto|].
    split; [symmetry; apply Z.eqb_neq; intros ->; tauto|]. repeat split; intros ->; exfalso; tauto. }
  destruct (Z.eqb_spec (chr s) 117) as [K|K].
  { ebind H. destruct v as [k t]. injection H as <- <- <-. ebind E. nadv E0 W. selfx C K x.
    assert (R : scanned_as k s t /\ In k [T_STRING; T_CHARACTER_CONSTANT; T_IDENT]).
    { destruct (Z.eqb_spec (chr s0) 56) as [Q|Q].
      - ebind E. nadv E1 W0. selfx C0 Q x. eapply prefix_adv; [left; split; reflexivity|exact (adv_trans _ _ [117] _ _ _ A A0)|exact E].
      - eapply prefix_adv; [right|exact A|exact E]. cbn. tauto. }
    destruct R as [R I]. apply easy; auto. destruct I as [<-|[<-|[<-|[]]]]; cbn; intros X; repeat destruct X as [X|X]; try discriminate; auto. }
  destruct (is_one_of (chr s) [76; 85]) eqn:I1.
  { apply one_of in I1. ebind H. destruct v as [k t]. injection H as <- <- <-. ebind E. nadv E0 W.
    assert (Ix : In x [76; 85]) by (apply class_in; [lia|repeat constructor; lia|now rewrite <- C]).
    assert (R : scanned_as k s t /\ In k [T_STRING; T_CHARACTER_CONSTANT; T_IDENT]).
    { eapply prefix_adv; [right|exact A|exact E]. split; auto. split; [destruct Ix as [<-|[<-|[]]]; cbn; tauto|].
      intros Q. exfalso. destruct Ix as [<-|[<-|[]]]; discriminate. }
    destruct R as [R I]. apply easy; auto. destruct I as [<-|[<-|[<-|[]]]]; cbn; intros X; repeat destruct X as [X|X]; try discriminate; auto. }
  destruct (Z.eqb_spec (chr s) 34) as [K1|K1].
  { ebind H. destruct v as [k t]. injection H as <- <- <-. ebind E. nadv E0 W. selfx C K1 x. ebind E. injection E as <- <-.
    destruct (string_adv _ _ _ _ (ltac:(cbn; tauto) : In 34 [34; 39; 62]) W0 E1) as (b & A2 & Hb). destruct (tail_exists v (proj1 A2)) as (r & T & _).
    apply easy; [|cbn; intros X; repeat destruct X as [X|X]; try discriminate; auto].
    apply (scanned_as_intro _ _ _ (34 :: b ++ [34]) r); [exact (adv_trans _ _ [34] _ _ _ A A2)|exact T|discriminate| |discriminate].
    apply (lx_string []); cbn; auto. }
  destruct (Z.eqb_spec (chr s) 39) as [K2|K2].
  { ebind H. destruct v as [k t]. injection H as <- <- <-. ebind E. nadv E0 W. selfx C K2 x. ebind E. injection E as <- <-.
    destruct (string_adv _ _ _ _ (ltac:(cbn; tauto) : In 39 [34; 39; 62]) W0 E1) as (b & A2 & Hb). destruct (tail_exists v (proj1 A2)) as (r & T & _).
    apply easy; [|cbn; intros X; repeat destruct X as [X|X]; try discriminate; auto].
    apply (scanned_as_intro _ _ _ (39 :: b ++ [39]) r); [exact (adv_trans _ _ [39] _ _ _ A A2)|exact T|discriminate| |discriminate].
    apply (lx_char []); cbn; auto. }
  destruct (is_one_of (chr s) [EQ_EXPONENT; EQ_UTF8; EQ_ALPHA]) eqn:I2.
  { ebind H. destruct v as [k t]. injection H as <- <- <-. ebind E. nadv E0 W. ebind E. injection E as <- <-.
    destruct (ident_adv _ _ _ W0 E1) as (w & A2 & F & N). destruct (tail_exists v (proj1 A2)) as (r & T & _).
    rewrite (tail_ahead _ _ T) in N.
    apply easy; [|cbn; intros X; repeat destruct X as [X|X]; try discriminate; auto].
    apply (scanned_as_intro _ _ _ (x :: w) r); [exact (adv_trans _ _ [x] _ _ _ A A2)|exact T|discriminate| |discriminate].
    rewrite C in K, I1, I2. destruct (class_start x ltac:(lia) I2) as [Sx Ux].
    apply lx_ident; auto.
    - intros Q. exfalso. apply Ux. destruct Q as [Q|[Q|[Q|[]]]]; injection Q as <- _; cbn; tauto.
    - intros Q. exfalso. apply Ux. injection Q as -> _. cbn; tauto. }
  destruct (is_one_of (chr s) [56; EQ_DECIMAL]) eqn:I3.
  { ebind H. destruct v as [k t]. injection H as <- <- <-. ebind E. nadv E0 W. ebind E. injection E as <- <-.
    destruct (number_adv _ _ _ W0 E1) as (w & A2 & F & N & S & S39). destruct (tail_exists v (proj1 A2)) as (r & T & _).
    rewrite (tail_ahead _ _ T) in N, S.
    apply easy; [|cbn; intros X; repeat destruct X as [X|X]; try discriminate; auto].
    exists (x :: w), r. split; [exact (adv_trans _ _ [x] _ _ _ (adv_mono _ _ _ _ A) A2)|]. split; auto. split; [discriminate|].
    rewrite C in I3. assert (Dx : digit x) by (apply class_digit; [lia|exact I3]). split; [apply (lx_num [x]); auto; exists x; auto|].
    intros _ Sf [->|J]; [unfold digit in Dx; lia|now apply S39]. }
  destruct (Z.eqb_spec (chr s) 46) as [K3|K3].
  { ebind H. destruct v as [k t]. injection H as <- <- <-. ebind E. nadv E0 W. selfx C K3 x.
    destruct (is_one_of (chr s0) [EQ_DECIMAL; 56]) eqn:I4.
    - ebind E. nadv E1 W0. ebind E. injection E as <- <-.
      destruct (number_adv _ _ _ W1 E2) as (w & A2 & F & N & S & S39). destruct (tail_exists v (proj1 A2)) as (r & T & _).
      rewrite (tail_ahead _ _ T) in N, S.
      apply easy; [|cbn; intros X; repeat destruct X as [X|X]; try discriminate; auto].
      exists (46 :: x :: w), r. split; [exact (adv_trans _ _ [46] _ _ _ (adv_mono _ _ _ _ A) (adv_trans _ _ [x] _ _ _ (adv_mono _ _ _ _ A0) A2))|].
      split; auto. split; [discriminate|].
      rewrite C0 in I4. assert (Dx : digit x).
      { apply class_digit; [lia|]. cbn in I4 |- *. rewrite orb_false_r in *. now rewrite orb_comm. }
      split; [apply (lx_num [46; x]); auto; exists x; auto|].
      intros _ Sf [J|[->|J]]; [discriminate|unfold digit in Dx; lia|now apply S39].
    - destruct (Z.eqb_spec (chr s0) 46) as [Q|Q].
      + ebind E. nadv E1 W0. selfx C0 Q x. destruct (Z.eqb_spec (chr s1) 46) as [Q2|Q2]; [|discriminate].
        ebind E. nadv E2 W1. selfx C1 Q2 x. injection E as <- <-.
        apply easy; [|cbn; intros X; repeat destruct X as [X|X]; try discriminate; auto].
        apply scanned_as_plain; [discriminate|]. apply (punct_done _ [46; 46; 46] []); [|discriminate|vm_compute; reflexivity|reflexivity|constructor].
        exact (adv_trans _ _ [46] _ _ _ A (adv_trans _ _ [46] _ _ _ A0 A1)).
      + injection E as <- <-.
        apply easy; [|cbn; intros X; repeat destruct X as [X|X]; try discriminate; auto].
        apply scanned_as_plain; [discriminate|]. destruct (tail_exists s0 W0) as (r & T & _). exists [46], r. split; auto. split; auto. split; [discriminate|].
        destruct (tail_class _ _ W0 T) as [Cr Br].
        assert (N46 : ~ In (ahead r) [46]). { apply (not_ahead s0); auto. }
        apply lx_punct.
        * apply punct_in. apply in_or_app. left. apply (dot_symbol).
        * intros k' x' P Sx. apply punct_in in P. assert (G := dot_longest). rewrite forallb_forall in G. specialize (G _ P). cbn [snd] in G.
          apply orb_true_iff in G as [G|G]; [now apply Nat.leb_le|]. exfalso. exact (no_start_not _ _ _ _ G N46 Sx).
        * intros [q Qq]. discriminate.
        * intros [q Qq]. discriminate.
        * intros [_ Dg]. rewrite Cr in I4. apply not_one_of in I4. apply I4. apply class_digit_in; auto. }
  destruct (Z.eqb_spec (chr s) 35) as [K4|K4].
  { ebind H. nadv E W. selfx C K4 x. destruct (Z.eqb_spec (chr s0) 35) as [Q|Q].
    - ebind H. nadv E0 W0. selfx C0 Q x. injection H as <- <- <-.
      apply easy; [|cbn; intros X; repeat destruct X as [X|X]; try discriminate; auto].
      apply scanned_as_plain; [discriminate|]. apply (punct_done _ [35; 35] []); [|discriminate|vm_compute; reflexivity|reflexivity|constructor].
      exact (adv_trans _ _ [35] _ _ _ A A0).
    - injection H as <- <- <-.
      assert (R : scanned_as (if first then PP_DIRECTIVE else PP_HASH) s s0).
      { destruct first; (apply scanned_as_plain; [discriminate|]; apply (punct_done _ [35] [35]); [exact A|discriminate|vm_compute; reflexivity|reflexivity|repeat constructor; auto]). }
      destruct first; repeat split; auto; try discriminate; right; split; auto; discriminate. }
  destruct ((chr s =? 60) && hdr) eqn:K5.
  { apply andb_true_iff in K5 as [K5 ->]. apply Z.eqb_eq in K5. ebind H. destruct v as [k t]. injection H as <- <- <-. ebind E. nadv E0 W. selfx C K5 x.
    ebind E. injection E as <- <-.
    destruct (string_adv _ _ _ _ (ltac:(cbn; tauto) : In 62 [34; 39; 62]) W0 E1) as (b & A2 & Hb). destruct (tail_exists v (proj1 A2)) as (r & T & _).
    repeat split; auto; try discriminate. right. split; [discriminate|].
    apply (scanned_as_intro _ _ _ (60 :: b ++ [62]) r); [exact (adv_trans _ _ [60] _ _ _ A A2)|exact T|discriminate| |discriminate]. now constructor. }
  destruct (Z.eqb_spec (chr s) EQ_NULL) as [K6|K6].
  { injection H as <- <- <-. repeat split; auto; try discriminate. left. repeat split; auto.
    destruct (lv_cons s W) as (x & l & L & C & B & Z0). rewrite C in K6. apply class_null in K6; [|lia]. rewrite L, (Z0 K6). now subst. }
  destruct (find (fun p => fst p =? chr s) punctuators) as [[k w]|] eqn:F; [|discriminate].
  apply find_some in F. destruct F as [F1 F2]. cbn [fst] in F2. apply Z.eqb_eq in F2. subst k.
  ebind H. destruct s0 as [k t]. injection H as <- <- <-.
  assert (R := switch_adv _ _ _ _ _ F1 eq_refl W D E). assert (T := switch_type _ _ _ _ _ F1 E).
  apply easy; [apply scanned_as_plain; [unfold T_NUM; lia|exact R]|]. cbn. intros X. unfold T_EOI, PP_DIRECTIVE, PP_HASH, PP_HEADER_NAME_H in X. lia.
Qed.
