(** C23: at a punctuator the tokenizer takes the longest C punctuator that is a prefix of
    the remaining input. *)
From Coq Require Import String.
From Verif Require Import Base CharTypes Tokens Fuel Expander Directives Tokenizer TokenizerSpec TokenizerProofs ScanProofs TilingProofs TokSafeProofs C22Props.
Local Open Scope Z_scope.
Local Open Scope list_scope.

(** Wherever the text at a token, [x ++ r], begins with a punctuator, the token is a
    punctuator and the longest one there, unless it is a number (a dot and a digit) or
    a header name. *)
Definition munched (t : dtok) (x r : list Z) : Prop :=
  (exists k p, punctuator k p /\ starts p (x ++ r)) ->
  (punctuator (ty t) x /\ forall k p, punctuator k p -> starts p (x ++ r) -> (length p <= length x)%nat) \/
  (ty t = T_NUM /\ exists d q, x = 46 :: d :: q /\ digit d) \/ (ty t = PP_HEADER_NAME_H /\ exists b, x = 60 :: b ++ [62]).

Lemma puncts_first : forallb (fun p => match snd p with c :: _ => is_one_of c [60; 62; 46; 61; 33; 38; 94; 124; 43; 45; 42; 47; 37; 126; 63; 58; 59; 40; 41; 91; 93; 44; 123; 125; 35] | [] => false end) all_puncts = true.
Proof. vm_compute. reflexivity. Qed.
Lemma starts_punct k p c l : punctuator k p -> starts p (c :: l) ->
  In c [60; 62; 46; 61; 33; 38; 94; 124; 43; 45; 42; 47; 37; 126; 63; 58; 59; 40; 41; 91; 93; 44; 123; 125; 35].
Proof.
  intros P [b B]. apply punct_in in P. assert (G := puncts_first). rewrite forallb_forall in G. specialize (G _ P). cbn [snd] in G.
  destruct p as [|a p]; [discriminate|]. injection B as -> _. now apply one_of.
Qed.
Lemma lexeme_munched t x r : lexeme (ty t) x r -> munched t x r.
Proof.
  intros L (k & p & P & S). remember (ty t) as tt eqn:E. destruct L.
  - exfalso. cbn [app] in S. assert (I := starts_punct _ _ _ _ P S). unfold id_start, nondigit in H. cbn [In] in I. lia.
  - destruct H as (d & D & [->| ->]).
    + exfalso. cbn [app] in S. assert (I := starts_punct _ _ _ _ P S). unfold digit in D. cbn [In] in I. lia.
    + right; left. split; auto. exists d, w. auto.
  - exfalso. destruct H as [<-|[<-|[<-|[<-|[<-|[]]]]]]; cbn [app chars] in S; assert (I := starts_punct _ _ _ _ P S); cbn in I; lia.
  - exfalso. destruct H as [<-|[<-|[<-|[<-|[]]]]]; cbn [app chars] in S; assert (I := starts_punct _ _ _ _ P S); cbn in I; lia.
  - right; right. split; auto. now exists b.
  - left. split; auto.
Qed.
Theorem C23_longest_punctuator_partial src l : source src -> tokenize_input src = Some (Ok l) ->
  tiles (fun _ => True) (fun _ _ _ t x r => munched t x r) true l (logical src).
Proof.
  intros S H. apply (tokenize_tiles _ _ _ S) in H. revert H. apply tiles_weaken; auto. intros s g nl t x r (Lx & _). now apply lexeme_munched.
Qed.
Print Assumptions C23_longest_punctuator_partial.

(** The table lists the punctuators of C11 6.4.6 except the digraphs. *)
Definition c11_punctuators : list (list Z) :=
  [chars "["; chars "]"; chars "("; chars ")"; chars "{"; chars "}"; chars "."; chars "->"; chars "++"; chars "--"; chars "&"; chars "*"; chars "+"; chars "-";
   chars "~"; chars "!"; chars "/"; chars "%"; chars "<<"; chars ">>"; chars "<"; chars ">"; chars "<="; chars ">="; chars "=="; chars "!="; chars "^"; chars "|";
   chars "&&"; chars "||"; chars "?"; chars ":"; chars ";"; chars "..."; chars "="; chars "*="; chars "/="; chars "%="; chars "+="; chars "-="; chars "<<=";
   chars ">>="; chars "&="; chars "^="; chars "|="; chars ","; chars "#"; chars "##"].
Definition digraphs : list (list Z) := [chars "<:"; chars ":>"; chars "<%"; chars "%>"; chars "%:"; chars "%:%:"].
Theorem C23_table x : (exists k, punctuator k x) <-> In x c11_punctuators.
Proof.
  assert (A : forallb (fun p => existsb (fun y => if list_eq_dec Z.eq_dec y (snd p) then true else false) c11_punctuators) all_puncts = true) by (vm_compute; reflexivity).
  assert (B : forallb (fun y => existsb (fun p => if list_eq_dec Z.eq_dec y (snd p) then true else false) all_puncts) c11_punctuators = true) by (vm_compute; reflexivity).
  rewrite forallb_forall in A, B. split.
  - intros [k P]. apply punct_in in P. specialize (A _ P). apply existsb_exists in A. destruct A as (y & I & E).
    destruct (list_eq_dec Z.eq_dec y (snd (k, x))) as [->|]; [exact I|discriminate].
  - intros I. specialize (B _ I). apply existsb_exists in B. destruct B as ((k & y) & J & E).
    destruct (list_eq_dec Z.eq_dec x (snd (k, y))) as [Q|]; [|discriminate]. cbn in Q. subst y. exists k. now apply punct_in.
Qed.
Print Assumptions C23_table.
(** A digraph is read as two punctuators. *)
Theorem C23_digraph_refuted : exists src x l, source src /\ In x digraphs /\ starts x (logical src) /\ tokenize_input src = Some (Ok l) /\ map text l = [[60]; [58]].
Proof.
  exists (chars "<:" ++ [10]), (chars "<:"). eexists. split; [cbn; repeat constructor; lia|]. split; [now left|]. split; [now exists [10]|].
  split; vm_compute; reflexivity.
Qed.
Print Assumptions C23_digraph_refuted.
(** Two dots are two punctuators in C; here they are rejected. *)
Theorem C23_two_dots_refuted : exists src, source src /\ ends_in_newline src /\ starts (chars "..") (logical src) /\ tokenize_input src = Some Fail.
Proof.
  exists (chars "..x" ++ [10]). split; [cbn; repeat constructor; lia|]. split; [right; now exists (chars "..x")|]. split; [now exists (chars "x" ++ [10])|].
  vm_compute. reflexivity.
Qed.
Print Assumptions C23_two_dots_refuted.
Example C23_case : exists l, tokenize_input (chars "a>>=b->c---d...%=##" ++ [10]) = Some (Ok l) /\
  map ty l = [T_IDENT; T_RSHIFTA; T_IDENT; T_ARROW; T_IDENT; T_DEC; T_SUB; T_IDENT; T_ELLIPSIS; T_MODA; PP_HHASH].
Proof. eexists. split; vm_compute; reflexivity. Qed.
