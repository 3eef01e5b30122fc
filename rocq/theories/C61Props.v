(** C61: what the parser receives for the tokens of the macro expander. *)
From Coq Require Import String.
From Verif Require Import Base CharTypes Escape EscapeSpec EscapeProofs Tokens StringSet C17Props Fuel Expander ExpanderSpec Directives Lookahead.

(** Specification (C11 5.1.1.2 phases 5 to 7): adjacent string literals are joined
    and get a terminating zero byte, keywords are recognised by their spelling. The
    value of one literal is that of C06 (ordinary literals, no long hexadecimal
    escapes); character constants are taken with one plain character. *)
Definition denotes (t : ptok) (v : list Z) : Prop :=
  fst t = T_STRING /\ exists b, snd t = 34 :: b ++ [34] /\ body_value short_hex b v 34 /\ Forall (fun c => c <> 255) b.
Definition starts_with_string (l : list ptok) : Prop := match l with t :: _ => fst t = T_STRING | [] => False end.
Inductive joined : list ptok -> list ptok -> Prop :=
| j_nil : joined [] []
| j_strings ss vs rest out : ss <> [] -> Forall2 denotes ss vs -> ~ starts_with_string rest -> joined rest out ->
    joined (ss ++ rest) ((T_STRING, concat vs ++ [0]) :: out)
| j_keyword k s rest out : In (k, s) keywords -> joined rest out -> joined ((T_IDENT, s) :: rest) ((k, s) :: out)
| j_ident s rest out : ~ In s (map snd keywords) -> joined rest out -> joined ((T_IDENT, s) :: rest) ((T_IDENT, s) :: out)
| j_char c rest out : 32 <= c < 127 -> c <> 39 -> c <> 92 -> joined rest out ->
    joined ((T_CHARACTER_CONSTANT, [39; c; 39]) :: rest) ((T_CHARACTER_CONSTANT, [c]) :: out)
| j_other t rest out : ~ In (fst t) [T_NONE; T_EOI; T_STRING; T_IDENT; T_CHARACTER_CONSTANT] -> joined rest out -> joined (t :: rest) (t :: out).
(** No string literal is directly followed by an identifier, keyword or character
    constant (no C translation unit has such a pair outside of pragmas). *)
Fixpoint strings_end_well (l : list ptok) : Prop :=
  match l with
  | t :: (u :: _) as r => (fst t = T_STRING -> fst u <> T_IDENT /\ fst u <> T_CHARACTER_CONSTANT) /\ strings_end_well r
  | _ => True
  end.

Lemma take_strings_app ss rest : Forall (fun t => e_type t = T_STRING) ss -> ~ starts_with_string (map obs rest) ->
  take_strings (ss ++ rest) = (ss, match rest with [] => eoi_token | t :: _ => t end, tl rest).
Proof.
  intros F N. induction F as [|t ss E _ IH]; cbn [app take_strings].
  - destruct rest as [|t r]; [reflexivity|]. cbn [take_strings tl]. cbn in N. rewrite (proj2 (Z.eqb_neq _ _) N). reflexivity.
  - rewrite E, IH. reflexivity.
Qed.
Lemma prefix_quote b : take_string_prefix (34 :: b) = (STRING_DEFAULT, 34 :: b). Proof. reflexivity. Qed.
Lemma join_ok first ss vs : Forall2 denotes (map obs ss) vs -> join_strings first ss = Ok (with_type first T_STRING (concat vs ++ [0])).
Proof.
  intros F. unfold join_strings.
  assert (G : map (fun t => take_string_prefix (e_str t)) ss = map (fun t => (STRING_DEFAULT, e_str t)) ss /\
     combine STRING_DEFAULT (map (fun t => (STRING_DEFAULT, e_str t)) ss) = Ok STRING_DEFAULT /\
     escape_all_strings STRING_DEFAULT (map (fun t => (STRING_DEFAULT, e_str t)) ss) = Ok (concat vs)).
  { revert vs F. induction ss as [|t ss IH]; intros vs F; inversion F as [|x v y vs' (_ & b & E & B & N) F']; subst; cbn [map].
    - auto.
    - destruct (IH _ F') as (A1 & A2 & A3). cbn [snd obs] in E. rewrite E, prefix_quote, A1. split; [reflexivity|]. split; [exact A2|].
      cbn [escape_all_strings]. pose proof (literal_spec short_hex b v [] (fun e H => H) B N) as L.
      replace (List.length (34 :: b ++ [34])) with (List.length b + 2)%nat by (cbn [length]; rewrite app_length; cbn; lia).
      rewrite L. cbn [bind]. rewrite A3. reflexivity. }
  destruct G as (-> & -> & G). cbn [bind]. rewrite G. reflexivity.
Qed.
Lemma get_ident_key k s : In (k, s) keywords -> get_ident s = k.
Proof.
  intros H. unfold get_ident.
  assert (G : forallb (fun p => match find (fun k => sv_string_cmp (snd p) (snd k)) keywords with Some (ty, _) => ty =? fst p | None => false end) keywords = true) by (vm_compute; reflexivity).
  rewrite forallb_forall in G. specialize (G _ H). cbn [fst snd] in G.
  destruct (find (fun k0 => sv_string_cmp s (snd k0)) keywords) as [[ty q]|]; [apply Z.eqb_eq in G; auto|discriminate].
Qed.
Lemma get_ident_not s : ~ In s (map snd keywords) -> get_ident s = T_IDENT.
Proof.
  intros H. unfold get_ident. destruct (find (fun k => sv_string_cmp s (snd k)) keywords) as [[k q]|] eqn:E; auto.
  apply find_some in E. destruct E as [E1 E2]. apply sv_string_cmp_spec in E2. cbn in E2. subst. exfalso. apply H. apply in_map_iff. exists (k, q). auto.
Qed.
Lemma char_token c : 32 <= c < 127 -> c <> 39 -> c <> 92 ->
  take_string_prefix [39; c; 39] = (STRING_DEFAULT, [39; c; 39]) /\ escape_string_to_buffer [39; c; 39] 3 STRING_DEFAULT = Ok [c].
Proof.
  intros H A B. split; [reflexivity|].
  assert (G : forallb (fun c => (c =? 39) || (c =? 92) ||
     match escape_string_to_buffer [39; c; 39] 3 STRING_DEFAULT with Ok [v] => v =? c | _ => false end) (map (fun i => 32 + Z.of_nat i) (seq 0 95)) = true) by (vm_compute; reflexivity).
  rewrite forallb_forall in G. specialize (G c). rewrite in_map_iff in G.
  assert (I : exists x, 32 + Z.of_nat x = c /\ In x (seq 0 95)) by (exists (Z.to_nat (c - 32)); split; [lia|apply in_seq; lia]).
  specialize (G I). rewrite (proj2 (Z.eqb_neq _ _) A), (proj2 (Z.eqb_neq _ _) B) in G. cbn [orb] in G.
  destruct (escape_string_to_buffer [39; c; 39] 3 STRING_DEFAULT) as [[|v [|]]| |]; try discriminate. apply Z.eqb_eq in G. congruence.
Qed.
Lemma keyword_types k s : In (k, s) keywords -> k <> T_EOI.
Proof.
  intros H. assert (G : forallb (fun p => negb (fst p =? T_EOI)) keywords = true) by (vm_compute; reflexivity).
  rewrite forallb_forall in G. specialize (G _ H). cbn in G. lia.
Qed.
Lemma strings_end_app ss rest : strings_end_well (ss ++ rest) -> ss <> [] -> Forall (fun t => fst t = T_STRING) ss ->
  strings_end_well rest /\ match rest with u :: _ => fst u <> T_IDENT /\ fst u <> T_CHARACTER_CONSTANT | [] => True end.
Proof.
  induction ss as [|a [|b ss] IH]; intros H N F; [contradiction| |].
  - inversion F; subst. cbn [app] in H. destruct rest as [|u r]; [auto|]. destruct H as [Ha Hb]. auto.
  - inversion F; subst. apply IH; auto; [apply H|discriminate].
Qed.

(** When prev holds a token the next call returns it unchanged. *)
Lemma tokens_joined l o : joined l o -> forall src, map obs src = l -> strings_end_well l ->
  (exists N, forall n, (N <= n)%nat -> exists toks, parser_tokens n {| prev := no_token; input := src |} = Some (Ok toks) /\ map obs toks = o) /\
  (match src with t :: _ => e_type t <> T_IDENT /\ e_type t <> T_CHARACTER_CONSTANT /\ e_type t <> T_STRING | [] => True end ->
   exists N, forall n, (N <= n)%nat -> exists toks,
     parser_tokens n {| prev := match src with [] => eoi_token | t :: _ => t end; input := tl src |} = Some (Ok toks) /\ map obs toks = o).
Proof.
  assert (ONE : forall t src o t', plain_token t = Ok t' -> e_type t <> T_STRING -> e_type t' <> T_EOI ->
     (exists N, forall n, (N <= n)%nat -> exists toks, parser_tokens n {| prev := no_token; input := src |} = Some (Ok toks) /\ map obs toks = o) ->
     exists N, forall n, (N <= n)%nat -> exists toks, parser_tokens n {| prev := no_token; input := t :: src |} = Some (Ok toks) /\ map obs toks = obs t' :: o).
  { intros t src o' t' P NS NE (N & H). exists (S N). intros n Hn. destruct n; [lia|]. destruct (H n) as (toks & E & M); [lia|].
    exists (t' :: toks). split; [|cbn; rewrite M; reflexivity]. cbn [parser_tokens]. unfold string_concat_next. cbn [prev input no_token e_type].
    change (0 =? 0) with true. cbn [negb take_strings]. rewrite (proj2 (Z.eqb_neq _ _) NS), P. cbn [bind exbind].
    rewrite (proj2 (Z.eqb_neq _ _) NE). change {| e_type := 0; e_str := []; e_ws := false; e_wsa := false; e_line := 0; e_hs := [] |} with no_token.
    rewrite E. reflexivity. }
  induction 1 as [|ss vs rest out NE D NS J IH|k s rest out K J IH|s rest out K J IH|c rest out C1 C2 C3 J IH|t rest out K J IH]; intros src M W.
  - destruct src; [|discriminate]. split; [|intros _]; exists 1%nat; intros n Hn; (destruct n; [lia|]); exists []; split; reflexivity.
  - apply map_eq_app in M. destruct M as (s1 & s2 & -> & M1 & M2). subst ss rest.
    assert (FS : Forall (fun t => fst t = T_STRING) (map obs s1)) by (clear -D; induction D as [|? ? ? ? [A _] _ IH]; constructor; auto).
    destruct (strings_end_app _ _ W NE FS) as [W2 W3]. destruct (IH s2 eq_refl W2) as [_ IH2].
    destruct s1 as [|f s1]; [contradiction|]. split.
    + destruct IH2 as (N & H).
      { destruct s2 as [|u r]; auto. cbn in W3, NS. tauto. }
      exists (S N). intros n Hn. destruct n; [lia|]. destruct (H n) as (toks & E & Mo); [lia|].
      exists (with_type f T_STRING (concat vs ++ [0]) :: toks). split; [|cbn; rewrite Mo; reflexivity].
      cbn [parser_tokens]. unfold string_concat_next. cbn [prev input no_token e_type]. change (0 =? 0) with true. cbn [negb].
      rewrite take_strings_app; [|rewrite Forall_map in FS; exact FS|exact NS]. cbn iota beta. rewrite (join_ok f (f :: s1) vs D). cbn [bind exbind with_type e_type].
      change (T_STRING =? T_EOI) with false. cbn iota. rewrite E. reflexivity.
    + cbn [app]. intros (_ & _ & X). exfalso. apply X. inversion FS; auto.
  - destruct src as [|t src]; [discriminate|]. cbn in M. injection M as E1 E2 E3.
    assert (W' : strings_end_well rest) by (destruct rest; [exact I|apply W]).
    split; [|intros (X & _); congruence].
    pose proof (ONE t src out (with_type t k s)) as O. cbn [obs with_type e_type e_str] in O.
    apply O; auto; [|rewrite E1; discriminate|eapply keyword_types; eauto|apply IH; auto].
    unfold plain_token. rewrite E1, E2. change (T_IDENT =? T_IDENT) with true. cbn iota. rewrite (get_ident_key k s K). reflexivity.
  - destruct src as [|t src]; [discriminate|]. cbn in M. injection M as E1 E2 E3.
    assert (W' : strings_end_well rest) by (destruct rest; [exact I|apply W]).
    split; [|intros (X & _); congruence].
    pose proof (ONE t src out (with_type t T_IDENT s)) as O. cbn [obs with_type e_type e_str] in O.
    apply O; auto; [|rewrite E1; discriminate|discriminate|apply IH; auto].
    unfold plain_token. rewrite E1, E2. change (T_IDENT =? T_IDENT) with true. cbn iota. rewrite (get_ident_not s K). reflexivity.
  - destruct src as [|t src]; [discriminate|]. cbn in M. injection M as E1 E2 E3.
    assert (W' : strings_end_well rest) by (destruct rest; [exact I|apply W]).
    split; [|intros (_ & X & _); congruence].
    pose proof (ONE t src out (with_type t T_CHARACTER_CONSTANT [c])) as O. cbn [obs with_type e_type e_str] in O.
    apply O; auto; [|rewrite E1; discriminate|discriminate|apply IH; auto].
    unfold plain_token. rewrite E1, E2. change (T_CHARACTER_CONSTANT =? T_IDENT) with false. change (T_CHARACTER_CONSTANT =? T_CHARACTER_CONSTANT) with true. cbn iota.
    destruct (char_token c C1 C2 C3) as [-> T]. cbn [length]. rewrite T. reflexivity.
  - destruct src as [|x src]; [discriminate|]. cbn in M. injection M as E1 E2. subst t. cbn [fst obs] in K.
    assert (W' : strings_end_well rest) by (destruct rest; [exact I|apply W]).
    assert (K0 : e_type x <> T_NONE /\ e_type x <> T_EOI /\ e_type x <> T_STRING /\ e_type x <> T_IDENT /\ e_type x <> T_CHARACTER_CONSTANT).
    { repeat split; intros X; apply K; rewrite X; cbn; auto 10. }
    destruct K0 as (K0 & K1 & K2 & K3 & K4). destruct (IH src E2 W') as [IH1 _]. split.
    + apply ONE; auto. unfold plain_token. rewrite (proj2 (Z.eqb_neq _ _) K3), (proj2 (Z.eqb_neq _ _) K4). reflexivity.
    + intros _. destruct IH1 as (N & H). exists (S N). intros n Hn. destruct n; [lia|]. destruct (H n) as (toks & E & M); [lia|].
      exists (x :: toks). split; [|cbn; rewrite M; reflexivity]. cbn [parser_tokens tl]. unfold string_concat_next. cbn [prev input].
      change 0 with T_NONE. rewrite (proj2 (Z.eqb_neq _ _) K0). cbn [negb exbind]. rewrite (proj2 (Z.eqb_neq _ _) K1), E. reflexivity.
Qed.

Theorem C61_strings_joined_partial :
  forall l out, joined (map obs l) out -> strings_end_well (map obs l) ->
  exists N, forall n, (N <= n)%nat -> exists toks,
    parser_tokens n {| prev := no_token; input := l |} = Some (Ok toks) /\ map obs toks = out.
Proof. intros l out J W. apply (tokens_joined _ _ J l eq_refl W). Qed.
Print Assumptions C61_strings_joined_partial.

(** The token after a string literal is handed over as it is: a keyword there is
    not recognised. *)
Definition C61_tok (k : Z) (s : list Z) : etok := {| e_type := k; e_str := s; e_ws := false; e_wsa := false; e_line := 0; e_hs := [] |}.
Theorem C61_keyword_after_string_refuted :
  exists l out, joined (map obs l) out /\ forall n, exists toks,
    parser_tokens (4 + n) {| prev := no_token; input := l |} = Some (Ok toks) /\ map obs toks <> out.
Proof.
  exists [C61_tok T_STRING [34; 97; 34]; C61_tok T_IDENT (chars "return")], [(T_STRING, [97; 0]); (T_KRETURN, chars "return")]. split.
  - apply (j_strings [(T_STRING, [34; 97; 34])] [[97]]); [discriminate| |discriminate|apply (j_keyword T_KRETURN (chars "return") []); [|apply j_nil]].
    + apply Forall2_cons; [|apply Forall2_nil]. split; [reflexivity|]. exists [97]. split; [reflexivity|]. split; [|repeat constructor; discriminate].
      apply body_plain; try lia. apply body_nil.
    + change (In (T_KRETURN, chars "return") keywords). vm_compute. tauto.
  - intros n. eexists. split; [reflexivity|]. discriminate.
Qed.
Print Assumptions C61_keyword_after_string_refuted.

(** s = "a" "b" ; 'x' *)
Example C61_nontrivial :
  let l := [C61_tok T_IDENT [115]; C61_tok T_A [61]; C61_tok T_STRING [34; 97; 34]; C61_tok T_STRING [34; 98; 34]; C61_tok T_SEMI_COLON [59]; C61_tok T_CHARACTER_CONSTANT [39; 120; 39]] in
  joined (map obs l) [(T_IDENT, [115]); (T_A, [61]); (T_STRING, [97; 98; 0]); (T_SEMI_COLON, [59]); (T_CHARACTER_CONSTANT, [120])] /\ strings_end_well (map obs l).
Proof.
  split; [|repeat split; intros; discriminate].
  assert (D : forall c, 32 <= c < 127 -> c <> 34 -> c <> 92 -> denotes (T_STRING, [34; c; 34]) [c]).
  { intros c A B C. split; [reflexivity|]. exists [c]. split; [reflexivity|]. split; [apply body_plain; try lia; apply body_nil|repeat constructor; lia]. }
  apply j_ident; [vm_compute; intuition discriminate|]. apply j_other; [vm_compute; intuition discriminate|].
  apply (j_strings [(T_STRING, [34; 97; 34]); (T_STRING, [34; 98; 34])] [[97]; [98]]); [discriminate|repeat apply Forall2_cons; try apply Forall2_nil; apply D; lia|discriminate|].
  apply j_other; [vm_compute; intuition discriminate|]. apply j_char; try lia. apply j_nil.
Qed.
