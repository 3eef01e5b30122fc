(** C83: the text printed by -E is a source with the tokens of the translation unit. *)
From Coq Require Import String.
From Verif Require Import Base CharTypes Tokens Fuel Expander ExpanderSpec Directives Lookahead Tokenizer TokenizerSpec TilingProofs C22Props PrintTokens PrintSpec PrintProofs PrintAccept.
Local Open Scope Z_scope.
Local Open Scope list_scope.

(** Tokens that are not literals, of at most 98 characters and marked as separated, are
    read back as they were: the tokenizer accepts the printed text and finds the same
    types and spellings, in the same order. *)
Theorem preprocessed_text_partial ts ks :
  Forall2 (fun t k => stands_for t (fst k) (snd k) /\ (length (snd k) <= 98)%nat) ts ks -> separated ts ->
  exists l, tokenize_input (print_tokens ts) = Some (Ok l) /\ map (fun t => (ty t, text t)) l = ks.
Proof.
  intros F S. pose proof (print_reads 100 (le_n _) ts ks F S [] (Forall_nil _)) as R. cbn [app] in R. fold (print_tokens ts) in R.
  destruct (reads_accepted _ _ R) as (l & H). exists l. split; [exact H|]. pose proof (reads_bytes _ _ R) as B.
  assert (Src : source (print_tokens ts)) by (eapply Forall_impl; [|exact B]; cbn; lia).
  assert (N : ~ In 92 (print_tokens ts)). { intros I. rewrite Forall_forall in B. apply B in I. tauto. }
  assert (C := tokenize_calm _ _ _ H). apply (tokenize_tiles _ _ _ Src) in H. unfold logical in H. rewrite (bom_id _ B), (unsplice_id _ N) in H.
  eapply (tiles_read _ (print_tokens ts)); [|exact N|exact R|exact H|exact C].
  intros st g nl t x r (L & Sp & _). auto.
Qed.
Print Assumptions preprocessed_text_partial.

Definition tok (f w a : bool) (k : Z) (s : list Z) : dtok := {| dt := {| e_type := k; e_str := s; e_ws := w; e_wsa := a; e_line := 1; e_hs := [] |}; fol := f |}.
(** int x = - - .5e+3 ; on two lines *)
Definition C83_tokens : list dtok := [tok true true true T_KINT (chars "int"); tok false true true T_IDENT (chars "x"); tok false true false T_A (chars "=");
  tok true true true T_SUB (chars "-"); tok false false true T_SUB (chars "-"); tok false true false T_NUM (chars ".5e+3"); tok false true false T_SEMI_COLON (chars ";")].
Example C83_hypotheses : exists ks, Forall2 (fun t k => stands_for t (fst k) (snd k) /\ (length (snd k) <= 98)%nat) C83_tokens ks /\ separated C83_tokens.
Proof.
  exists [(T_IDENT, chars "int"); (T_IDENT, chars "x"); (T_A, chars "="); (T_SUB, chars "-"); (T_SUB, chars "-"); (T_NUM, chars ".5e+3"); (T_SEMI_COLON, chars ";")].
  split.
  - repeat apply Forall2_cons; try apply Forall2_nil; (split; [|cbn; lia]).
    + apply sf_keyword. vm_compute. tauto.
    + apply (sf_ident _ 120 []); try reflexivity; [unfold nondigit; lia|constructor].
    + apply (sf_punct (tok false true false T_A (chars "="))). vm_compute. tauto.
    + apply (sf_punct (tok true true true T_SUB (chars "-"))). vm_compute. tauto.
    + apply (sf_punct (tok false false true T_SUB (chars "-"))). vm_compute. tauto.
    + apply (sf_number _ [46; 53] (chars "e+3")); try reflexivity; [exists 53; unfold digit; split; [lia|auto]| |vm_compute; intuition discriminate].
      apply pp_exp; [vm_compute; tauto|vm_compute; tauto|]. apply pp_char; [left; unfold digit; cbn; lia|constructor].
    + apply (sf_punct (tok false true false T_SEMI_COLON (chars ";"))). vm_compute. tauto.
  - cbn. tauto.
Qed.

(** Character constants are printed as the name of their kind: programs that differ in
    them print the same text. *)
Theorem preprocessed_constants_refuted : exists s1 s2 l1 l2 t1 t2,
  tokenize_input s1 = Some (Ok l1) /\ tokenize_input s2 = Some (Ok l2) /\
  (forall n, parser_tokens (4 + n) {| prev := no_token; input := map dt l1 |} = Some (Ok [t1])) /\
  (forall n, parser_tokens (4 + n) {| prev := no_token; input := map dt l2 |} = Some (Ok [t2])) /\
  e_type t1 = T_CHARACTER_CONSTANT /\ e_type t2 = T_CHARACTER_CONSTANT /\ e_str t1 <> e_str t2 /\
  forall f, print_tokens [{| dt := t1; fol := f |}] = print_tokens [{| dt := t2; fol := f |}].
Proof.
  exists (chars "'a'" ++ [10]), (chars "'b'" ++ [10]). do 4 eexists. split; [vm_compute; reflexivity|]. split; [vm_compute; reflexivity|].
  split; [intros n; reflexivity|]. split; [intros n; reflexivity|]. split; [reflexivity|]. split; [reflexivity|]. split; [discriminate|].
  intros f. vm_compute. reflexivity.
Qed.
Print Assumptions preprocessed_constants_refuted.

(** String literals are printed with their escape sequences already replaced: the text
    for a literal with \n or with an escaped quote is not a source. *)
Theorem preprocessed_strings_refuted : exists s l t,
  tokenize_input s = Some (Ok l) /\ (forall n, parser_tokens (4 + n) {| prev := no_token; input := map dt l |} = Some (Ok [t])) /\ e_type t = T_STRING /\
  forall f, tokenize_input (print_tokens [{| dt := t; fol := f |}]) = Some Fail.
Proof.
  exists (chars """a\n""" ++ [10]). do 2 eexists. split; [vm_compute; reflexivity|]. split; [intros n; reflexivity|]. split; [reflexivity|].
  intros [|]; vm_compute; reflexivity.
Qed.
Print Assumptions preprocessed_strings_refuted.

(** Two minus signs, one from a macro and one before it (-N with N defined as -1), are
    printed next to each other and read back as a decrement. *)
Theorem preprocessed_adjacent_refuted : exists ts ks l,
  Forall2 (fun t k => stands_for t (fst k) (snd k) /\ (length (snd k) <= 98)%nat) ts ks /\
  tokenize_input (print_tokens ts) = Some (Ok l) /\ map (fun t => (ty t, text t)) l <> ks.
Proof.
  exists [tok true true false T_SUB (chars "-"); tok false false false T_SUB (chars "-"); tok false false false T_NUM (chars "1")],
    [(T_SUB, chars "-"); (T_SUB, chars "-"); (T_NUM, chars "1")]. eexists. split; [|split].
  - repeat apply Forall2_cons; try apply Forall2_nil; (split; [|cbn; lia]).
    + apply (sf_punct (tok true true false T_SUB (chars "-"))). vm_compute. tauto.
    + apply (sf_punct (tok false false false T_SUB (chars "-"))). vm_compute. tauto.
    + apply (sf_number _ [49] []); try reflexivity; [exists 49; unfold digit; split; [lia|auto]|constructor|intros []].
  - vm_compute. reflexivity.
  - discriminate.
Qed.
Print Assumptions preprocessed_adjacent_refuted.

(** The last character of every identifier or number of 99 characters or more is lost. *)
Theorem preprocessed_long_refuted : forall t s, (99 <= length s)%nat -> stands_for t T_IDENT s -> fol t = false -> e_ws (dt t) = false -> e_wsa (dt t) = false ->
  print_tokens [t] = firstn (length s - 1) s.
Proof.
  intros t s L F N W A. unfold print_tokens. cbn [print_from]. unfold dbg_token, dbg_print. rewrite (stands_string _ _ _ F), N, W, A.
  cbn [app]. rewrite app_nil_r. destruct (Nat.ltb_spec 100 (length s + 1)).
  - f_equal. lia.
  - replace (length s) with 99%nat by lia. reflexivity.
Qed.
Print Assumptions preprocessed_long_refuted.
Example C83_long : stands_for (tok false false false T_IDENT (repeat 120 99)) T_IDENT (repeat 120 99) /\
  print_tokens [tok false false false T_IDENT (repeat 120 99)] = repeat 120 98.
Proof.
  split; [|vm_compute; reflexivity]. apply (sf_ident _ 120 (repeat 120 98)); try reflexivity; [unfold nondigit; lia|].
  apply Forall_forall. intros x I. apply repeat_spec in I. subst. left. unfold nondigit. lia.
Qed.
