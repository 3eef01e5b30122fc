(** C22: for every NUL-terminated source the tokenizer terminates, makes progress on each
    token, never reads past the terminator, and the token texts (with white space and
    comments between them) tile the source. *)
From Coq Require Import String.
From Verif Require Import Base CharTypes Tokens Fuel Expander Directives Tokenizer TokenizerSpec TokenizerProofs ScanProofs TilingProofs TokSafeProofs.

Local Open Scope Z_scope.
Local Open Scope list_scope.
(** Bytes of a source before the terminating NUL. *)
Definition source (src : list Z) : Prop := Forall (fun b => 1 <= b < 256) src.
(** C11 5.1.1.2: a source that is not empty ends in a newline that is not spliced. *)
Definition ends_in_newline (src : list Z) : Prop := logical src = [] \/ exists v, logical src = v ++ [10].

Lemma gap_weaken (ok ok' : list Z -> Prop) : (forall b, ok b -> ok' b) -> forall nl g r, gap ok nl g r -> gap ok' nl g r.
Proof. intros H nl g r G. induction G; [apply gap_none|apply gap_white|eapply gap_newline|apply gap_line|apply gap_block]; eauto. Qed.
Lemma tiles_weaken (ok ok' : list Z -> Prop) (P P' : bool -> list Z -> bool -> dtok -> list Z -> list Z -> Prop) b l u :
  (forall b, ok b -> ok' b) -> (forall s g nl t x r, P s g nl t x r -> P' s g nl t x r) -> tiles ok P b l u -> tiles ok' P' b l u.
Proof. intros H1 H2 T. induction T; [eapply tiles_end|eapply tiles_token]; eauto using gap_weaken. Qed.

(** The fuel of [tokenize_input] is enough for every source: the loops end. *)
Theorem C22_terminates src : source src -> exists r, tokenize_input src = Some r.
Proof. intros S. destruct (tokenize_ends false src S ltac:(discriminate)) as (v & E & _). now exists v. Qed.
Print Assumptions C22_terminates.

Theorem C22_within_source_partial src : source src -> ends_in_newline src -> tokenize_input src <> Some Undef.
Proof.
  intros S N. destruct (tokenize_ends true src S (fun _ => N)) as (v & E & H). rewrite E. intros Q. injection Q as ->. discriminate (H eq_refl).
Qed.
Print Assumptions C22_within_source_partial.

(** Every token has a text that is not empty; between the tokens there is only white
    space and comments. *)
Theorem C22_tiles src l : source src -> tokenize_input src = Some (Ok l) ->
  tiles (fun _ => True) (fun _ _ _ t x _ => spelled src t x) true l (logical src).
Proof.
  intros S H. apply (tokenize_tiles _ _ _ S) in H. revert H. apply tiles_weaken; auto. intros s g nl t x r (_ & Sp & _). exact Sp.
Qed.
Print Assumptions C22_tiles.

(** Sources that do not end in a newline make the tokenizer read past the terminator: a
    string that ends in a backslash, and a block comment that ends in a star. *)
Theorem C22_past_terminator_refuted : exists src, source src /\ tokenize_input src = Some Undef.
Proof. exists [34; 92]. split; [repeat constructor; lia|vm_compute; reflexivity]. Qed.
Print Assumptions C22_past_terminator_refuted.
Example C22_comment_past_terminator : tokenize_input (chars "/* *") = Some Undef.
Proof. vm_compute. reflexivity. Qed.
(** A line spliced at CR LF inside an identifier leaves the splice in its text. *)
Theorem C22_crlf_text_refuted : exists src l t x, source src /\ ends_in_newline src /\ tokenize_input src = Some (Ok l) /\
  l = [t] /\ logical src = x ++ [10] /\ ~ In 92 x /\ text t <> x.
Proof.
  exists [97; 92; 13; 10; 98; 10]. eexists _, _, [97; 98].
  split; [repeat constructor; lia|]. split; [right; exists [97; 98]; reflexivity|]. split; [vm_compute; reflexivity|]. split; [reflexivity|].
  split; [reflexivity|]. split; [intros [H|[H|[]]]; discriminate|]. cbn. discriminate.
Qed.
Print Assumptions C22_crlf_text_refuted.

(** A case: a directive, a spliced identifier, comments and a string. *)
Definition C22_source : list Z :=
  chars "#define ma" ++ [92; 10] ++ chars "x(a) /* c" ++ [10] ++ chars " d */ a+++1'000 // e" ++ [10] ++ chars "L""\""q""" ++ [10].
Example C22_source_ok : source C22_source /\ ends_in_newline C22_source /\
  exists l, tokenize_input C22_source = Some (Ok l) /\
    map text l = [chars "#"; chars "define"; chars "max"; chars "("; chars "a"; chars ")"; chars "a"; chars "++"; chars "+"; chars "1000"; chars "L""\""q"""].
Proof.
  split; [|split].
  - unfold source, C22_source. cbn. repeat constructor; lia.
  - right. eexists (removelast (logical C22_source)). vm_compute. reflexivity.
  - eexists. split; vm_compute; reflexivity.
Qed.
