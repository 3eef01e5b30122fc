(** C62: identifiers, preprocessing numbers, string literals, character constants and
    header names are delimited as the C grammar says, each as long as possible. *)
From Coq Require Import String.
From Verif Require Import Base CharTypes Tokens Fuel Expander Directives Tokenizer TokenizerSpec TokenizerProofs ScanProofs TilingProofs TokSafeProofs C22Props.
Local Open Scope Z_scope.
Local Open Scope list_scope.

Theorem C62_lexemes src l : source src -> tokenize_input src = Some (Ok l) ->
  tiles (fun _ => True) (fun _ _ _ t x r => lexeme (ty t) x r) true l (logical src).
Proof.
  intros S H. apply (tokenize_tiles _ _ _ S) in H. revert H. apply tiles_weaken; auto. intros s g nl t x r (Lx & _). exact Lx.
Qed.
Print Assumptions C62_lexemes.

(** What the relation says of an identifier: it is a maximal run of identifier
    characters, and of a string: it ends at the first quote that is not escaped. *)
Example C62_identifier x r : lexeme T_IDENT x r -> (exists c w, x = c :: w /\ id_start c /\ Forall id_char w) /\ ~ id_char (ahead r).
Proof.
  intros L. inversion L; subst; [eauto 6|]. exfalso. match goal with H : punctuator _ _ |- _ => apply punct_in in H end.
  assert (G : forallb (fun p => negb (fst p =? T_IDENT)) all_puncts = true) by (vm_compute; reflexivity).
  rewrite forallb_forall in G. match goal with H : In _ all_puncts |- _ => specialize (G _ H) end. discriminate.
Qed.
Example C62_case : exists l, tokenize_input (chars "u8x u8""a"" 0x1e+2.f .5e-3x L'\'' _$9" ++ [10]) = Some (Ok l) /\
  map (fun t => (ty t, text t)) l =
    [(T_IDENT, chars "u8x"); (T_STRING, chars "u8""a"""); (T_NUM, chars "0x1e+2.f"); (T_NUM, chars ".5e-3x"); (T_CHARACTER_CONSTANT, chars "L'\''"); (T_IDENT, chars "_$9")].
Proof. eexists. split; vm_compute; reflexivity. Qed.
