(** C10: declaration specifiers. *)
From Coq Require Import Permutation.
From Verif Require Import Base Arch Specifiers SpecifiersSpec SpecifiersProofs.

(** Every specifier list, keywords in any order and freely mixed with storage
    class, qualifier and function specifiers: accepted with the type of the C11
    table when there is one (long double excepted, see below) and exactly the
    specifiers are consumed; rejected when the table has no such multiset. *)
Theorem C10_specifiers_partial :
  forall l rest, Forall is_spec_tok l -> not_spec_head rest ->
  (forall t, denotes (keywords l) t -> t <> ST_LDOUBLE ->
     exists c, declared_type (l ++ rest) = Ok (t, c, rest)) /\
  ((forall t, ~ denotes (keywords l) t) -> declared_type (l ++ rest) = Fail).
Proof.
  intros l rest HF HR. destruct (declared_type_spec l rest HF HR) as [(t & D & E)|(N & E)].
  - split.
    + intros t' D' NL. assert (t' = t) by (eapply denotes_unique; eauto). subst. rewrite E.
      destruct t; try congruence; cbn [code_type]; eauto.
    + intros N. exfalso. apply (N t D).
  - split; auto. intros t D. exfalso. apply (N t D).
Qed.
Print Assumptions C10_specifiers_partial.

(** The order of the specifiers is irrelevant. *)
Theorem C10_order_irrelevant :
  forall l l' rest, Forall is_spec_tok l -> not_spec_head rest -> Permutation l l' ->
  declared_type (l' ++ rest) = declared_type (l ++ rest).
Proof.
  intros l l' rest HF HR P.
  assert (PK : Permutation (keywords l) (keywords l')).
  { clear -HF P. induction P; cbn; auto.
    - inversion HF; subst. destruct x; auto.
    - inversion HF as [|? ? ? HF1]; inversion HF1; subst. destruct x, y; (reflexivity || apply perm_swap).
    - rewrite IHP1 by auto. apply IHP2. exact (Permutation_Forall P1 HF). }
  assert (PO : Permutation (others l) (others l')).
  { clear -HF P. induction P; cbn; auto.
    - inversion HF; subst. destruct x; auto.
    - inversion HF as [|? ? ? HF1]; inversion HF1; subst. destruct x, y; (reflexivity || apply perm_swap).
    - rewrite IHP1 by auto. apply IHP2. exact (Permutation_Forall P1 HF). }
  assert (HF' : Forall is_spec_tok l') by exact (Permutation_Forall P HF).
  pose proof (proj1 (Permutation_count_occ other_eq_dec _ _) PO KCONST) as EC.
  assert (DD : forall t, denotes (keywords l) t <-> denotes (keywords l') t).
  { intros t. split; intros (e & HI & Q); exists e; split; auto; [rewrite <- PK|rewrite PK]; auto. }
  destruct (declared_type_spec l rest HF HR) as [(t & D & E)|(N & E)],
           (declared_type_spec l' rest HF' HR) as [(t' & D' & E')|(N' & E')]; rewrite E, E'.
  - apply DD in D. rewrite (denotes_unique _ _ _ D D'), EC. auto.
  - exfalso. apply (N' t), DD, D.
  - exfalso. apply (N t'), DD, D'.
  - auto.
Qed.
Print Assumptions C10_order_irrelevant.

(** The const qualifier written once makes the type const; absent, it does not. *)
Theorem C10_const_partial :
  forall l rest t c, Forall is_spec_tok l -> not_spec_head rest ->
  (count_occ other_eq_dec (others l) KCONST <= 1)%nat ->
  declared_type (l ++ rest) = Ok (t, c, rest) ->
  (c = true <-> In KCONST (others l)).
Proof.
  intros l rest t c HF HR HC E.
  destruct (declared_type_spec l rest HF HR) as [(t' & D & E')|(N & E')]; rewrite E' in E; inversion E; subst.
  rewrite (count_occ_In other_eq_dec), Nat.eqb_eq. lia.
Qed.
Print Assumptions C10_const_partial.

(** Missing: long double denotes double in this compiler, ... *)
Theorem C10_long_double_refuted :
  exists l, Forall is_spec_tok l /\ denotes (keywords l) ST_LDOUBLE /\ declared_type l = Ok (ST_DOUBLE, false, []).
Proof.
  exists [Tok_kw KLONG; Tok_kw KDOUBLE]. repeat split.
  - repeat (apply Forall_cons; [exact I|]); apply Forall_nil.
  - exists [KLONG; KDOUBLE]. split; [cbn; intuition|reflexivity].
Qed.
Print Assumptions C10_long_double_refuted.

(** ... and a repeated const, which C11 6.7.3p5 says is the same as one, is lost. *)
Theorem C10_repeated_const_refuted :
  exists l, Forall is_spec_tok l /\ In KCONST (others l) /\ declared_type l = Ok (ST_INT, false, []).
Proof.
  exists [Tok_other KCONST; Tok_other KCONST; Tok_kw KINT]. repeat split.
  - repeat (apply Forall_cons; [exact I|]); apply Forall_nil.
  - cbn; auto.
Qed.
Print Assumptions C10_repeated_const_refuted.

Example C10_nontrivial :
  declared_type [Tok_kw KLONG; Tok_other KSTATIC; Tok_kw KUNSIGNED; Tok_other KCONST; Tok_kw KINT; Tok_kw KLONG; Tok_rest 7]
    = Ok (ST_ULLONG, true, [Tok_rest 7])
  /\ denotes [KLONG; KUNSIGNED; KINT; KLONG] ST_ULLONG
  /\ declared_type [Tok_kw KLONG; Tok_kw KLONG; Tok_kw KLONG] = Fail
  /\ declared_type [Tok_kw KSIGNED; Tok_kw KUNSIGNED] = Fail.
Proof.
  repeat split; try (vm_compute; reflexivity).
  exists [KUNSIGNED; KLONG; KLONG; KINT]. split; [cbn; intuition|].
  apply (Permutation_count_occ kw_eq_dec). intros []; reflexivity.
Qed.
