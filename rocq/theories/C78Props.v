(** C78: enumeration constants have the values C says. *)
From Verif Require Import Base Arch CTypesSpec ArithConvSpec ConstFold ConstFoldSpec CExprSpec Enum EnumSpec EnumProofs.
Local Open Scope Z_scope.
Local Open Scope list_scope.

(** Every enumerator list that C accepts, in any scope, with or without a comma at its
    end, whose expressions have type int: it is read to its closing brace, and afterwards
    each identifier is the constant C says, of type int.
    Missing: expressions of other types and conversions to _Bool (refuted below and C08). *)
Theorem enumeration_constants_partial : forall s declared env l env' comma rest,
  l <> [] -> enumerated True None declared env l env' -> holds s declared env ->
  enumerated False None declared env l env' /\
  exists s' declared', enum_list SYSV s (spell l comma ++ rest) = Ok (s', rest) /\ holds s' declared' env'.
Proof.
  intros s declared env l env' comma rest NE E H. split; [apply relaxed_enum; exact E|].
  destruct (list_ok l None declared env env' E NE true (ST_INT, 0) s comma rest eq_refl H) as (s1 & all & EQ & H1).
  exists s1, all. split; [|exact H1]. unfold enum_list. rewrite EQ. reflexivity.
Qed.
Print Assumptions enumeration_constants_partial.

(** A list is rejected at an identifier that its scope or the list itself has declared
    before. *)
Theorem redeclared_enumerator_is_rejected : forall s declared env l env' n o comma rest,
  enumerated True None declared env l env' -> holds s declared env -> In n (map fst l ++ declared) ->
  (forall e, o = Some e -> i_ok True env' e /\ exists v, i_value env' e = Some v) ->
  enum_list SYSV s (spell (l ++ [(n, o)]) comma ++ rest) = Fail.
Proof.
  intros s declared env l env' n o comma rest E H IN OO. unfold enum_list.
  rewrite (declared_ok l None declared env env' n o E IN OO true (ST_INT, 0) s comma rest eq_refl H). reflexivity.
Qed.
Print Assumptions redeclared_enumerator_is_rejected.

(** An expression of an unsigned type, followed by an enumerator without one, stops the
    compiler, whatever the value. *)
Theorem after_unsigned_refuted : forall n k t v rest s declared env,
  n <> k -> ~ In n declared -> ~ In k declared -> holds s declared env ->
  In t [ST_UCHAR; ST_USHORT; ST_UINT; ST_ULONG; ST_ULLONG] -> representable SYSV t v -> v < 2147483647 ->
  (exists env', enumerated False None declared env [(n, Some (ILit t v)); (k, None)] env') /\
  enum_list SYSV s (spell [(n, Some (ILit t v)); (k, None)] false ++ rest) = Fail.
Proof.
  intros n k t v rest s declared env NK N K H T R V.
  assert (S0 : 0 <= v) by (unfold representable, spec_min in R; repeat (destruct T as [<-|T]; [cbn in R; lia|]); destruct T).
  assert (RI : forall w, 0 <= w <= 2147483647 -> representable SYSV ST_INT w).
  { intros w. unfold representable. change (spec_min SYSV ST_INT) with (-2147483648). change (spec_max SYSV ST_INT) with 2147483647. lia. }
  split.
  - eexists. eapply (en_value False None declared env n _ v); [exact N| | intros [] | reflexivity | apply RI; lia |].
    + split; auto. repeat (destruct T as [<-|T]; [cbn; tauto|]). destruct T.
    + eapply (en_next False (Some v) (n :: declared) _ k (v + 1)); [intros [X|X]; auto|reflexivity| apply RI; lia|apply en_end].
  - unfold enum_list. cbn [spell spell1 fst snd app enumerators]. unfold initial. cbn [tree bind]. unfold add_constant.
    destruct (find_in n (here s)) eqn:F; [destruct N; apply (proj1 H); rewrite F; discriminate|]. cbn [bind].
    unfold implicit, constant_increment. repeat (destruct T as [<-|T]; [reflexivity|]). destruct T.
Qed.
Print Assumptions after_unsigned_refuted.

(** An enumeration constant has the type of its expression instead of int. *)
Theorem enumeration_constant_type_refuted : forall n t v rest s declared env,
  ~ In n declared -> holds s declared env -> integer_type t -> t <> ST_INT -> representable SYSV t v -> representable SYSV ST_INT v ->
  (exists env', enumerated False None declared env [(n, Some (ILit t v))] env') /\
  exists s', enum_list SYSV s (spell [(n, Some (ILit t v))] false ++ rest) = Ok (s', rest) /\
    lookup n s' = Some (t, wrap 64 v) /\ forall declared' env', ~ holds s' declared' env'.
Proof.
  intros n t v rest s declared env N H I T R RI. split.
  - eexists. eapply (en_value False None declared env n _ v); [exact N|split; auto|intros []|reflexivity|exact RI|apply en_end].
  - unfold enum_list. cbn [spell spell1 fst snd app enumerators]. unfold initial. cbn [tree bind]. unfold add_constant.
    destruct (find_in n (here s)) eqn:F; [destruct N; apply (proj1 H); rewrite F; discriminate|]. cbn [bind].
    eexists. split; [reflexivity|].
    assert (L : lookup n {| here := (n, (t, wrap 64 v)) :: here s; outside := outside s |} = Some (t, wrap 64 v)).
    { unfold lookup. cbn [here find_in]. rewrite (proj2 (name_eqb_true n n) eq_refl). reflexivity. }
    split; [exact L|]. intros d e (_ & HL & _). pose proof (eq_trans (eq_sym L) (HL n)) as X. destruct (e n); [|discriminate]. injection X as X _. contradiction.
Qed.
Print Assumptions enumeration_constant_type_refuted.

(** [enum { n = 2147483647, k }] is accepted although 6.7.2.2p2 forbids it. *)
Theorem too_large_enumeration_constant_refuted : forall n k rest s declared env,
  n <> k -> ~ In n declared -> ~ In k declared -> holds s declared env ->
  (forall env', ~ enumerated False None declared env [(n, Some (ILit ST_INT 2147483647)); (k, None)] env') /\
  exists s', enum_list SYSV s (spell [(n, Some (ILit ST_INT 2147483647)); (k, None)] false ++ rest) = Ok (s', rest) /\
    lookup k s' = Some (ST_INT, 2147483648).
Proof.
  intros n k rest s declared env NK N K H. split.
  - intros env' E. inversion E as [|pr d en n0 e v l0 e0 N0 OK TY V R HR|]; subst. cbn [i_value] in V. injection V as <-.
    inversion HR as [|? ? ? ? ? ? ? ? ? ? ? ? ?|pr d en n1 v l1 e1 N1 V1 R1 HR1]; subst. unfold representable in R1. change (spec_max SYSV ST_INT) with 2147483647 in R1. lia.
  - unfold enum_list. cbn [spell spell1 fst snd app enumerators]. unfold initial. cbn [tree bind]. unfold add_constant at 1.
    destruct (find_in n (here s)) eqn:F; [destruct N; apply (proj1 H); rewrite F; discriminate|]. cbn [bind].
    change (implicit false (ST_INT, wrap 64 2147483647)) with (Ok (ST_INT, 2147483648)). cbn [bind]. unfold add_constant. cbn [here find_in].
    destruct (name_eqb n k) eqn:E; [apply name_eqb_true in E; contradiction|].
    destruct (find_in k (here s)) eqn:FK; [destruct K; apply (proj1 H); rewrite FK; discriminate|]. cbn [bind].
    eexists. split; [reflexivity|]. unfold lookup. cbn [here find_in]. rewrite (proj2 (name_eqb_true k k) eq_refl). reflexivity.
Qed.
Print Assumptions too_large_enumeration_constant_refuted.

(** [enum { a = 5, b, c = (a | 8) - 20, d = 1 << b, e, }] *)
Definition sample : list enumerator :=
  [ ([97], Some (ILit ST_INT 5)); ([98], None); ([99], Some (IBin OP_SUB (IBin OP_BOR (IName [97]) (ILit ST_INT 8)) (ILit ST_INT 20)));
    ([100], Some (IBin OP_LSHIFT (ILit ST_INT 1) (IName [98]))); ([101], None) ].
Definition nowhere : scope := {| here := []; outside := [([97], (ST_INT, 1))] |}.
Definition at_first : values := fun n => if list_eq_dec Z.eq_dec [97] n then Some 1 else None.
Example C78_hypotheses : holds nowhere [] at_first /\ exists env', enumerated True None [] at_first sample env' /\
  map env' [[97]; [98]; [99]; [100]; [101]; [102]] = [Some 5; Some 6; Some (-7); Some 64; Some 65; None].
Proof.
  split.
  - split; [|split].
    + intros n. cbn. tauto.
    + intros n. unfold lookup, at_first. cbn [nowhere here outside find_in]. unfold name_eqb. destruct (list_eq_dec Z.eq_dec [97] n); reflexivity.
    + intros n v. unfold at_first. destruct (list_eq_dec Z.eq_dec [97] n); [|discriminate]. intros E. injection E as <-. vm_compute. split; discriminate.
  - eexists. split.
    + assert (RI : forall w, (-2147483648 <=? w) && (w <=? 2147483647) = true -> representable SYSV ST_INT w).
      { intros w E. apply andb_prop in E. destruct E as [E1 E2]. apply Z.leb_le in E1, E2. split; assumption. }
      assert (II : integer_type ST_INT) by (cbn; tauto).
      eapply (en_value _ _ _ _ _ _ 5); [cbn; intuition discriminate|cbn [i_ok]; auto|reflexivity|reflexivity|apply RI; reflexivity|].
      eapply (en_next _ _ _ _ _ 6); [cbn; intuition discriminate|reflexivity|apply RI; reflexivity|].
      eapply (en_value _ _ _ _ _ _ (-7)); [cbn; intuition discriminate|cbn [i_ok]; auto 8|reflexivity|vm_compute; reflexivity|apply RI; reflexivity|].
      eapply (en_value _ _ _ _ _ _ 64); [cbn; intuition discriminate|cbn [i_ok]; auto 8|reflexivity|vm_compute; reflexivity|apply RI; reflexivity|].
      eapply (en_next _ _ _ _ _ 65); [cbn; intuition discriminate|reflexivity|apply RI; reflexivity|]. apply en_end.
    + vm_compute. reflexivity.
Qed.
Example C78_run : exists s', enum_list SYSV nowhere (spell sample true) = Ok (s', []) /\
  map (fun n => lookup n s') [[98]; [99]; [101]] = [Some (ST_INT, 6); Some (ST_INT, 18446744073709551609); Some (ST_INT, 65)].
Proof. eexists. split; vm_compute; reflexivity. Qed.
Example C78_redeclared : enum_list SYSV nowhere (spell (sample ++ [([98], Some (ILit ST_INT 3))]) false) = Fail.
Proof. vm_compute. reflexivity. Qed.
