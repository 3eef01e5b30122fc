(** C88: __LINE__ is the number of the line as a constant of type int, __FILE__ a
    string literal with the name of the file. *)
From Coq Require Import String.
From Verif Require Import Base CharTypes Arch CTypesSpec IntLit IntLitSpec C07Props Escape EscapeSpec C06Props Labels C39Props Builtin.
Ltac Zify.zify_post_hook ::= idtac.
Local Open Scope Z_scope.
Local Open Scope list_scope.

Lemma digit_in c : 48 <= c <= 57 -> In c (digit_chars Dec).
Proof. intros H. cbn. lia. Qed.

Lemma numeral_digits l : Forall digit l -> digits_value Dec l = numeral l.
Proof.
  intros F. unfold digits_value, numeral. generalize 0. induction F as [|c l H F IH]; intros a; [reflexivity|].
  cbn [fold_left radix_num]. rewrite <- IH. f_equal. unfold digit in H. unfold digit_value.
  rewrite (proj2 (Z.leb_le c 57)) by lia. lia.
Qed.

Lemma decimal_first fuel : forall n, 0 < n -> (Z.to_nat n < fuel)%nat ->
  exists d t, decimal_loop fuel n = d :: t /\ 49 <= d <= 57.
Proof.
  induction fuel as [|k IH]; intros n N F; [lia|]. cbn [decimal_loop].
  destruct (Z.ltb_spec n 10) as [L|L].
  - exists (48 + n mod 10), []. split; [reflexivity|]. rewrite Z.mod_small by lia. lia.
  - assert (n / 10 < n) by (apply Z.div_lt; lia). assert (0 < n / 10) by (apply Z.div_str_pos; lia).
    destruct (IH (n / 10)) as (d & t & E & D); [lia|lia|]. exists d, (t ++ [48 + n mod 10]). rewrite E. auto.
Qed.

Lemma decimal_constant m n : 0 <= n < 2 ^ 31 -> constant_from_string m (decimal n) = Ok (Some (ST_INT, n)).
Proof.
  intros N. pose proof (decimal_digits n ltac:(lia)) as F.
  assert (V : digits_value Dec (decimal n) = n).
  { rewrite (numeral_digits _ F). apply decimal_loop_value; lia. }
  assert (S0 : In ([], (false, 0%nat)) suffixes) by (left; reflexivity).
  destruct (Z.eq_dec n 0) as [->|NZ]; [destruct m; reflexivity|].
  destruct (decimal_first (S (Z.to_nat n)) n ltac:(lia) ltac:(lia)) as (d & t & E & D).
  change (decimal_loop (S (Z.to_nat n)) n) with (decimal n) in E.
  assert (L : literal Dec (decimal n) (decimal n)).
  { rewrite E. apply lit_dec; [cbn; lia|]. rewrite E in F. inversion F; subst.
    eapply Forall_impl; [|eassumption]. intros c. apply digit_in. }
  pose proof (C07_integer_literal m Dec (decimal n) (decimal n) [] (false, 0%nat) L S0) as C.
  rewrite V, app_nil_r in C. rewrite C by lia. unfold literal_type. cbn [candidates find].
  replace (n <=? spec_max m ST_INT) with true; [reflexivity|].
  symmetry. apply Z.leb_le. destruct m; change (spec_max _ ST_INT) with (2 ^ 31 - 1); lia.
Qed.

(** A token that differs only in its kind and spelling. *)
Definition same_place (a b : token) : Prop :=
  line a = line b /\ path a = path b /\ whitespace a = whitespace b /\ whitespace_after a = whitespace_after b.

Theorem line_macro : forall m t, str t = chars "__LINE__" -> 0 <= line t < 2 ^ 31 ->
  exists t', builtin_macros t = (t', true) /\ ty t' = T_NUM /\ same_place t t' /\
    constant_from_string m (str t') = Ok (Some (ST_INT, line t)).
Proof.
  intros m t S L. unfold builtin_macros, spelled. rewrite S.
  destruct (list_eq_dec Z.eq_dec (chars "__LINE__") (chars "__LINE__")) as [_|N]; [|destruct (N eq_refl)].
  eexists. split; [reflexivity|]. cbn [ty str]. split; [reflexivity|]. split; [repeat split|].
  unfold print_int. rewrite (proj2 (Z.ltb_ge (line t) 0)) by lia. apply decimal_constant. exact L.
Qed.
Print Assumptions line_macro.

(** Missing: paths with a quote, a backslash or a byte 255. *)
Theorem file_macro_partial : forall t, str t = chars "__FILE__" ->
  Forall (fun c => 0 < c < 255 /\ c <> 34 /\ c <> 92) (path t) ->
  exists t', builtin_macros t = (t', true) /\ ty t' = T_STRING /\ same_place t t' /\
    forall after, escape_string_to_buffer (str t' ++ after) (length (str t')) STRING_DEFAULT = Ok (path t).
Proof.
  intros t S P. unfold builtin_macros, spelled. rewrite S.
  destruct (list_eq_dec Z.eq_dec (chars "__FILE__") (chars "__LINE__")) as [N|_]; [discriminate N|].
  destruct (list_eq_dec Z.eq_dec (chars "__FILE__") (chars "__FILE__")) as [_|N]; [|destruct (N eq_refl)].
  eexists. split; [reflexivity|]. cbn [ty str]. split; [reflexivity|]. split; [repeat split|].
  intros after. cbn [app length]. rewrite <- app_assoc. cbn [app].
  replace (Datatypes.S (length (path t ++ [34]))) with (length (path t) + 2)%nat
    by (rewrite app_length; cbn; lia).
  apply C06_string_literal_partial.
  - induction P as [|c p H P IH]; [apply body_nil|]. apply body_plain; [lia|lia|lia|exact IH].
  - eapply Forall_impl; [|exact P]. cbn. intros. lia.
Qed.
Print Assumptions file_macro_partial.

Theorem other_names_are_not_builtin : forall t, str t <> chars "__LINE__" -> str t <> chars "__FILE__" ->
  builtin_macros t = (t, false).
Proof.
  intros t N1 N2. unfold builtin_macros, spelled.
  destruct (list_eq_dec Z.eq_dec (str t) (chars "__LINE__")); [contradiction|].
  destruct (list_eq_dec Z.eq_dec (str t) (chars "__FILE__")); [contradiction|]. reflexivity.
Qed.
Print Assumptions other_names_are_not_builtin.

(** a.c, line 120 *)
Definition at_120 (s : list Z) : token :=
  {| ty := T_IDENT; str := s; line := 120; path := chars "dir/a.c"; whitespace := true; whitespace_after := false |}.
Example line_example : exists t', builtin_macros (at_120 (chars "__LINE__")) = (t', true) /\ str t' = chars "120" /\
  constant_from_string SYSV (str t') = Ok (Some (ST_INT, 120)).
Proof.
  destruct (line_macro SYSV (at_120 (chars "__LINE__")) eq_refl ltac:(cbn; lia)) as (t' & E & _ & _ & C).
  exists t'. split; [exact E|]. split; [|exact C]. injection E as <-. reflexivity.
Qed.
Example file_example : exists t', builtin_macros (at_120 (chars "__FILE__")) = (t', true) /\
  escape_string_to_buffer (str t' ++ [0]) (length (str t')) STRING_DEFAULT = Ok (chars "dir/a.c").
Proof.
  destruct (file_macro_partial (at_120 (chars "__FILE__")) eq_refl) as (t' & E & _ & _ & C).
  - cbn. repeat apply Forall_cons; try apply Forall_nil; lia.
  - exists t'. split; [exact E|apply C].
Qed.

(** The path is not escaped: src\new.c gives a string with a newline in it, and a
    quote ends the string early. *)
Theorem file_macro_refuted : exists t t', str t = chars "__FILE__" /\ Forall (fun c => 0 < c < 128) (path t) /\
  builtin_macros t = (t', true) /\
  exists v, escape_string_to_buffer (str t' ++ [0]) (length (str t')) STRING_DEFAULT = Ok v /\ v <> path t.
Proof.
  exists {| ty := T_IDENT; str := chars "__FILE__"; line := 1; path := chars "src\new.c"; whitespace := false; whitespace_after := false |}.
  eexists. split; [reflexivity|]. split; [cbn; repeat apply Forall_cons; try apply Forall_nil; lia|].
  split; [reflexivity|]. eexists. split; [vm_compute; reflexivity|]. vm_compute. discriminate.
Qed.
Print Assumptions file_macro_refuted.
