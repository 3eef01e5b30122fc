(** C85: #line. *)
From Coq Require Import String.
From Verif Require Import Base CharTypes Tokens Arch MacroTable Fuel Expander Directives CondInclProofs LineSpec C20Props.
Local Open Scope Z_scope.
Local Open Scope list_scope.

Section Lines.
Variables (m : abi) (fs : fsys) (search : list (list Z)) (p : list Z) (ms : mstate).
Definition at_line (D : Z) (q l : list dtok) : dstate :=
  {| cur := {| rest := l; pushed := q; path := p |}; parents := []; macros := ms; conds := [1]; line_diff := D; disabled := [] |}.
Notation Step := (Step m fs search).
Notation yields := (yields m fs search).

Lemma next_line D t l : next (at_line D [] (t :: l)) = (shift_line D t, at_line D [] l). Proof. reflexivity. Qed.
Lemma next_line_pushed D t l : next (at_line D [t] l) = (shift_line D t, at_line D [] l). Proof. reflexivity. Qed.

Lemma atoi_decimal : forall s acc, Forall (fun c => 48 <= c <= 57) s -> atoi s acc = fold_left (fun a c => 10 * a + (c - 48)) s acc.
Proof.
  induction s as [|c s IH]; intros acc F; [reflexivity|]. inversion F; subst. cbn [atoi fold_left].
  destruct (Z.leb_spec 48 c); [|lia]. destruct (Z.leb_spec c 57); [|lia]. cbn [andb]. rewrite IH by auto. f_equal. lia.
Qed.

Lemma directive_step D h d n st2 : line_directive h d n -> forall r,
  (forall k, do_line k (e_line (dt d) + D) (at_line D [] r) = ok st2) -> conds st2 = [1] ->
  Step (at_line D [] (h :: d :: r)) st2.
Proof.
  intros (Th & Fh & Td & Xd & Fd & _) r H C. exists 1%nat, O. intros k _. unfold directiver_next at 1. cbn [conds at_line Nat.add].
  change {| cur := _ |} with (at_line D [] (h :: d :: r)). rewrite next_line. cbn [dloop top_cond conds at_line exbind].
  change (ty (shift_line D h)) with (ty h). rewrite Th, Z.eqb_refl. cbn [negb orb].
  change {| cur := _ |} with (at_line D [] (d :: r)). rewrite next_line. change (fol (shift_line D d)) with (fol d). rewrite Fd.
  change (ty (shift_line D d)) with (ty d). rewrite Td. change (T_IDENT =? T_IDENT) with true. cbn [negb andb].
  unfold do_directive. cbn [top_cond conds at_line exbind]. unfold is_if, is_elif, is. change (text (shift_line D d)) with (text d). rewrite Xd.
  repeat match goal with |- context [sv_cmp (chars ?a) (chars ?b)] => let v := eval vm_compute in (sv_cmp (chars a) (chars b)) in change (sv_cmp (chars a) (chars b)) with v end.
  cbn [orb]. change (1 =? 1) with true. cbv iota. change (e_line (dt (shift_line D d))) with (e_line (dt d) + D). rewrite H. cbn [exbind ok].
  unfold directiver_next. rewrite C. reflexivity.
Qed.
Lemma named_step D h d n s l : line_directive h d n -> ty s = T_STRING -> fol s = false ->
  Step (at_line D [] (h :: d :: n :: s :: l)) (at_line (decimal (text n) - (e_line (dt d) + 1)) [] l).
Proof.
  intros L Ts Fs. assert (L' := L). destruct L' as (_ & _ & _ & _ & _ & Tn & Fn & Xn). eapply directive_step; [exact L| |reflexivity].
  intros k. unfold do_line. rewrite next_line. change (fol (shift_line D n)) with (fol n). change (ty (shift_line D n)) with (ty n). rewrite Fn, Tn.
  change (negb (T_NUM =? T_NUM)) with false. cbv iota. rewrite next_line. change (fol (shift_line D s)) with (fol s). rewrite Fs. cbn [exbind ok].
  change (fol (shift_line D n)) with (fol n). change (ty (shift_line D n)) with (ty n). rewrite Fn, Tn. change (false || negb (T_NUM =? T_NUM)) with false. cbv iota.
  change (ty (shift_line D s)) with (ty s). rewrite Ts. change (T_STRING =? T_STRING) with true. cbv iota.
  change (text (shift_line D n)) with (text n). rewrite atoi_decimal by exact Xn. fold (decimal (text n)). unfold with_line_diff. cbn [line_diff at_line cur parents macros conds disabled].
  replace (D + (decimal (text n) - (e_line (dt d) + D) - 1)) with (decimal (text n) - (e_line (dt d) + 1)) by lia. reflexivity.
Qed.
Lemma number_step h d n x l : line_directive h d n -> fol x = true ->
  Step (at_line 0 [] (h :: d :: n :: x :: l)) (at_line (decimal (text n) - (e_line (dt d) + 1)) [x] l).
Proof.
  intros L Fx. assert (L' := L). destruct L' as (_ & _ & _ & _ & _ & Tn & Fn & Xn). eapply directive_step; [exact L| |reflexivity].
  intros k. unfold do_line. rewrite next_line. change (fol (shift_line 0 n)) with (fol n). change (ty (shift_line 0 n)) with (ty n). rewrite Fn, Tn.
  change (negb (T_NUM =? T_NUM)) with false. cbv iota. rewrite next_line. change (fol (shift_line 0 x)) with (fol x). rewrite Fx.
  unfold push_back. cbn [cur at_line pushed length Nat.ltb Nat.leb exbind ok]. rewrite shift_line_0.
  change (fol (shift_line 0 n)) with (fol n). change (ty (shift_line 0 n)) with (ty n). rewrite Fn, Tn. change (false || negb (T_NUM =? T_NUM)) with false. cbv iota.
  change (text (shift_line 0 n)) with (text n). rewrite atoi_decimal by exact Xn. fold (decimal (text n)). unfold with_line_diff, with_files. cbn [line_diff at_line cur parents macros conds disabled rest pushed path].
  replace (0 + (decimal (text n) - (e_line (dt d) + 0) - 1)) with (decimal (text n) - (e_line (dt d) + 1)) by lia. rewrite ?shift_line_0. reflexivity.
Qed.
Lemma pushed_step D x l : Step (at_line D [x] l) (at_line D [] (x :: l)).
Proof. exists O, O. intros k _. reflexivity. Qed.
Lemma end_yields D : yields (at_line D [] []) [].
Proof.
  eapply y_end; [exists 1%nat; intros k Hk; destruct k as [|k]; [lia|]; unfold directiver_next; cbn; reflexivity|reflexivity].
Qed.
Lemma text_yields D t l out : ty t <> PP_DIRECTIVE -> ty t <> T_EOI -> yields (at_line D [] l) out -> yields (at_line D [] (t :: l)) (shift_line D t :: out).
Proof.
  intros N E Y. eapply y_tok; [|exact E|exact Y]. exists 1%nat. intros k Hk. destruct k as [|k]; [lia|]. unfold directiver_next. cbn [conds at_line].
  change {| cur := _ |} with (at_line D [] (t :: l)). rewrite next_line. cbn [dloop top_cond conds at_line exbind].
  change (ty (shift_line D t)) with (ty t). rewrite (proj2 (Z.eqb_neq _ _) N). reflexivity.
Qed.
Definition off (nb : numbering) : Z := match nb with None => 0 | Some (n, d) => n - (d + 1) end.
Lemma lines_yield b l : proper b l -> forall nb, (b = false -> nb = None) -> yields (at_line (off nb) [] (written l)) (numbered nb l).
Proof.
  intros P. induction P as [b|b t l N E P IH|b h d n s l L Ts Fs P IH|h d n l x r L W Fx P IH]; intros nb B.
  - apply end_yields.
  - cbn [written flat_map tokens app numbered]. assert (S : shift_line (off nb) t = {| dt := with_line (dt t) (presumed nb (e_line (dt t))); fol := fol t |}).
    { unfold shift_line. do 2 f_equal. destruct nb as [[n d]|]; cbn [off presumed]; lia. }
    rewrite <- S. apply text_yields; auto.
  - cbn [written flat_map tokens app numbered]. eapply Step_yields; [apply named_step; auto|]. apply (IH (Some (decimal (text n), e_line (dt d)))). discriminate.
  - rewrite (B eq_refl). cbn [off]. cbn [written flat_map tokens app numbered]. change (flat_map tokens l) with (written l). rewrite W.
    eapply Step_yields; [apply number_step; auto|]. eapply Step_yields; [apply pushed_step|]. rewrite <- W.
    apply (IH (Some (decimal (text n), e_line (dt d)))). discriminate.
Qed.
End Lines.

(** Every source of text and #line directives is delivered with the line numbers C gives
    it. Missing: the file name a directive may give, numbers that come from macros, other
    directives, and a second directive without a file name. *)
Theorem line_numbers_partial : forall m fs search p ms l, proper false l ->
  exists K, forall k n, (K <= k)%nat -> (K <= n)%nat -> directives_all k n m fs search (dstart p ms (written l)) = Some (Ok (numbered None l)).
Proof.
  intros m fs search p ms l P. destruct (yields_all _ _ _ _ _ (lines_yield m fs search p ms false l P None (fun _ => eq_refl))) as (K & N & H).
  exists (S (K + N)). intros k n Hk Hn. rewrite <- (H k n) by lia. destruct k; [lia|]. reflexivity.
Qed.
Print Assumptions line_numbers_partial.

Definition tok (f : bool) (line k : Z) (s : list Z) : dtok := {| dt := {| e_type := k; e_str := s; e_ws := false; e_wsa := false; e_line := line; e_hs := [] |}; fol := f |}.
Definition directive (line : Z) (num : string) (name : option dtok) : litem :=
  Line (tok true line PP_DIRECTIVE (chars "#")) (tok false line T_IDENT (chars "line")) (tok false line T_NUM (chars num)) name.
Definition C85_source : list litem := [Text (tok true 1 T_IDENT (chars "a")); directive 2 "100" None; Text (tok true 3 T_IDENT (chars "b")); Text (tok true 5 T_IDENT (chars "c"));
  directive 6 "007" (Some (tok false 6 T_STRING (chars """f""" ))); Text (tok true 7 T_IDENT (chars "d")); Text (tok false 7 T_IDENT (chars "e"))].
Example C85_proper : proper false C85_source.
Proof.
  assert (L : forall line num name, Forall (fun c => 48 <= c <= 57) (chars num) -> exists h d n, directive line num name = Line h d n name /\ line_directive h d n).
  { intros line num name F. do 3 eexists. split; [reflexivity|]. repeat split; auto. }
  apply p_text; [discriminate|discriminate|].
  destruct (L 2 "100"%string None ltac:(repeat constructor; cbn; lia)) as (h & d & n & -> & Hl).
  eapply p_number; [exact Hl|reflexivity|reflexivity|]. apply p_text; [discriminate|discriminate|]. apply p_text; [discriminate|discriminate|].
  apply p_named; [repeat split; repeat constructor; cbn; lia|reflexivity|reflexivity|]. repeat (apply p_text; [discriminate|discriminate|]). apply p_end.
Qed.
Example C85_lines : map (fun t => e_line (dt t)) (numbered None C85_source) = [1; 100; 102; 7; 7]. Proof. reflexivity. Qed.

Definition word (line : Z) (s : string) : dtok := tok true line T_IDENT (chars s).
Definition other (line : Z) (name : string) (args : list dtok) : list dtok := [tok true line PP_DIRECTIVE (chars "#"); tok false line T_IDENT (chars name)] ++ args.
(** The first token after a second directive without a file name gets the previous
    difference twice: 298 and not 200. *)
Theorem second_line_refuted : exists l, (directives_all 9 9 SYSV (fun _ => None) [] (dstart [] minit (written l)) = Some (Ok [word 100 "x"; word 298 "y"])) /\
  numbered None l = [word 100 "x"; word 200 "y"].
Proof.
  exists [directive 1 "100" None; Text (word 2 "x"); directive 3 "200" None; Text (word 4 "y")]. split; vm_compute; reflexivity.
Qed.
Print Assumptions second_line_refuted.
(** So does the first token after a #define: it is read twice. *)
Theorem line_before_define_refuted : exists t,
  directives_all 9 9 SYSV (fun _ => None) [] (dstart [] minit (written [directive 1 "100" (Some (tok false 1 T_STRING (chars """f""")))] ++ other 2 "define" [tok false 2 T_IDENT (chars "A")] ++ [word 3 "y"])) = Some (Ok [t]) /\
  e_line (dt t) = 199.
Proof. eexists. split; vm_compute; reflexivity. Qed.
Print Assumptions line_before_define_refuted.
(** #include ends the renumbering, in the file that has it too. *)
Theorem line_before_include_refuted : exists x t,
  directives_all 9 9 SYSV (fun _ => Some [word 1 "x"]) [] (dstart [] minit (written [directive 1 "100" (Some (tok false 1 T_STRING (chars """f""")))] ++
    other 2 "include" [tok false 2 PP_HEADER_NAME_Q (chars """h""")] ++ [word 3 "y"])) = Some (Ok [x; t]) /\
  text t = chars "y" /\ e_line (dt t) = 3.
Proof. do 2 eexists. split; [vm_compute; reflexivity|split; reflexivity]. Qed.
Print Assumptions line_before_include_refuted.
(** A directive without a file name on the last line is refused. *)
Theorem line_at_the_end_refuted : directives_all 9 9 SYSV (fun _ => None) [] (dstart [] minit (word 1 "x" :: written [directive 2 "100" None])) = Some Fail.
Proof. vm_compute. reflexivity. Qed.
Print Assumptions line_at_the_end_refuted.
