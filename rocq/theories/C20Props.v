(** C20: conditional inclusion. *)
From Coq Require Import String.
From Verif Require Import Base CharTypes Tokens Arch CTypesSpec IntLitSpec MacroTable MacroTableSpec MacroTableProofs Fuel Expander ExpanderSpec
  PPExpr PPExprSpec Directives CondInclSpec CondInclProofs.

(** A well-nested file whose last line is an ordinary one is turned into exactly the
    lines of its selected groups, whatever macros are predefined. Conditions of
    groups that are not reached are never looked at: [selected] says nothing about
    them. Missing: files ending in a #define or null directive, and what [holds]
    leaves out (the departures of C19, function-like macros in conditions). *)
Theorem C20_conditional_inclusion_partial :
  forall m fs search path predefined ms g l env' out,
  no_pragmas predefined -> macro_run minit predefined = Ok ms ->
  written g l -> last_line_ordinary g ->
  selected m (fun n => in_force n predefined None) g env' out ->
  exists K, forall k n, (K <= k)%nat -> (K <= n)%nat ->
    directives_all k n m fs search (dstart path ms l) = Some (Ok out).
Proof.
  intros m fs search path pre ms g l env' out NP R W LL S.
  destruct (run_in_force pre NP minit (fun _ => None) init_tab found_init) as (ms0 & R0 & TI & F). rewrite R in R0. injection R0 as <-.
  destruct (proj1 (selected_yields m fs search path [] []) _ _ _ _ S l [] ms [] W) as (ms' & _ & Y); [split; auto|auto|].
  specialize (Y [] (yields_end _ _ _ _ _ _ _)). rewrite !app_nil_r in Y.
  destruct (yields_all _ _ _ _ _ Y) as (K & N & H). exists (K + N)%nat. intros k n Hk Hn.
  rewrite <- (H k n) by lia. destruct k; [reflexivity|]. reflexivity.
Qed.
Print Assumptions C20_conditional_inclusion_partial.

(** Both restrictions on the last line are needed: the directive loop never ends
    when the last line is a #define ... *)
Definition C20_tok (k : Z) (s : string) (first : bool) : dtok :=
  {| dt := {| e_type := k; e_str := chars s; e_ws := true; e_wsa := true; e_line := 1; e_hs := [] |}; fol := first |}.
Definition C20_hash := C20_tok PP_DIRECTIVE "#" true.
Definition C20_word s := C20_tok T_IDENT s false.
Lemma C20_read_line m p acc n t : fol t = false -> read_line n t acc (mk p [] [] [] m [1]) = None.
Proof. revert t acc. induction n as [|n IH]; intros t acc F; cbn [read_line]; auto. rewrite F. cbn. apply IH. reflexivity. Qed.
Ltac C20_inline := repeat (first [apply Forall_nil | apply Forall_cons; [repeat split; discriminate|]]).
Ltac C20_dir := do 2 eexists; split; [reflexivity|]; split; [split; reflexivity|]; split; [repeat split; reflexivity|C20_inline].
Theorem C20_define_last_refuted :
  exists g l env' out, written g l /\ selected SYSV (fun _ => None) g env' out /\
  forall k n fs search path, directives_all k n SYSV fs search (dstart path minit l) = None.
Proof.
  exists (Line (Def {| d_name := chars "A"; d_func := false; d_vararg := false; d_def := []; d_par := [] |} [C20_word "A"]) Done),
    [C20_hash; C20_word "define"; C20_word "A"]. do 2 eexists. split; [|split].
  - exists [C20_hash; C20_word "define"; C20_word "A"], []. split; [reflexivity|]. split; [|reflexivity]. apply w_def.
    + apply (def_object (C20_word "A") []); [reflexivity|discriminate].
    + C20_dir.
  - apply s_def. apply s_done.
  - intros k n fs search path. destruct k; [reflexivity|]. cbn [directives_all].
    assert (E : directiver_next n SYSV fs search (dstart path minit [C20_hash; C20_word "define"; C20_word "A"]) = None); [|rewrite E; reflexivity].
    destruct n; [reflexivity|]. change (directiver_next (S n) SYSV fs search (dstart path minit [C20_hash; C20_word "define"; C20_word "A"]))
      with (directiver_next (S n) SYSV fs search (mk path [] [] [C20_hash; C20_word "define"; C20_word "A"] minit [1])).
    rewrite dloop_dir by (try split; reflexivity).
    assert (D : directiver_define n (mk path [] [] [C20_word "A"] minit [1]) = None).
    { unfold directiver_define. rewrite next_mk. change (next (mk path [] [] [] minit [1])) with (eoi_dtok, mk path [] [] [] minit [1]). cbn iota beta.
      change ((ty eoi_dtok =? T_LPAR) && negb (e_ws (dt eoi_dtok))) with false. cbn iota. unfold ok at 1. cbn [exbind].
      rewrite C20_read_line by reflexivity. reflexivity. }
    unfold do_directive, top_cond. cbn [conds mk exbind]. 
    change (is_if (C20_word "define")) with false. change (is_elif (C20_word "define")) with false. change (is (C20_word "define") "endif") with false.
    change (is (C20_word "define") "define") with true. change (1 =? 1) with true. cbn iota.
    change {| cur := {| rest := [C20_word "A"]; pushed := []; path := path |}; parents := []; macros := minit; conds := [1]; line_diff := 0; disabled := [] |}
      with (mk path [] [] [C20_word "A"] minit [1]). rewrite D. reflexivity.
Qed.
Print Assumptions C20_define_last_refuted.
(** ... and rejects a null directive on the last line. *)
Theorem C20_null_last_refuted :
  exists g l env' out, written g l /\ selected SYSV (fun _ => None) g env' out /\
  forall k n fs search path, directives_all (S k) (S n) SYSV fs search (dstart path minit l) = Some Fail.
Proof.
  exists (Line Null Done), [C20_hash]. do 2 eexists. split; [|split].
  - exists [C20_hash], []. split; [reflexivity|]. split; [apply w_null; split; reflexivity|reflexivity].
  - apply s_null. apply s_done.
  - reflexivity.
Qed.
Print Assumptions C20_null_last_refuted.

(** A file with nested sections:
      #ifdef B
      x
      #if ( if
      #endif
      # 3
      #elif defined A && A > 1
      y
      #define C 3
      #else
      z
      #endif
      #ifndef C
      w
      #endif
      v
    with A predefined as 2. *)
Definition C20_num s := C20_tok T_NUM s false.
Definition C20_text s := C20_tok T_IDENT s true.
Definition C20_cond : list dtok := [C20_word "defined"; C20_word "A"; C20_tok T_AND "&&" false; C20_word "A"; C20_tok T_G ">" false; C20_num "1"].
Definition C20_defA : define := {| d_name := chars "A"; d_func := false; d_vararg := false; d_par := []; d_def := [to_mtoken (C20_num "2")] |}.
Definition C20_defC : define := {| d_name := chars "C"; d_func := false; d_vararg := false; d_par := []; d_def := [to_mtoken (C20_num "3")] |}.
Definition C20_bad : list dtok := [C20_tok T_LPAR "(" false; C20_word "if"].
Definition C20_group : group :=
  Section_ (CDef (C20_word "B"))
    (Line (Text [C20_text "x"]) (Section_ (CExpr C20_bad) Done Endif (Line (Other [C20_hash; C20_num "3"]) Done)))
    (Elif (CExpr C20_cond) (Line (Text [C20_text "y"]) (Line (Def C20_defC [C20_word "C"; C20_num "3"]) Done)) (Else (Line (Text [C20_text "z"]) Done)))
  (Section_ (CNdef (C20_word "C")) (Line (Text [C20_text "w"]) Done) Endif (Line (Text [C20_text "v"]) Done)).
Definition C20_d (s : string) (args : list dtok) := C20_hash :: C20_word s :: args.
Definition C20_file : list dtok :=
  C20_d "ifdef" [C20_word "B"] ++ [C20_text "x"] ++ C20_d "if" C20_bad ++ C20_d "endif" [] ++ [C20_hash; C20_num "3"] ++
  C20_d "elif" C20_cond ++ [C20_text "y"] ++ C20_d "define" [C20_word "C"; C20_num "3"] ++ C20_d "else" [] ++ [C20_text "z"] ++ C20_d "endif" [] ++
  C20_d "ifndef" [C20_word "C"] ++ [C20_text "w"] ++ C20_d "endif" [] ++ [C20_text "v"].
Ltac C20_text_line := apply w_text; [reflexivity|reflexivity|discriminate|discriminate|C20_inline].
Example C20_written : written C20_group C20_file.
Proof.
  exists (C20_d "ifdef" [C20_word "B"]), ([C20_text "x"] ++ C20_d "if" C20_bad ++ C20_d "endif" [] ++ [C20_hash; C20_num "3"]),
    (C20_d "elif" C20_cond ++ [C20_text "y"] ++ C20_d "define" [C20_word "C"; C20_num "3"] ++ C20_d "else" [] ++ [C20_text "z"] ++ C20_d "endif" []),
    (C20_d "ifndef" [C20_word "C"] ++ [C20_text "w"] ++ C20_d "endif" [] ++ [C20_text "v"]).
  split; [reflexivity|]. split; [C20_dir|]. split; [|split].
  - exists [C20_text "x"], (C20_d "if" C20_bad ++ C20_d "endif" [] ++ [C20_hash; C20_num "3"]). split; [reflexivity|]. split; [C20_text_line|].
    exists (C20_d "if" C20_bad), [], (C20_d "endif" []), [C20_hash; C20_num "3"]. split; [reflexivity|]. split; [C20_dir|]. split; [reflexivity|]. split; [C20_dir|].
    exists [C20_hash; C20_num "3"], []. split; [reflexivity|]. split; [|reflexivity]. apply w_other; [split; reflexivity|C20_inline|].
    intros d r E T. injection E as <- <-. discriminate.
  - exists (C20_d "elif" C20_cond), ([C20_text "y"] ++ C20_d "define" [C20_word "C"; C20_num "3"]), (C20_d "else" [] ++ [C20_text "z"] ++ C20_d "endif" []).
    split; [reflexivity|]. split; [C20_dir|]. split.
    + exists [C20_text "y"], (C20_d "define" [C20_word "C"; C20_num "3"]). split; [reflexivity|]. split; [C20_text_line|].
      exists (C20_d "define" [C20_word "C"; C20_num "3"]), []. split; [reflexivity|]. split; [|reflexivity]. apply w_def; [|C20_dir].
      apply (def_object (C20_word "C") [C20_num "3"]); [reflexivity|]. intros t r E T. injection E as <- <-. discriminate.
    + exists (C20_d "else" []), [C20_text "z"], (C20_d "endif" []). split; [reflexivity|]. split; [C20_dir|]. split; [|C20_dir].
      exists [C20_text "z"], []. split; [reflexivity|]. split; [C20_text_line|reflexivity].
  - exists (C20_d "ifndef" [C20_word "C"]), [C20_text "w"], (C20_d "endif" []), [C20_text "v"]. split; [reflexivity|]. split; [C20_dir|]. split; [|split; [C20_dir|]].
    + exists [C20_text "w"], []. split; [reflexivity|]. split; [C20_text_line|reflexivity].
    + exists [C20_text "v"], []. split; [reflexivity|]. split; [C20_text_line|reflexivity].
Qed.
Example C20_selected : exists env', selected SYSV (fun n => in_force n [OpDefine C20_defA] None) C20_group env' [C20_text "y"; C20_text "v"] /\
  last_line_ordinary C20_group.
Proof.
  eexists. split; [|exact I]. eapply s_false with (out1 := [C20_text "y"]) (out2 := [C20_text "v"]).
  - reflexivity.
  - apply s_elif_true; [|apply s_text with (l := [C20_text "y"]) (out := []); apply s_def; apply s_done].
    exists [(T_NUM, chars "1"); (T_AND, chars "&&"); (T_IDENT, chars "A"); (T_G, chars ">"); (T_NUM, chars "1")],
      [(T_NUM, chars "1"); (T_AND, chars "&&"); (T_NUM, chars "2"); (T_G, chars ">"); (T_NUM, chars "1")],
      (PBin BLand (PNum true 1) (PBin BGt (PNum true 2) (PNum true 1))), 1.
    assert (LK : forall n d, in_force n [OpDefine C20_defA] None = Some d -> n = chars "A" /\ d = C20_defA).
    { intros n d. cbn [in_force]. destruct (name_dec (d_name C20_defA) n) as [E|E]; [|discriminate]. intros X. injection X as <-. split; [symmetry; exact E|reflexivity]. }
    split; [|split; [|split; [|split; [|split; [|split; [|split; [|split]]]]]]].
    + set (env := fun n => in_force n [OpDefine C20_defA] None).
      change (T_NUM, chars "1") with (one_or_zero (is_macro env (text (C20_word "A")))) at 1.
      apply wd_bare; [reflexivity|discriminate|].
      change [(T_AND, chars "&&"); (T_IDENT, chars "A"); (T_G, chars ">"); (T_NUM, chars "1")]
        with (map (fun t => obs (dt t)) [C20_tok T_AND "&&" false; C20_word "A"; C20_tok T_G ">" false; C20_num "1"]).
      repeat (apply wd_other; [vm_compute; discriminate|]). apply wd_nil.
    + split.
      * intros n d X. apply LK in X. destruct X as [-> ->]. reflexivity.
      * intros n d X _. apply LK in X. destruct X as [-> ->]. apply Forall_cons; [|apply Forall_nil]. split; [split; [discriminate|discriminate]|repeat split; vm_compute; discriminate].
      * exists [chars "A"]. intros n d X. apply LK in X. left. symmetry. apply X.
    + repeat (first [apply Forall_nil | apply Forall_cons; [split; [discriminate|]|]]); try discriminate.
      intros _. split; [vm_compute; discriminate|]. split; [vm_compute; discriminate|]. intros d X. apply LK in X. destruct X as [_ ->]. reflexivity.
    + apply r_keep; [left; discriminate|]. apply r_keep; [left; discriminate|].
      apply (r_replace _ [] (T_IDENT, chars "A") _ C20_defA [(T_NUM, chars "2")]); [reflexivity|intros []|reflexivity| |].
      * apply r_keep; [left; discriminate|apply r_nil].
      * apply r_keep; [left; discriminate|]. apply r_keep; [left; discriminate|apply r_nil].
    + assert (N : forall c v, In c (chars "123456789") -> v = c - 48 -> 0 <= v < 10 -> operand SYSV (T_NUM, [c]) (KNum true v)).
      { intros c v Hc -> Hv. change [c] with ([c] ++ []). replace (c - 48) with (digits_value Dec [c]).
        - replace true with (spec_signed ST_INT) by reflexivity. apply (o_number SYSV Dec [c] [c] [] (false, 0%nat)).
          + apply lit_dec; [exact Hc|constructor].
          + left. reflexivity.
          + unfold digits_value, digit_value. cbn [fold_left]. destruct (c <=? 57) eqn:E; lia.
          + clear -Hc. vm_compute in Hc. repeat (destruct Hc as [<-|Hc]; [reflexivity|]). contradiction.
        - unfold digits_value, digit_value. cbn [fold_left radix_num]. destruct (c <=? 57) eqn:E; lia. }
      repeat apply Forall2_cons; try apply Forall2_nil; try (apply o_op; discriminate); apply N; vm_compute; auto; try (split; [discriminate|reflexivity]).
    + cbn [derivable level binlevel]. lia.
    + cbn [within]. repeat split; intros [X|X]; discriminate.
    + reflexivity.
    + reflexivity.
  - eapply s_false with (out1 := []) (out2 := [C20_text "v"]); [reflexivity|apply s_endif|].
    apply s_text with (l := [C20_text "v"]) (out := []). apply s_done.
Qed.
