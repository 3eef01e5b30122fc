(** C76: file inclusion. *)
From Coq Require Import String.
From Verif Require Import Base CharTypes Tokens Arch MacroTable MacroTableSpec MacroTableProofs Fuel Expander ExpanderSpec
  Directives CondInclSpec CondInclProofs InclSpec InclProofs C20Props.

(** A source file reaches the macro expander as exactly the lines it stands for:
    every #include line replaced by the lines of the header it names, read with the
    macros and #pragma once in force there, and what the header defines staying in
    force afterwards. Missing: files whose last line is a #define, a null directive or
    an #include naming its header by macros, #line, pragmas other than once, and headers
    that leave an #if section open. *)
Theorem files_stand_for_their_lines_partial :
  forall m fs search path predefined ms g l env' once' out,
  no_pragmas predefined -> macro_run minit predefined = Ok ms ->
  written g l -> ends_well g ->
  included m fs search path (fun n => in_force n predefined None) (fun _ => False) g env' once' out ->
  exists K, forall k n, (K <= k)%nat -> (K <= n)%nat ->
    directives_all k n m fs search (dstart path ms l) = Some (Ok out).
Proof.
  intros m fs search path pre ms g l env' o' out NP R W LL S.
  destruct (run_in_force pre NP minit (fun _ => None) init_tab found_init) as (ms0 & R0 & TI & F). rewrite R in R0. injection R0 as <-.
  destruct (proj1 (included_yields m fs search) _ _ _ _ _ _ _ S [] [] l [] ms [] W) as (ms' & dis' & _ & Y); [split; [split; auto|intros p; split; intros []]|auto|].
  specialize (Y [] (yields_end _ _ _ _ _ _ _)). rewrite !app_nil_r in Y.
  destruct (yields_all _ _ _ _ _ Y) as (K & N & H). exists (K + N)%nat. intros k n Hk Hn.
  rewrite <- (H k n) by lia. destruct k; [reflexivity|]. reflexivity.
Qed.
Print Assumptions files_stand_for_their_lines_partial.

(** A header that is found nowhere stops the compiler. *)
Theorem missing_header_is_rejected :
  forall m fs search from ms h name system l rest k n,
  directive "include" [h] l ->
  (ty h = PP_HEADER_NAME_H /\ angle name (text h) /\ system = true \/ ty h = PP_HEADER_NAME_Q /\ quoted name (text h) /\ system = false) ->
  (forall ps, places search from system name ps -> Forall (fun p => fs p = None) ps) -> (exists ps, places search from system name ps) ->
  directives_all (S k) (S n) m fs search (dstart from ms (l ++ rest)) = Some Fail.
Proof.
  intros m fs search from ms h name system l rest k n (x & d & -> & Hh & (Fd & Td & Xd) & _) NM NO (ps & PL).
  cbn [directives_all app].
  change (directiver_next (S n) m fs search (dstart from ms (x :: d :: h :: rest)))
    with (directiver_next (S n) m fs search (mk from [] [] (x :: d :: h :: rest) ms [1])).
  rewrite dloop_dir by auto. rewrite do_include_line by auto. unfold do_include.
  change (with_line_diff (mk from [] [] (h :: rest) ms [1]) 0) with (mk from [] [] (h :: rest) ms [1]). rewrite next_mk.
  assert (T : (ty h =? PP_HEADER_NAME_H) || (ty h =? PP_HEADER_NAME_Q) = true) by (destruct NM as [(-> & _)|(-> & _)]; reflexivity).
  assert (E : (ty h =? PP_HEADER_NAME_H) = system) by (destruct NM as [(-> & _ & ->)|(-> & _ & ->)]; reflexivity).
  assert (N : inner (text h) = name) by (destruct NM as [(_ & -> & _)|(_ & -> & _)]; apply inner_ends).
  rewrite T, E, N. unfold push_input, input_open. cbn [disabled mk cur Directives.path].
  assert (C : (if system then [] else [firstn (dir_length from 0 0) from ++ name]) ++ map (fun d => d ++ 47 :: name) search = ps).
  { clear -PL. destruct PL as [q|q dd D]; [reflexivity|]. rewrite (directory_is from dd D). reflexivity. }
  rewrite C. specialize (NO _ PL). 
  assert (F : find (fun p => match fs p with Some _ => true | None => false end) ps = None).
  { clear -NO. induction NO as [|p l H _ IH]; [reflexivity|]. cbn [find]. rewrite H. exact IH. }
  rewrite F. reflexivity.
Qed.
Print Assumptions missing_header_is_rejected.

(** #pragma once goes by the name the file was found under: the same file under
    another name is read again. Here a file system in which ./ before a name does not
    change the file it names. *)
Definition C76_quoted s := C20_tok PP_HEADER_NAME_Q s false.
Definition C76_q : string := String (Ascii.ascii_of_nat 34) EmptyString.
Definition C76_name (s : string) : dtok := C76_quoted (String.append C76_q (String.append s C76_q)).
Definition C76_once := C20_d "pragma" [C20_word "once"].
Definition C76_a : list dtok := C76_once ++ [C20_text "x"].
Fixpoint C76_plain (p : list Z) : list Z := match p with 46 :: ((47 :: r) as q) => C76_plain r | _ => p end.
Definition C76_fs : fsys := fun p => if list_eq_dec Z.eq_dec (C76_plain p) (chars "a.h") then Some C76_a else None.
Theorem once_goes_by_name_refuted :
  exists fs l out x, (forall p, fs (chars "./" ++ p) = fs p) /\
  (exists f, fs (chars "a.h") = Some (f ++ [x]) /\ directive "pragma" [C20_word "once"] f) /\
  l = C20_d "include" [C76_name "a.h"] ++ C20_d "include" [C76_name "./a.h"] /\
  directives_all 9 9 SYSV fs [] (dstart (chars "main.c") minit l) = Some (Ok out) /\ out = [x; x].
Proof.
  exists C76_fs. do 2 eexists. exists (C20_text "x"). split; [|split; [|split; [reflexivity|split; [vm_compute; reflexivity|reflexivity]]]].
  - reflexivity.
  - exists C76_once. split; [reflexivity|]. C20_dir.
Qed.
Print Assumptions once_goes_by_name_refuted.

(** src/main.c:                      src/b.h:              include/a.h:      include/c.h:
      #define H "b.h"                  #include <c.h>        #pragma once      z
      #include H                                             #define A
      #include "a.h"                                         x
      #include "a.h"
      #ifdef A
      y
      #endif
    with -I none -I include. *)
Definition C76_str (s : string) : dtok := C20_tok T_STRING (String.append C76_q (String.append s C76_q)) false.
Definition C76_H : define := {| d_name := chars "H"; d_func := false; d_vararg := false; d_par := []; d_def := [to_mtoken (C76_str "b.h")] |}.
Definition C76_A : define := {| d_name := chars "A"; d_func := false; d_vararg := false; d_par := []; d_def := [] |}.
Definition C76_inc (h : dtok) := C20_d "include" [h].
Definition C76_c := C20_tok PP_HEADER_NAME_H "<c.h>" false.
Definition C76_gc : group := Line (Text [C20_text "z"]) Done.
Definition C76_lc : list dtok := [C20_text "z"].
Definition C76_gb : group := Line (Other (C76_inc C76_c)) Done.
Definition C76_lb : list dtok := C76_inc C76_c.
Definition C76_ga : group := Line (Other C76_once) (Line (Def C76_A [C20_word "A"]) (Line (Text [C20_text "x"]) Done)).
Definition C76_la : list dtok := C76_once ++ C20_d "define" [C20_word "A"] ++ [C20_text "x"].
Definition C76_g : group :=
  Line (Def C76_H [C20_word "H"; C76_str "b.h"]) (Line (Other (C76_inc (C20_word "H"))) (Line (Other (C76_inc (C76_name "a.h"))) (Line (Other (C76_inc (C76_name "a.h")))
    (Section_ (CDef (C20_word "A")) (Line (Text [C20_text "y"]) Done) Endif Done)))).
Definition C76_l : list dtok :=
  C20_d "define" [C20_word "H"; C76_str "b.h"] ++ C76_inc (C20_word "H") ++ C76_inc (C76_name "a.h") ++ C76_inc (C76_name "a.h") ++
  C20_d "ifdef" [C20_word "A"] ++ [C20_text "y"] ++ C20_d "endif" [].
Definition C76_files : fsys := fun p =>
  if list_eq_dec Z.eq_dec p (chars "src/b.h") then Some C76_lb else
  if list_eq_dec Z.eq_dec p (chars "include/a.h") then Some C76_la else
  if list_eq_dec Z.eq_dec p (chars "include/c.h") then Some C76_lc else None.
Definition C76_dirs := [chars "none"; chars "include"].
Ltac C76_other := apply w_other; [split; reflexivity|C20_inline|intros d r E T; injection E as <- <-; vm_compute; intuition discriminate].
Ltac C76_line a := exists a; eexists; split; [reflexivity|]; split.
Ltac C76_def s b := apply w_def; [apply (def_object (C20_word s) b); [reflexivity|intros t r E T; try discriminate; injection E as <- <-; discriminate]|C20_dir].
Example C76_written_c : written C76_gc C76_lc. Proof. C76_line [C20_text "z"]; [C20_text_line|reflexivity]. Qed.
Example C76_written_b : written C76_gb C76_lb. Proof. exists (C76_inc C76_c), []. split; [reflexivity|]. split; [C76_other|reflexivity]. Qed.
Example C76_written_a : written C76_ga C76_la.
Proof. C76_line C76_once; [C76_other|]. C76_line (C20_d "define" [C20_word "A"]); [C76_def "A"%string (@nil dtok)|]. C76_line [C20_text "x"]; [C20_text_line|reflexivity]. Qed.
Example C76_written : written C76_g C76_l.
Proof.
  C76_line (C20_d "define" [C20_word "H"; C76_str "b.h"]); [C76_def "H"%string [C76_str "b.h"]|]. do 3 (C76_line (C76_inc (C20_word "H")) || C76_line (C76_inc (C76_name "a.h")); [C76_other|]).
  exists (C20_d "ifdef" [C20_word "A"]), [C20_text "y"], (C20_d "endif" []), []. split; [reflexivity|]. split; [C20_dir|]. split; [|split; [C20_dir|reflexivity]].
  C76_line [C20_text "y"]; [C20_text_line|reflexivity].
Qed.
Example C76_ends : ends_well C76_g /\ ends_well C76_ga /\ ends_well C76_gb /\ ends_well C76_gc.
Proof.
  repeat split. intros (args & (h & d & E & _) & B). injection E as <- <- <-. destruct (B _ _ eq_refl) as [X _]. apply X. reflexivity.
Qed.
Example C76_included : exists env' o', included SYSV C76_files C76_dirs (chars "src/main.c") (fun n => in_force n [] None) (fun _ => False) C76_g env' o'
  [C20_text "z"; C20_text "x"; C20_text "y"].
Proof.
  assert (DIR : directory (chars "src/main.c") (chars "src/")).
  { exists (chars "main.c"). split; [reflexivity|]. split; [vm_compute; intuition discriminate|]. right. exists (chars "src"). reflexivity. }
  assert (HA : header C76_files C76_dirs (chars "src/main.c") false (chars "a.h") (chars "include/a.h") C76_la).
  { exists [chars "src/a.h"; chars "none/a.h"], []. split; [apply (places_quoted C76_dirs (chars "src/main.c") (chars "a.h") (chars "src/") DIR)|].
    split; [repeat constructor|reflexivity]. }
  do 2 eexists. apply i_def.
  apply (i_include SYSV C76_files C76_dirs) with (args := [C20_word "H"]) (system := false) (name := chars "b.h") (p := chars "src/b.h") (lp := C76_lb) (gp := C76_gb)
    (out1 := [C20_text "z"]) (out2 := [C20_text "x"; C20_text "y"]) (env1 := now (fun n => in_force n [] None) (chars "H") (Some C76_H)) (o1 := fun _ => False).
  - C20_dir.
  - set (env := now _ _ _). assert (LK : forall n d, env n = Some d -> n = chars "H" /\ d = C76_H).
    { intros n d. unfold env, now. destruct (list_eq_dec Z.eq_dec _ n) as [E|E]; [|discriminate]. intros X. injection X as <-. split; [symmetry; exact E|reflexivity]. }
    apply n_macros with (s := text (C76_str "b.h")).
    + intros t r E. injection E as <- <-. split; discriminate.
    + split.
      * intros n d X. apply LK in X. destruct X as [-> ->]. reflexivity.
      * intros n d X _. apply LK in X. destruct X as [-> ->]. apply Forall_cons; [|apply Forall_nil]. split; [split; [discriminate|discriminate]|repeat split; vm_compute; discriminate].
      * exists [chars "H"]. intros n d X. apply LK in X. left. symmetry. apply X.
    + apply Forall_cons; [|apply Forall_nil]. split; [discriminate|]. intros _. split; [vm_compute; discriminate|]. split; [vm_compute; discriminate|].
      intros d X. apply LK in X. destruct X as [_ ->]. reflexivity.
    + apply (r_replace env [] (T_IDENT, chars "H") [] C76_H [(T_STRING, text (C76_str "b.h"))] []); [reflexivity|intros []|reflexivity| |apply r_nil].
      apply r_keep; [left; discriminate|apply r_nil].
    + reflexivity.
  - exists [], [chars "none/b.h"; chars "include/b.h"]. split; [|split; [constructor|reflexivity]].
    apply (places_quoted C76_dirs (chars "src/main.c") (chars "b.h") (chars "src/") DIR).
  - intros [].
  - apply C76_written_b.
  - apply C76_ends.
  - apply (i_include SYSV C76_files C76_dirs) with (args := [C76_c]) (system := true) (name := chars "c.h") (p := chars "include/c.h") (lp := C76_lc) (gp := C76_gc)
      (out1 := [C20_text "z"]) (out2 := []) (env1 := now (fun n => in_force n [] None) (chars "H") (Some C76_H)) (o1 := fun _ => False).
    + C20_dir.
    + apply n_angle with (h := C76_c); reflexivity.
    + exists [chars "none/c.h"], []. split; [apply (places_angle C76_dirs)|]. split; [repeat constructor|reflexivity].
    + intros [].
    + apply C76_written_c.
    + apply C76_ends.
    + apply i_text with (l := [C20_text "z"]) (out := []). apply i_done.
    + apply i_done.
  - apply (i_include SYSV C76_files C76_dirs) with (args := [C76_name "a.h"]) (system := false) (name := chars "a.h") (p := chars "include/a.h") (lp := C76_la) (gp := C76_ga)
      (out1 := [C20_text "x"]) (out2 := [C20_text "y"]) (env1 := now (now (fun n => in_force n [] None) (chars "H") (Some C76_H)) (chars "A") (Some C76_A))
      (o1 := fun p => False \/ p = chars "include/a.h").
    + C20_dir.
    + apply n_quoted with (h := C76_name "a.h"); reflexivity.
    + exact HA.
    + intros [].
    + apply C76_written_a.
    + apply C76_ends.
    + apply i_once with (w := C20_word "once"); [C20_dir|reflexivity|]. apply i_def. apply i_text with (l := [C20_text "x"]) (out := []). apply i_done.
    + apply (i_again SYSV C76_files C76_dirs) with (args := [C76_name "a.h"]) (system := false) (name := chars "a.h") (p := chars "include/a.h") (lp := C76_la).
      * C20_dir.
      * apply n_quoted with (h := C76_name "a.h"); reflexivity.
      * exact HA.
      * right. reflexivity.
      * apply i_true with (out1 := [C20_text "y"]) (out2 := []) (env1 := now (now (fun n => in_force n [] None) (chars "H") (Some C76_H)) (chars "A") (Some C76_A))
          (o1 := fun p => False \/ p = chars "include/a.h"); [reflexivity| |apply i_done].
        apply i_text with (l := [C20_text "y"]) (out := []). apply i_done.
Qed.
Example C76_runs : directives_all 9 40 SYSV C76_files C76_dirs (dstart (chars "src/main.c") minit C76_l) = Some (Ok [C20_text "z"; C20_text "x"; C20_text "y"]).
Proof. vm_compute. reflexivity. Qed.
(** A header that is nowhere. *)
Example C76_missing : directive "include" [C76_name "no.h"] (C76_inc (C76_name "no.h")) /\
  (exists ps, places C76_dirs (chars "src/main.c") false (chars "no.h") ps) /\
  (forall ps, places C76_dirs (chars "src/main.c") false (chars "no.h") ps -> Forall (fun p => C76_files p = None) ps).
Proof.
  assert (DIR : directory (chars "src/main.c") (chars "src/")).
  { exists (chars "main.c"). split; [reflexivity|]. split; [vm_compute; intuition discriminate|]. right. exists (chars "src"). reflexivity. }
  split; [C20_dir|]. split; [eexists; apply (places_quoted C76_dirs (chars "src/main.c") (chars "no.h") (chars "src/") DIR)|].
  intros ps P. inversion P as [|n d D]; subst. apply directory_is in D. vm_compute in D. subst d. repeat constructor.
Qed.
