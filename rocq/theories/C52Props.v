(** C52: the packing in force. *)
From Coq Require Import String.
From Verif Require Import Base CharTypes Arch CTypesSpec Tokens IntLit IntLitSpec IntLitProofs C07Props Pragma PragmaSpec.
From Coq Require Import Lia.
Local Open Scope Z_scope.
Local Open Scope list_scope.

(** What the code makes of a pragma: a pop forgets a packing and restores none. *)
Definition does (i : pragma) (s : Z * list Z) : Z * list Z :=
  match i with Pop => (fst s, tl (snd s)) | _ => means i s end.
Definition needs_memory (i : pragma) : bool := match i with Push | PushPack _ => true | _ => false end.

Lemma spelled : forall m n t, 0 <= n < 2 ^ 31 -> spells m n t ->
  forall rest p, pack_value m (t :: tok T_RPAR (chars ")") :: rest) p = Ok (set_packing n p, rest).
Proof.
  intros m n t R (r & text & digits & suffix & u & L & I & V & T & ->) rest p.
  unfold pack_value. change (T0 (tok T_NUM (text ++ suffix) :: tok T_RPAR (chars ")") :: rest)) with (tok T_NUM (text ++ suffix)).
  cbn [p_type p_str tok tl]. change (T_NUM =? T_NUM) with true. cbv iota.
  rewrite (C07_integer_literal m r text digits suffix u L I) by (rewrite V; lia). rewrite V.
  destruct (literal_type m r u n) as [ty|]; [|congruence]. cbn [bind].
  assert (E : signed 32 n = n). { unfold signed. rewrite Z.mod_small by lia. change (2 ^ (32 - 1)) with (2 ^ 31). destruct (Z.ltb_spec n (2 ^ 31)); lia. }
  rewrite E. reflexivity.
Qed.
Lemma skip_rest : forall l rest, Forall (fun t => p_first t = false /\ p_type t <> T_EOI) l -> new_line rest -> skip_line (l ++ rest) = rest.
Proof.
  induction l as [|t l IH]; intros rest H N; cbn [app].
  - destruct rest as [|t r]; [reflexivity|]. unfold new_line in N. cbn in N. cbn [skip_line]. rewrite N, Bool.orb_true_r. reflexivity.
  - inversion H as [|? ? [A B] C]; subst. cbn [skip_line]. rewrite A. replace (p_type t =? T_EOI) with false by (symmetry; apply Z.eqb_neq; exact B). apply IH; assumption.
Qed.
Lemma str_eq_refl : forall s, str_eq s s = true.
Proof. intros. unfold str_eq. destruct (list_eq_dec Z.eq_dec s s); congruence. Qed.
Lemma one_pragma : forall m i line rest p, written m i line -> new_line rest -> alloc p <> Freed ->
  exists p', parse_handle_pragma m (line ++ rest) p = Ok (Some (p', rest)) /\
    (current_packing p', pack_stack p') = does i (current_packing p, pack_stack p) /\ alloc p' = (if needs_memory i then Live else alloc p).
Proof.
  intros m i line rest p W N A.
  assert (P : push p = Ok {| pack_stack := current_packing p :: pack_stack p; current_packing := current_packing p; alloc := Live |})
    by (unfold push; destruct (alloc p); congruence).
  destruct W as [n t R S| | |n t R S| |name more NE F].
  - exists (set_packing n p). split; [|split; reflexivity].
    change ((opening ++ [t; tok T_RPAR (chars ")")]) ++ rest) with (opening ++ t :: tok T_RPAR (chars ")") :: rest).
    assert (E := spelled m n t R S rest p). destruct S as (r & text & digits & suffix & u & L & I & V & T & ->).
    unfold parse_handle_pragma. cbn - [pack_value chars str_eq tok]. cbn [tok p_str p_type hash]. rewrite !str_eq_refl. cbn - [pack_value chars]. fold (tok T_NUM (text ++ suffix)). fold (tok T_RPAR (chars ")")).
    rewrite E. reflexivity.
  - exists (set_packing 0 p). split; [reflexivity|split; reflexivity].
  - exists {| pack_stack := current_packing p :: pack_stack p; current_packing := current_packing p; alloc := Live |}. split; [|split; [|reflexivity]].
    + change ((opening ++ [tok T_IDENT (chars "push"); tok T_RPAR (chars ")")]) ++ rest) with (opening ++ tok T_IDENT (chars "push") :: tok T_RPAR (chars ")") :: rest).
      unfold parse_handle_pragma. cbn - [push]. rewrite P. reflexivity.
    + reflexivity.
  - exists (set_packing n {| pack_stack := current_packing p :: pack_stack p; current_packing := current_packing p; alloc := Live |}). split; [|split; [|reflexivity]].
    + change ((opening ++ [tok T_IDENT (chars "push"); tok T_COMMA (chars ","); t; tok T_RPAR (chars ")")]) ++ rest)
        with (opening ++ tok T_IDENT (chars "push") :: tok T_COMMA (chars ",") :: t :: tok T_RPAR (chars ")") :: rest).
      unfold parse_handle_pragma. cbn - [push pack_value]. rewrite P. cbn - [pack_value].
      fold (tok T_RPAR [41]). change (tok T_RPAR [41]) with (tok T_RPAR (chars ")")). rewrite (spelled m n t R S). reflexivity.
    + reflexivity.
  - exists (pop p). split; [reflexivity|split; reflexivity].
  - exists p. split; [|split; [reflexivity|reflexivity]].
    unfold parse_handle_pragma. cbn - [skip_line chars str_eq]. rewrite str_eq_refl. cbn - [skip_line chars str_eq].
    assert (E : str_eq name (chars "pack") = false) by (unfold str_eq; destruct (list_eq_dec Z.eq_dec name (chars "pack")); congruence).
    rewrite E. do 3 f_equal. cbn [skip_line]. change (skip_line ((tok T_IDENT name :: more) ++ rest) = rest). apply skip_rest; [|exact N].
    constructor; [split; [reflexivity|discriminate]|exact F].
Qed.
Lemma line_first : forall m i line, written m i line -> new_line line.
Proof. intros m i line W. destruct W; reflexivity. Qed.
Lemma new_line_app : forall l rest, l <> [] -> new_line l -> new_line (l ++ rest).
Proof. intros [|t l] rest N H; [congruence|exact H]. Qed.
Lemma run_history : forall m h lines rest p, written_all m h lines -> new_line rest -> alloc p <> Freed ->
  exists p', pragmas (length h) m (concat lines ++ rest) p = Ok (p', rest) /\
    (current_packing p', pack_stack p') = fold_left (fun s i => does i s) h (current_packing p, pack_stack p) /\
    alloc p' = (if existsb needs_memory h then Live else alloc p).
Proof.
  intros m. induction h as [|i h IH]; intros lines rest p W N A; inversion W as [|? line ? lines' W1 W2]; subst; cbn [length pragmas concat app].
  - exists p. repeat split.
  - assert (N' : new_line (concat lines' ++ rest)).
    { destruct W2 as [|j line2 h2 lines2 W3 W4]; [exact N|]. cbn [concat]. rewrite <- app_assoc. apply new_line_app; [|exact (line_first _ _ _ W3)].
      destruct W3; discriminate. }
    destruct (one_pragma m i line (concat lines' ++ rest) p W1 N' A) as (p1 & E1 & D1 & A1).
    rewrite <- app_assoc, E1. cbn [bind].
    assert (A1' : alloc p1 <> Freed) by (rewrite A1; destruct (needs_memory i); congruence).
    destruct (IH lines' rest p1 W2 N A1') as (p' & E & D & A2). exists p'. split; [exact E|]. split.
    + rewrite D, D1. reflexivity.
    + rewrite A2, A1. cbn [existsb]. destruct (needs_memory i), (existsb needs_memory h); reflexivity.
Qed.

(** ** The property *)

(** Every history of pragmas is read without a diagnostic, exactly its own tokens
    are consumed, and the remembered packings are as many as they should be. *)
Theorem C52_read_partial : forall m h lines rest, written_all m h lines -> new_line rest ->
  exists p, pragmas (length h) m (concat lines ++ rest) no_packing = Ok (p, rest) /\ length (pack_stack p) = length (snd (history h)).
Proof.
  intros m h lines rest W N. destruct (run_history m h lines rest no_packing W N ltac:(discriminate)) as (p & E & D & _).
  exists p. split; [exact E|]. change (pack_stack p) with (snd (current_packing p, pack_stack p)). rewrite D. clear.
  unfold history. cbn [current_packing pack_stack no_packing].
  assert (G : forall h s s', length (snd s) = length (snd s') -> length (snd (fold_left (fun s i => does i s) h s)) = length (snd (fold_left (fun s i => means i s) h s'))).
  { induction h0 as [|i h0 IH]; intros s s' L; [exact L|]. cbn [fold_left]. apply IH. destruct s as [c l], s' as [c' l']. cbn [snd] in L.
    destruct i; cbn; try (rewrite L; reflexivity); try exact L. destruct l, l'; cbn in *; congruence. }
  apply G. reflexivity.
Qed.
Print Assumptions C52_read_partial.

(** The packing in force is the right one when no pop has anything to restore.
    What is missing: pops that return to another packing. *)
Definition pops_restore_nothing (h : list pragma) : Prop :=
  forall h1 h2, h = h1 ++ Pop :: h2 -> fst (history (h1 ++ [Pop])) = fst (history h1).
Lemma history_snoc : forall h i, history (h ++ [i]) = means i (history h).
Proof. intros. unfold history. rewrite fold_left_app. reflexivity. Qed.
Lemma does_snoc : forall h i s, fold_left (fun s i => does i s) (h ++ [i]) s = does i (fold_left (fun s i => does i s) h s).
Proof. intros. rewrite fold_left_app. reflexivity. Qed.
Lemma agree : forall h, pops_restore_nothing h -> fold_left (fun s i => does i s) h (0, []) = history h.
Proof.
  induction h as [|i h IH] using rev_ind; intros H; [reflexivity|].
  rewrite does_snoc, history_snoc. rewrite IH.
  - destruct i; try reflexivity. cbn [does]. specialize (H h [] eq_refl). rewrite history_snoc in H.
    destruct (history h) as [c [|d t]]; [reflexivity|]. cbn in *. congruence.
  - intros h1 h2 E. apply (H h1 (h2 ++ [i])). rewrite E, <- app_assoc. reflexivity.
Qed.
Theorem C52_packing_partial : forall m h lines rest, written_all m h lines -> new_line rest -> pops_restore_nothing h ->
  exists p, pragmas (length h) m (concat lines ++ rest) no_packing = Ok (p, rest) /\
    current_packing p = fst (history h) /\ pack_stack p = snd (history h).
Proof.
  intros m h lines rest W N R. destruct (run_history m h lines rest no_packing W N ltac:(discriminate)) as (p & E & D & _).
  exists p. split; [exact E|]. cbn [no_packing current_packing pack_stack] in D. rewrite (agree h R) in D.
  destruct (history h) as [c l]. injection D as -> ->. split; reflexivity.
Qed.
Print Assumptions C52_packing_partial.

(** Histories without pop are among them. *)
Example C52_no_pop : forall h, ~ In Pop h -> pops_restore_nothing h.
Proof. intros h N h1 h2 ->. exfalso. apply N. apply in_or_app. right. left. reflexivity. Qed.
Example C52_with_pop : pops_restore_nothing [Pack 4; Push; Pop; Pop; PushPack 1].
Proof.
  intros h1 h2 E.
  destruct h1 as [|a [|b [|c [|d [|e [|f h1]]]]]]; try discriminate E; cbn in E; injection E; intros; subst; try discriminate; try reflexivity.
Qed.

(** A pop never changes the packing in force, after any history: whenever the matching
    push saw another one, what is declared next is laid out wrongly. *)
Theorem C52_pop_refuted : forall m h lines line rest, written_all m h lines -> written m Pop line -> new_line rest ->
  exists p p', pragmas (length h) m (concat lines ++ line ++ rest) no_packing = Ok (p, line ++ rest) /\
    parse_handle_pragma m (line ++ rest) p = Ok (Some (p', rest)) /\ current_packing p' = current_packing p.
Proof.
  intros m h lines line rest W WP N.
  destruct (run_history m h lines (line ++ rest) no_packing W) as (p & E & D & A); [|discriminate|].
  { apply new_line_app; [destruct WP; discriminate|exact (line_first _ _ _ WP)]. }
  destruct (one_pragma m Pop line rest p WP N) as (p' & E' & D' & _); [rewrite A; destruct (existsb needs_memory h); discriminate|].
  exists p, p'. split; [exact E|]. split; [exact E'|]. cbn in D'. congruence.
Qed.
Print Assumptions C52_pop_refuted.
(** After pack(push, 1) and pack(pop) everything stays packed. *)
Example ex_lines : list (list ptok) := [opening ++ [tok T_IDENT (chars "push"); tok T_COMMA (chars ","); tok T_NUM (chars "1"); tok T_RPAR (chars ")")]; opening ++ [tok T_IDENT (chars "pop"); tok T_RPAR (chars ")")]].
Example ex_spells : spells SYSV 1 (tok T_NUM (chars "1")).
Proof.
  exists Dec, (chars "1"), (chars "1"), (chars ""), (false, 0%nat). split; [apply lit_dec; [cbn; auto|apply Forall_nil]|]. split; [left; reflexivity|].
  split; [reflexivity|]. split; [discriminate|reflexivity].
Qed.
Example ex_written : written_all SYSV [PushPack 1; Pop] ex_lines.
Proof. apply Forall2_cons; [apply w_push_pack; [lia|exact ex_spells]|]. apply Forall2_cons; [apply w_pop|apply Forall2_nil]. Qed.
Example ex_stays : fst (history [PushPack 1; Pop]) = 0 /\ match pragmas 2 SYSV (concat ex_lines) no_packing with Ok (p, []) => current_packing p = 1 | _ => False end.
Proof. split; [reflexivity|]. vm_compute. reflexivity. Qed.

(** After a file with a push, the pointer to the remembered packings dangles: a
    push in the next file and the end of the next file are both undefined. *)
Theorem C52_second_file_refuted : forall m h lines, written_all m h lines -> existsb needs_memory h = true ->
  exists p p', pragmas (length h) m (concat lines) no_packing = Ok (p, []) /\ parser_reset p = Ok p' /\
    parser_reset p' = Undef /\ (forall rest, parse_handle_pragma m ((opening ++ [tok T_IDENT (chars "push"); tok T_RPAR (chars ")")]) ++ rest) p' = Undef).
Proof.
  intros m h lines W X. destruct (run_history m h lines [] no_packing W eq_refl ltac:(discriminate)) as (p & E & D & A). rewrite app_nil_r in E. rewrite X in A.
  exists p, {| pack_stack := []; current_packing := 0; alloc := Freed |}. split; [exact E|]. split; [unfold parser_reset; rewrite A; reflexivity|]. split; [reflexivity|].
  intros rest. reflexivity.
Qed.
Print Assumptions C52_second_file_refuted.
