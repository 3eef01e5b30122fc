(** C24: a block comment ends at the first */ after its opening, a line comment ends at
    the first newline that is not spliced, and a comment counts as white space. *)
From Coq Require Import String.
From Verif Require Import Base CharTypes Tokens Fuel Expander Directives Tokenizer TokenizerSpec TokenizerProofs ScanProofs TilingProofs TokSafeProofs C22Props.
Local Open Scope Z_scope.
Local Open Scope list_scope.

(** Each block comment ends at the first */ after its opening, unless that */ follows
    another star of the comment. *)
Definition ends_right (b : list Z) : Prop := ends_first b \/ occurs (chars "**/") b.

Lemma body_ends b : body b -> ends_right b.
Proof.
  intros B.
  assert (H : forall b, body b -> forall p q, b = p ++ 42 :: 47 :: q -> exists p', p = p' ++ [42]).
  { clear. intros b B. induction B as [|x b Nx B IH|y b Ny B IH]; intros p q E.
    - destruct p; discriminate.
    - destruct p as [|z p]; cbn in E; injection E as E1 E2; [congruence|]. destruct (IH _ _ E2) as [p' ->]. now exists (z :: p').
    - destruct p as [|z p]; cbn in E; injection E as E1 E2; [congruence|].
      destruct p as [|z' p]; cbn in E2; injection E2 as E3 E4; [exists []; cbn; congruence|].
      destruct (IH _ _ E4) as [p' ->]. now exists (z :: z' :: p'). }
  unfold ends_right, ends_first.
  assert (D : forall l : list Z, (exists p q, l = p ++ 42 :: 47 :: q) \/ ~ (exists p q, l = p ++ 42 :: 47 :: q)).
  { clear. induction l as [|x l IH]; [right; intros (p & q & E); destruct p; discriminate|].
    destruct IH as [(p & q & E)|N]; [left; exists (x :: p), q; now rewrite E|].
    destruct (Z.eq_dec x 42) as [->|Nx]; [|right; intros (p & q & E); destruct p as [|z p]; cbn in E; injection E; [congruence|intros; apply N; eauto]].
    destruct l as [|y l]; [right; intros (p & q & E); destruct p as [|z p]; cbn in E; [discriminate|injection E; intros; apply N; eauto]|].
    destruct (Z.eq_dec y 47) as [->|Ny]; [left; now exists [], l|].
    right; intros (p & q & E); destruct p as [|z p]; cbn in E; injection E; [congruence|intros; apply N; eauto]. }
  destruct (D b) as [(p & q & E)|N].
  - right. destruct (H _ B _ _ E) as [p' ->]. exists p', q. rewrite E, <- app_assoc. reflexivity.
  - left. intros (p & q & E). apply N. change (chars "*/") with [42; 47] in E. change (chars "*") with [42] in E.
    destruct (exists_last (l := [42; 47] ++ q) ltac:(discriminate)) as (q' & z & Q). rewrite Q, app_assoc in E. apply app_inj_tail in E as [E Z]. subst z.
    destruct q' as [|a [|b' q']]; cbn in Q; try discriminate. injection Q as <- <- Q. exists p, q'. exact E.
Qed.

(** Comments are white space: the flags of a token tell whether white space or a comment
    comes before it, whether a newline outside of a block comment does, and whether
    white space or a comment follows it. The first token of a source counts as the first
    of its line. A line comment has no newline in it ([gap_line]). *)
Theorem C24_comments_partial src l : source src -> tokenize_input src = Some (Ok l) ->
  tiles ends_right (fun start g nl t x r =>
    (e_ws (dt t) = true <-> start = true \/ g <> []) /\ (fol t = true <-> start = true \/ nl = true) /\ (e_wsa (dt t) = true <-> blank r))
    true l (logical src).
Proof.
  intros S H. apply (tokenize_tiles _ _ _ S) in H. revert H. apply tiles_weaken; [exact body_ends|].
  intros s g nl t x r (_ & _ & Ws & Fl & Wa). split; [|split; [|exact Wa]].
  - rewrite Ws, orb_true_iff. destruct g; cbn; intuition congruence.
  - rewrite Fl, orb_true_iff. tauto.
Qed.
Print Assumptions C24_comments_partial.

(** A */ right after another star of the comment is missed. *)
Theorem C24_star_star_slash_refuted : exists src b r l, source src /\ ends_in_newline src /\ ends_first b /\
  logical src = chars "/*" ++ b ++ chars "*/" ++ r /\ tokenize_input src = Some (Ok l) /\ map text l = [chars "y"] /\
  r = chars " x /* */ y" ++ [10].
Proof.
  exists (chars "/** a **/ x /* */ y" ++ [10]), (chars "* a *"), (chars " x /* */ y" ++ [10]). eexists.
  split; [cbn; repeat constructor; lia|]. split; [right; now exists (chars "/** a **/ x /* */ y")|].
  split. { intros (p & q & E). cbn in E. repeat (destruct p as [|? p]; cbn in E; [discriminate|injection E as _ E]). destruct p; discriminate. }
  split; [reflexivity|]. split; [vm_compute; reflexivity|]. split; vm_compute; reflexivity.
Qed.
Print Assumptions C24_star_star_slash_refuted.
Example C24_unterminated : tokenize_input (chars "/***/ x" ++ [10]) = Some Fail.
Proof. vm_compute. reflexivity. Qed.

Example C24_case : exists l, tokenize_input (chars "a/*b*/c//d" ++ [92; 10] ++ chars "e" ++ [10] ++ chars "f" ++ [10]) = Some (Ok l) /\
  map (fun t => (text t, e_ws (dt t), e_wsa (dt t), fol t)) l =
    [(chars "a", true, true, true); (chars "c", true, true, false); (chars "f", true, true, true)].
Proof. eexists. split; vm_compute; reflexivity. Qed.
