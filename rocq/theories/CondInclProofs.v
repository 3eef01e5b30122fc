(** Proofs about conditional inclusion. *)
From Coq Require Import String.
From Verif Require Import Base CharTypes Tokens Arch CTypesSpec IntLit IntLitSpec IntLitProofs Escape MacroTable MacroTableSpec MacroTableProofs Fuel Expander ExpanderSpec ExpanderProofs
  PPExpr PPExprSpec PPExprProofs PPExprSound C59Props C19Props Directives CondInclSpec.

Lemma shift_line_0 t : shift_line 0 t = t.
Proof. destruct t as [[a b c d e f] g]. unfold shift_line, with_line. cbn [dt fol e_type e_str e_ws e_wsa e_line e_hs]. rewrite Z.add_0_r. reflexivity. Qed.
Lemma is_true t s : text t = chars s -> is t s = true.
Proof. intros H. unfold is. apply sv_cmp_spec. exact H. Qed.
Lemma is_false t s : text t <> chars s -> is t s = false.
Proof. intros H. unfold is. destruct (sv_cmp (text t) (chars s)) eqn:E; auto. apply sv_cmp_spec in E. congruence. Qed.
Lemma is_eq t s u : text t = chars u -> is t s = sv_cmp (chars u) (chars s).
Proof. intros H. unfold is. rewrite H. reflexivity. Qed.

Section Run.
Variables (m : abi) (fs : fsys) (search : list (list Z)) (p : list Z) (ps : list dfile) (dis : list (list Z)).

Definition mk (l : list dtok) (env : mstate) (cs : list Z) : dstate :=
  {| cur := {| rest := l; pushed := []; path := p |}; parents := ps; macros := env; conds := cs; line_diff := 0; disabled := dis |}.
Definition mkp (t : dtok) (l : list dtok) (env : mstate) (cs : list Z) : dstate :=
  {| cur := {| rest := l; pushed := [t]; path := p |}; parents := ps; macros := env; conds := cs; line_diff := 0; disabled := dis |}.
Lemma next_mk t l env cs : next (mk (t :: l) env cs) = (t, mk l env cs).
Proof.
  unfold next, mk. destruct ps; cbn [cur parents line_diff next_in pushed rest]; rewrite shift_line_0; reflexivity.
Qed.
Lemma next_mkp t l env cs : next (mkp t l env cs) = (t, mk l env cs).
Proof.
  unfold next, mkp, mk. destruct ps; cbn [cur parents line_diff next_in pushed rest]; rewrite shift_line_0; reflexivity.
Qed.

Notation dnext n st := (directiver_next n m fs search st).
Notation loop n t st := (dloop n m fs search t st).
Definition Step (st st' : dstate) : Prop := exists c N, forall n, (N <= n)%nat -> dnext (c + n)%nat st = dnext n st'.
Lemma Step_refl st : Step st st.
Proof. exists O, O. reflexivity. Qed.
Lemma Step_trans a b c : Step a b -> Step b c -> Step a c.
Proof.
  intros (c1 & N1 & H1) (c2 & N2 & H2). exists (c1 + c2)%nat, (N1 + N2)%nat. intros n Hn.
  replace (c1 + c2 + n)%nat with (c1 + (c2 + n))%nat by lia. rewrite H1 by lia. apply H2. lia.
Qed.
Definition DN (st : dstate) r : Prop := exists N, forall n, (N <= n)%nat -> dnext n st = Some r.
Lemma Step_DN a b r : Step a b -> DN b r -> DN a r.
Proof.
  intros (c & N1 & H1) (N2 & H2). exists (c + N1 + N2)%nat. intros n Hn.
  replace n with (c + (n - c))%nat by lia. rewrite H1 by lia. apply H2. lia.
Qed.
Inductive yields : dstate -> list dtok -> Prop :=
| y_end st t st1 : DN st (Ok (t, st1)) -> ty t = T_EOI -> yields st []
| y_tok st t st1 out : DN st (Ok (t, st1)) -> ty t <> T_EOI -> yields st1 out -> yields st (t :: out).
Lemma Step_yields a b out : Step a b -> yields b out -> yields a out.
Proof. intros S Y. inversion Y; subst; [eapply y_end|eapply y_tok]; eauto using Step_DN. Qed.
Lemma yields_all st out : yields st out -> exists K N, forall k n, (K <= k)%nat -> (N <= n)%nat ->
  directives_all k n m fs search st = Some (Ok out).
Proof.
  induction 1 as [st t st1 (N & H) E|st t st1 out (N & H) E Y (K & N' & IH)].
  - exists 1%nat, N. intros k n Hk Hn. destruct k; [lia|]. cbn [directives_all]. rewrite H by lia. cbn [exbind].
    rewrite E. reflexivity.
  - exists (S K), (N + N')%nat. intros k n Hk Hn. destruct k; [lia|]. cbn [directives_all]. rewrite H by lia. cbn [exbind].
    rewrite (proj2 (Z.eqb_neq _ _) E). rewrite IH by lia. reflexivity.
Qed.

(** One pass of the loop. *)
Lemma dnext_mk n t l env c cs : dnext n (mk (t :: l) env (c :: cs)) = loop n t (mk l env (c :: cs)).
Proof. unfold directiver_next. cbn [conds mk]. change {| cur := _ |} with (mk (t :: l) env (c :: cs)). rewrite next_mk. reflexivity. Qed.
Lemma dnext_mkp n t l env c cs : dnext n (mkp t l env (c :: cs)) = loop n t (mk l env (c :: cs)).
Proof. unfold directiver_next. cbn [conds mkp]. change {| cur := _ |} with (mkp t l env (c :: cs)). rewrite next_mkp. reflexivity. Qed.
Lemma pushed_same n t l env c cs : dnext n (mkp t l env (c :: cs)) = dnext n (mk (t :: l) env (c :: cs)).
Proof. rewrite dnext_mk, dnext_mkp. reflexivity. Qed.

Lemma DN_text t l env cs : ty t <> PP_DIRECTIVE -> DN (mk (t :: l) env (1 :: cs)) (Ok (t, mk l env (1 :: cs))).
Proof.
  intros H. exists 1%nat. intros n Hn. destruct n; [lia|]. rewrite dnext_mk. cbn [dloop top_cond conds mk exbind].
  rewrite (proj2 (Z.eqb_neq _ _) H). reflexivity.
Qed.
Lemma yields_text l rest env cs out : Forall (fun t => ty t <> PP_DIRECTIVE /\ ty t <> T_EOI) l ->
  yields (mk rest env (1 :: cs)) out -> yields (mk (l ++ rest) env (1 :: cs)) (l ++ out).
Proof.
  intros H Y. induction H as [|t l [H1 H2] _ IH]; auto. cbn [app]. eapply y_tok; eauto. apply DN_text. auto.
Qed.
(** What follows the current position in the input is known: a directive may only
    look past it when it is a whole line. *)
Definition after (l : list dtok) := match l with [] => False | t :: _ => fol t = true /\ (ty t = T_LPAR -> e_ws (dt t) = true) end.

Lemma dnext_next n l env c cs : 
  (let '(t, st) := next (mk l env (c :: cs)) in loop n t st) = dnext n (mk l env (c :: cs)).
Proof. reflexivity. Qed.

(** Tokens of a skipped line. *)
Lemma Step_skip t l env c cs : ty t <> PP_DIRECTIVE -> c <> 1 -> Step (mk (t :: l) env (c :: cs)) (mk l env (c :: cs)).
Proof.
  intros H C. exists 1%nat, O. intros n _. rewrite dnext_mk. cbn [Nat.add dloop top_cond conds mk exbind].
  rewrite (proj2 (Z.eqb_neq _ _) H), (proj2 (Z.eqb_neq _ _) C). cbn [negb orb]. exact (dnext_next n l env c cs).
Qed.
Lemma Step_skip_all l rest env c cs : Forall (fun t => ty t <> PP_DIRECTIVE) l -> c <> 1 ->
  Step (mk (l ++ rest) env (c :: cs)) (mk rest env (c :: cs)).
Proof.
  intros H C. induction H as [|t l H _ IH]; [apply Step_refl|]. cbn [app]. eapply Step_trans; [apply Step_skip; auto|exact IH].
Qed.
Lemma dloop_dir n h d l env c cs : hash_token h -> fol d = false -> ty d = T_IDENT ->
  dnext (S n) (mk (h :: d :: l) env (c :: cs)) =
  (let! (pass, st2) := do_directive n m fs search h d (mk l env (c :: cs)) in
   let '(t', st3) := next st2 in if pass then ok (t', st3) else loop n t' st3).
Proof.
  intros [F H] Fd Hd. rewrite dnext_mk. cbn [dloop top_cond conds mk exbind]. rewrite H, Z.eqb_refl. cbn [negb orb].
  change {| cur := _ |} with (mk (d :: l) env (c :: cs)). rewrite next_mk, Fd, Hd. reflexivity.
Qed.
Lemma Step_null h t l env c cs : hash_token h -> fol t = true -> Step (mk (h :: t :: l) env (c :: cs)) (mk (t :: l) env (c :: cs)).
Proof.
  intros [F H] Ft. exists 1%nat, O. intros n _. rewrite !dnext_mk. cbn [Nat.add dloop top_cond conds mk exbind].
  rewrite H, Z.eqb_refl. cbn [negb orb]. change {| cur := _ |} with (mk (t :: l) env (c :: cs)). rewrite next_mk, Ft. reflexivity.
Qed.
Lemma Step_skip_nonident h d l env c cs : hash_token h -> fol d = false -> ty d <> T_IDENT -> c <> 1 ->
  Step (mk (h :: d :: l) env (c :: cs)) (mk (d :: l) env (c :: cs)).
Proof.
  intros [F H] Fd Hd C. exists 1%nat, O. intros n _. rewrite !dnext_mk. cbn [Nat.add dloop top_cond conds mk exbind].
  rewrite H, Z.eqb_refl. cbn [negb orb]. change {| cur := _ |} with (mk (d :: l) env (c :: cs)).
  rewrite next_mk, Fd, (proj2 (Z.eqb_neq _ _) Hd), (proj2 (Z.eqb_neq _ _) C). reflexivity.
Qed.
(** A directive after which the loop goes on. *)
Lemma Step_dir h d l env c cs l' env' c' cs' N : hash_token h -> fol d = false -> ty d = T_IDENT ->
  (forall n, (N <= n)%nat -> do_directive n m fs search h d (mk l env (c :: cs)) = Some (Ok (false, mk l' env' (c' :: cs')))) ->
  Step (mk (h :: d :: l) env (c :: cs)) (mk l' env' (c' :: cs')).
Proof.
  intros H Fd Hd D. exists 1%nat, N. intros n Hn. cbn [Nat.add]. rewrite dloop_dir by auto. rewrite D by auto. reflexivity.
Qed.
Lemma Step_dirp h d l env c cs t l' env' c' cs' N : hash_token h -> fol d = false -> ty d = T_IDENT ->
  (forall n, (N <= n)%nat -> do_directive n m fs search h d (mk l env (c :: cs)) = Some (Ok (false, mkp t l' env' (c' :: cs')))) ->
  Step (mk (h :: d :: l) env (c :: cs)) (mk (t :: l') env' (c' :: cs')).
Proof.
  intros H Fd Hd D. exists 1%nat, N. intros n Hn. cbn [Nat.add]. rewrite dloop_dir by auto. rewrite D by auto.
  cbn [exbind]. rewrite next_mkp, dnext_mk. reflexivity.
Qed.

(** Directive names. *)
Definition conditional_names : list (list Z) :=
  [chars "if"; chars "ifdef"; chars "ifndef"; chars "elif"; chars "elifdef"; chars "elifndef"; chars "else"; chars "endif"].
Lemma names_other d : ~ In (text d) conditional_names -> is_if d = false /\ is_elif d = false /\ is d "endif" = false.
Proof.
  intros H. unfold is_if, is_elif. rewrite !is_false; auto; intros E; apply H; rewrite E; unfold conditional_names; cbn [In]; auto 20.
Qed.
Ltac name D := repeat rewrite (is_eq _ _ _ D);
  repeat match goal with |- context [sv_cmp (chars ?a) (chars ?b)] => let v := eval vm_compute in (sv_cmp (chars a) (chars b)) in change (sv_cmp (chars a) (chars b)) with v end;
  cbn [orb andb negb].

Lemma do_if_true n h d l env cs nm b st : (nm = "if" \/ nm = "ifdef" \/ nm = "ifndef")%string -> text d = chars nm ->
  evaluate_conditional n m d (mk l env (1 :: cs)) = Some (Ok (b, st)) ->
  do_directive n m fs search h d (mk l env (1 :: cs)) = Some (Ok (false, with_conds st ((if b then 1 else 0) :: conds st))).
Proof.
  intros Hn D E. unfold do_directive, top_cond. cbn [conds mk exbind]. change {| cur := _ |} with (mk l env (1 :: cs)).
  assert (I : is_if d = true) by (unfold is_if; destruct Hn as [->|[->| ->]]; name D; reflexivity).
  rewrite I. change (1 =? 1) with true. cbn iota. rewrite E. reflexivity.
Qed.
Lemma do_if_skipped n h d l env c cs nm : (nm = "if" \/ nm = "ifdef" \/ nm = "ifndef")%string -> text d = chars nm -> c <> 1 ->
  do_directive n m fs search h d (mk l env (c :: cs)) = Some (Ok (false, mk l env (-1 :: c :: cs))).
Proof.
  intros Hn D C. unfold do_directive, top_cond. cbn [conds mk exbind].
  assert (I : is_if d = true) by (unfold is_if; destruct Hn as [->|[->| ->]]; name D; reflexivity).
  rewrite I, (proj2 (Z.eqb_neq _ _) C). reflexivity.
Qed.
Lemma do_elif_eval n h d l env cs nm b st : (nm = "elif" \/ nm = "elifdef" \/ nm = "elifndef" \/ nm = "else")%string -> text d = chars nm ->
  evaluate_conditional n m d (mk l env (0 :: cs)) = Some (Ok (b, st)) ->
  do_directive n m fs search h d (mk l env (0 :: cs)) = Some (Ok (false, set_top st (if b then 1 else 0))).
Proof.
  intros Hn D E. unfold do_directive, top_cond. cbn [conds mk exbind]. change {| cur := _ |} with (mk l env (0 :: cs)).
  assert (I : is_if d = false /\ is_elif d = true) by (unfold is_if, is_elif; destruct Hn as [->|[->|[->| ->]]]; name D; auto).
  destruct I as [-> ->]. change (0 =? 0) with true. cbn iota. rewrite E. reflexivity.
Qed.
Lemma do_elif_done n h d l env c cs nm : (nm = "elif" \/ nm = "elifdef" \/ nm = "elifndef" \/ nm = "else")%string -> text d = chars nm -> c <> 0 ->
  do_directive n m fs search h d (mk l env (c :: cs)) = Some (Ok (false, mk l env (-1 :: cs))).
Proof.
  intros Hn D C. unfold do_directive, top_cond. cbn [conds mk exbind].
  assert (I : is_if d = false /\ is_elif d = true) by (unfold is_if, is_elif; destruct Hn as [->|[->|[->| ->]]]; name D; auto).
  destruct I as [-> ->]. rewrite (proj2 (Z.eqb_neq _ _) C). reflexivity.
Qed.
Lemma do_endif n h d l env c cs : text d = chars "endif" ->
  do_directive n m fs search h d (mk l env (c :: cs)) = Some (Ok (false, mk l env cs)).
Proof.
  intros D. unfold do_directive, top_cond. cbn [conds mk exbind]. unfold is_if, is_elif. name D. reflexivity.
Qed.
Lemma do_other n h d l env c cs : ~ In (text d) conditional_names -> c <> 1 ->
  do_directive n m fs search h d (mk l env (c :: cs)) = Some (Ok (false, mk l env (c :: cs))).
Proof.
  intros D C. unfold do_directive, top_cond. cbn [conds mk exbind]. destruct (names_other d D) as (-> & -> & ->).
  rewrite (proj2 (Z.eqb_neq _ _) C). reflexivity.
Qed.
Lemma do_define n h d l env cs st : text d = chars "define" -> directiver_define n (mk l env (1 :: cs)) = Some (Ok st) ->
  do_directive n m fs search h d (mk l env (1 :: cs)) = Some (Ok (false, st)).
Proof.
  intros D E. unfold do_directive, top_cond. cbn [conds mk exbind]. change {| cur := _ |} with (mk l env (1 :: cs)).
  unfold is_if, is_elif. name D. change (1 =? 1) with true. cbn iota. rewrite E. reflexivity.
Qed.
Lemma do_undef n h d t l env cs env' : text d = chars "undef" -> macro_step env (OpUndef (text t)) = Ok env' ->
  do_directive n m fs search h d (mk (t :: l) env (1 :: cs)) = Some (Ok (false, mk l env' (1 :: cs))).
Proof.
  intros D E. unfold do_directive, top_cond. cbn [conds mk exbind]. change {| cur := _ |} with (mk (t :: l) env (1 :: cs)).
  unfold is_if, is_elif. name D. change (1 =? 1) with true. cbn iota. rewrite next_mk. cbn [macros mk]. rewrite E. reflexivity.
Qed.

(** Skipped groups. *)
Lemma inline_pp t : inline t -> ty t <> PP_DIRECTIVE. Proof. intros (_ & H & _). exact H. Qed.
Lemma inline_all l : Forall inline l -> Forall (fun t => ty t <> PP_DIRECTIVE) l.
Proof. intros H. eapply Forall_impl; [|exact H]. exact inline_pp. Qed.

Lemma Step_cond_skipped first c l rest env k cs : written_cond first c l -> (first = true -> k <> 1) ->
  (first = false -> k <> 0) ->
  Step (mk (l ++ rest) env (k :: cs)) (mk rest env (if first then -1 :: k :: cs else -1 :: cs)).
Proof.
  intros W K K0.
  assert (X : exists nm args, directive nm args l /\ (first = true -> nm = "if" \/ nm = "ifdef" \/ nm = "ifndef")%string /\
     (first = false -> nm = "elif" \/ nm = "elifdef" \/ nm = "elifndef" \/ nm = "else")%string).
  { destruct c, first; cbn in W; do 2 eexists; (split; [exact W|]); split; intros; try discriminate; auto. }
  destruct X as (nm & args & (h & d & -> & Hh & (Fd & Td & Xd) & Fa) & N1 & N2). cbn [app].
  destruct first.
  - eapply Step_trans.
    + eapply (Step_dir _ _ _ _ _ _ _ _ _ _ O); auto. intros n _. eapply do_if_skipped; eauto.
    + apply Step_skip_all; [apply inline_all; auto|discriminate].
  - eapply Step_trans.
    + eapply (Step_dir _ _ _ _ _ _ _ _ _ _ O); auto. intros n _. eapply do_elif_done; eauto.
    + apply Step_skip_all; [apply inline_all; auto|discriminate].
Qed.
Lemma Step_endif l rest env k k' cs : directive "endif" [] l -> Step (mk (l ++ rest) env (k :: k' :: cs)) (mk rest env (k' :: cs)).
Proof.
  intros (h & d & -> & Hh & (Fd & Td & Xd) & _). cbn [app].
  eapply (Step_dir _ _ _ _ _ _ _ _ _ _ O); auto. intros n _. apply do_endif. auto.
Qed.
Lemma Step_else_done l rest env k cs : directive "else" [] l -> k <> 0 -> Step (mk (l ++ rest) env (k :: cs)) (mk rest env (-1 :: cs)).
Proof.
  intros (h & d & -> & Hh & (Fd & Td & Xd) & _) K. cbn [app].
  eapply (Step_dir _ _ _ _ _ _ _ _ _ _ O); auto. intros n _. eapply do_elif_done; eauto.
Qed.

Lemma Step_line_skipped x l rest env k cs : written_line x l -> k <> 1 -> after rest -> Step (mk (l ++ rest) env (k :: cs)) (mk rest env (k :: cs)).
Proof.
  intros W K A.
  assert (DIR : forall nm args, directive nm args l -> ~ In (chars nm) conditional_names -> Step (mk (l ++ rest) env (k :: cs)) (mk rest env (k :: cs))).
  { intros nm args (h & d & -> & Hh & (Fd & Td & Xd) & Fa) NI. cbn [app]. eapply Step_trans.
    - eapply (Step_dir _ _ _ _ _ _ _ _ _ _ O); auto. intros n _. apply do_other; auto. rewrite Xd. auto.
    - apply Step_skip_all; auto. apply inline_all; auto. }
  inversion W; subst.
  - apply Step_skip_all; auto. constructor; auto. apply inline_all; auto.
  - eapply DIR; eauto. vm_compute. intuition discriminate.
  - eapply DIR; eauto. vm_compute. intuition discriminate.
  - destruct rest as [|t r]; [contradiction|]. destruct A as [A _]. cbn [app]. apply Step_null; auto.
  - match goal with H : Forall inline _ |- _ => rename H into FI end.
    destruct l0 as [|d r].
    + destruct rest as [|t r]; [contradiction|]. destruct A as [A _]. cbn [app]. apply Step_null; auto.
    + cbn [app]. inversion FI as [|d' r' (F1 & F2 & F3 & F4) FR]; subst. destruct (Z.eq_dec (ty d) T_IDENT) as [T|T].
      * eapply Step_trans.
        -- eapply (Step_dir _ _ _ _ _ _ _ _ _ _ O); auto. intros n _. apply do_other; eauto.
        -- apply Step_skip_all; auto. apply inline_all; auto.
      * eapply Step_trans; [apply Step_skip_nonident; auto|]. apply (Step_skip_all (d :: r)); auto. apply inline_all. constructor; auto. repeat split; auto.
Qed.

Scheme group_mut := Induction for group Sort Prop with tail_mut := Induction for tail Sort Prop.
Combined Scheme group_tail_ind from group_mut, tail_mut.

Lemma directive_after nm args l rest : directive nm args l -> after (l ++ rest).
Proof. intros (h & d & -> & [F T] & _). split; auto. rewrite T. discriminate. Qed.
Lemma written_cond_after first c l rest : written_cond first c l -> after (l ++ rest).
Proof. destruct c; apply directive_after. Qed.
Lemma written_line_after x l rest : written_line x l -> after (l ++ rest).
Proof.
  intros W; inversion W; subst; try (eapply directive_after; eauto; fail); cbn [app after]; auto;
    match goal with H : hash_token _ |- _ => destruct H as [? T]; split; auto; rewrite T; discriminate end.
Qed.
Lemma written_after g l rest : written g l -> after rest -> after (l ++ rest).
Proof.
  destruct g; cbn [written].
  - intros ->. auto.
  - intros (l1 & l2 & -> & W & _) _. rewrite <- app_assoc. eapply written_line_after; eauto.
  - intros (l1 & l2 & l3 & l4 & -> & W & _) _. rewrite <- app_assoc. eapply written_cond_after; eauto.
Qed.
Lemma written_tail_after t l rest : written_tail t l -> after (l ++ rest).
Proof.
  destruct t; cbn [written_tail].
  - apply directive_after.
  - intros (l1 & l2 & l3 & -> & W & _). rewrite <- app_assoc. eapply directive_after; eauto.
  - intros (l1 & l2 & l3 & -> & W & _). rewrite <- app_assoc. eapply written_cond_after; eauto.
Qed.

Lemma skipped :
  (forall g l rest env k cs, written g l -> k <> 1 -> after rest -> Step (mk (l ++ rest) env (k :: cs)) (mk rest env (k :: cs))) /\
  (forall t l rest env k k' cs, written_tail t l -> k <> 1 -> k <> 0 -> Step (mk (l ++ rest) env (k :: k' :: cs)) (mk rest env (k' :: cs))).
Proof.
  apply group_tail_ind.
  - intros l rest env k cs -> _ _. apply Step_refl.
  - intros x g IH l rest env k cs (l1 & l2 & -> & W1 & W2) K A. rewrite <- app_assoc. eapply Step_trans.
    + apply (Step_line_skipped x l1); auto. eapply written_after; eauto.
    + auto.
  - intros c body IHb t IHt g IHg l rest env k cs (l1 & l2 & l3 & l4 & -> & W1 & W2 & W3 & W4) K A. rewrite <- !app_assoc.
    eapply Step_trans; [apply (Step_cond_skipped true c l1); auto; discriminate|]. cbn iota.
    eapply Step_trans; [apply IHb; auto; [discriminate|eapply written_tail_after; eauto]|].
    eapply Step_trans; [apply IHt; auto; discriminate|]. auto.
  - intros l rest env k k' cs W K K0. apply Step_endif. auto.
  - intros body IHb l rest env k k' cs (l1 & l2 & l3 & -> & W1 & W2 & W3) K K0. rewrite <- !app_assoc.
    eapply Step_trans; [apply Step_else_done; auto|]. eapply Step_trans; [apply IHb; auto; [discriminate|eapply directive_after; eauto]|].
    apply Step_endif. auto.
  - intros c body IHb t IHt l rest env k k' cs (l1 & l2 & l3 & -> & W1 & W2 & W3) K K0. rewrite <- !app_assoc.
    eapply Step_trans; [apply (Step_cond_skipped false c l1); auto; discriminate|]. cbn iota.
    eapply Step_trans; [apply IHb; auto; [discriminate|eapply written_tail_after; eauto]|].
    apply IHt; auto; discriminate.
Qed.

(** The rest of a section after its selected group. *)
Lemma tail_done t l rest env k' cs : written_tail t l -> Step (mk (l ++ rest) env (1 :: k' :: cs)) (mk rest env (k' :: cs)).
Proof.
  destruct t; cbn [written_tail].
  - apply Step_endif.
  - intros (l1 & l2 & l3 & -> & W1 & W2 & W3). rewrite <- !app_assoc.
    eapply Step_trans; [apply Step_else_done; auto; lia|].
    eapply Step_trans; [apply (proj1 skipped body); auto; [discriminate|eapply directive_after; eauto]|]. apply Step_endif. auto.
  - intros (l1 & l2 & l3 & -> & W1 & W2 & W3). rewrite <- !app_assoc.
    eapply Step_trans; [apply (Step_cond_skipped false c l1); auto; discriminate|]. cbn iota.
    eapply Step_trans; [apply (proj1 skipped body); auto; [discriminate|eapply written_tail_after; eauto]|].
    apply (proj2 skipped t); auto; discriminate.
Qed.

(** The macro table against the macros in force. *)
Definition Renv (env : menv) (ms : mstate) : Prop := TabInv (tab ms) /\ forall n, found (tab ms) n = option_map clean (env n).
Lemma Renv_define env ms d : Renv env ms -> exists ms', macro_step ms (OpDefine d) = Ok ms' /\ Renv (now env (d_name d) (Some d)) ms'.
Proof.
  intros [HI HF]. cbn [macro_step]. destruct (add_spec (tab ms) d HI) as (t' & -> & HI' & HF'). cbn [bind]. eexists. split; [reflexivity|].
  split; auto. cbn [tab]. intros n. rewrite HF'. unfold now. destruct (name_dec (d_name d) n) as [E|E], (list_eq_dec Z.eq_dec (d_name d) n); try contradiction; auto.
Qed.
Lemma Renv_undef env ms n : Renv env ms -> exists ms', macro_step ms (OpUndef n) = Ok ms' /\ Renv (now env n None) ms'.
Proof.
  intros [HI HF]. cbn [macro_step]. destruct (remove_spec (tab ms) n HI) as (t' & -> & HI' & HF'). cbn [bind]. eexists. split; [reflexivity|].
  split; auto. cbn [tab]. intros x. rewrite HF'. unfold now. destruct (name_dec n x) as [E|E], (list_eq_dec Z.eq_dec n x); try contradiction; auto.
Qed.
Lemma Renv_defined env ms n st : Renv env ms -> macros st = ms -> is_defined st n = Ok (is_macro env n).
Proof.
  intros [HI HF] <-. unfold is_defined. rewrite get_found by auto. rewrite HF. cbn [bind]. unfold is_macro. destruct (env n); reflexivity.
Qed.
Lemma Renv_lookup env ms n st : Renv env ms -> macros st = ms -> lookup st n = option_map clean (env n).
Proof. intros [HI HF] <-. unfold lookup. rewrite get_found by auto. apply HF. Qed.

(** #define *)
Lemma read_line_mk l : forall n acc x t r ms cs, Forall (fun t => fol t = false) (x :: l) -> fol t = true -> (length l + 2 <= n)%nat ->
  read_line n x acc (mk (l ++ t :: r) ms cs) = Some (Ok (rev acc ++ x :: l, mkp t r ms cs)).
Proof.
  induction l as [|y l IH]; intros n acc x t r ms cs F Ft Hn; inversion F as [|x' l' Fx Fl]; subst.
  - destruct n as [|[|n]]; cbn [length] in Hn; try lia. cbn [read_line app]. rewrite Fx, next_mk. cbn [read_line]. rewrite Ft.
    unfold push_back. cbn [mk cur pushed length Nat.ltb Nat.leb exbind rev]. reflexivity.
  - destruct n; cbn [length] in Hn; [lia|]. cbn [read_line app]. rewrite Fx, next_mk. rewrite IH by (auto; lia).
    cbn [rev]. rewrite <- app_assoc. reflexivity.
Qed.
Lemma read_line_all l n t r ms cs : Forall (fun t => fol t = false) l -> fol t = true -> (length l + 2 <= n)%nat ->
  (let '(x, st) := next (mk (l ++ t :: r) ms cs) in read_line n x [] st) = Some (Ok (l, mkp t r ms cs)).
Proof.
  intros F Ft Hn. destruct l as [|x l]; cbn [app].
  - rewrite next_mk. destruct n; [cbn in Hn; lia|]. cbn [read_line]. rewrite Ft. reflexivity.
  - rewrite next_mk. rewrite read_line_mk by (auto; cbn in Hn; lia). reflexivity.
Qed.
Lemma read_params_mk pl v l : parameters pl v l -> forall n first acc r ms cs, (length l < n)%nat -> (first = false -> pl = [] -> v = true) ->
  read_params n first acc (mk (l ++ r) ms cs) = Some (Ok (rev acc ++ pl, v, mk r ms cs)) \/
  (first = true /\ pl = [] /\ v = false /\ read_params n first acc (mk (l ++ r) ms cs) = Some (Ok ([], false, mk r ms cs))).
Proof.
  unfold token_is. induction 1 as [x E|e x E E'|q x E E'|q c pl v l E E' P IH C]; unfold token_is in *; intros n first acc r ms cs Hn NE.
  - destruct n; [lia|]. cbn [read_params app]. rewrite next_mk, E. destruct first; cbn [andb].
    + right. repeat split; auto.
    + specialize (NE eq_refl eq_refl). discriminate.
  - destruct n; [lia|]. left. cbn [read_params app]. rewrite next_mk, E. change (T_ELLIPSIS =? T_RPAR) with false. rewrite Bool.andb_false_r.
    change (T_ELLIPSIS =? T_ELLIPSIS) with true. cbn iota. rewrite !next_mk, E'. rewrite app_nil_r. reflexivity.
  - destruct n; [lia|]. left. cbn [read_params app]. rewrite next_mk, E. change (T_IDENT =? T_RPAR) with false. rewrite Bool.andb_false_r.
    change (T_IDENT =? T_ELLIPSIS) with false. change (T_IDENT =? T_IDENT) with true. cbn [negb]. cbn iota. rewrite !next_mk, E'.
    change (T_RPAR =? T_RPAR) with true. cbn iota. reflexivity.
  - destruct n; [lia|]. cbn [length] in Hn. left. cbn [read_params app]. rewrite next_mk, E. change (T_IDENT =? T_RPAR) with false. rewrite Bool.andb_false_r.
    change (T_IDENT =? T_ELLIPSIS) with false. change (T_IDENT =? T_IDENT) with true. cbn [negb]. cbn iota. rewrite !next_mk, E'.
    change (T_COMMA =? T_RPAR) with false. change (T_COMMA =? T_COMMA) with true. cbn iota.
    destruct (IH n false (to_mtoken q :: acc) r ms cs) as [->|(D & _)]; [lia|intros _; auto| |discriminate].
    cbn [rev]. rewrite <- app_assoc. reflexivity.
Qed.
Lemma Forall_fol l : Forall inline l -> Forall (fun t => fol t = false) l.
Proof. intros H. eapply Forall_impl; [|exact H]. intros a [F _]. exact F. Qed.
Lemma define_line d args t r ms ms' cs n : definition d args -> Forall inline args -> after (t :: r) ->
  macro_step ms (OpDefine d) = Ok ms' -> (length args + 2 <= n)%nat ->
  directiver_define n (mk (args ++ t :: r) ms cs) = Some (Ok (mkp t r ms' cs)).
Proof.
  intros D F [Ft Fw] M Hn. apply Forall_fol in F. destruct D as [nm b E NP|nm lp pl v l b E El Ew P]; unfold token_is in *;
    inversion F as [|x y F1 F2]; subst; cbn [length app] in *; unfold directiver_define; rewrite next_mk.
  - assert (X : let '(t0, st2) := next (mk (b ++ t :: r) ms cs) in
       ((ty t0 =? T_LPAR) && negb (e_ws (dt t0)) = false) /\ read_line n t0 [] st2 = Some (Ok (b, mkp t r ms cs))).
    { pose proof (read_line_all b n t r ms cs F2 Ft ltac:(lia)) as RL.
      destruct b as [|x b]; cbn [app] in *; rewrite next_mk in *; split; auto.
      - destruct (ty t =? T_LPAR) eqn:EL; auto. apply Z.eqb_eq in EL. rewrite (Fw EL). reflexivity.
      - destruct (ty x =? T_LPAR) eqn:EL; auto. apply Z.eqb_eq in EL. rewrite (NP x b eq_refl EL). reflexivity. }
    destruct (next (mk (b ++ t :: r) ms cs)) as [t0 st2]. destruct X as [-> X].
    cbn [exbind]. unfold ok at 1. cbn [exbind]. rewrite X. cbn [exbind].
    change (macros (mkp t r ms cs)) with ms. rewrite M. reflexivity.
  - inversion F2 as [|x y F3 F4]; subst. apply Forall_app in F4. destruct F4 as [F4 F5].
    rewrite next_mk. rewrite El, Ew. change (T_LPAR =? T_LPAR) with true. cbn [negb andb]. cbn iota.
    rewrite app_length in Hn. rewrite <- app_assoc.
    assert (RP : read_params n true [] (mk (l ++ b ++ t :: r) ms cs) = Some (Ok (pl, v, mk (b ++ t :: r) ms cs))).
    { destruct (read_params_mk pl v l P n true [] (b ++ t :: r) ms cs) as [X|(_ & -> & -> & X)]; auto; [lia|discriminate]. }
    rewrite RP. cbn [exbind].
    pose proof (read_line_all b n t r ms cs F5 Ft ltac:(lia)) as RL.
    destruct (next (mk (b ++ t :: r) ms cs)) as [t0 st2]. unfold ok at 1. cbn [exbind]. rewrite RL. cbn [exbind].
    change (macros (mkp t r ms cs)) with ms. rewrite M. reflexivity.
Qed.

(** #if lines. *)
Lemma if_tokens_mk env ms l l1 t r cs : Renv env ms -> without_defined env l l1 -> Forall inline l -> fol t = true ->
  exists out, map obs out = l1 /\ Forall (fun t => e_hs t = []) out /\
    forall n acc, (length l + 2 <= n)%nat ->
    (let '(x, st) := next (mk (l ++ t :: r) ms cs) in if_tokens n x acc st) = Some (Ok (rev acc ++ out, mkp t r ms cs)).
Proof.
  intros RE W F Ft. revert F. induction W as [|d x l l' D X W IH|d a x b l l' D A B W IH|x l l' D W IH]; intros F; cbn [app length] in *; rewrite next_mk.
  - exists []. split; [reflexivity|]. split; [constructor|]. intros n acc Hn. destruct n; [lia|]. cbn [if_tokens]. rewrite Ft, app_nil_r. reflexivity.
  - inversion F as [|? ? F1 F']; subst. inversion F' as [|? ? F2 F3]; subst.
    destruct (IH F3) as (out & E & H & R).
    exists (num_token (is_macro env (text x)) :: out). split; [|split].
    + cbn [map]. rewrite E. unfold obs, num_token, one_or_zero. cbn [e_type e_str]. destruct (is_macro env (text x)); reflexivity.
    + constructor; auto.
    + intros n acc Hn. destruct n; [lia|]. cbn [if_tokens]. destruct F1 as [-> _]. rewrite (is_true d "defined" D). rewrite next_mk, (proj2 (Z.eqb_neq _ _) X).
      rewrite (Renv_defined env ms) by auto. cbn [exbind].
      destruct (next (mk (l ++ t :: r) ms cs)) as [x0 st0]. rewrite R by lia. cbn [rev]. rewrite <- app_assoc. reflexivity.
  - inversion F as [|? ? F1 F']; subst. inversion F' as [|? ? F2 F'']; subst. inversion F'' as [|? ? F3 F3']; subst. inversion F3' as [|? ? F4 F5]; subst.
   
    destruct (IH F5) as (out & E & H & R).
    exists (num_token (is_macro env (text x)) :: out). split; [|split].
    + cbn [map]. rewrite E. unfold obs, num_token, one_or_zero. cbn [e_type e_str]. destruct (is_macro env (text x)); reflexivity.
    + constructor; auto.
    + intros n acc Hn. destruct n; [lia|]. cbn [if_tokens]. destruct F1 as [-> _]. rewrite (is_true d "defined" D). rewrite next_mk, A. change (T_LPAR =? T_LPAR) with true. cbn iota.
      rewrite next_mk. rewrite (Renv_defined env ms) by auto. cbn [exbind]. rewrite next_mk, B. change (T_RPAR =? T_RPAR) with true. cbn iota.
      destruct (next (mk (l ++ t :: r) ms cs)) as [x0 st0]. rewrite R by lia. cbn [rev]. rewrite <- app_assoc. reflexivity.
  - inversion F as [|? ? F1 F3]; subst.
    destruct (IH F3) as (out & E & H & R).
    exists (dt x :: out). split; [|split].
    + cbn [map]. rewrite E. reflexivity.
    + constructor; auto. destruct F1 as (_ & _ & _ & X). exact X.
    + intros n acc Hn. destruct n; [lia|]. cbn [if_tokens]. destruct F1 as [-> _]. rewrite (is_false x "defined" D).
      destruct (next (mk (l ++ t :: r) ms cs)) as [x0 st0]. rewrite R by lia. cbn [rev]. rewrite <- app_assoc. reflexivity.
Qed.

Lemma clean_mobs d : map mobs (d_def (clean d)) = map mobs (d_def d).
Proof.
  assert (G : forall l l', trimmed l l' -> map mobs l' = map mobs l).
  { intros l l' [L H]. apply nth_ext with (d := (0, [])) (d' := (0, [])); [rewrite !map_length; auto|].
    intros i Hi. rewrite map_length in Hi. destruct (nth_error l' i) as [a|] eqn:Ea; [|apply nth_error_None in Ea; lia].
    destruct (nth_error l i) as [b|] eqn:Eb; [|apply nth_error_None in Eb; lia].
    rewrite (nth_error_nth (map mobs l') i _ (map_nth_error mobs i l' Ea)), (nth_error_nth (map mobs l) i _ (map_nth_error mobs i l Eb)).
    destruct (H i a b Ea Eb) as (A & B & _). unfold mobs. congruence. }
  apply G. apply clean_trimmed.
Qed.
Section Same.
Variables (lk env : list Z -> option define).
Hypothesis L : forall n, lk n = option_map clean (env n).
Lemma same_plain t : plain env t -> plain lk t.
Proof.
  intros [A B]. split; auto. intros E. destruct (B E) as (B1 & B2 & B3). repeat split; auto. intros d. rewrite L.
  destruct (env (snd t)) as [x|]; [|discriminate]. intros X. injection X as <-. exact (B3 x eq_refl).
Qed.
Lemma same_replaced h l out : replaced env h l out -> replaced lk h l out.
Proof.
  induction 1 as [h|h t l out C R IH|h t l d o1 o2 T N E R1 IH1 R2 IH2].
  - constructor.
  - apply r_keep; auto. rewrite L. destruct C as [C|[C|C]]; auto. rewrite C. auto.
  - apply (r_replace lk h t l (clean d)); auto; [rewrite L, E; reflexivity|]. rewrite clean_mobs. exact IH1.
Qed.
Lemma same_table : good_table env -> good_table lk.
Proof.
  intros [A B (names & C)]. split.
  - intros n d. rewrite L. destruct (env n) eqn:E; [|discriminate]. intros X. injection X as <-. apply (A _ _ E).
  - intros n d. rewrite L. destruct (env n) as [x|] eqn:E; [|discriminate]. intros X. injection X as <-. intros Fx.
    specialize (B _ _ E Fx). rewrite <- (Forall_map mobs (fun t => plain env t /\ operator_free t)) in B.
    rewrite <- (Forall_map mobs (fun t => plain lk t /\ operator_free t)), clean_mobs.
    eapply Forall_impl; [|exact B]. intros a [P O]. split; auto. apply same_plain. exact P.
  - exists names. intros n d. rewrite L. destruct (env n) eqn:E; [|discriminate]. intros _. eauto.
Qed.
End Same.

Lemma char_constant c : 32 <= c < 127 -> c <> 39 -> c <> 92 -> escaped_character_constant_to_int [39; c; 39] = Ok c.
Proof.
  intros H A B. assert (G : forallb (fun c => (c =? 39) || (c =? 92) ||
     match escaped_character_constant_to_int [39; c; 39] with Ok v => v =? c | _ => false end) (map (fun i => 32 + Z.of_nat i) (seq 0 95)) = true) by (vm_compute; reflexivity).
  rewrite forallb_forall in G. specialize (G c). rewrite in_map_iff in G.
  assert (I : exists x, 32 + Z.of_nat x = c /\ In x (seq 0 95)) by (exists (Z.to_nat (c - 32)); split; [lia|apply in_seq; lia]).
  specialize (G I). rewrite (proj2 (Z.eqb_neq _ _) A), (proj2 (Z.eqb_neq _ _) B) in G. cbn [orb] in G.
  destruct (escaped_character_constant_to_int [39; c; 39]); try discriminate. apply Z.eqb_eq in G. congruence.
Qed.
Lemma operand_token t k : operand m (obs t) k -> pp_token m t = k.
Proof.
  unfold obs. destruct t as [e_t s w wa li hs]. cbn [e_type e_str]. intros O. unfold pp_token. cbn [e_type e_str].
  inversion O as [r s' digits suffix u t L S V T Eq|c A B C Eq|s' Eq|k' s' A B C Eq]; subst.
  - change (T_NUM =? T_NUM) with true. cbn iota. rewrite (literal_spec m r s' digits suffix u L S V), T.
    assert (I : is_signed t = Ok (spec_signed t)).
    { unfold literal_type in T. apply find_some in T. destruct T as [T _]. clear -T S.
      destruct r; cbn in S; repeat (destruct S as [S|S]; [inversion S; subst; cbn in T; repeat (destruct T as [T|T]; [subst; reflexivity|]); contradiction|]); contradiction. }
    rewrite I. reflexivity.
  - change (T_CHARACTER_CONSTANT =? T_NUM) with false. change (T_CHARACTER_CONSTANT =? T_IDENT) with false.
    change (T_CHARACTER_CONSTANT =? T_CHARACTER_CONSTANT) with true. cbn iota. rewrite char_constant by auto. reflexivity.
  - reflexivity.
  - rewrite (proj2 (Z.eqb_neq _ _) A), (proj2 (Z.eqb_neq _ _) B), (proj2 (Z.eqb_neq _ _) C). reflexivity.
Qed.

Lemma if_line_mk env ms l b t r cs : Renv env ms -> holds m env l b -> Forall inline l -> fol t = true ->
  exists N, forall n, (N <= n)%nat -> if_line n m (mk (l ++ t :: r) ms cs) = Some (Ok (b, mkp t r ms cs)).
Proof.
  intros RE (l1 & l2 & e & v & W & G & P & R & O & D & Wi & V & ->) F Ft.
  set (lk := lookup (mkp t r ms cs)).
  assert (L : forall n, lk n = option_map clean (env n)) by (intros n; apply (Renv_lookup env ms); auto).
  destruct (if_tokens_mk env ms l l1 t r cs RE W F Ft) as (out & E & H & Y).
  assert (Q : Forall (fun t => plain lk (obs t) /\ e_hs t = []) out).
  { rewrite <- E in P. rewrite Forall_map in P. clear -P H L. induction P; inversion H; subst; constructor; auto. split; auto.
    apply (same_plain lk env L). auto. }
  destruct (C59_expand_line lk p out {| ib := []; feed := [] |} (same_table lk env L G) Q) as (f0 & out2 & R2 & X).
  assert (E2 : map obs out2 = l2).
  { rewrite E in R2. eapply replaced_det; [exact R2|]. apply (same_replaced lk env L). exact R. }
  assert (T : map (pp_token m) out2 = spell e).
  { rewrite <- E2 in O. clear -O. revert O. generalize (spell e). induction out2 as [|x xs IH]; intros s O; inversion O; subst; [reflexivity|].
    cbn [map]. f_equal; [apply operand_token; auto|auto]. }
  destruct (C19_value_partial e v D Wi V) as (N & C).
  exists (length l + 2 + f0 + N)%nat. intros n Hn. specialize (Y n [] ltac:(lia)).
  unfold if_line. destruct (next (mk (l ++ t :: r) ms cs)) as [x0 st0]. rewrite Y. cbn [exbind rev app].
  change (path (cur (mkp t r ms cs))) with p. fold lk. rewrite X by lia. cbn [exbind]. rewrite T, C by lia. reflexivity.
Qed.

(** Conditions that are evaluated. *)
Lemma Step_conds h d l env k cs t r env' k' cs' N b : hash_token h -> fol d = false -> ty d = T_IDENT ->
  (forall n, (N <= n)%nat -> exists st, do_directive n m fs search h d (mk l env (k :: cs)) = Some (Ok (b, st)) /\ b = false /\
     (st = mk (t :: r) env' (k' :: cs') \/ st = mkp t r env' (k' :: cs'))) ->
  Step (mk (h :: d :: l) env (k :: cs)) (mk (t :: r) env' (k' :: cs')).
Proof.
  intros H Fd Hd D. exists 1%nat, N. intros n Hn. cbn [Nat.add]. rewrite dloop_dir by auto. destruct (D n Hn) as (st & -> & -> & S).
  cbn [exbind]. rewrite dnext_mk. destruct S as [-> | ->]; [rewrite next_mk|rewrite next_mkp]; reflexivity.
Qed.
Lemma eval_cond first c l rest env ms b cs : written_cond first c l -> Renv env ms -> decides m env c b -> after rest ->
  Step (mk (l ++ rest) ms ((if first then 1 else 0) :: cs))
       (mk rest ms (if first then (if b then 1 else 0) :: 1 :: cs else (if b then 1 else 0) :: cs)).
Proof.
  intros W RE Dc A. set (k := if first then 1 else 0).
  assert (EV : exists nm args h d, l = h :: d :: args /\ hash_token h /\ word (chars nm) d /\
     (if first then nm = "if" \/ nm = "ifdef" \/ nm = "ifndef" else nm = "elif" \/ nm = "elifdef" \/ nm = "elifndef" \/ nm = "else")%string /\
     exists N, forall n, (N <= n)%nat -> exists st, evaluate_conditional n m d (mk (args ++ rest) ms (k :: cs)) = Some (Ok (b, st)) /\
       match rest with t :: r => st = mk rest ms (k :: cs) \/ st = mkp t r ms (k :: cs) | [] => False end).
  { destruct c as [x|x|e], first; cbn in W, Dc; destruct W as (h & d & -> & Hh & Hw & F);
      (do 2 eexists; exists h, d; split; [reflexivity|]; split; [exact Hh|]; split; [exact Hw|]; split; [auto|]);
      destruct rest as [|t r]; try contradiction; destruct A as [A _]; destruct Hw as (_ & _ & T); subst.
    all: try (exists O; intros n _; unfold evaluate_conditional; name T; cbn [app]; rewrite next_mk, (Renv_defined env ms) by auto; cbn [exbind];
              eexists; split; [rewrite ?Bool.negb_involutive; reflexivity|left; reflexivity]).
    - destruct (if_line_mk env ms e b t r (k :: cs) RE Dc F A) as (N & H). exists N. intros n Hn.
      exists (mkp t r ms (k :: cs)). split; auto. unfold evaluate_conditional; name T. apply H. auto.
    - destruct (if_line_mk env ms e b t r (k :: cs) RE Dc F A) as (N & H). exists N. intros n Hn.
      exists (mkp t r ms (k :: cs)). split; auto. unfold evaluate_conditional; name T. apply H. auto. }
  destruct EV as (nm & args & h & d & -> & Hh & (Fd & Td & Xd) & Nm & N & EV).
  destruct rest as [|t r]; [contradiction|]. cbn [app]. subst k. destruct first.
  - apply (Step_conds h d _ ms 1 cs t r ms (if b then 1 else 0) (1 :: cs) N false); auto. intros n Hn. destruct (EV n Hn) as (st & E & S).
    eexists. split; [eapply do_if_true; eauto|]. split; auto. destruct S as [-> | ->]; auto.
  - apply (Step_conds h d _ ms 0 cs t r ms (if b then 1 else 0) cs N false); auto. intros n Hn. destruct (EV n Hn) as (st & E & S).
    eexists. split; [eapply do_elif_eval; eauto|]. split; auto. destruct S as [-> | ->]; auto.
Qed.
Lemma eval_else l rest ms cs : directive "else" [] l -> after rest -> Step (mk (l ++ rest) ms (0 :: cs)) (mk rest ms (1 :: cs)).
Proof.
  intros (h & d & -> & Hh & (Fd & Td & Xd) & _) A. destruct rest as [|t r]; [contradiction|]. cbn [app].
  apply (Step_conds h d _ ms 0 cs t r ms 1 cs O false); auto. intros n _.
  eexists. split; [eapply (do_elif_eval n h d _ _ _ "else" true); auto; unfold evaluate_conditional; name Xd; reflexivity|]. split; auto.
Qed.

Scheme selected_mut := Induction for selected Sort Prop with selected_tail_mut := Induction for selected_tail Sort Prop.
Combined Scheme selected_ind2 from selected_mut, selected_tail_mut.
Lemma written_after' g l rest : written g l -> g <> Done \/ after rest -> after (l ++ rest).
Proof.
  intros W [H|H]; [|eapply written_after; eauto]. destruct g; [contradiction| |]; cbn [written] in W.
  - destruct W as (l1 & l2 & -> & W & _). rewrite <- app_assoc. eapply written_line_after; eauto.
  - destruct W as (l1 & l2 & l3 & l4 & -> & W & _). rewrite <- app_assoc. eapply written_cond_after; eauto.
Qed.
Lemma line_next g x l rest : (x = Null \/ exists d a, x = Def d a) -> after rest \/ last_line_ordinary (Line x g) -> written g l -> after (l ++ rest).
Proof.
  intros X H W. apply (written_after' g); auto. destruct H as [H|H]; auto. left. intros ->. destruct X as [-> |(d & a & ->)]; exact H.
Qed.
Lemma inline_text l : Forall inline l -> Forall (fun t => ty t <> PP_DIRECTIVE /\ ty t <> T_EOI) l.
Proof. intros H. eapply Forall_impl; [|exact H]. intros a (_ & A & B & _). auto. Qed.
Lemma selected_yields :
  (forall env g env' out, selected m env g env' out -> forall l rest ms cs, written g l -> Renv env ms -> after rest \/ last_line_ordinary g ->
     exists ms', Renv env' ms' /\ forall out', yields (mk rest ms' (1 :: cs)) out' -> yields (mk (l ++ rest) ms (1 :: cs)) (out ++ out')) /\
  (forall env t env' out, selected_tail m env t env' out -> forall l rest ms cs, written_tail t l -> Renv env ms ->
     exists ms', Renv env' ms' /\ forall out', yields (mk rest ms' (1 :: cs)) out' -> yields (mk (l ++ rest) ms (0 :: 1 :: cs)) (out ++ out')).
Proof.
  assert (LO : forall x g rest, after rest \/ last_line_ordinary (Line x g) -> after rest \/ last_line_ordinary g).
  { intros x g rest [H|H]; auto. right. destruct g; [exact I| |]; destruct x; exact H. }
  apply (selected_ind2 m (fun env g env' out _ => forall l rest ms cs, written g l -> Renv env ms -> after rest \/ last_line_ordinary g ->
     exists ms', Renv env' ms' /\ forall out', yields (mk rest ms' (1 :: cs)) out' -> yields (mk (l ++ rest) ms (1 :: cs)) (out ++ out'))
     (fun env t env' out _ => forall l rest ms cs, written_tail t l -> Renv env ms ->
     exists ms', Renv env' ms' /\ forall out', yields (mk rest ms' (1 :: cs)) out' -> yields (mk (l ++ rest) ms (0 :: 1 :: cs)) (out ++ out'))).
  - intros env l rest ms cs -> RE _. exists ms. auto.
  - intros env x g env' out _ IH l rest ms cs (l1 & l2 & -> & W1 & W2) RE A.
    destruct (IH l2 rest ms cs W2 RE (LO _ _ _ A)) as (ms' & RE' & Y). exists ms'. split; auto. intros out' Z.
    rewrite <- !app_assoc. inversion W1; subst. apply yields_text; auto. constructor; [auto|]. apply inline_text; auto.
  - intros env d a g env' out _ IH l rest ms cs (l1 & l2 & -> & W1 & W2) RE A.
    destruct (Renv_define env ms d RE) as (ms1 & M & RE1).
    destruct (IH l2 rest ms1 cs W2 RE1 (LO _ _ _ A)) as (ms' & RE' & Y). exists ms'. split; auto. intros out' Z. specialize (Y _ Z).
    pose proof (line_next g (Def d a) l2 rest (or_intror (ex_intro _ d (ex_intro _ a eq_refl))) A W2) as AF.
    rewrite <- app_assoc. inversion W1 as [|d' args l' DF DR| | |]; subst. destruct DR as (h & dd & -> & Hh & (Fd & Td & Xd) & Fa).
    destruct (l2 ++ rest) as [|t r]; [contradiction|]. eapply Step_yields; [|exact Y]. cbn [app].
    apply (Step_dirp h dd _ _ _ _ _ _ _ _ _ (length a + 2)%nat); auto. intros n Hn. apply do_define; auto. eapply define_line; eauto.
  - intros env x g env' out _ IH l rest ms cs (l1 & l2 & -> & W1 & W2) RE A.
    destruct (Renv_undef env ms (text x) RE) as (ms1 & M & RE1).
    destruct (IH l2 rest ms1 cs W2 RE1 (LO _ _ _ A)) as (ms' & RE' & Y). exists ms'. split; auto. intros out' Z. specialize (Y _ Z).
    rewrite <- app_assoc. inversion W1 as [| |n' l' DR| |]; subst. destruct DR as (h & dd & -> & Hh & (Fd & Td & Xd) & Fa).
    eapply Step_yields; [|exact Y]. cbn [app]. apply (Step_dir h dd _ _ _ _ _ _ _ _ O); auto. intros n _. apply do_undef; auto.
  - intros env g env' out _ IH l rest ms cs (l1 & l2 & -> & W1 & W2) RE A.
    destruct (IH l2 rest ms cs W2 RE (LO _ _ _ A)) as (ms' & RE' & Y). exists ms'. split; auto. intros out' Z. specialize (Y _ Z).
    pose proof (line_next g Null l2 rest (or_introl eq_refl) A W2) as AF.
    rewrite <- app_assoc. inversion W1 as [| | |h Hh|]; subst. destruct (l2 ++ rest) as [|t r]; [contradiction|]. destruct AF as [AF _].
    eapply Step_yields; [|exact Y]. apply Step_null; auto.
  - intros env c body t g env1 env' o1 o2 D _ IHb _ IHg l rest ms cs (l1 & l2 & l3 & l4 & -> & W1 & W2 & W3 & W4) RE A.
    destruct (IHb l2 (l3 ++ l4 ++ rest) ms (1 :: cs) W2 RE) as (ms1 & RE1 & Y1); [left; eapply written_tail_after; eauto|].
    destruct (IHg l4 rest ms1 cs W4 RE1) as (ms' & RE' & Y2); [exact A|].
    exists ms'. split; auto. intros out' Z. rewrite <- !app_assoc.
    eapply Step_yields; [apply (eval_cond true c l1 _ env ms true cs W1 RE D); eapply written_after; eauto; eapply written_tail_after; eauto|].
    cbn iota. apply Y1. eapply Step_yields; [apply (tail_done t); auto|]. auto.
  - intros env c body t g env1 env' o1 o2 D _ IHt _ IHg l rest ms cs (l1 & l2 & l3 & l4 & -> & W1 & W2 & W3 & W4) RE A.
    destruct (IHt l3 (l4 ++ rest) ms cs W3 RE) as (ms1 & RE1 & Y1).
    destruct (IHg l4 rest ms1 cs W4 RE1) as (ms' & RE' & Y2); [exact A|].
    exists ms'. split; auto. intros out' Z. rewrite <- !app_assoc.
    eapply Step_yields; [apply (eval_cond true c l1 _ env ms false cs W1 RE D); eapply written_after; eauto; eapply written_tail_after; eauto|].
    cbn iota. eapply Step_yields; [apply (proj1 skipped body); auto; [discriminate|eapply written_tail_after; eauto]|]. auto.
  - intros env l rest ms cs W RE. exists ms. split; auto. intros out' Z. eapply Step_yields; [apply Step_endif; auto|]. auto.
  - intros env body env' out _ IH l rest ms cs (l1 & l2 & l3 & -> & W1 & W2 & W3) RE.
    destruct (IH l2 (l3 ++ rest) ms (1 :: cs) W2 RE) as (ms' & RE' & Y); [left; eapply directive_after; eauto|].
    exists ms'. split; auto. intros out' Z. rewrite <- !app_assoc.
    eapply Step_yields; [apply eval_else; auto; eapply written_after; eauto; eapply directive_after; eauto|].
    apply Y. eapply Step_yields; [apply Step_endif; auto|]. auto.
  - intros env c body t env' out D _ IH l rest ms cs (l1 & l2 & l3 & -> & W1 & W2 & W3) RE.
    destruct (IH l2 (l3 ++ rest) ms (1 :: cs) W2 RE) as (ms' & RE' & Y); [left; eapply written_tail_after; eauto|].
    exists ms'. split; auto. intros out' Z. rewrite <- !app_assoc.
    eapply Step_yields; [apply (eval_cond false c l1 _ env ms true (1 :: cs) W1 RE D); eapply written_after; eauto; eapply written_tail_after; eauto|].
    cbn iota. apply Y. eapply Step_yields; [apply (tail_done t); auto|]. auto.
  - intros env c body t env' out D _ IH l rest ms cs (l1 & l2 & l3 & -> & W1 & W2 & W3) RE.
    destruct (IH l3 rest ms cs W3 RE) as (ms' & RE' & Y).
    exists ms'. split; auto. intros out' Z. rewrite <- !app_assoc.
    eapply Step_yields; [apply (eval_cond false c l1 _ env ms false (1 :: cs) W1 RE D); eapply written_after; eauto; eapply written_tail_after; eauto|].
    cbn iota. eapply Step_yields; [apply (proj1 skipped body); auto; [discriminate|eapply written_tail_after; eauto]|]. auto.
Qed.
End Run.

(** The end of the main file. *)
Lemma yields_end m fs search p dis ms cs : yields m fs search (mk p [] dis [] ms (1 :: cs)) [].
Proof.
  eapply y_end with (t := eoi_dtok); [|reflexivity]. exists 1%nat. intros n Hn. destruct n; [lia|]. reflexivity.
Qed.
