(** C53. Each file-scope object with at least one (tentative or real)
    definition is emitted exactly once, real initialisers win, pure extern
    declarations emit nothing.

    Proved in part: it holds of every sequence of declarations, in any order
    and mixed with declarations in blocks, except when the last declaration of
    an object that is only tentatively defined is an extern one
    (C53_lost_definition_refuted). *)
From Coq Require Import String.
From Verif Require Import Base CharTypes MacroTable MacroTableProofs Labels Tentative TentativeSpec TentativeProofs X86Preserve.
Local Open Scope Z_scope.
Local Open Scope list_scope.

Theorem C53_definitions_partial : forall (l : list event) (vs : list static_var) (x : list Z),
  translation_unit l = Ok vs ->
  c_name x ->
  let ds := declarations_of x l in
  one_linkage ds ->
  one_definition ds ->
  (* a definition proper is the one that counts, whatever is declared before
     or after *)
  (forall d i, In d ds -> d_init d = Some i ->
     exists v, emitted x vs = [v] /\ v_init v = Some i /\ v_global v = external_linkage ds /\ v_align v = d_align d /\
               complete_type (v_type v) /\
               (forall e, In e ds -> complete_type (d_type e) -> v_type v = d_type e) /\
               exists e, In e ds /\ v_type v = complete_by (d_type e) i) /\
  (* an object defined only tentatively, as by its last declaration *)
  (forall before d, (forall e, In e ds -> ~ real e) -> ds = before ++ [d] -> tentative_definition d ->
     exists v, emitted x vs = [v] /\ v_init v = None /\ v_global v = external_linkage ds /\ v_align v = d_align d /\
               (forall e, In e ds -> complete_type (d_type e) -> v_type v = d_type e)) /\
  (* an object that is nowhere defined *)
  ((forall d, In d ds -> ~ real d /\ ~ tentative_definition d) -> emitted x vs = []).
Proof.
  intros l vs x T N ds ONE DEF. unfold translation_unit in T. apply bind_ok in T. destruct T as (st & R & T).
  injection T as <-. pose proof (run_inv x N l [] start st R (inv_start x)) as I. cbn [app] in I.
  destruct I as (A & B). fold ds in A, B.
  assert (RB : forall d, realb d = true <-> real d).
  { intros d. unfold realb, real. destruct (d_init d); split; congruence. }
  split; [|split].
  - intros d i D DI. apply in_split in D. destruct D as (b & a & E).
    assert (RD : real d) by (unfold real; congruence).
    assert (OTHER : forall u, In u (b ++ a) -> realb u = false).
    { intros u U. destruct (realb u) eqn:W; [|reflexivity]. exfalso. apply RB in W. exact (DEF b d a u E RD U W). }
    assert (FI : filter realb ds = [d]).
    { rewrite E, filter_app. cbn [filter]. rewrite (proj2 (RB d) RD).
      assert (NIL : forall k, (forall u, In u k -> realb u = false) -> filter realb k = []).
      { clear. induction k as [|u k IH]; intros H; [reflexivity|]. cbn [filter]. rewrite (H u (or_introl eq_refl)).
        apply IH. intros w W. apply H. right. exact W. }
      rewrite !NIL; [reflexivity| |]; intros u U; apply OTHER; apply in_or_app; auto. }
    rewrite FI in B. inversion B as [|d1 v dl vl MB F2 E1 E2]. subst d1 dl. inversion F2. subst vl.
    destruct (lookup x (symbols st)) as [s|] eqn:L; [|destruct A as (A & _); rewrite A in FI; discriminate].
    destruct A as (ds0 & d0 & A1 & A2 & A3 & A4 & A5 & A6 & A7 & A8).
    assert (SD : s_defined s = true).
    { rewrite A2. apply existsb_exists. exists d. split; [rewrite E; apply in_or_app; right; left; reflexivity|].
      apply RB, RD. }
    exists v. rewrite generate_spec, L, (A4 SD), <- E2. cbn [andb]. rewrite app_nil_r. split; [reflexivity|].
    destruct MB as (M1 & M2 & M3 & M4). destruct (A8 v) as (T1 & T2 & T3); [rewrite <- E2; left; reflexivity|].
    split; [congruence|]. split.
    { rewrite M3. apply ONE; [rewrite E; apply in_or_app; right; left; reflexivity|].
      intros X. unfold real in RD.
      (* extern with an initializer is rejected *)
      clear -R E X RD DI.
      assert (In d ds) as ID by (rewrite E; apply in_or_app; right; left; reflexivity). clear E.
      assert (GO : forall l st st', run l st = Ok st' -> In d (declarations_of x l) -> False).
      { clear -X DI. induction l as [|e l IH]; intros st st' R ID; [destruct ID|].
        cbn [run] in R. apply bind_ok in R. destruct R as (st1 & S & R).
        destruct e as [u|u]; cbn [declarations_of] in ID; [|exact (IH _ _ R ID)].
        destruct (sv_cmp (d_name u) x); [|exact (IH _ _ R ID)].
        destruct ID as [->|ID]; [|exact (IH _ _ R ID)].
        cbn [step] in S. unfold declare in S. cbv zeta in S. apply bind_ok in S. destruct S as (ty & _ & S).
        unfold is_extern in S. rewrite X, DI in S. discriminate. }
      exact (GO _ _ _ R ID). }
    split; [exact M4|]. split; [exact T2|]. split.
    { intros e IE C. rewrite <- T1. exact (A5 e IE C). }
    destruct T3 as (e & u & j & IE & IU & J & TY). exists e. split; [exact IE|].
    assert (u = d).
    { rewrite E in IU. apply in_app_or in IU. destruct IU as [IU|[<-|IU]]; [|reflexivity|];
        exfalso; apply (DEF b d a u E RD); (apply in_or_app; auto) || (unfold real; congruence). }
    subst u. congruence.
  - intros before d NR E TD.
    assert (FI : filter realb ds = []).
    { clear -NR RB. induction ds as [|u k IH]; [reflexivity|]. cbn [filter].
      destruct (realb u) eqn:W; [exfalso; exact (NR u (or_introl eq_refl) (proj1 (RB u) W))|].
      apply IH. intros w I. apply NR. right. exact I. }
    rewrite FI in B. assert (E2 : [] = emitted x (vars st)) by (inversion B; reflexivity).
    destruct (lookup x (symbols st)) as [s|] eqn:L.
    2: { destruct A as (A & _). rewrite A in E. destruct before; discriminate. }
    destruct A as (ds0 & d0 & A1 & A2 & A3 & A4 & A5 & A6 & A7 & A8).
    assert (d0 = d). { rewrite A1 in E. apply app_inj_tail in E. apply E. } subst d0.
    assert (SD : s_defined s = false).
    { rewrite A2. destruct (existsb realb ds) eqn:W; [|reflexivity]. exfalso.
      apply existsb_exists in W. destruct W as (u & U & W). exact (NR u U (proj1 (RB u) W)). }
    destruct (A3 SD) as (T1 & T2 & T3).
    assert (TB : tentb d = true).
    { destruct TD as (TD1 & TD2). unfold tentb, realb, is_extern. rewrite TD1. destruct (d_storage d); try reflexivity. congruence. }
    exists (tentative_var x s). rewrite generate_spec, L, T1, TB, <- E2.
    replace (existsb (fun y => sv_cmp y x) (tentative st)) with true.
    2: { symmetry. apply existsb_exists. exists x. split; [apply A7; congruence|apply sv_cmp_refl]. }
    split; [reflexivity|]. split; [reflexivity|]. cbn [tentative_var v_global v_align v_type]. split.
    { rewrite T2. apply ONE; [rewrite E; apply in_or_app; right; left; reflexivity|apply TD]. }
    split; [exact T3|]. exact A5.
  - intros NO.
    assert (FI : filter realb ds = []).
    { clear -NO RB. induction ds as [|u k IH]; [reflexivity|]. cbn [filter].
      destruct (realb u) eqn:W; [exfalso; exact (proj1 (NO u (or_introl eq_refl)) (proj1 (RB u) W))|].
      apply IH. intros w I. apply NO. right. exact I. }
    rewrite FI in B. assert (E2 : [] = emitted x (vars st)) by (inversion B; reflexivity). rewrite generate_spec, <- E2.
    destruct (lookup x (symbols st)) as [s|] eqn:L; [|reflexivity].
    destruct A as (ds0 & d0 & A1 & A2 & A3 & A4 & A5 & A6 & A7 & A8).
    assert (SD : s_defined s = false).
    { rewrite A2. destruct (existsb realb ds) eqn:W; [|reflexivity]. exfalso.
      apply existsb_exists in W. destruct W as (u & U & W). exact (proj1 (NO u U) (proj1 (RB u) W)). }
    destruct (A3 SD) as (T1 & T2 & T3). rewrite T1.
    assert (I0 : In d0 ds) by (rewrite A1; apply in_or_app; right; left; reflexivity).
    destruct (tentb d0) eqn:TB; [|reflexivity]. exfalso. apply (NO d0 I0).
    unfold tentb in TB. apply andb_true_iff in TB. destruct TB as (TB1 & TB2). split.
    + unfold realb in TB2. destruct (d_init d0); [discriminate|reflexivity].
    + unfold is_extern in TB1. intros X. rewrite X in TB1. discriminate.
Qed.
Print Assumptions C53_definitions_partial.

(** What is missing is not so: an extern declaration after the tentative
    definitions of an object undoes them all, and the object, which C says is
    defined with the value zero, is not emitted. *)
Theorem C53_lost_definition_refuted : forall (l : list event) (vs : list static_var) (x : list Z) before d,
  translation_unit l = Ok vs ->
  c_name x ->
  declarations_of x l = before ++ [d] ->
  (forall e, In e before -> ~ real e) ->
  d_storage d = Extern ->
  emitted x vs = [].
Proof.
  intros l vs x before d T N E NR X. unfold translation_unit in T. apply bind_ok in T. destruct T as (st & R & T).
  injection T as <-. pose proof (run_inv x N l [] start st R (inv_start x)) as I. cbn [app] in I.
  destruct I as (A & B).
  destruct (lookup x (symbols st)) as [s|] eqn:L.
  2: { destruct A as (A & _). rewrite A in E. destruct before; discriminate. }
  destruct A as (ds0 & d0 & A1 & A2 & A3 & A4 & A5 & A6 & A7 & A8).
  assert (ds0 = before /\ d0 = d) as (-> & ->). { rewrite A1 in E. apply app_inj_tail in E. exact E. }
  rewrite generate_spec, L.
  assert (TN : s_tentative s = false).
  { destruct (s_defined s) eqn:SD; [apply A4, eq_refl|]. destruct (A3 eq_refl) as (-> & _).
    unfold tentb, is_extern. rewrite X. reflexivity. }
  rewrite TN. cbn [andb]. rewrite app_nil_r.
  destruct (emitted x (vars st)) as [|v q] eqn:EV; [reflexivity|]. exfalso.
  inversion B as [|u v' k k' MB _ E1 E2]. subst.
  assert (U : In u (filter realb (before ++ [d]))) by (rewrite <- A1, <- E1; left; reflexivity).
  apply filter_In in U. destruct U as (U & W).
  assert (ID : d_init d = None).
  { assert (GO : forall l st st', run l st = Ok st' -> In d (declarations_of x l) -> d_init d = None).
    { clear -X. induction l as [|e l IH]; intros st st' R ID; [destruct ID|].
      cbn [run] in R. apply bind_ok in R. destruct R as (st1 & S & R).
      destruct e as [u|u]; cbn [declarations_of] in ID; [|exact (IH _ _ R ID)].
      destruct (sv_cmp (d_name u) x); [|exact (IH _ _ R ID)].
      destruct ID as [->|ID]; [|exact (IH _ _ R ID)].
      cbn [step] in S. unfold declare in S. cbv zeta in S. apply bind_ok in S. destruct S as (ty & _ & S).
      unfold is_extern in S. rewrite X in S. destruct (d_init d); [discriminate|reflexivity]. }
    apply (GO _ _ _ R). rewrite A1. apply in_or_app. right. left. reflexivity. }
  apply in_app_or in U. destruct U as [U|[<-|[]]].
  - apply (NR u U). unfold realb in W. unfold real. destruct (d_init u); [discriminate|discriminate].
  - unfold realb in W. rewrite ID in W. discriminate.
Qed.
Print Assumptions C53_lost_definition_refuted.

(** Objects of static storage duration declared in blocks: each is emitted
    once, under a label no other has. *)
Theorem C53_block_statics : forall (l : list event) (vs : list static_var),
  translation_unit l = Ok vs ->
  names_ok l ->
  Forall2 (fun d v => v_init v = d_init d /\ v_global v = false /\ v_align v = d_align d)
          (block_statics l) (filter (fun v => hd 0 (v_label v) =? 46) vs) /\
  NoDup (map v_label (filter (fun v => hd 0 (v_label v) =? 46) vs)) /\
  (forall v, In v (filter (fun v => hd 0 (v_label v) =? 46) vs) -> ~ c_name (v_label v)).
Proof.
  intros l vs T N. unfold translation_unit in T. apply bind_ok in T. destruct T as (st & R & T). injection T as <-.
  pose proof (run_blocks l [] start st N R) as I. cbn [app] in I.
  destruct I as (_ & F & U). { split; [reflexivity|]. split; constructor. }
  pose proof (generate_blocks (tentative st) (symbols st) (vars st)
                (tentative_names l start st N R (Forall_nil _))) as G.
  unfold in_blocks in *. rewrite G. split; [|split; [exact U|]].
  - clear -F. induction F as [|a b la lb (A & B & C & _) _ IH]; constructor; auto.
  - intros v V (c & t & E & Q). apply filter_In in V. destruct V as (_ & V). rewrite E in V. cbn [hd] in V.
    apply Z.eqb_eq in V. lia.
Qed.
Print Assumptions C53_block_statics.

(** A translation unit that meets the hypotheses: an array whose length comes
    last, a definition proper among tentative ones, a pure extern declaration,
    a static object defined tentatively, two static objects of one name in
    blocks. *)
Definition decl x s t i : declaration := {| d_name := chars x; d_storage := s; d_type := t; d_init := i; d_align := 0 |}.
Definition unit_example : list event :=
  [AtFile (decl "a" Extern (TIncomplete 1) None); AtFile (decl "a" NoClass (TIncomplete 1) None);
   AtFile (decl "b" NoClass (TComplete 7) None);
   InBlock (decl "a" Static (TComplete 7) None);
   AtFile (decl "b" NoClass (TComplete 7) (Some {| i_id := 5; i_length := 0 |}));
   AtFile (decl "c" Extern (TComplete 7) None);
   AtFile (decl "s" Static (TComplete 7) None); AtFile (decl "s" Extern (TComplete 7) None);
   AtFile (decl "s" Static (TComplete 7) None);
   InBlock (decl "a" Static (TIncomplete 2) (Some {| i_id := 6; i_length := 3 |}));
   AtFile (decl "b" Extern (TComplete 7) None); AtFile (decl "b" NoClass (TComplete 7) None);
   AtFile (decl "a" NoClass (TArray 1 4) None)].
Example C53_meets :
  translation_unit unit_example = Ok
    [{| v_label := chars ".LVAR0a"; v_type := TComplete 7; v_init := None; v_global := false; v_align := 0 |};
     {| v_label := chars "b"; v_type := TComplete 7; v_init := Some {| i_id := 5; i_length := 0 |}; v_global := true; v_align := 0 |};
     {| v_label := chars ".LVAR1a"; v_type := TArray 2 3; v_init := Some {| i_id := 6; i_length := 3 |}; v_global := false; v_align := 0 |};
     {| v_label := chars "a"; v_type := TArray 1 4; v_init := None; v_global := true; v_align := 0 |};
     {| v_label := chars "s"; v_type := TComplete 7; v_init := None; v_global := false; v_align := 0 |}].
Proof. reflexivity. Qed.
Example C53_meets_b : c_name (chars "b") /\ one_linkage (declarations_of (chars "b") unit_example) /\
  one_definition (declarations_of (chars "b") unit_example).
Proof.
  split; [exists 98, []; split; [reflexivity|lia]|]. split.
  - intros d I _. cbn in I. repeat (destruct I as [<-|I]; [reflexivity|]). destruct I.
  - intros b d a u E R I. cbn in E.
    destruct b as [|b0 [|b1 [|b2 [|b3 [|b4 b]]]]]; cbn [app] in E.
    + injection E as <- <-. exfalso. apply R. reflexivity.
    + injection E as <- <- <-. cbn in I. repeat (destruct I as [<-|I]; [intros X; apply X; reflexivity|]). destruct I.
    + injection E as <- <- <- <-. exfalso. apply R. reflexivity.
    + injection E as <- <- <- <- <-. exfalso. apply R. reflexivity.
    + discriminate.
    + destruct b; discriminate.
Qed.
Example C53_meets_blocks : names_ok unit_example.
Proof.
  repeat (constructor; [cbn; eexists; eexists; (split; [reflexivity|lia])|]). constructor.
Qed.

(** int x; extern int x; *)
Example C53_lost :
  translation_unit [AtFile (decl "x" NoClass (TComplete 7) None); AtFile (decl "x" Extern (TComplete 7) None)] = Ok [].
Proof. reflexivity. Qed.
(** int a[]; is defined with an incomplete type, whose size is taken to be -1. *)
Example C53_no_length :
  translation_unit [AtFile (decl "a" NoClass (TIncomplete 7) None)] =
  Ok [{| v_label := chars "a"; v_type := TIncomplete 7; v_init := None; v_global := true; v_align := 0 |}].
Proof. reflexivity. Qed.
