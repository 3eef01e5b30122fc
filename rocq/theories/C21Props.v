(** C21: token look-ahead. *)
From Verif Require Import Base Tokens Expander Lookahead.

(** Specification: the tokens not yet consumed are an infinite sequence; advancing
    drops its head and pushing a token back puts it in front. *)
Definition remaining := nat -> etok.
Definition drop (s : remaining) : remaining := fun i => s (S i).
Definition put_back (t : etok) (s : remaining) : remaining := fun i => match i with O => t | S j => s j end.
Definition after_op (s : remaining) (o : wop) : remaining := match o with Next => drop s | Push t => put_back t s end.
(** Between two tokens pushed back the parser advances at least once. *)
Fixpoint pushes_apart (free : bool) (l : list wop) : Prop :=
  match l with
  | [] => True
  | Next :: r => pushes_apart true r
  | Push _ :: r => free = true /\ pushes_apart false r
  end.

Definition wview (src : nat -> etok) (w : window) : remaining := fun i =>
  match i with
  | O => b0 w | S O => b1 w | S (S O) => b2 w
  | S (S (S j)) => if e_type (wpushed w) =? 0 then src (reads w + j)%nat else match j with O => wpushed w | S k => src (reads w + k)%nat end
  end.
Lemma wrun_view src : (forall i, e_type (src i) <> 0) -> forall l free w s, pushes_apart free l ->
  (free = true -> e_type (wpushed w) = 0) -> e_type (b2 w) <> 0 -> (e_type (b1 w) <> 0 \/ e_type (wpushed w) <> 0) -> (forall i, wview src w i = s i) ->
  exists w', wrun src w l = Ok w' /\ forall i, wview src w' i = fold_left after_op l s i.
Proof.
  intros HS l. induction l as [|o l IH]; intros free w s HP HF H2 H1 HV; cbn [wrun fold_left].
  - exists w. auto.
  - destruct o as [|t]; cbn [wstep bind pushes_apart] in *.
    + apply (IH true); auto.
      * unfold t_next. destruct (negb _); reflexivity.
      * unfold t_next. destruct (negb (e_type (wpushed w) =? 0)) eqn:E; cbn [b2]; [lia|apply HS].
      * unfold t_next. destruct (negb (e_type (wpushed w) =? 0)); cbn [b1]; auto.
      * intros i. cbn [after_op]. unfold drop. rewrite <- HV. unfold t_next, wview.
        destruct (e_type (wpushed w) =? 0) eqn:E; cbn [negb b0 b1 b2 wpushed reads]; change (e_type no_token =? 0) with true; cbn iota;
          destruct i as [|[|[|j]]]; auto; try (f_equal; lia).
    + destruct HP as [-> HP]. specialize (HF eq_refl). unfold t_push. rewrite HF. change (0 =? 0) with true. cbn [negb bind].
      apply (IH false); auto; try discriminate; cbn [b1 b2 wpushed].
      * destruct H1; congruence.
      * intros i. cbn [after_op]. unfold put_back. destruct i as [|i]; [reflexivity|]. rewrite <- HV. unfold wview. cbn [b0 b1 b2 wpushed reads].
        rewrite HF, (proj2 (Z.eqb_neq _ _) H2). change (0 =? 0) with true. cbn iota. destruct i as [|[|[|j]]]; auto.
Qed.

(** For every token source and every history in which tokens are not pushed back
    twice without advancing, the three visible tokens are the next three of the
    remaining sequence. *)
Theorem C21_lookahead :
  forall src history, (forall i, e_type (src i) <> T_NONE) -> pushes_apart true history ->
  exists w, wrun src (window_init src) history = Ok w /\
  forall i, (i <= 2)%nat -> t_peek w i = Ok (fold_left after_op history src i).
Proof.
  intros src l HS HP. destruct (wrun_view src HS l true (window_init src) src HP) as (w & E & V).
  - reflexivity.
  - apply HS.
  - left. apply HS.
  - intros [|[|[|j]]]; reflexivity.
  - exists w. split; auto. intros i Hi. rewrite <- V. destruct i as [|[|[|j]]]; try reflexivity. lia.
Qed.
Print Assumptions C21_lookahead.

(** No token is lost or duplicated: after [k] more advances the first visible token
    is the k-th of the sequence the history leaves. *)
Theorem C21_no_loss :
  forall src history k, (forall i, e_type (src i) <> T_NONE) -> pushes_apart true history ->
  exists w, wrun src (window_init src) (history ++ repeat Next k) = Ok w /\
  t_peek w 0 = Ok (fold_left after_op history src k).
Proof.
  intros src l k HS HP.
  assert (PA : forall l free, pushes_apart free l -> pushes_apart free (l ++ repeat Next k)).
  { clear. induction l as [|[|t] l IH]; cbn [app pushes_apart]; auto.
    - intros free _. revert free. induction k; cbn; auto.
    - intros free [A B]. auto. }
  destruct (C21_lookahead src (l ++ repeat Next k) HS (PA _ _ HP)) as (w & E & V). exists w. split; auto.
  rewrite V by lia. f_equal. rewrite fold_left_app. generalize (fold_left after_op l src) as s. clear.
  induction k as [|k IH]; intros s; cbn [repeat fold_left]; auto. rewrite IH. reflexivity.
Qed.
Print Assumptions C21_no_loss.

(** Pushing a second token back without advancing is diagnosed, never silently lossy. *)
Theorem C21_second_push_diagnosed :
  forall src history w t u, (forall i, e_type (src i) <> T_NONE) -> pushes_apart true history ->
  wrun src (window_init src) (history ++ [Push t]) = Ok w -> t_push w u = Fail.
Proof.
  intros src l w t u HS HP E.
  assert (G : forall l (w0 w : window), e_type (b2 w0) <> 0 -> (e_type (b1 w0) <> 0 \/ e_type (wpushed w0) <> 0) -> wrun src w0 (l ++ [Push t]) = Ok w -> t_push w u = Fail).
  { clear -HS. induction l as [|o l IH]; intros w0 w H2 H1 E; cbn [app wrun wstep] in E.
    - unfold t_push in *. destruct (negb (e_type (wpushed w0) =? 0)); [discriminate|]. cbn [bind] in E. injection E as <-.
      cbn [wpushed]. rewrite (proj2 (Z.eqb_neq _ _) H2). reflexivity.
    - destruct o as [|x]; cbn [wstep] in E.
      + cbn [bind] in E. apply (IH (t_next src w0) w); auto; unfold t_next; destruct (negb (e_type (wpushed w0) =? 0)) eqn:N; cbn [b1 b2]; auto; lia || apply HS.
      + unfold t_push in E at 1. destruct (negb (e_type (wpushed w0) =? 0)) eqn:N; [discriminate|]. cbn [bind] in E.
        refine (IH _ w _ _ E); cbn [b1 b2 wpushed]; auto. destruct H1; auto. lia. }
  apply (G l (window_init src) w); auto. apply HS. left. apply HS.
Qed.
Print Assumptions C21_second_push_diagnosed.

Definition C21_src (i : nat) : etok := {| e_type := 100 + Z.of_nat i; e_str := []; e_ws := false; e_wsa := false; e_line := 0; e_hs := [] |}.
Example C21_nontrivial :
  (forall i, e_type (C21_src i) <> T_NONE) /\ pushes_apart true [Next; Push (C21_src 50); Next; Next; Push (C21_src 51); Next] /\
  exists w, wrun C21_src (window_init C21_src) [Next; Push (C21_src 50); Next; Next; Push (C21_src 51); Next] = Ok w /\
    t_peek w 0 = Ok (C21_src 2) /\ t_peek w 2 = Ok (C21_src 4).
Proof.
  split; [|split].
  - intros i. unfold C21_src, T_NONE. cbn [e_type]. lia.
  - cbn. auto.
  - eexists. split; [vm_compute; reflexivity|]. split; reflexivity.
Qed.
