(** Which functions get a graph. *)
From Verif Require Import Base FlowSpec Flow FlowSim FlowProofs.
Local Open Scope nat_scope.

(** Blocks that statements to come may send control to, or end. *)
Inductive slot := SB | SC | SD | SE | SCh (l : nat) | SEn (l : nat).
Definition shut (s : slot) : bool := match s with SE | SEn _ => true | _ => false end.
Definition of_jumps (s : slot) : bool := match s with SB | SC | SD | SE => true | _ => false end.
Definition at_slot (j : jumps) (g : st) (s : slot) : option nat :=
  match s with
  | SB => j_break j
  | SC => j_continue j
  | SD => j_default j
  | SE => j_entry j
  | SCh l => option_map chain (lookup l (labels g))
  | SEn l => match lookup l (labels g) with Some e => if used e then None else Some (end_block e) | None => None end
  end.

Record inv (j : jumps) (g : st) : Prop := {
  i_cur : cur g < next g;
  i_open : term g (cur g) = None;
  i_fresh : forall b, next g <= b -> term g b = None /\ preds g b = 0;
  i_slot : forall s b, at_slot j g s = Some b -> b < next g /\ preds g b <= 1;
  i_shut : forall s b, at_slot j g s = Some b -> shut s = true -> term g b = None /\ b <> cur g;
  i_inj : forall s s' b, at_slot j g s = Some b -> at_slot j g s' = Some b -> s = s'
}.

Definition moves_on (j : jumps) (g : st) (j' : jumps) (g' : st) (s : slot) : Prop :=
  match at_slot j g s with
  | None => at_slot j' g' s = None
  | Some b =>
      (at_slot j' g' s = Some b /\ preds g' b = preds g b) \/
      (at_slot j' g' s <> None /\ (forall s', at_slot j' g' s' <> Some b) /\ preds g' b = S (preds g b))
  end.
Record frame (j : jumps) (g : st) (j' : jumps) (g' : st) : Prop := {
  f_nexts : next g <= next g';
  f_terms : forall b, b < next g -> b <> cur g -> (forall s, shut s = true -> at_slot j g s <> Some b) ->
    term g' b = term g b /\ b <> cur g' /\ forall s, shut s = true -> at_slot j' g' s <> Some b;
  f_predss : forall b, b < next g -> (forall s, at_slot j g s <> Some b) ->
    preds g' b = preds g b /\ forall s, at_slot j' g' s <> Some b;
  f_sb : moves_on j g j' g' SB;
  f_sc : moves_on j g j' g' SC;
  f_orig : forall s b, at_slot j' g' s = Some b -> at_slot j g s = Some b \/ next g <= b
}.

Lemma moves_on_refl j g s : moves_on j g j g s.
Proof. unfold moves_on. destruct (at_slot j g s); auto. Qed.
Lemma frame_refl j g : frame j g j g.
Proof. split; auto using moves_on_refl. Qed.
Lemma moves_on_trans j0 g0 j1 g1 j2 g2 s : inv j0 g0 -> next g0 <= next g1 ->
  (forall b, b < next g1 -> (forall s, at_slot j1 g1 s <> Some b) -> preds g2 b = preds g1 b /\ forall s, at_slot j2 g2 s <> Some b) ->
  moves_on j0 g0 j1 g1 s -> moves_on j1 g1 j2 g2 s -> moves_on j0 g0 j2 g2 s.
Proof.
  intros I N F A B. unfold moves_on in *. destruct (at_slot j0 g0 s) as [b|] eqn:S0.
  - pose proof (i_slot _ _ I _ _ S0) as [L _]. destruct A as [[A1 A2] | (A1 & A2 & A3)].
    + rewrite A1 in B. rewrite <- A2. exact B.
    + destruct (at_slot j1 g1 s) as [b1|] eqn:S1; [|congruence]. right.
      destruct (F b) as [F1 F2]; [lia|exact A2|]. split; [|split; [exact F2|congruence]].
      destruct B as [[B1 _] | (B1 & _)]; congruence.
  - rewrite A in B. exact B.
Qed.
Lemma frame_trans j0 g0 j1 g1 j2 g2 : inv j0 g0 -> frame j0 g0 j1 g1 -> frame j1 g1 j2 g2 -> frame j0 g0 j2 g2.
Proof.
  intros I [A1 A2 A3 A4 A5 A6] [B1 B2 B3 B4 B5 B6]. split.
  - lia.
  - intros b L N S. destruct (A2 b L N S) as (P1 & P2 & P3). destruct (B2 b) as (Q1 & Q2 & Q3); [lia|auto..]. split; [congruence|auto].
  - intros b L S. destruct (A3 b L S) as (P1 & P2). destruct (B3 b) as (Q1 & Q2); [lia|auto..]. split; [congruence|auto].
  - exact (moves_on_trans _ _ _ _ _ _ SB I A1 B3 A4 B4).
  - exact (moves_on_trans _ _ _ _ _ _ SC I A1 B3 A5 B5).
  - intros s b Q. destruct (B6 s b Q) as [Q1|Q1]; [apply A6; exact Q1|right; lia].
Qed.

(** Changes that touch only the current block, the slots, and new blocks. *)
Lemma change j g j' g' : inv j g ->
  next g <= next g' -> cur g' < next g' -> term g' (cur g') = None ->
  (next g <= cur g' \/ exists s, shut s = true /\ at_slot j g s = Some (cur g')) ->
  (forall b, next g' <= b -> term g' b = None /\ preds g' b = 0) ->
  (forall b, b < next g -> b <> cur g -> (forall s, shut s = true -> at_slot j g s <> Some b) -> term g' b = term g b) ->
  (forall b, b < next g -> (forall s, at_slot j g s <> Some b) -> preds g' b = preds g b) ->
  (forall s b, at_slot j' g' s = Some b ->
     (at_slot j g s = Some b /\ preds g' b <= 1 /\ (shut s = true -> term g' b = None)) \/
     (next g <= b /\ b < next g' /\ preds g' b <= 1 /\ (shut s = true -> term g' b = None))) ->
  (forall s b, at_slot j' g' s = Some b -> shut s = true -> b <> cur g') ->
  (forall s s' b, next g <= b -> at_slot j' g' s = Some b -> at_slot j' g' s' = Some b -> s = s') ->
  moves_on j g j' g' SB -> moves_on j g j' g' SC ->
  inv j' g' /\ frame j g j' g'.
Proof.
  intros I N C O CU F T P S S2 IJ M1 M2. split; split; auto.
  - intros s b Q. destruct (S s b Q) as [(A & B & _) | (A & B & D & _)]; [|auto].
    destruct (i_slot _ _ I _ _ A). split; [lia|exact B].
  - intros s b Q SH. split; [|exact (S2 s b Q SH)]. destruct (S s b Q) as [(A & B & D) | (A & B & D & E)]; auto.
  - intros s s' b Q Q'. destruct (Nat.lt_ge_cases b (next g)); [|apply (IJ s s' b); auto].
    destruct (S s b Q) as [(A & _) | (A & _)]; [|lia]. destruct (S s' b Q') as [(A' & _) | (A' & _)]; [|lia].
    exact (i_inj _ _ I _ _ _ A A').
  - intros b L NC SH. split; [exact (T b L NC SH)|]. split.
    + intros ->. destruct CU as [CU|(s & H1 & H2)]; [lia|exact (SH s H1 H2)].
    + intros s H Q. destruct (S s b Q) as [(A & _) | (A & _)]; [exact (SH s H A)|lia].
  - intros b L NS. split; [exact (P b L NS)|]. intros s Q. destruct (S s b Q) as [(A & _) | (A & _)]; [exact (NS s A)|lia].
  - intros s b Q. destruct (S s b Q) as [(A & _) | (A & _)]; auto.
Qed.

(** Changes to blocks that are no slots and are newer than [g]. *)
Lemma later j g j1 g1 g2 : inv j g -> inv j1 g1 -> frame j g j1 g1 ->
  labels g2 = labels g1 -> next g1 <= next g2 -> next g <= cur g2 -> cur g2 < next g2 -> term g2 (cur g2) = None ->
  (forall s, shut s = true -> at_slot j1 g1 s <> Some (cur g2)) ->
  (forall b, next g2 <= b -> term g2 b = None /\ preds g2 b = 0) ->
  (forall b, b <> cur g1 -> (b < next g \/ exists s, shut s = true /\ at_slot j1 g1 s = Some b) -> term g2 b = term g1 b) ->
  (forall b, (b < next g \/ exists s, at_slot j1 g1 s = Some b) -> preds g2 b = preds g1 b) ->
  inv j1 g2 /\ frame j g j1 g2.
Proof.
  intros I0 I FR L N CG C O CS F T P.
  assert (E : forall s, at_slot j1 g2 s = at_slot j1 g1 s) by (intros []; cbn; rewrite ?L; reflexivity).
  destruct FR as [A1 A2 A3 A4 A5 A6].
  assert (MV : forall s, moves_on j g j1 g1 s -> moves_on j g j1 g2 s).
  { intros s M. unfold moves_on in *. rewrite !E. destruct (at_slot j g s) as [b|] eqn:S0; [|exact M].
    destruct M as [[B1 B2] | (B1 & B2 & B3)]; [left|right].
    - split; [exact B1|]. rewrite P; eauto.
    - split; [exact B1|]. split; [intros s'; rewrite E; apply B2|]. rewrite P; [exact B3|]. left. exact (proj1 (i_slot _ _ I0 _ _ S0)). }
  split; split; auto.
  - intros s b Q. rewrite E in Q. destruct (i_slot _ _ I _ _ Q). split; [lia|]. rewrite P; eauto.
  - intros s b Q SH. rewrite E in Q. destruct (i_shut _ _ I _ _ Q SH). split.
    + rewrite T; eauto.
    + intros ->. exact (CS s SH Q).
  - intros s s' b. rewrite !E. apply (i_inj _ _ I).
  - lia.
  - intros b LB NB SB1. destruct (A2 b LB NB SB1) as (Q1 & Q2 & Q3). split; [rewrite T; auto|]. split; [lia|].
    intros s. rewrite E. apply Q3.
  - intros b LB SB1. destruct (A3 b LB SB1) as (Q1 & Q2). split; [rewrite P; auto|]. intros s. rewrite E. apply Q2.
  - intros s b. rewrite E. apply A6.
Qed.

(** Back from the body of a loop or switch, which had a struct of its own. *)
Lemma leave (keep : slot -> bool) j g g0 ji j' g1 : inv j g -> inv j g0 -> frame j g j g0 -> inv ji g0 -> frame ji g0 j' g1 -> inv j' g1 ->
  (forall s, of_jumps s = true ->
     (keep s = true /\ at_slot j g0 s = at_slot ji g0 s /\ at_slot ji g0 s = at_slot j' g1 s) \/
     (forall b s', at_slot j g0 s = Some b -> at_slot ji g0 s' <> Some b)) ->
  (forall s b, of_jumps s = true -> at_slot ji g0 s = Some b -> at_slot j g s = Some b \/ next g <= b) ->
  inv j g1 /\ frame j g j g1 /\
  forall s b, at_slot j g1 s = Some b ->
    (at_slot j' g1 s = Some b /\ (of_jumps s = true -> keep s = true)) \/ forall s', at_slot j' g1 s' <> Some b.
Proof.
  intros I I0 F0 II FI I1 C D.
  assert (LS : forall a b h s, of_jumps s = false -> at_slot a h s = at_slot b h s) by (intros a b h []; cbn; congruence).
  assert (JS : forall a h h' s, of_jumps s = true -> at_slot a h s = at_slot a h' s) by (intros a h h' []; cbn; congruence).
  (* a slot of [j] afterwards *)
  assert (CL : forall s b, at_slot j g1 s = Some b ->
     (at_slot j' g1 s = Some b /\ (of_jumps s = true -> keep s = true)) \/ (of_jumps s = true /\ at_slot j g0 s = Some b /\ forall s', at_slot ji g0 s' <> Some b)).
  { intros s b Q. destruct (of_jumps s) eqn:OJ.
    - destruct (C s OJ) as [(K & C1 & C2)|C1].
      + left. split; [|auto]. rewrite <- C2, <- C1, (JS _ _ g1); auto.
      + right. rewrite (JS _ _ g1) by exact OJ. split; [reflexivity|]. split; [exact Q|].
        intros s'. apply C1. rewrite (JS _ _ g1); auto.
    - left. split; [|discriminate]. rewrite <- Q. apply LS. exact OJ. }
  assert (IG : inv j g1).
  { split; try (apply I1).
    - intros s b Q. destruct (CL s b Q) as [[A _]|(A & B & E)]; [exact (i_slot _ _ I1 _ _ A)|].
      destruct (i_slot _ _ I0 _ _ B) as [Q1 Q2]. destruct (f_predss _ _ _ _ FI b Q1 E) as [Q3 _].
      pose proof (f_nexts _ _ _ _ FI). split; [lia|]. rewrite Q3. exact Q2.
    - intros s b Q SH. destruct (CL s b Q) as [[A _]|(A & B & E)]; [exact (i_shut _ _ I1 _ _ A SH)|].
      destruct (i_slot _ _ I0 _ _ B) as [Q1 _]. destruct (i_shut _ _ I0 _ _ B SH) as [Q2 Q3].
      destruct (f_terms _ _ _ _ FI b Q1 Q3 (fun s _ => E s)) as (Q4 & Q5 & _). split; [congruence|exact Q5].
    - intros s s' b Q Q'. destruct (CL s b Q) as [[A _]|(A & B & E)], (CL s' b Q') as [[A' _]|(A' & B' & E')].
      + exact (i_inj _ _ I1 _ _ _ A A').
      + exfalso. destruct (f_predss _ _ _ _ FI b (proj1 (i_slot _ _ I0 _ _ B')) E') as [_ X]. exact (X s A).
      + exfalso. destruct (f_predss _ _ _ _ FI b (proj1 (i_slot _ _ I0 _ _ B)) E) as [_ X]. exact (X s' A').
      + exact (i_inj _ _ I0 _ _ _ B B'). }
  split; [exact IG|]. split; cycle 1.
  { intros s b Q. destruct (CL s b Q) as [A|(A & B & E)]; [auto|right].
    exact (proj2 (f_predss _ _ _ _ FI b (proj1 (i_slot _ _ I0 _ _ B)) E)). }
  assert (MV : forall s, s = SB \/ s = SC -> moves_on ji g0 j' g1 s -> moves_on j g j g0 s -> moves_on j g j g1 s).
  { intros s SS M M0. assert (OJ : of_jumps s = true) by (destruct SS; subst; reflexivity).
    unfold moves_on. destruct (at_slot j g s) as [b|] eqn:S0.
    - left. split; [rewrite <- S0; apply JS; exact OJ|].
      assert (S1 : at_slot j g0 s = Some b) by (rewrite <- S0; apply JS; exact OJ).
      assert (P0 : preds g0 b = preds g b).
      { unfold moves_on in M0. rewrite S0 in M0. destruct M0 as [[_ M0]|(_ & M0 & _)]; [exact M0|]. destruct (M0 s S1). }
      destruct (C s OJ) as [(_ & C1 & C2)|C1].
      + unfold moves_on in M. rewrite <- C1, S1 in M. destruct M as [[_ M]|(_ & M & _)]; [congruence|].
        destruct (M s). rewrite <- C2, <- C1. exact S1.
      + destruct (f_predss _ _ _ _ FI b) as [Q _]; [exact (proj1 (i_slot _ _ I0 _ _ S1))|intros s'; exact (C1 b s' S1)|congruence].
    - rewrite <- S0. apply JS. exact OJ. }
  split.
  - pose proof (f_nexts _ _ _ _ F0). pose proof (f_nexts _ _ _ _ FI). lia.
  - intros b L N S. destruct (f_terms _ _ _ _ F0 b L N S) as (Q1 & Q2 & Q3). pose proof (f_nexts _ _ _ _ F0) as L0.
    destruct (f_terms _ _ _ _ FI b) as (Q4 & Q5 & Q6); [lia|exact Q2| |].
    + intros s SH Q. destruct (of_jumps s) eqn:OJ.
      * destruct (D s b OJ Q) as [X|X]; [exact (S s SH X)|lia].
      * apply (Q3 s SH). rewrite <- Q. apply LS. exact OJ.
    + split; [congruence|]. split; [exact Q5|]. intros s SH Q. destruct (of_jumps s) eqn:OJ.
      * apply (S s SH). rewrite <- Q. apply JS. exact OJ.
      * apply (Q6 s SH). rewrite <- Q. apply LS. exact OJ.
  - intros b L S. destruct (f_predss _ _ _ _ F0 b L S) as (Q1 & Q2). pose proof (f_nexts _ _ _ _ F0) as L0.
    destruct (f_predss _ _ _ _ FI b) as (Q4 & Q6); [lia| |].
    + intros s Q. destruct (of_jumps s) eqn:OJ.
      * destruct (D s b OJ Q) as [X|X]; [exact (S s X)|lia].
      * apply (Q2 s). rewrite <- Q. apply LS. exact OJ.
    + split; [congruence|]. intros s Q. destruct (of_jumps s) eqn:OJ.
      * apply (S s). rewrite <- Q. apply JS. exact OJ.
      * apply (Q6 s). rewrite <- Q. apply LS. exact OJ.
  - apply MV; [auto|exact (f_sb _ _ _ _ FI)|exact (f_sb _ _ _ _ F0)].
  - apply MV; [auto|exact (f_sc _ _ _ _ FI)|exact (f_sc _ _ _ _ F0)].
  - intros s b Q. destruct (of_jumps s) eqn:OJ; [left; rewrite <- Q; apply JS; exact OJ|].
    rewrite (LS _ j') in Q by exact OJ. pose proof (f_nexts _ _ _ _ F0). destruct (f_orig _ _ _ _ FI s b Q) as [Q1|Q1]; [|right; lia].
    rewrite (LS _ j) in Q1 by exact OJ. destruct (f_orig _ _ _ _ F0 s b Q1); auto.
Qed.

(** Steps that succeed. *)
Definition gives {A} (r : res A) (Q : A -> Prop) : Prop := exists a, r = Ok a /\ Q a.
Definition conn (s b : nat) (g : st) : st :=
  {| next := next g; cur := cur g; code := code g; term := upd (term g) s (Some (TGoto b));
     preds := upd (preds g) b (S (preds g b)); labels := labels g |}.
Definition fin_at_ (s : nat) (t : ending) (g : st) : st :=
  {| next := next g; cur := cur g; code := code g; term := upd (term g) s (Some t); preds := preds g; labels := labels g |}.
Lemma connect_eq s b g : preds g b < 2 -> term g s = None -> connect s b g = Ok (conn s b g).
Proof.
  intros P T. unfold connect. destruct (Nat.ltb_spec (preds g b) 2); [|lia]. unfold finish. cbn. rewrite T. reflexivity.
Qed.
Lemma gives_connect {A} s b g (k : st -> res A) Q : preds g b < 2 -> term g s = None ->
  gives (k (conn s b g)) Q -> gives (bind (connect s b g) k) Q.
Proof. intros P T H. rewrite connect_eq by assumption. exact H. Qed.
Lemma gives_goto {A} b g (k : st -> res A) Q : preds g b < 2 -> term g (cur g) = None ->
  gives (k (conn (cur g) b g)) Q -> gives (bind (goto b g) k) Q.
Proof. apply gives_connect. Qed.
Lemma gives_finish {A} s t g (k : st -> res A) Q : term g s = None -> gives (k (fin_at_ s t g)) Q -> gives (bind (finish s t g) k) Q.
Proof. intros T H. unfold finish. rewrite T. exact H. Qed.
Lemma gives_if {A} t g (k : nat * nat * st -> res A) Q : term g (cur g) = None ->
  gives (k (S (next g), next g, fin_at_ (cur g) (t (S (next g)) (next g))
    {| next := S (S (next g)); cur := cur g; code := code g; term := term g; preds := preds g; labels := labels g |})) Q ->
  gives (bind (if_selection t g) k) Q.
Proof. intros T H. unfold if_selection. cbn [new_block]. unfold finish. cbn. rewrite T. exact H. Qed.
Lemma gives_parse {A} (e : res (jumps * st)) (k : jumps * st -> res A) (P : jumps * st -> Prop) Q :
  gives e P -> (forall r, P r -> gives (k r) Q) -> gives (bind e k) Q.
Proof. intros (r & E & H) K. rewrite E. apply K. exact H. Qed.
Lemma gives_ok {A} (a : A) (Q : A -> Prop) : Q a -> gives (Ok a) Q.
Proof. intros H. exists a. auto. Qed.

(** New blocks in front of a statement. *)
Lemma prologue j g g0 : inv j g -> labels g0 = labels g -> next g <= next g0 -> next g <= cur g0 -> cur g0 < next g0 ->
  term g0 (cur g0) = None -> (forall b, next g0 <= b -> term g0 b = None /\ preds g0 b = 0) ->
  (forall b, b < next g -> b <> cur g -> term g0 b = term g b) -> (forall b, b < next g -> preds g0 b = preds g b) ->
  inv j g0 /\ frame j g j g0 /\ forall s b, at_slot j g0 s = Some b -> b < next g.
Proof.
  intros I L N C1 C2 O F T P.
  assert (E : forall s, at_slot j g0 s = at_slot j g s) by (intros []; cbn; rewrite ?L; reflexivity).
  assert (SL : forall s b, at_slot j g0 s = Some b -> b < next g).
  { intros s b. rewrite E. intros Q. exact (proj1 (i_slot _ _ I _ _ Q)). }
  destruct (later j g j g g0 I I (frame_refl j g)) as [A B]; auto.
  - intros s _ Q. rewrite <- E in Q. apply SL in Q. lia.
  - intros b NB [Q | (s & _ & Q)]; [auto|]. apply T; [|exact NB]. exact (proj1 (i_slot _ _ I _ _ Q)).
  - intros b [Q | (s & Q)]; [auto|]. apply P. exact (proj1 (i_slot _ _ I _ _ Q)).
Qed.
(** The struct of the body of a loop or switch. *)
Lemma enter j ji g0 : inv j g0 ->
  (forall s b, at_slot ji g0 s = Some b -> at_slot j g0 s = Some b \/
     (b < next g0 /\ preds g0 b <= 1 /\ (shut s = true -> term g0 b = None /\ b <> cur g0) /\
      (forall s', at_slot j g0 s' <> Some b) /\ forall s', at_slot ji g0 s' = Some b -> s' = s)) ->
  inv ji g0.
Proof.
  intros I H. split; try apply I.
  - intros s b Q. destruct (H s b Q) as [Q1|(A & B & _)]; [exact (i_slot _ _ I _ _ Q1)|auto].
  - intros s b Q SH. destruct (H s b Q) as [Q1|(A & B & C & _)]; [exact (i_shut _ _ I _ _ Q1 SH)|auto].
  - intros s s' b Q Q'. destruct (H s b Q) as [Q1|(_ & _ & _ & A & B)]; [|symmetry; apply B; exact Q'].
    destruct (H s' b Q') as [Q1'|(_ & _ & _ & A' & B')]; [exact (i_inj _ _ I _ _ _ Q1 Q1')|apply B'; exact Q].
Qed.

(** What a statement leaves. *)
Definition post (s : stmt) (j : jumps) (g : st) (r : jumps * st) : Prop :=
  let '(j', g') := r in
  inv j' g' /\ frame j g j' g' /\ j_control j' = j_control j /\ (j_entry j <> None -> j_entry j' <> None) /\
  (cases s = [] -> j_entry j' = j_entry j) /\ (defaults s = 0 -> j_default j' = j_default j) /\
  (has_continue s = false -> j_continue j' = j_continue j) /\
  (forall l e, lookup l (labels g') = Some e -> used e = true ->
     In l (labels_of s) \/ exists e0, lookup l (labels g) = Some e0 /\ used e0 = true).
Definition total (s : stmt) : Prop := forall brk cnt sw j g,
  inv j g -> placed brk cnt sw s -> no_duff s -> no_switched_continue s -> continue_in_switch s = false ->
  (brk = true -> j_break j <> None) -> (cnt = true -> j_continue j <> None) ->
  (sw = true -> j_control j <> None /\ j_entry j <> None) ->
  NoDup (labels_of s) -> (forall l e, In l (labels_of s) -> lookup l (labels g) = Some e -> used e = false) ->
  gives (parse s j g) (post s j g).

Lemma simple_post s j g g' : inv j g' -> frame j g j g' -> labels g' = labels g -> post s j g (j, g').
Proof. intros I F L. cbn. repeat (split; auto). intros l e Q U. right. rewrite <- L. eauto. Qed.

Ltac upds := cbn [next cur code term preds labels block_start conn fin_at_ emit emit_option with_labels] in *; unfold upd in *;
  repeat match goal with |- context [?x =? ?y] => destruct (Nat.eqb_spec x y); try (exfalso; lia); try (exfalso; congruence) end.

Lemma skip_total : total SSkip.
Proof. intros brk cnt sw j g I _ _ _ _ _ _ _ _ _. apply gives_ok. apply simple_post; auto using frame_refl. Qed.
Lemma emit_inv j g i : inv j g -> inv j (emit i g) /\ frame j g j (emit i g).
Proof. intros [A B C D E F]. split; [split; auto|]. destruct (frame_refl j g). split; auto. Qed.
Lemma do_total a : total (SDo_ a).
Proof.
  intros brk cnt sw j g I _ _ _ _ _ _ _ _ _. apply gives_ok. destruct (emit_inv j g (IAct a) I). apply simple_post; auto.
Qed.
Lemma moved_some j g j' g' s : moves_on j g j' g' s -> at_slot j g s <> None -> at_slot j' g' s <> None.
Proof. unfold moves_on. destruct (at_slot j g s); [|congruence]. intros [[A _]|(A & _)] _; congruence. Qed.
Lemma in_nodup_app {A} (l1 l2 : list A) x : NoDup (l1 ++ l2) -> In x l1 -> In x l2 -> False.
Proof.
  induction l1 as [|y l1 IH]; cbn; [tauto|]. intros H [->|Q] Q2; inversion H as [|? ? N1 N2]; subst.
  - apply N1. apply in_or_app. auto.
  - exact (IH N2 Q Q2).
Qed.
Lemma nodup_l {A} (l1 l2 : list A) : NoDup (l1 ++ l2) -> NoDup l1.
Proof. induction l1; cbn; intros H; [constructor|]. inversion H; subst. constructor; [|auto]. rewrite in_app_iff in *. tauto. Qed.
Lemma nodup_r {A} (l1 l2 : list A) : NoDup (l1 ++ l2) -> NoDup l2.
Proof. induction l1; cbn; intros H; [exact H|]. inversion H; auto. Qed.

Lemma seq_total a b : total a -> total b -> total (SSeq a b).
Proof.
  intros TA TB brk cnt sw j g I [P1 P2] [D1 D2] [N1 N2] C HB HC HS ND U. cbn [continue_in_switch labels_of] in *.
  apply orb_false_iff in C as [C1 C2]. cbn [parse].
  apply (gives_parse _ _ (post a j g)).
  { apply (TA brk cnt sw); auto; [exact (nodup_l _ _ ND)|]. intros l e Q. apply U. apply in_or_app; auto. }
  intros [j1 g1] (I1 & F1 & A1 & A2 & A3 & A4 & A5 & A6).
  destruct (TB brk cnt sw j1 g1) as ([j2 g2] & E & I2 & F2 & B1 & B2 & B3 & B4 & B5 & B6); auto.
  - intros Q. apply (moved_some _ _ _ _ SB (f_sb _ _ _ _ F1)). exact (HB Q).
  - intros Q. apply (moved_some _ _ _ _ SC (f_sc _ _ _ _ F1)). exact (HC Q).
  - intros Q. destruct (HS Q) as [S1 S2]. split; [congruence|auto].
  - exact (nodup_r _ _ ND).
  - intros l e Q Q1. destruct (used e) eqn:UE; [|reflexivity]. destruct (A6 l e Q1 UE) as [X|(e0 & X1 & X2)].
    + destruct (in_nodup_app _ _ _ ND X Q).
    + rewrite (U l e0) in X2; [discriminate|apply in_or_app; auto|exact X1].
  - exists (j2, g2). split; [exact E|]. cbn [cases defaults has_continue labels_of post].
    split; [exact I2|]. split; [exact (frame_trans _ _ _ _ _ _ I F1 F2)|]. split; [congruence|]. split; [auto|].
    split; [intros Q; apply app_eq_nil in Q as [Q1 Q2]; rewrite B3, A3; auto|].
    split; [intros Q; rewrite B4, A4; auto; lia|].
    split; [intros Q; apply orb_false_iff in Q as [Q1 Q2]; rewrite B5, A5; auto|].
    intros l e Q UE. destruct (B6 l e Q UE) as [X|(e0 & X1 & X2)]; [left; apply in_or_app; auto|].
    destruct (A6 l e0 X1 X2) as [X|X]; [left; apply in_or_app; auto|right; exact X].
Qed.

(** A block put aside before the body of a statement. *)
Lemma pending j g g0 ji j1 g1 p : inv j1 g1 -> frame ji g0 j1 g1 ->
  (forall s b, of_jumps s = true -> at_slot j g1 s = Some b -> b < next g) -> next g <= p -> p < next g0 ->
  (forall s, at_slot ji g0 s <> Some p) \/ at_slot ji g0 SB = Some p \/ at_slot ji g0 SC = Some p ->
  (forall s, at_slot j g1 s <> Some p) /\ preds g1 p <= S (preds g0 p).
Proof.
  intros I1 F J L1 L2 H.
  assert (LS : forall s, of_jumps s = false -> at_slot j g1 s = at_slot j1 g1 s) by (intros []; cbn; congruence).
  assert (X : ((forall s, at_slot j1 g1 s <> Some p) \/ at_slot j1 g1 SB = Some p \/ at_slot j1 g1 SC = Some p) /\
              preds g1 p <= S (preds g0 p)).
  { destruct H as [H|[H|H]].
    - destruct (f_predss _ _ _ _ F p L2 H) as [A B]. split; [auto|lia].
    - pose proof (f_sb _ _ _ _ F) as M. unfold moves_on in M. rewrite H in M. destruct M as [[A B]|(A & B & C)]; [split; [auto|lia]|].
      split; [left; exact B|lia].
    - pose proof (f_sc _ _ _ _ F) as M. unfold moves_on in M. rewrite H in M. destruct M as [[A B]|(A & B & C)]; [split; [auto|lia]|].
      split; [left; exact B|lia]. }
  destruct X as [X1 X2]. split; [|exact X2]. intros s Q. destruct (of_jumps s) eqn:OJ.
  - specialize (J s p OJ Q). lia.
  - rewrite LS in Q by exact OJ. destruct X1 as [X1|[X1|X1]]; [exact (X1 s Q)| |];
      pose proof (i_inj _ _ I1 _ _ _ X1 Q); subst s; discriminate.
Qed.

Lemma return_total r : total (SReturn r).
Proof.
  intros brk cnt sw j g I _ _ _ _ _ _ _ _ _. cbn [parse]. apply gives_finish; [exact (i_open _ _ I)|]. cbn [new_block]. apply gives_ok.
  match goal with |- post _ _ _ (_, ?x) => destruct (prologue j g x I) as (A & B & _) end; pose proof (i_cur _ _ I).
  - reflexivity.
  - cbn; lia.
  - cbn; lia.
  - cbn; lia.
  - upds. apply (i_fresh _ _ I). lia.
  - intros b L. cbn in L. upds. apply (i_fresh _ _ I). lia.
  - intros b L N. upds. reflexivity.
  - reflexivity.
  - apply simple_post; auto.
Qed.

Lemma if_total c a b : total a -> total b -> total (SIf c a b).
Proof.
  intros TA TB brk cnt sw j g I [P1 P2] [D1 D2] [N1 N2] C HB HC HS ND U. cbn [continue_in_switch labels_of] in *.
  apply orb_false_iff in C as [C1 C2]. cbn [parse]. pose proof (i_cur _ _ I) as CU.
  apply gives_if; [exact (i_open _ _ I)|]. cbn beta iota.
  match goal with |- gives (bind (parse a _ ?x) _) _ => set (g0 := x) end.
  destruct (prologue j g g0 I) as (I0 & F0 & S0).
  { reflexivity. } { cbn; lia. } { cbn; lia. } { cbn; lia. }
  { unfold g0. upds. apply (i_fresh _ _ I). lia. }
  { intros x L. cbn in L. unfold g0. upds. apply (i_fresh _ _ I). lia. }
  { intros x L N. unfold g0. upds. reflexivity. } { reflexivity. }
  apply (gives_parse _ _ (post a j g0)).
  { apply (TA brk cnt sw); auto; [exact (nodup_l _ _ ND)|]. intros l e Q. apply U. apply in_or_app; auto. }
  intros [j1 g1] (I1 & F1 & A1 & A2 & A3 & A4 & A5 & A6). cbn [new_block].
  assert (F01 := frame_trans _ _ _ _ _ _ I F0 F1).
  destruct (f_terms _ _ _ _ F1 (next g)) as (T1 & T2 & T3).
  { cbn; lia. } { cbn; lia. } { intros s _ Q. apply S0 in Q. lia. }
  assert (TN : term g1 (next g) = None) by (rewrite T1; unfold g0; upds; apply (i_fresh _ _ I); lia).
  pose proof (f_nexts _ _ _ _ F1) as L1. cbn in L1. pose proof (i_cur _ _ I1) as CU1.
  apply gives_goto.
  { cbn. rewrite (proj2 (i_fresh _ _ I1 (next g1) (le_n _))). lia. } { exact (i_open _ _ I1). }
  match goal with |- gives (bind (parse b _ ?x) _) _ => set (g2 := x) end.
  destruct (later j g j1 g1 g2 I I1 F01) as (I2 & F02).
  { reflexivity. } { cbn; lia. } { cbn; lia. } { cbn; lia. } { unfold g2. upds. exact TN. } { exact T3. }
  { intros x L. cbn in L. unfold g2. upds. destruct (i_fresh _ _ I1 x); [lia|auto]. }
  { intros x N _. unfold g2. upds. reflexivity. }
  { intros x Q. unfold g2. upds; [exfalso|reflexivity]. subst x. destruct Q as [Q|(s & Q)]; [lia|]. apply (i_slot _ _ I1) in Q. lia. }
  apply (gives_parse _ _ (post b j1 g2)).
  { apply (TB brk cnt sw); auto.
    - intros Q. apply (moved_some _ _ _ _ SB (f_sb _ _ _ _ F1)). exact (HB Q).
    - intros Q. apply (moved_some _ _ _ _ SC (f_sc _ _ _ _ F1)). exact (HC Q).
    - intros Q. destruct (HS Q) as [S1 S2]. split; [congruence|auto].
    - exact (nodup_r _ _ ND).
    - intros l e Q Q1. destruct (used e) eqn:UE; [|reflexivity]. destruct (A6 l e Q1 UE) as [X|(e0 & X1 & X2)].
      + destruct (in_nodup_app _ _ _ ND X Q).
      + rewrite (U l e0) in X2; [discriminate|apply in_or_app; auto|exact X1]. }
  intros [j3 g3] (I3 & F3 & B1 & B2 & B3 & B4 & B5 & B6).
  assert (NS : forall s, at_slot j1 g2 s <> Some (next g1)).
  { intros s Q. assert (Q1 : at_slot j1 g1 s = Some (next g1)) by (rewrite <- Q; destruct s; reflexivity).
    apply (i_slot _ _ I1) in Q1. lia. }
  destruct (f_terms _ _ _ _ F3 (next g1)) as (T4 & T5 & T6). { cbn; lia. } { cbn; lia. } { intros s _. apply NS. }
  destruct (f_predss _ _ _ _ F3 (next g1)) as (T7 & T8). { cbn; lia. } { exact NS. }
  assert (TE : term g3 (next g1) = None) by (rewrite T4; unfold g2; upds; apply (i_fresh _ _ I1); lia).
  assert (PE : preds g3 (next g1) = 1).
  { rewrite T7. unfold g2. cbn. unfold upd. rewrite Nat.eqb_refl, (proj2 (i_fresh _ _ I1 (next g1) (le_n _))). reflexivity. }
  apply gives_goto. { rewrite PE. lia. } { exact (i_open _ _ I3). }
  apply gives_ok. assert (F03 := frame_trans _ _ _ _ _ _ I F02 F3).
  pose proof (f_nexts _ _ _ _ F3) as L3. cbn in L3. pose proof (i_cur _ _ I3) as CU3.
  match goal with |- post _ _ _ (_, ?x) => destruct (later j g j3 g3 x I I3 F03) as (I4 & F4) end.
  { reflexivity. } { cbn; lia. } { cbn; lia. } { cbn; lia. } { upds. exact TE. } { exact T6. }
  { intros x L. cbn in L. upds. destruct (i_fresh _ _ I3 x); [lia|auto]. }
  { intros x N _. upds. reflexivity. }
  { intros x Q. upds; [exfalso|reflexivity]. subst x. destruct Q as [Q|(s & Q)]; [lia|]. exact (T8 s Q). }
  cbn [cases defaults has_continue labels_of post].
  split; [exact I4|]. split; [exact F4|]. split; [congruence|]. split; [auto|].
  split; [intros Q; apply app_eq_nil in Q as [Q1 Q2]; rewrite B3, A3; auto|].
  split; [intros Q; rewrite B4, A4; auto; lia|].
  split; [intros Q; apply orb_false_iff in Q as [Q1 Q2]; rewrite B5, A5; auto|].
  intros l e Q UE. destruct (B6 l e Q UE) as [X|(e0 & X1 & X2)]; [left; apply in_or_app; auto|].
  destruct (A6 l e0 X1 X2) as [X|X]; [left; apply in_or_app; auto|right; exact X].
Qed.

Lemma loop_body a j g g0 pe pc sw :
  total a -> inv j g -> inv j g0 -> frame j g j g0 -> (forall s b, at_slot j g0 s = Some b -> b < next g) -> labels g0 = labels g ->
  next g <= pe < next g0 -> next g <= pc < next g0 -> pe <> pc -> preds g0 pe <= 1 -> preds g0 pc <= 1 ->
  placed true true sw a -> (cases a = [] /\ defaults a = 0 /\ no_duff a) -> (continue_in_switch a = false /\ no_switched_continue a) ->
  (sw = true -> j_control j <> None /\ j_entry j <> None) ->
  NoDup (labels_of a) -> (forall l e, In l (labels_of a) -> lookup l (labels g) = Some e -> used e = false) ->
  gives (parse a {| j_break := Some pe; j_continue := Some pc; j_entry := j_entry j; j_default := j_default j; j_control := j_control j |} g0)
    (fun r => let '(j1, g1) := r in
       inv j1 g1 /\ inv j g1 /\ frame j g j g1 /\ next g0 <= next g1 /\
       (forall p, next g <= p < next g0 ->
          (forall s, at_slot j g1 s <> Some p) /\ preds g1 p <= S (preds g0 p) /\ (p <> pe -> p <> pc -> preds g1 p = preds g0 p) /\
          (p <> cur g0 -> term g1 p = term g0 p /\ p <> cur g1)) /\
       (exists b, j_continue j1 = Some b /\ preds g1 b <= 1 /\ next g <= b /\ forall s, at_slot j g1 s <> Some b) /\
       (forall l e, lookup l (labels g1) = Some e -> used e = true ->
          In l (labels_of a) \/ exists e0, lookup l (labels g) = Some e0 /\ used e0 = true)).
Proof.
  intros TA I I0 F0 S0 LB PE PC NE P1 P2 PL (CA & DA & ND) (CS & NSC) HS NL U.
  set (ji := {| j_break := Some pe; j_continue := Some pc; j_entry := j_entry j; j_default := j_default j; j_control := j_control j |}).
  assert (SJ : forall s b, at_slot ji g0 s = Some b -> (s <> SB /\ s <> SC /\ at_slot j g0 s = Some b) \/ (s = SB /\ b = pe) \/ (s = SC /\ b = pc)).
  { intros s b Q. destruct s; cbn in Q; try (injection Q as <-); auto; left; repeat split; try discriminate; exact Q. }
  assert (II : inv ji g0).
  { apply (enter j); [exact I0|]. intros s b Q. destruct (SJ s b Q) as [(_ & _ & X)|[[-> ->]|[-> ->]]]; [auto|right|right].
    - split; [lia|]. split; [exact P1|]. split; [discriminate|]. split; [intros s' Q'; apply S0 in Q'; lia|].
      intros s' Q'. destruct (SJ s' _ Q') as [(_ & _ & X)|[[-> _]|[-> X]]]; [apply S0 in X; lia|reflexivity|lia].
    - split; [lia|]. split; [exact P2|]. split; [discriminate|]. split; [intros s' Q'; apply S0 in Q'; lia|].
      intros s' Q'. destruct (SJ s' _ Q') as [(_ & _ & X)|[[-> X]|[-> _]]]; [apply S0 in X; lia|lia|reflexivity]. }
  destruct (TA true true sw ji g0) as ([j1 g1] & E & I1 & F1 & A1 & A2 & A3 & A4 & A5 & A6); auto; try discriminate.
  { intros l e Q. rewrite LB. apply U. exact Q. }
  exists (j1, g1). split; [exact E|].
  destruct (leave (fun s => match s with SB | SC => false | _ => true end) j g g0 ji j1 g1 I I0 F0 II F1 I1) as (IG & FG & CL).
  { intros s OJ. destruct s; try discriminate OJ.
    - right. intros b s' Q Q'. destruct (SJ s' b Q') as [(N1 & _ & X)|[[-> X]|[-> X]]].
      + pose proof (i_inj _ _ I0 _ _ _ Q X). congruence.
      + apply S0 in Q. lia.
      + apply S0 in Q. lia.
    - right. intros b s' Q Q'. destruct (SJ s' b Q') as [(_ & N1 & X)|[[-> X]|[-> X]]].
      + pose proof (i_inj _ _ I0 _ _ _ Q X). congruence.
      + apply S0 in Q. lia.
      + apply S0 in Q. lia.
    - left. split; [reflexivity|]. split; [reflexivity|]. cbn. symmetry. apply A4. exact DA.
    - left. split; [reflexivity|]. split; [reflexivity|]. cbn. symmetry. apply A3. exact CA. }
  { intros s b OJ Q. destruct (SJ s b Q) as [(N1 & N2 & X)|[[-> X]|[-> X]]]; [|right; lia..].
    left. rewrite <- X. destruct s; reflexivity || discriminate. }
  split; [exact I1|]. split; [exact IG|]. split; [exact FG|]. split; [exact (f_nexts _ _ _ _ F1)|]. split; [|split].
  - intros p L.
    assert (H : (forall s, at_slot ji g0 s <> Some p) \/ at_slot ji g0 SB = Some p \/ at_slot ji g0 SC = Some p).
    { destruct (Nat.eq_dec p pe) as [->|N1]; [right; left; reflexivity|]. destruct (Nat.eq_dec p pc) as [->|N2]; [right; right; reflexivity|].
      left. intros s Q. destruct (SJ s p Q) as [(_ & _ & X)|[[-> X]|[-> X]]]; [apply S0 in X; lia|lia|lia]. }
    destruct (pending j g g0 ji j1 g1 p I1 F1) as [Q1 Q2]; auto; try lia.
    { intros s b OJ Q. apply (S0 s). rewrite <- Q. destruct s; reflexivity || discriminate. }
    split; [exact Q1|]. split; [exact Q2|]. split.
    + intros N1 N2. apply (f_predss _ _ _ _ F1 p); [lia|]. intros s Q. destruct (SJ s p Q) as [(_ & _ & X)|[[-> X]|[-> X]]]; [apply S0 in X; lia|lia|lia].
    + intros NC. destruct (f_terms _ _ _ _ F1 p) as (X1 & X2 & _); [lia|exact NC| |auto].
      intros s SH Q. destruct (SJ s p Q) as [(_ & _ & X)|[[-> X]|[-> X]]]; [apply S0 in X; lia|discriminate|discriminate].
  - destruct (j_continue j1) as [b|] eqn:JC.
    + exists b. split; [reflexivity|]. assert (SS : at_slot j1 g1 SC = Some b) by exact JC.
      split; [exact (proj2 (i_slot _ _ I1 _ _ SS))|]. split.
      * destruct (f_orig _ _ _ _ F1 SC b SS) as [X|X]; [cbn in X; injection X as <-; lia|]. pose proof (f_nexts _ _ _ _ F0). lia.
      * intros s Q. destruct (CL s b Q) as [[X1 X2]|X]; [|exact (X SC SS)].
        pose proof (i_inj _ _ I1 _ _ _ SS X1). subst s. discriminate (X2 eq_refl).
    + exfalso. apply (moved_some _ _ _ _ SC (f_sc _ _ _ _ F1)); [discriminate|exact JC].
  - rewrite <- LB. exact A6.
Qed.

Lemma while_total c a : total a -> total (SWhile c a).
Proof.
  intros TA brk cnt sw j g I PL ND NC _ HB HC HS NL U. cbn [placed no_duff no_switched_continue labels_of] in *.
  pose proof (i_cur _ _ I) as CU. pose proof (i_fresh _ _ I) as FR. cbn [parse new_block].
  apply gives_goto. { cbn. rewrite (proj2 (FR (S (next g)) ltac:(lia))). lia. } { exact (i_open _ _ I). }
  apply gives_if. { upds. apply FR. lia. }
  cbn beta iota.
  apply gives_connect. { upds. rewrite (proj2 (FR (next g) ltac:(lia))). lia. } { upds. apply FR. lia. }
  apply gives_connect. { upds. rewrite (proj2 (FR (S (S (next g))) ltac:(lia))). lia. } { upds. apply FR. lia. }
  match goal with |- gives (bind (parse a _ ?x) _) _ => set (g0 := x) end.
  destruct (prologue j g g0 I) as (I0 & F0 & S0).
  { reflexivity. } { cbn; lia. } { cbn; lia. } { cbn; lia. }
  { unfold g0. upds. apply FR. lia. }
  { intros x L. cbn in L. unfold g0. upds. apply FR. lia. }
  { intros x L N. unfold g0. upds. reflexivity. }
  { intros x L. unfold g0. upds. reflexivity. }
  eapply gives_parse.
  { apply (loop_body a j g g0 (S (S (next g))) (S (next g)) sw); auto; try (cbn; lia).
    - unfold g0. upds. rewrite (proj2 (FR (S (S (next g))) ltac:(lia))). lia.
    - unfold g0. upds. rewrite (proj2 (FR (S (next g)) ltac:(lia))). lia. }
  intros [j1 g1] (I1 & IG & FG & N1 & PD & (b & B1 & B2 & B3 & B4) & UG). cbn beta iota. rewrite B1. cbn in N1.
  apply gives_goto. { lia. } { exact (i_open _ _ I1). }
  apply gives_ok. destruct (PD (S (S (next g)))) as (Q1 & Q2 & _ & Q3). { cbn; lia. }
  destruct Q3 as [Q3 Q4]. { cbn; lia. }
  assert (TN : term g1 (S (S (next g))) = None) by (rewrite Q3; unfold g0; upds; apply FR; lia).
  pose proof (i_cur _ _ I1) as CU1. pose proof (i_slot _ _ I1 SC b B1) as [LB _].
  match goal with |- post _ _ _ (_, ?x) => destruct (later j g j g1 x I IG FG) as (I4 & F4) end.
  { reflexivity. } { cbn; lia. } { cbn; lia. } { cbn; lia. } { upds. exact TN. } { intros s _. apply Q1. }
  { intros x L. cbn in L. upds. apply (i_fresh _ _ I1). lia. }
  { intros x N _. upds. reflexivity. }
  { intros x Q. upds; [exfalso|reflexivity]. subst x. destruct Q as [Q|(s & Q)]; [lia|]. exact (B4 s Q). }
  cbn [cases defaults has_continue labels_of post]. repeat (split; auto).
Qed.

Lemma do_while_total a c : total a -> total (SDoWhile a c).
Proof.
  intros TA brk cnt sw j g I PL ND NC _ HB HC HS NL U. cbn [placed no_duff no_switched_continue labels_of] in *.
  pose proof (i_cur _ _ I) as CU. pose proof (i_fresh _ _ I) as FR. cbn [parse new_block].
  apply gives_goto. { cbn. rewrite (proj2 (FR (next g) ltac:(lia))). lia. } { exact (i_open _ _ I). }
  match goal with |- gives (bind (parse a _ ?x) _) _ => set (g0 := x) end.
  destruct (prologue j g g0 I) as (I0 & F0 & S0).
  { reflexivity. } { cbn; lia. } { cbn; lia. } { cbn; lia. }
  { unfold g0. upds. apply FR. lia. }
  { intros x L. cbn in L. unfold g0. upds. apply FR. lia. }
  { intros x L N. unfold g0. upds. reflexivity. }
  { intros x L. unfold g0. upds. reflexivity. }
  assert (PE0 : preds g0 (S (S (next g))) = 0) by (unfold g0; upds; apply FR; lia).
  assert (PC0 : preds g0 (S (next g)) = 0) by (unfold g0; upds; apply FR; lia).
  assert (PB0 : preds g0 (next g) = 1) by (unfold g0; upds; rewrite (proj2 (FR (next g) ltac:(lia))); reflexivity).
  eapply gives_parse.
  { apply (loop_body a j g g0 (S (S (next g))) (S (next g)) sw); auto; try (cbn; lia); lia. }
  intros [j1 g1] (I1 & IG & FG & N1 & PD & _ & UG). cbn beta iota. cbn in N1.
  destruct (PD (S (S (next g)))) as (E1 & E2 & _ & E3). { cbn; lia. } destruct E3 as [E3 E4]. { cbn; lia. }
  destruct (PD (S (next g))) as (C1 & C2 & _ & C3). { cbn; lia. } destruct C3 as [C3 C4]. { cbn; lia. }
  destruct (PD (next g)) as (B1 & B2 & B3 & _). { cbn; lia. } specialize (B3 ltac:(lia) ltac:(lia)).
  assert (TE : term g1 (S (S (next g))) = None) by (rewrite E3; unfold g0; upds; apply FR; lia).
  assert (TC : term g1 (S (next g)) = None) by (rewrite C3; unfold g0; upds; apply FR; lia).
  pose proof (i_cur _ _ I1) as CU1. pose proof (i_fresh _ _ I1) as FR1.
  rewrite PE0 in E2. rewrite PC0 in C2. rewrite PB0 in B3. clearbody g0.
  apply gives_goto. { cbn. lia. } { exact (i_open _ _ I1). }
  apply gives_if. { upds. exact TC. }
  cbn beta iota.
  apply gives_connect. { upds. lia. } { upds. apply FR1. lia. }
  apply gives_connect. { upds. lia. } { upds. apply FR1. lia. }
  apply gives_ok.
  match goal with |- post _ _ _ (_, ?x) => destruct (later j g j g1 x I IG FG) as (I4 & F4) end.
  { reflexivity. } { cbn; lia. } { cbn; lia. } { cbn; lia. } { upds. exact TE. } { intros s _. apply E1. }
  { intros x L. cbn in L. upds. apply FR1. lia. }
  { intros x N Q. assert (x < next g1 /\ x <> S (next g)) as [X1 X2].
    { destruct Q as [Q|(s & _ & Q)]; [lia|]. split; [exact (proj1 (i_slot _ _ IG _ _ Q))|]. intros ->. exact (C1 s Q). }
    upds. reflexivity. }
  { intros x Q. assert (x <> S (next g) /\ x <> next g /\ x <> S (S (next g))) as (X1 & X2 & X3).
    { destruct Q as [Q|(s & Q)]; [lia|]. repeat split; intros ->; [exact (C1 s Q)|exact (B1 s Q)|exact (E1 s Q)]. }
    upds. reflexivity. }
  cbn [cases defaults has_continue labels_of post]. repeat (split; auto).
Qed.

Lemma eo_next v g : next (emit_option v g) = next g. Proof. destruct v; reflexivity. Qed.
Lemma eo_cur v g : cur (emit_option v g) = cur g. Proof. destruct v; reflexivity. Qed.
Lemma eo_term v g : term (emit_option v g) = term g. Proof. destruct v; reflexivity. Qed.
Lemma eo_preds v g : preds (emit_option v g) = preds g. Proof. destruct v; reflexivity. Qed.
Lemma eo_labels v g : labels (emit_option v g) = labels g. Proof. destruct v; reflexivity. Qed.
Ltac eo := repeat (cbn [next cur term preds labels block_start conn fin_at_]; rewrite ?eo_next, ?eo_cur, ?eo_term, ?eo_preds, ?eo_labels);
  cbn [next cur term preds labels block_start conn fin_at_].
Ltac fresh_preds FR := match goal with |- context [preds ?g ?b] => rewrite (proj2 (FR b ltac:(lia))) end.
Ltac updf FR := eo; unfold upd; repeat match goal with |- context [?x =? ?y] => destruct (Nat.eqb_spec x y); try (exfalso; lia) end;
  repeat fresh_preds FR; try lia; try (apply FR; lia).

Lemma gives_bind {A B} (e : res A) (k : A -> res B) (P : A -> Prop) Q :
  gives e P -> (forall r, P r -> gives (k r) Q) -> gives (bind e k) Q.
Proof. intros (r & E & H) K. rewrite E. apply K. exact H. Qed.
Lemma gives_connect_end s b g : preds g b < 2 -> term g s = None -> gives (connect s b g) (eq (conn s b g)).
Proof. intros P T. rewrite connect_eq by assumption. apply gives_ok. reflexivity. Qed.

(** Blocks: init is [n], control [n + 1], advance [n + 2], body [n + 3] and end
    [n + 4]. *)
Lemma for_total i c v a : total a -> total (SFor i c v a).
Proof.
  intros TA brk cnt sw j g I PL ND NC _ HB HC HS NL U. cbn [placed no_duff no_switched_continue labels_of] in *.
  pose proof (i_cur _ _ I) as CU. pose proof (i_fresh _ _ I) as FR. pose proof (i_open _ _ I) as OP. cbn [parse new_block].
  remember (next g) as n eqn:EN.
  apply gives_goto; [updf FR|updf FR; exact OP|].
  apply gives_goto; [updf FR|updf FR|].
  match goal with |- gives (bind (match c with Some _ => bind (if_selection _ ?x) _ | None => _ end) _) _ => set (gc := x) end.
  assert (C1 : next gc = 5 + n) by (unfold gc; eo; reflexivity).
  assert (C2 : cur gc = S n) by (unfold gc; eo; reflexivity).
  assert (C3 : labels gc = labels g) by (unfold gc; eo; reflexivity).
  assert (C4 : forall b, b <> cur g -> b <> n -> term gc b = term g b) by (intros b N1 N2; unfold gc; updf FR; reflexivity).
  assert (C5 : forall b, b <> n -> b <> S n -> preds gc b = preds g b) by (intros b N1 N2; unfold gc; updf FR; reflexivity).
  assert (C6 : preds gc (S n) = 1) by (unfold gc; updf FR).
  clearbody gc.
  assert (FP : forall b, n <= b -> preds g b = 0) by (intros b L; apply FR; exact L).
  apply (gives_bind _ _ (fun gd => 5 + n <= next gd /\ labels gd = labels g /\
     (forall b, b < 5 + n -> b <> S n -> term gd b = term gc b) /\ (forall b, next gd <= b -> term gd b = None /\ preds gd b = 0) /\
     (forall b, b < 3 + n -> preds gd b = preds gc b) /\ preds gd (4 + n) <= 1)).
  { destruct c as [c|].
    - apply gives_if. { rewrite C2, C4 by lia. apply FR. lia. }
      cbn beta iota. rewrite C1, C2. cbn [next].
      apply gives_connect. { cbn [preds fin_at_ next]. rewrite C5 by lia. updf FR. } { updf FR. rewrite C4 by lia. apply FR. lia. }
      rewrite connect_eq; [apply gives_ok| |].
      + split; [cbn; lia|]. split; [exact C3|]. split; [|split; [|split]].
        * intros b L1 L2. eo. unfold upd. upds. reflexivity.
        * intros b L. cbn in L. upds. rewrite C4, C5 by lia. apply FR. lia.
        * intros b L. upds. reflexivity.
        * upds. rewrite C5 by lia. rewrite FP by lia. lia.
      + upds. rewrite C5 by lia. rewrite FP by lia. lia.
      + upds. rewrite C4 by lia. apply FR. lia.
    - unfold goto. rewrite C2. cbn [next]. rewrite connect_eq; [apply gives_ok| |].
      + split; [cbn; lia|]. split; [exact C3|]. split; [|split; [|split]].
        * intros b L1 L2. upds. reflexivity.
        * intros b L. cbn in L. upds. rewrite C4, C5 by lia. apply FR. lia.
        * intros b L. upds. reflexivity.
        * upds. rewrite C5 by lia. rewrite FP by lia. lia.
      + rewrite C5 by lia. rewrite FP by lia. lia.
      + rewrite C4 by lia. apply FR. lia. }
  intros gd (D1 & D2 & D3 & D4 & D5 & D6). cbn [next].
  apply gives_goto; [eo; rewrite D5 by lia; lia|eo; rewrite D3, C4 by lia; apply FR; lia|].
  match goal with |- gives (bind (parse a _ ?x) _) _ => set (g0 := x) end.
  assert (X1 : next g0 = next gd) by (unfold g0; eo; reflexivity).
  assert (X2 : cur g0 = 3 + n) by (unfold g0; eo; reflexivity).
  assert (X3 : labels g0 = labels g) by (unfold g0; eo; exact D2).
  assert (X4 : forall b, b <> 2 + n -> term g0 b = term gd b) by (intros b N1; unfold g0; eo; unfold upd; destruct (Nat.eqb_spec b (S (S n))); [lia|reflexivity]).
  assert (X5 : forall b, b <> S n -> preds g0 b = preds gd b) by (intros b N1; unfold g0; eo; unfold upd; destruct (Nat.eqb_spec b (S n)); [lia|reflexivity]).
  clearbody g0. subst n.
  destruct (prologue j g g0 I) as (I0 & F0 & S0).
  { exact X3. } { lia. } { lia. } { lia. }
  { rewrite X2, X4, D3, C4 by lia. apply FR. lia. }
  { intros x L. rewrite X4, X5 by lia. apply D4. lia. }
  { intros x L N. rewrite X4, D3, C4 by lia. reflexivity. }
  { intros x L. rewrite X5, D5, C5 by lia. reflexivity. }
  eapply gives_parse.
  { apply (loop_body a j g g0 (S (S (S (S (next g))))) (S (S (next g))) sw); auto; try lia.
    - rewrite X5 by lia. exact D6.
    - rewrite X5, D5, C5 by lia. rewrite FP by lia. lia. }
  intros [j1 g1] (I1 & IG & FG & N1 & PD & _ & UG). cbn beta iota.
  destruct (PD (S (S (S (S (next g)))))) as (E1 & _ & _ & E3). { lia. } destruct E3 as [E3 E4]. { lia. }
  destruct (PD (S (S (next g)))) as (A1 & A2 & _). { lia. }
  assert (TE : term g1 (S (S (S (S (next g))))) = None) by (rewrite E3, X4, D3, C4 by lia; apply FR; lia).
  assert (PA : preds g0 (S (S (next g))) = 0) by (rewrite X5, D5, C5 by lia; apply FR; lia).
  pose proof (i_cur _ _ I1) as CU1.
  apply gives_goto; [lia|exact (i_open _ _ I1)|]. apply gives_ok.
  match goal with |- post _ _ _ (_, ?x) => destruct (later j g j g1 x I IG FG) as (I4 & F4) end.
  { reflexivity. } { cbn; lia. } { cbn; lia. } { cbn; lia. } { upds. exact TE. } { intros s _. apply E1. }
  { intros x L. cbn in L. upds. apply (i_fresh _ _ I1). lia. }
  { intros x N _. upds. reflexivity. }
  { intros x Q. upds; [exfalso|reflexivity]. subst x. destruct Q as [Q|(s & Q)]; [lia|]. exact (A1 s Q). }
  cbn [cases defaults has_continue labels_of post]. repeat (split; auto).
Qed.

Lemma switch_total e a : total a -> total (SSwitch e a).
Proof.
  intros TA brk cnt sw j g I PL ND NSC HCS HB HC HS NL U. cbn [placed no_duff no_switched_continue labels_of continue_in_switch] in *.
  pose proof (i_cur _ _ I) as CU. pose proof (i_fresh _ _ I) as FR. cbn [parse new_block].
  assert (FP : forall b, next g <= b -> preds g b = 0) by (intros b L; apply FR; exact L).
  apply gives_goto. { cbn. rewrite FP by lia. lia. } { exact (i_open _ _ I). }
  cbn [next emit].
  match goal with |- gives (bind (parse a ?y ?x) _) _ => set (g0 := x); set (ji := y) end.
  destruct (prologue j g g0 I) as (I0 & F0 & S0).
  { reflexivity. } { cbn; lia. } { cbn; lia. } { cbn; lia. }
  { unfold g0. upds. apply FR. lia. }
  { intros x L. cbn in L. unfold g0. upds. apply FR. lia. }
  { intros x L N. unfold g0. upds. reflexivity. }
  { intros x L. unfold g0. upds. reflexivity. }
  assert (PE0 : preds g0 (S (S (next g))) = 0) by (unfold g0; upds; apply FR; lia).
  assert (PN0 : preds g0 (S (next g)) = 1) by (unfold g0; upds; rewrite FP by lia; reflexivity).
  assert (TN0 : term g0 (S (next g)) = None) by (unfold g0; upds; apply FR; lia).
  assert (TE0 : term g0 (S (S (next g))) = None) by (unfold g0; upds; apply FR; lia).
  assert (SJ : forall s b, at_slot ji g0 s = Some b -> (s <> SB /\ s <> SE /\ at_slot j g0 s = Some b) \/
     (s = SB /\ b = S (S (next g))) \/ (s = SE /\ b = S (next g))).
  { intros s b Q. destruct s; cbn in Q; try discriminate; try (injection Q as <-); auto; left; repeat split; try discriminate; exact Q. }
  assert (NX : next g0 = 3 + next g) by reflexivity. assert (CX : cur g0 = next g) by reflexivity.
  assert (JC : j_continue ji = j_continue j) by reflexivity. assert (JN : j_default ji = None) by reflexivity.
  assert (JB : at_slot ji g0 SB = Some (S (S (next g)))) by reflexivity.
  assert (II : inv ji g0).
  { apply (enter j); [exact I0|]. intros s b Q. destruct (SJ s b Q) as [(_ & _ & X)|[[-> ->]|[-> ->]]]; [auto|right|right].
    - split; [lia|]. split; [lia|]. split; [discriminate|]. split; [intros s' Q'; apply S0 in Q'; lia|].
      intros s' Q'. destruct (SJ s' _ Q') as [(_ & _ & X)|[[-> _]|[-> X]]]; [apply S0 in X; lia|reflexivity|lia].
    - split; [lia|]. split; [lia|]. split; [intros _; split; [exact TN0|lia]|]. split; [intros s' Q'; apply S0 in Q'; lia|].
      intros s' Q'. destruct (SJ s' _ Q') as [(_ & _ & X)|[[-> X]|[-> _]]]; [apply S0 in X; lia|lia|reflexivity]. }
  apply (gives_parse _ _ (post a ji g0)).
  { apply (TA true cnt true); auto; try discriminate.
    - destruct (continue_in_switch a) eqn:Q; [|reflexivity]. exfalso.
      assert (X : forall s, continue_in_switch s = true -> has_continue s = true).
      { clear. induction s; cbn; try discriminate; auto; rewrite !orb_true_iff; tauto. }
      rewrite (X a Q) in HCS. discriminate.
    - intros _. split; discriminate. }
  intros [j1 g1] (I1 & F1 & A1 & A2 & A3 & A4 & A5 & A6). cbn beta iota.
  destruct (leave (fun s => match s with SC => true | _ => false end) j g g0 ji j1 g1 I I0 F0 II F1 I1) as (IG & FG & CL).
  { intros s OJ. destruct s; try discriminate OJ.
    - right. intros b s' Q Q'. destruct (SJ s' b Q') as [(N1 & _ & X)|[[-> X]|[-> X]]].
      + pose proof (i_inj _ _ I0 _ _ _ Q X). congruence.
      + apply S0 in Q. lia.
      + apply S0 in Q. lia.
    - left. split; [reflexivity|]. split; [reflexivity|]. cbn [at_slot]. symmetry. apply A5. exact HCS.
    - right. intros b s' Q Q'. destruct (SJ s' b Q') as [(N1 & N2 & X)|[[-> X]|[-> X]]].
      + pose proof (i_inj _ _ I0 _ _ _ Q X). subst s'. cbn [at_slot] in Q'. congruence.
      + apply S0 in Q. lia.
      + apply S0 in Q. lia.
    - right. intros b s' Q Q'. destruct (SJ s' b Q') as [(N1 & N2 & X)|[[-> X]|[-> X]]].
      + pose proof (i_inj _ _ I0 _ _ _ Q X). congruence.
      + apply S0 in Q. lia.
      + apply S0 in Q. lia. }
  { intros s b OJ Q. destruct (SJ s b Q) as [(N1 & N2 & X)|[[-> X]|[-> X]]]; [|right; lia..].
    left. rewrite <- X. destruct s; reflexivity || discriminate. }
  pose proof (f_nexts _ _ _ _ F1) as N1. rewrite NX in N1. pose proof (i_cur _ _ I1) as CU1.
  destruct (j_entry j1) as [en|] eqn:EN; [|exfalso; apply A2; [discriminate|reflexivity]].
  assert (EB : j_break j1 <> None) by (apply (moved_some _ _ _ _ SB (f_sb _ _ _ _ F1)); discriminate).
  destruct (j_break j1) as [br|] eqn:BR; [|congruence].
  assert (SEN : at_slot j1 g1 SE = Some en) by exact EN. assert (SBR : at_slot j1 g1 SB = Some br) by exact BR.
  set (to := match j_default j1 with Some d => d | None => br end).
  assert (STO : at_slot j1 g1 SD = Some to \/ (at_slot j1 g1 SB = Some to)).
  { unfold to. destruct (j_default j1) eqn:DE; [left; exact DE|right; exact BR]. }
  destruct (i_slot _ _ I1 _ _ SEN) as [LEN _]. destruct (i_shut _ _ I1 _ _ SEN eq_refl) as [TEN CEN].
  assert (OEN : next g <= en).
  { destruct (f_orig _ _ _ _ F1 SE en SEN) as [X|X]; [cbn in X; injection X as <-; lia|lia]. }
  assert (OTO : next g <= to /\ to < next g1 /\ preds g1 to <= 1).
  { destruct STO as [X|X]; destruct (i_slot _ _ I1 _ _ X); (split; [|auto]); destruct (f_orig _ _ _ _ F1 _ to X) as [Y|Y]; try lia.
    - cbn [at_slot] in Y. congruence.
    - rewrite JB in Y. injection Y as <-. lia. }
  assert (NTO : forall s, at_slot j g1 s <> Some to).
  { intros s Q. destruct (CL s to Q) as [[X1 X2]|X].
    - destruct STO as [Y|Y]; pose proof (i_inj _ _ I1 _ _ _ Y X1); subst s; discriminate (X2 eq_refl).
    - destruct STO as [Y|Y]; exact (X _ Y). }
  assert (NEN : forall s, at_slot j g1 s <> Some en).
  { intros s Q. destruct (CL s en Q) as [[X1 X2]|X].
    - pose proof (i_inj _ _ I1 _ _ _ SEN X1); subst s; discriminate (X2 eq_refl).
    - exact (X _ SEN). }
  assert (PEND : preds g1 (S (S (next g))) <= 1 /\ (to = S (S (next g)) -> preds g1 (S (S (next g))) = 0)).
  { pose proof (f_sb _ _ _ _ F1) as M. unfold moves_on in M. rewrite JB, PE0 in M. destruct M as [[M1 M2]|(_ & M1 & M2)].
    - split; [lia|auto].
    - split; [lia|]. intros Q. destruct STO as [Y|Y]; rewrite Q in Y; destruct (M1 _ Y). }
  destruct PEND as [PE1 PE2].
  destruct (pending j g g0 ji j1 g1 (S (S (next g))) I1 F1) as [NSE _]; auto; try lia.
  { intros s b OJ Q. apply (S0 s). rewrite <- Q. destruct s; reflexivity || discriminate. }
  destruct (f_terms _ _ _ _ F1 (S (S (next g)))) as (TE1 & CE1 & TE2); try lia.
  { intros s SH Q. destruct (SJ s _ Q) as [(_ & _ & X)|[[-> X]|[-> X]]]; [apply S0 in X; lia|discriminate|lia]. }
  rewrite TE0 in TE1.
  assert (NEE : en <> S (S (next g))) by (intros ->; exact (TE2 SE eq_refl SEN)).
  destruct OTO as (OT1 & OT2 & OT3).
  apply gives_connect. { lia. } { exact TEN. }
  apply gives_goto. { cbn. unfold upd. destruct (Nat.eqb_spec (S (S (next g))) to) as [Q|Q]; [|lia]. rewrite <- Q. rewrite PE2 by (symmetry; exact Q). lia. }
  { cbn. unfold upd. destruct (Nat.eqb_spec (cur g1) en); [congruence|exact (i_open _ _ I1)]. }
  apply gives_ok. clearbody to.
  match goal with |- post _ _ _ (_, ?x) => destruct (later j g j g1 x I IG FG) as (I4 & F4) end.
  { reflexivity. } { cbn; lia. } { cbn; lia. } { cbn; lia. } { upds. exact TE1. } { intros s _. apply NSE. }
  { intros x L. cbn in L. upds. apply (i_fresh _ _ I1). lia. }
  { intros x N Q. assert (x <> en) by (destruct Q as [Q|(s & _ & Q)]; [lia|intros ->; exact (NEN s Q)]). upds. reflexivity. }
  { intros x Q. assert (x <> to /\ x <> S (S (next g))) as [Q1 Q2].
    { destruct Q as [Q|(s & Q)]; [lia|]. split; intros ->; [exact (NTO s Q)|exact (NSE s Q)]. }
    upds. reflexivity. }
  cbn [cases defaults has_continue labels_of post]. repeat (split; auto).
Qed.

Lemma case_total k a : total a -> total (SCase k a).
Proof.
  intros TA brk cnt sw j g I [SW PL] ND NSC HCS HB HC HS NL U. cbn [no_duff no_switched_continue labels_of continue_in_switch] in *.
  pose proof (i_cur _ _ I) as CU. pose proof (i_fresh _ _ I) as FR.
  assert (FP : forall b, next g <= b -> preds g b = 0) by (intros b L; apply FR; exact L).
  destruct (HS SW) as [S1 S2]. cbn [parse new_block]. destruct (j_control j) as [n|] eqn:JC; [|congruence].
  destruct (j_entry j) as [e|] eqn:JE; [|congruence].
  assert (SEN : at_slot j g SE = Some e) by exact JE.
  destruct (i_slot _ _ I _ _ SEN) as [LE PE]. destruct (i_shut _ _ I _ _ SEN eq_refl) as [TE CE].
  cbn [next].
  apply gives_goto. { cbn. rewrite FP by lia. lia. } { exact (i_open _ _ I). }
  apply gives_if. { upds. exact TE. }
  cbn beta iota.
  apply gives_connect. { upds. rewrite FP by lia. lia. } { upds. apply FR. lia. }
  apply gives_connect. { upds. rewrite FP by lia. lia. } { upds. apply FR. lia. }
  match goal with |- gives (parse a ?y ?x) _ => set (g0 := x); set (ji := y) end.
  assert (SJ : forall s b, at_slot ji g0 s = Some b -> (s <> SE /\ at_slot j g s = Some b /\ b < next g) \/ (s = SE /\ b = S (next g))).
  { intros s b Q. destruct s; try (left; split; [discriminate|]; match type of Q with at_slot _ _ ?x = _ => assert (X : at_slot j g x = Some b) by exact Q end; split; [exact X|exact (proj1 (i_slot _ _ I _ _ X))]).
    right. cbn in Q. injection Q as <-. auto. }
  assert (TM : forall b, b < next g -> b <> cur g -> b <> e -> term g0 b = term g b).
  { intros b L N1 N2. unfold g0. upds. reflexivity. }
  assert (PR : forall b, b < next g -> preds g0 b = preds g b).
  { intros b L. unfold g0. upds. reflexivity. }
  destruct (change j g ji g0 I) as [I0 F0].
  { cbn; lia. } { cbn; lia. } { unfold g0. upds. apply FR. lia. } { left. cbn. lia. }
  { intros x L. cbn in L. unfold g0. upds. apply FR. lia. }
  { intros b L N Q. apply TM; auto. intros ->. exact (Q SE eq_refl SEN). }
  { intros b L _. apply PR. exact L. }
  { intros s b Q. destruct (SJ s b Q) as [(N1 & X & LB)|[-> ->]]; [left|right].
    - split; [exact X|]. rewrite PR by exact LB. split; [exact (proj2 (i_slot _ _ I _ _ X))|]. intros SH.
      destruct (i_shut _ _ I _ _ X SH) as [Y1 Y2]. rewrite TM; auto. intros ->. pose proof (i_inj _ _ I _ _ _ X SEN). congruence.
    - split; [lia|]. split; [cbn; lia|]. split; [unfold g0; upds; rewrite FP by lia; lia|]. intros _. unfold g0. upds. apply FR. lia. }
  { intros s b Q SH. destruct (SJ s b Q) as [(N1 & X & LB)|[-> ->]]; cbn; lia. }
  { intros s s' b L Q Q'. destruct (SJ s b Q) as [(N1 & X & LB)|[-> ->]]; [lia|]. destruct (SJ s' _ Q') as [(N1 & X & LB)|[-> _]]; [lia|reflexivity]. }
  { unfold moves_on. destruct (at_slot j g SB) eqn:Q; [|exact Q]. left. split; [exact Q|]. apply PR. exact (proj1 (i_slot _ _ I _ _ Q)). }
  { unfold moves_on. destruct (at_slot j g SC) eqn:Q; [|exact Q]. left. split; [exact Q|]. apply PR. exact (proj1 (i_slot _ _ I _ _ Q)). }
  destruct (TA brk cnt sw ji g0) as ([j1 g1] & E & I1 & F1 & A1 & A2 & A3 & A4 & A5 & A6); auto.
  { intros _. split; [cbn; congruence|discriminate]. }
  exists (j1, g1). split; [exact E|]. cbn [cases defaults has_continue labels_of post]. split; [exact I1|].
  split; [exact (frame_trans _ _ _ _ _ _ I F0 F1)|]. split; [rewrite A1; cbn; congruence|]. split; [intros _; apply A2; discriminate|].
  split; [discriminate|]. split; [exact A4|]. split; [exact A5|]. exact A6.
Qed.

Lemma default_total a : total a -> total (SDefault a).
Proof.
  intros TA brk cnt sw j g I [SW PL] ND NSC HCS HB HC HS NL U. cbn [no_duff no_switched_continue labels_of continue_in_switch] in *.
  pose proof (i_cur _ _ I) as CU. pose proof (i_fresh _ _ I) as FR.
  assert (FP : forall b, next g <= b -> preds g b = 0) by (intros b L; apply FR; exact L).
  destruct (HS SW) as [S1 S2]. cbn [parse new_block].
  apply gives_goto. { cbn. rewrite FP by lia. lia. } { exact (i_open _ _ I). }
  destruct (j_entry j) as [e|] eqn:JE; [|congruence]. rewrite <- JE.
  match goal with |- gives (parse a ?y ?x) _ => set (g0 := x); set (ji := y) end.
  assert (SJ : forall s b, at_slot ji g0 s = Some b -> (s <> SD /\ at_slot j g s = Some b /\ b < next g) \/ (s = SD /\ b = next g)).
  { intros s b Q. destruct s; try (left; split; [discriminate|]; match type of Q with at_slot _ _ ?x = _ => assert (X : at_slot j g x = Some b) by exact Q end; split; [exact X|exact (proj1 (i_slot _ _ I _ _ X))]).
    right. cbn in Q. injection Q as <-. auto. }
  assert (TM : forall b, b < next g -> b <> cur g -> term g0 b = term g b).
  { intros b L N1. unfold g0. upds. reflexivity. }
  assert (PR : forall b, b < next g -> preds g0 b = preds g b).
  { intros b L. unfold g0. upds. reflexivity. }
  destruct (change j g ji g0 I) as [I0 F0].
  { cbn; lia. } { cbn; lia. } { unfold g0. upds. apply FR. lia. } { left. cbn. lia. }
  { intros x L. cbn in L. unfold g0. upds. apply FR. lia. }
  { intros b L N Q. apply TM; auto. }
  { intros b L _. apply PR. exact L. }
  { intros s b Q. destruct (SJ s b Q) as [(N1 & X & LB)|[-> ->]]; [left|right].
    - split; [exact X|]. rewrite PR by exact LB. split; [exact (proj2 (i_slot _ _ I _ _ X))|]. intros SH.
      destruct (i_shut _ _ I _ _ X SH) as [Y1 Y2]. rewrite TM; auto.
    - split; [lia|]. split; [cbn; lia|]. split; [unfold g0; upds; rewrite FP by lia; lia|]. discriminate. }
  { intros s b Q SH. destruct (SJ s b Q) as [(N1 & X & LB)|[-> ->]]; [cbn; lia|discriminate]. }
  { intros s s' b L Q Q'. destruct (SJ s b Q) as [(N1 & X & LB)|[-> ->]]; [lia|]. destruct (SJ s' _ Q') as [(N1 & X & LB)|[-> _]]; [lia|reflexivity]. }
  { unfold moves_on. destruct (at_slot j g SB) eqn:Q; [|exact Q]. left. split; [exact Q|]. apply PR. exact (proj1 (i_slot _ _ I _ _ Q)). }
  { unfold moves_on. destruct (at_slot j g SC) eqn:Q; [|exact Q]. left. split; [exact Q|]. apply PR. exact (proj1 (i_slot _ _ I _ _ Q)). }
  destruct (TA brk cnt sw ji g0) as ([j1 g1] & E & I1 & F1 & A1 & A2 & A3 & A4 & A5 & A6); auto.
  { intros _. split; [exact S1|cbn; congruence]. }
  exists (j1, g1). split; [exact E|]. cbn [cases defaults has_continue labels_of post]. split; [exact I1|].
  split; [exact (frame_trans _ _ _ _ _ _ I F0 F1)|]. split; [exact A1|]. split; [exact A2|].
  split; [exact A3|]. split; [discriminate|]. split; [exact A5|]. exact A6.
Qed.

(** break, continue and goto to a known label: the slot moves on. *)
Lemma step_gives {A} to step g (k : st -> res A) Q :
  cur g < step -> next g = S step -> to < step -> preds g step = 0 -> preds g to < 2 -> term g (cur g) = None -> term g step = None ->
  gives (k {| next := S (next g); cur := next g; code := code g;
              term := upd (upd (term g) (cur g) (Some (TGoto step))) step (Some (TGoto to));
              preds := upd (upd (preds g) step 1) to (S (preds g to)); labels := labels g |}) Q ->
  gives (bind (step_to to step g) k) Q.
Proof.
  intros L1 L2 L3 P1 P2 T1 T2 H. unfold step_to, goto.
  rewrite (connect_eq (cur g) step) by (auto; lia). cbn [bind].
  rewrite connect_eq.
  - cbn [bind new_block block_start conn next cur code term preds labels]. rewrite P1.
    replace (upd (preds g) step 1 to) with (preds g to); [exact H|]. unfold upd. destruct (Nat.eqb_spec to step); [lia|reflexivity].
  - cbn. unfold upd. destruct (Nat.eqb_spec to step); lia.
  - cbn. unfold upd. destruct (Nat.eqb_spec step (cur g)); [lia|exact T2].
Qed.
Definition stepped_state (to : nat) (g : st) (t : list (nat * entry)) : st :=
  {| next := S (S (next g)); cur := S (next g); code := code g;
     term := upd (upd (term g) (cur g) (Some (TGoto (next g)))) (next g) (Some (TGoto to));
     preds := upd (upd (preds g) (next g) 1) to (S (preds g to)); labels := t |}.
Lemma slot_moves j g j' t s to : inv j g -> at_slot j g s = Some to -> shut s = false ->
  (forall s0, s0 <> s -> at_slot j' (stepped_state to g t) s0 = at_slot j g s0) ->
  at_slot j' (stepped_state to g t) s = Some (next g) ->
  inv j' (stepped_state to g t) /\ frame j g j' (stepped_state to g t).
Proof.
  intros I Q SH OT NW. set (g' := stepped_state to g t) in *. pose proof (i_cur _ _ I) as CU. pose proof (i_fresh _ _ I) as FR.
  destruct (i_slot _ _ I _ _ Q) as [LT PT].
  assert (SJ : forall x b, at_slot j' g' x = Some b -> (x <> s /\ at_slot j g x = Some b /\ b < next g /\ b <> to) \/ (x = s /\ b = next g)).
  { intros x b Y. assert (X : x = s \/ x <> s).
    { destruct x, s; try (right; discriminate); try (left; reflexivity); destruct (Nat.eq_dec l l0); subst; auto; right; congruence. }
    destruct X as [-> | X]; [right; split; [reflexivity|congruence]|left]. rewrite OT in Y by exact X. split; [exact X|]. split; [exact Y|].
    split; [exact (proj1 (i_slot _ _ I _ _ Y))|]. intros ->. exact (X (i_inj _ _ I _ _ _ Y Q)). }
  assert (TM : forall b, b < next g -> b <> cur g -> term g' b = term g b).
  { intros b L N1. unfold g', stepped_state. upds. reflexivity. }
  assert (PR : forall b, b < next g -> b <> to -> preds g' b = preds g b).
  { intros b L N. unfold g', stepped_state. upds. reflexivity. }
  assert (P1 : preds g' (next g) = 1) by (unfold g', stepped_state; upds; reflexivity).
  assert (PT2 : preds g' to = S (preds g to)) by (unfold g', stepped_state; upds; reflexivity).
  assert (MV : forall x, moves_on j g j' g' x).
  { intros x. unfold moves_on. destruct (at_slot j g x) as [b|] eqn:Y.
    - destruct (Nat.eq_dec b to) as [-> | N].
      + right. pose proof (i_inj _ _ I _ _ _ Y Q). subst x. split; [congruence|]. split; [|exact PT2].
        intros s' Z. destruct (SJ s' to Z) as [(_ & _ & _ & X)|[_ X]]; [congruence|lia].
      + left. assert (N2 : x <> s) by (intros ->; congruence). rewrite OT by exact N2. split; [exact Y|]. apply PR; [|exact N]. exact (proj1 (i_slot _ _ I _ _ Y)).
    - assert (N2 : x <> s) by (intros ->; congruence). rewrite OT by exact N2. exact Y. }
  apply (change j g j' g' I).
  - cbn. lia.
  - cbn. lia.
  - unfold g', stepped_state. upds. apply FR. lia.
  - left. cbn. lia.
  - intros x L. cbn in L. unfold g', stepped_state. upds. apply FR. lia.
  - intros b L N _. apply TM; auto.
  - intros b L N. apply PR; [exact L|]. intros ->. exact (N s Q).
  - intros x b Y. destruct (SJ x b Y) as [(N1 & X & LB & NB)|[-> ->]]; [left|right].
    + split; [exact X|]. rewrite PR by auto. split; [exact (proj2 (i_slot _ _ I _ _ X))|]. intros SH2.
      destruct (i_shut _ _ I _ _ X SH2) as [Y1 Y2]. rewrite TM; auto.
    + split; [lia|]. split; [cbn; lia|]. split; [lia|]. congruence.
  - intros x b Y SH2. destruct (SJ x b Y) as [(N1 & X & LB & NB)|[-> ->]]; [cbn; lia|congruence].
  - intros x y b L Y Y'. destruct (SJ x b Y) as [(N1 & X & LB & _)|[-> ->]]; [lia|]. destruct (SJ y _ Y') as [(N1 & X & LB & _)|[-> _]]; [lia|reflexivity].
  - apply MV.
  - apply MV.
Qed.

Lemma break_total : total SBreak.
Proof.
  intros brk cnt sw j g I PL _ _ _ HB _ _ _ _. pose proof (i_cur _ _ I) as CU. pose proof (i_fresh _ _ I) as FR.
  cbn [parse new_block]. destruct (j_break j) as [b|] eqn:JB; [|destruct (HB PL eq_refl)].
  destruct (i_slot _ _ I SB b JB) as [LB PB].
  apply step_gives; auto; try (apply FR; lia); try (cbn; lia). { exact (i_open _ _ I). }
  apply gives_ok. cbn [next cur code term preds labels].
  match goal with |- post _ _ _ (?y, ?x) => change x with (stepped_state b g (labels g)); destruct (slot_moves j g y (labels g) SB b I JB eq_refl) as [A B] end.
  { intros s0 N. destruct s0; try reflexivity. congruence. } { reflexivity. }
  cbn [cases defaults has_continue labels_of post]. repeat (split; auto). intros l e Q UE. right. eauto.
Qed.
Lemma continue_total : total SContinue.
Proof.
  intros brk cnt sw j g I PL _ _ _ _ HC _ _ _. pose proof (i_cur _ _ I) as CU. pose proof (i_fresh _ _ I) as FR.
  cbn [parse new_block]. destruct (j_continue j) as [b|] eqn:JB; [|destruct (HC PL eq_refl)].
  destruct (i_slot _ _ I SC b JB) as [LB PB].
  apply step_gives; auto; try (apply FR; lia); try (cbn; lia). { exact (i_open _ _ I). }
  apply gives_ok. cbn [next cur code term preds labels].
  match goal with |- post _ _ _ (?y, ?x) => change x with (stepped_state b g (labels g)); destruct (slot_moves j g y (labels g) SC b I JB eq_refl) as [A B] end.
  { intros s0 N. destruct s0; try reflexivity. congruence. } { reflexivity. }
  cbn [cases defaults has_continue labels_of post]. repeat (split; auto); try discriminate. intros l e Q UE. right. eauto.
Qed.

Lemma goto_total l : total (SGoto l).
Proof.
  intros brk cnt sw j g I _ _ _ _ _ _ _ _ _. pose proof (i_cur _ _ I) as CU. pose proof (i_fresh _ _ I) as FR.
  cbn [parse new_block]. destruct (lookup l (labels g)) as [e|] eqn:LK.
  - assert (Q : at_slot j g (SCh l) = Some (chain e)) by (cbn; rewrite LK; reflexivity).
    destruct (i_slot _ _ I _ _ Q) as [LB PB].
    apply step_gives; auto; try (apply FR; lia); try (cbn; lia). { exact (i_open _ _ I). }
    apply gives_ok. cbn [next cur code term preds labels].
    set (e' := {| chain := next g; end_block := end_block e; used := used e |}).
    assert (LR : forall l', lookup l' (replace l e' (labels g)) = if l' =? l then Some e' else lookup l' (labels g))
      by (intros l'; apply lookup_replace; congruence).
    match goal with |- post _ _ _ (_, ?x) => change x with (stepped_state (chain e) g (replace l e' (labels g))) end.
    destruct (slot_moves j g j (replace l e' (labels g)) (SCh l) (chain e) I Q eq_refl) as [A B].
    { intros s0 N. destruct s0 as [ | | | |l'|l']; try reflexivity; cbn [at_slot stepped_state labels]; rewrite LR;
        destruct (Nat.eqb_spec l' l); try reflexivity; subst; [congruence|]. rewrite LK. reflexivity. }
    { cbn [at_slot stepped_state labels]. rewrite LR, Nat.eqb_refl. reflexivity. }
    cbn [cases defaults has_continue labels_of post]. repeat (split; auto). intros l' e1 Q1 UE. right.
    cbn [stepped_state labels] in Q1. rewrite LR in Q1. destruct (Nat.eqb_spec l' l); [|eauto]. subst. injection Q1 as <-. eauto.
  - cbn [next with_labels cur code term preds labels].
    set (e' := {| chain := S (next g); end_block := next g; used := false |}).
    assert (LR : forall l', lookup l' (labels g ++ [(l, e')]) = if l' =? l then Some e' else lookup l' (labels g))
      by (intros l'; apply lookup_app; exact LK).
    assert (FP : forall b, next g <= b -> preds g b = 0) by (intros b L; apply FR; exact L).
    apply step_gives; auto; try (cbn; lia); try (cbn; apply FR; lia). { cbn. rewrite FP; lia. } { exact (i_open _ _ I). }
    apply gives_ok. cbn [next cur code term preds labels with_labels].
    match goal with |- post _ _ _ (_, ?x) => set (g' := x) end.
    assert (SJ : forall s b, at_slot j g' s = Some b -> (at_slot j g s = Some b /\ b < next g /\ s <> SCh l /\ s <> SEn l) \/
       (s = SCh l /\ b = S (next g)) \/ (s = SEn l /\ b = next g)).
    { intros s b Q. destruct s as [ | | | |l'|l'].
      1-4: left; match type of Q with at_slot _ _ ?x = _ => assert (X : at_slot j g x = Some b) by exact Q end;
           split; [exact X|]; split; [exact (proj1 (i_slot _ _ I _ _ X))|split; discriminate].
      - cbn [at_slot g' labels] in Q. rewrite LR in Q. destruct (Nat.eqb_spec l' l); [subst; injection Q as <-; right; left; auto|].
        left. assert (X : at_slot j g (SCh l') = Some b) by exact Q. split; [exact X|]. split; [exact (proj1 (i_slot _ _ I _ _ X))|]. split; congruence.
      - cbn [at_slot g' labels] in Q. rewrite LR in Q. destruct (Nat.eqb_spec l' l); [subst; injection Q as <-; right; right; auto|].
        left. assert (X : at_slot j g (SEn l') = Some b) by exact Q. split; [exact X|]. split; [exact (proj1 (i_slot _ _ I _ _ X))|]. split; congruence. }
    assert (TM : forall b, b < next g -> b <> cur g -> term g' b = term g b) by (intros b L N1; unfold g'; upds; reflexivity).
    assert (PR : forall b, b < next g -> preds g' b = preds g b) by (intros b L; unfold g'; upds; reflexivity).
    destruct (change j g j g' I) as [A B].
    { cbn; lia. } { cbn; lia. } { unfold g'. upds. apply FR. lia. } { left. cbn. lia. }
    { intros x L. cbn in L. unfold g'. upds. apply FR. lia. }
    { intros b L N _. apply TM; auto. } { intros b L _. apply PR. exact L. }
    { intros s b Q. destruct (SJ s b Q) as [(X & LB & _)|[[-> ->]|[-> ->]]]; [left|right|right].
      - split; [exact X|]. rewrite PR by exact LB. split; [exact (proj2 (i_slot _ _ I _ _ X))|]. intros SH.
        destruct (i_shut _ _ I _ _ X SH) as [Y1 Y2]. rewrite TM; auto.
      - split; [lia|]. split; [cbn; lia|]. split; [unfold g'; upds; lia|discriminate].
      - split; [lia|]. split; [cbn; lia|]. split; [unfold g'; upds; rewrite FP by lia; lia|]. intros _. unfold g'. upds. apply FR. lia. }
    { intros s b Q SH. destruct (SJ s b Q) as [(X & LB & _)|[[-> ->]|[-> ->]]]; cbn; lia. }
    { intros s s' b L Q Q'. destruct (SJ s b Q) as [(X & LB & _)|[[-> ->]|[-> ->]]]; destruct (SJ s' _ Q') as [(X' & LB' & _)|[[-> X']|[-> X']]]; try lia; reflexivity. }
    { unfold moves_on. destruct (at_slot j g SB) eqn:Q; [|exact Q]. left. split; [exact Q|]. apply PR. exact (proj1 (i_slot _ _ I _ _ Q)). }
    { unfold moves_on. destruct (at_slot j g SC) eqn:Q; [|exact Q]. left. split; [exact Q|]. apply PR. exact (proj1 (i_slot _ _ I _ _ Q)). }
    cbn [cases defaults has_continue labels_of post]. repeat (split; auto). intros l' e1 Q1 UE. right.
    cbn [g' labels] in Q1. rewrite LR in Q1. destruct (Nat.eqb_spec l' l); [|eauto]. subst. injection Q1 as <-. discriminate.
Qed.

Lemma label_total l a : total a -> total (SLabel l a).
Proof.
  intros TA brk cnt sw j g I PL ND NSC HCS HB HC HS NL U. cbn [placed no_duff no_switched_continue labels_of continue_in_switch] in *.
  pose proof (i_cur _ _ I) as CU. pose proof (i_fresh _ _ I) as FR.
  assert (FP : forall b, next g <= b -> preds g b = 0) by (intros b L; apply FR; exact L).
  inversion NL as [|? ? NIN NL']; subst. cbn [parse new_block].
  assert (exists g0, inv j g0 /\ frame j g j g0 /\
    (forall l' e, l' <> l -> lookup l' (labels g0) = Some e -> lookup l' (labels g) = Some e) /\
    (forall Q, gives (parse a j g0) Q -> gives (parse (SLabel l a) j g) Q)) as (g0 & I0 & F0 & L0 & K).
  { cbn [parse new_block]. destruct (lookup l (labels g)) as [e|] eqn:LK.
    - assert (UE : used e = false) by (apply (U l); [left; reflexivity|exact LK]). rewrite UE. cbn [bind].
      assert (Q : at_slot j g (SEn l) = Some (end_block e)) by (cbn; rewrite LK, UE; reflexivity).
      assert (QC : at_slot j g (SCh l) = Some (chain e)) by (cbn; rewrite LK; reflexivity).
      destruct (i_slot _ _ I _ _ Q) as [LB PB]. destruct (i_shut _ _ I _ _ Q eq_refl) as [TB CB].
      set (e' := {| chain := chain e; end_block := end_block e; used := true |}).
      assert (LR : forall l', lookup l' (replace l e' (labels g)) = if l' =? l then Some e' else lookup l' (labels g))
        by (intros l'; apply lookup_replace; congruence).
      set (g0 := block_start (end_block e) (conn (cur g) (end_block e) (with_labels (replace l e' (labels g)) g))).
      exists g0.
      assert (SJ : forall s b, at_slot j g0 s = Some b -> s <> SEn l /\ at_slot j g s = Some b /\ b < next g /\ b <> end_block e).
      { assert (H : forall s b, at_slot j g0 s = Some b -> s <> SEn l /\ at_slot j g s = Some b).
        { intros s b Y. destruct s as [ | | | |l'|l']; try (split; [discriminate|exact Y]).
          - cbn [at_slot g0 labels block_start conn with_labels] in Y. rewrite LR in Y. split; [discriminate|].
            destruct (Nat.eqb_spec l' l); [subst; rewrite QC; exact Y|exact Y].
          - cbn [at_slot g0 labels block_start conn with_labels] in Y. rewrite LR in Y.
            destruct (Nat.eqb_spec l' l); [discriminate|]. split; [congruence|exact Y]. }
        intros s b Y. destruct (H s b Y) as [H1 H2]. split; [exact H1|]. split; [exact H2|]. split; [exact (proj1 (i_slot _ _ I _ _ H2))|].
        intros ->. exact (H1 (i_inj _ _ I _ _ _ H2 Q)). }
      assert (SK : forall s, s <> SEn l -> at_slot j g0 s = at_slot j g s).
      { intros s N. destruct s as [ | | | |l'|l']; try reflexivity; cbn [at_slot g0 labels block_start conn with_labels]; rewrite LR;
          destruct (Nat.eqb_spec l' l); try reflexivity; subst; [rewrite LK; reflexivity|congruence]. }
      assert (TM : forall b, b <> cur g -> term g0 b = term g b) by (intros b N1; unfold g0; upds; reflexivity).
      assert (PR : forall b, b <> end_block e -> preds g0 b = preds g b) by (intros b L; unfold g0; upds; reflexivity).
      destruct (change j g j g0 I) as [A B].
      { cbn; lia. } { cbn; lia. } { cbn [g0 cur block_start]. rewrite TM; auto. } { right. exists (SEn l). split; [reflexivity|exact Q]. }
      { intros x L. cbn in L. unfold g0. upds. apply FR. lia. }
      { intros b L N _. apply TM; auto. } { intros b L N. apply PR. intros ->. exact (N _ Q). }
      { intros s b Y. destruct (SJ s b Y) as (N1 & X & LX & NX). left. split; [exact X|]. rewrite PR by exact NX.
        split; [exact (proj2 (i_slot _ _ I _ _ X))|]. intros SH. destruct (i_shut _ _ I _ _ X SH) as [Y1 Y2]. rewrite TM; auto. }
      { intros s b Y SH. destruct (SJ s b Y) as (N1 & X & LX & NX). exact NX. }
      { intros s s' b L Y. destruct (SJ s b Y) as (N1 & X & LX & NX). lia. }
      { unfold moves_on. rewrite SK by discriminate. destruct (at_slot j g SB) eqn:Y; [|reflexivity]. left. split; [reflexivity|]. apply PR.
        intros ->. discriminate (i_inj _ _ I _ _ _ Y Q). }
      { unfold moves_on. rewrite SK by discriminate. destruct (at_slot j g SC) eqn:Y; [|reflexivity]. left. split; [reflexivity|]. apply PR.
        intros ->. discriminate (i_inj _ _ I _ _ _ Y Q). }
      split; [exact A|]. split; [exact B|]. split.
      + intros l' e1 N Y. cbn [g0 labels block_start conn with_labels] in Y. rewrite LR in Y. destruct (Nat.eqb_spec l' l); [congruence|exact Y].
      + intros P H. apply gives_goto; [cbn; lia|exact (i_open _ _ I)|exact H].
    - set (e' := {| chain := next g; end_block := next g; used := true |}).
      assert (LR : forall l', lookup l' (labels g ++ [(l, e')]) = if l' =? l then Some e' else lookup l' (labels g))
        by (intros l'; apply lookup_app; exact LK).
      cbn [bind].
      match goal with |- context [bind (goto ?b ?x) _] => set (g0 := block_start b (conn (cur g) b x)) end. exists g0.
      assert (SJ : forall s b, at_slot j g0 s = Some b -> (at_slot j g s = Some b /\ b < next g /\ s <> SCh l) \/ (s = SCh l /\ b = next g)).
      { intros s b Q. destruct s as [ | | | |l'|l'].
        1-4: left; match type of Q with at_slot _ _ ?x = _ => assert (X : at_slot j g x = Some b) by exact Q end;
             split; [exact X|]; split; [exact (proj1 (i_slot _ _ I _ _ X))|discriminate].
        - cbn [at_slot g0 labels block_start conn with_labels] in Q. rewrite LR in Q. destruct (Nat.eqb_spec l' l); [subst; injection Q as <-; right; auto|].
          left. assert (X : at_slot j g (SCh l') = Some b) by exact Q. split; [exact X|]. split; [exact (proj1 (i_slot _ _ I _ _ X))|]. congruence.
        - cbn [at_slot g0 labels block_start conn with_labels] in Q. rewrite LR in Q. destruct (Nat.eqb_spec l' l); [discriminate|].
          left. assert (X : at_slot j g (SEn l') = Some b) by exact Q. split; [exact X|]. split; [exact (proj1 (i_slot _ _ I _ _ X))|]. congruence. }
      assert (TM : forall b, b < next g -> b <> cur g -> term g0 b = term g b) by (intros b L N1; unfold g0; upds; reflexivity).
      assert (PR : forall b, b < next g -> preds g0 b = preds g b) by (intros b L; unfold g0; upds; reflexivity).
      destruct (change j g j g0 I) as [A B].
      { cbn; lia. } { cbn; lia. } { unfold g0. upds. apply FR. lia. } { left. cbn. lia. }
      { intros x L. cbn in L. unfold g0. upds. apply FR. lia. }
      { intros b L N _. apply TM; auto. } { intros b L _. apply PR. exact L. }
      { intros s b Q. destruct (SJ s b Q) as [(X & LB & _)|[-> ->]]; [left|right].
        - split; [exact X|]. rewrite PR by exact LB. split; [exact (proj2 (i_slot _ _ I _ _ X))|]. intros SH.
          destruct (i_shut _ _ I _ _ X SH) as [Y1 Y2]. rewrite TM; auto.
        - split; [lia|]. split; [cbn; lia|]. split; [unfold g0; upds; rewrite FP by lia; lia|discriminate]. }
      { intros s b Q SH. destruct (SJ s b Q) as [(X & LB & _)|[-> ->]]; [cbn; lia|discriminate]. }
      { intros s s' b L Q Q'. destruct (SJ s b Q) as [(X & LB & _)|[-> ->]]; destruct (SJ s' _ Q') as [(X' & LB' & _)|[-> X']]; try lia; reflexivity. }
      { unfold moves_on. destruct (at_slot j g SB) eqn:Q; [|exact Q]. left. split; [exact Q|]. apply PR. exact (proj1 (i_slot _ _ I _ _ Q)). }
      { unfold moves_on. destruct (at_slot j g SC) eqn:Q; [|exact Q]. left. split; [exact Q|]. apply PR. exact (proj1 (i_slot _ _ I _ _ Q)). }
      split; [exact A|]. split; [exact B|]. split.
      + intros l' e1 N Y. cbn [g0 labels block_start conn with_labels] in Y. rewrite LR in Y. destruct (Nat.eqb_spec l' l); [congruence|exact Y].
      + intros P H. apply gives_goto; [cbn; rewrite FP; lia|exact (i_open _ _ I)|exact H]. }
  apply K.
  destruct (TA brk cnt sw j g0) as ([j1 g1] & E & I1 & F1 & A1 & A2 & A3 & A4 & A5 & A6); auto.
  { intros l' e Q Y. apply (U l'); [right; exact Q|]. apply L0; [|exact Y]. intros ->. contradiction. }
  exists (j1, g1). split; [exact E|]. cbn [cases defaults has_continue labels_of post]. split; [exact I1|].
  split; [exact (frame_trans _ _ _ _ _ _ I F0 F1)|]. split; [exact A1|]. split; [exact A2|].
  split; [exact A3|]. split; [exact A4|]. split; [exact A5|].
  intros l' e Q UE. destruct (A6 l' e Q UE) as [X|(e0 & X & Y)]; [left; right; exact X|].
  destruct (Nat.eq_dec l' l) as [->|N]; [left; left; reflexivity|]. right. exists e0. split; [apply L0; auto|exact Y].
Qed.

Theorem parse_total : forall s, total s.
Proof.
  induction s; auto using skip_total, do_total, seq_total, if_total, while_total, do_while_total, for_total, switch_total, case_total,
    default_total, label_total, goto_total, break_total, continue_total, return_total.
Qed.

Lemma no_continue_outside s brk sw : placed brk false sw s -> has_continue s = false.
Proof.
  revert brk sw. induction s; cbn; intros brk sw P; auto; try discriminate; try (destruct P as [P1 P2]); eauto.
  - rewrite (IHs1 _ _ P1), (IHs2 _ _ P2). reflexivity.
  - rewrite (IHs1 _ _ P1), (IHs2 _ _ P2). reflexivity.
Qed.
Lemma switched_has s : has_continue s = false -> continue_in_switch s = false.
Proof.
  induction s; cbn; auto; rewrite !orb_false_iff; tauto.
Qed.

Theorem function_total body implicit :
  placed false false false body -> no_duff body -> no_switched_continue body -> NoDup (labels_of body) ->
  exists g, parse_function body implicit = Ok g.
Proof.
  intros PL ND NSC NL.
  assert (I : inv no_jumps start).
  { split; cbn; auto; try lia; intros []; cbn; discriminate. }
  destruct (parse_total body false false false no_jumps start I PL ND NSC) as ([j g] & E & IG & _); auto; try discriminate.
  { apply switched_has. exact (no_continue_outside _ _ _ PL). }
  unfold parse_function. rewrite E. cbn [bind]. destruct implicit as [r|]; [|eauto].
  unfold finish. rewrite (i_open _ _ IG). eauto.
Qed.
