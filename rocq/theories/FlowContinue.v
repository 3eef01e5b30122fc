(** A while loop with a continue inside a switch never compiles. *)
From Verif Require Import Base FlowSpec Flow FlowSim FlowProofs.
Local Open Scope nat_scope.

Definition grows (a b : st) : Prop := forall x, preds a x <= preds b x.
Lemma grows_refl a : grows a a. Proof. intros x. lia. Qed.
Lemma grows_trans a b c : grows a b -> grows b c -> grows a c.
Proof. intros A B x. pose proof (A x). pose proof (B x). lia. Qed.

Lemma finish_preds s t g g' : finish s t g = Ok g' -> preds g' = preds g.
Proof. unfold finish. destruct (term g s); [discriminate|]. intros H; injection H as <-. reflexivity. Qed.
Lemma connect_preds s b g g' : connect s b g = Ok g' -> preds g b < 2 /\ preds g' = upd (preds g) b (S (preds g b)).
Proof.
  unfold connect. destruct (Nat.ltb_spec (preds g b) 2); [|discriminate]. intros H1. apply finish_preds in H1. split; [assumption|exact H1].
Qed.
Lemma connect_grows s b g g' : connect s b g = Ok g' -> grows g g'.
Proof.
  intros H. apply connect_preds in H as [_ H]. intros x. rewrite H. unfold upd. destruct (Nat.eqb_spec x b); [subst; lia|lia].
Qed.
Lemma if_selection_preds t g bt bf g' : if_selection t g = Ok (bt, bf, g') -> preds g' = preds g.
Proof. unfold if_selection. cbn [new_block]. intros H. apply bind_ok in H as (g1 & F & H). injection H as _ _ <-. apply finish_preds in F. exact F. Qed.
Lemma step_to_preds to step g g' : step <> to -> step_to to step g = Ok g' ->
  preds g to < 2 /\ preds g' = upd (upd (preds g) step (S (preds g step))) to (S (preds g to)).
Proof.
  intros N H. unfold step_to in H. apply bind_ok in H as (g1 & H1 & H). apply bind_ok in H as (g2 & H2 & H).
  apply connect_preds in H1 as [_ H1]. apply connect_preds in H2 as [L H2]. cbn in H2, L. cbn in H. injection H as <-. cbn.
  rewrite H2, H1 in *. unfold upd at 1 in L. unfold upd at 3.
  destruct (Nat.eqb_spec to step); [congruence|]. auto.
Qed.
Lemma step_to_grows to step g g' : step_to to step g = Ok g' -> grows g g'.
Proof.
  intros H. unfold step_to in H. apply bind_ok in H as (g1 & H1 & H). apply bind_ok in H as (g2 & H2 & H).
  apply connect_grows in H1. apply connect_grows in H2. cbn in H. injection H as <-.
  exact (grows_trans _ _ _ H1 H2).
Qed.

Definition more (a b : st) : Prop := grows a b /\ next a <= next b.
Lemma more_refl a : more a a. Proof. split; [apply grows_refl|lia]. Qed.
Lemma more_trans a b c : more a b -> more b c -> more a c.
Proof. intros [A B] [C D]. split; [exact (grows_trans _ _ _ A C)|lia]. Qed.
Lemma more_same a b c : preds b = preds c -> next b <= next c -> more a b -> more a c.
Proof. intros P N [A B]. split; [|lia]. intros x. rewrite <- P. apply A. Qed.
Lemma connect_more s b a g g' : connect s b g = Ok g' -> more a g -> more a g'.
Proof.
  intros H M. apply (more_trans _ _ _ M). split; [exact (connect_grows _ _ _ _ H)|]. apply connect_fin in H. rewrite (f_next _ _ _ _ H). lia.
Qed.
Lemma finish_more s t a g g' : finish s t g = Ok g' -> more a g -> more a g'.
Proof.
  intros H M. apply (more_trans _ _ _ M). split.
  - intros x. rewrite (finish_preds _ _ _ _ H). lia.
  - apply finish_fin in H. rewrite (f_next _ _ _ _ H). lia.
Qed.
Lemma if_selection_more t a g bt bf g' : if_selection t g = Ok (bt, bf, g') -> more a g -> more a g'.
Proof.
  intros H M. apply (more_trans _ _ _ M). split.
  - intros x. rewrite (if_selection_preds _ _ _ _ _ H). lia.
  - apply if_selection_ok in H as (_ & _ & F). rewrite (f_next _ _ _ _ F). cbn. lia.
Qed.
Lemma step_to_more to step a g g' : step_to to step g = Ok g' -> more a g -> more a g'.
Proof.
  intros H M. apply (more_trans _ _ _ M). split; [exact (step_to_grows _ _ _ _ H)|].
  unfold step_to in H. apply bind_ok in H as (g1 & H1 & H). apply bind_ok in H as (g2 & H2 & H).
  apply connect_fin in H1. apply connect_fin in H2. cbn in H. injection H as <-. cbn. rewrite (f_next _ _ _ _ H2). cbn.
  rewrite (f_next _ _ _ _ H1). lia.
Qed.

Definition tracks (s : stmt) (j : jumps) (g : st) (j' : jumps) (g' : st) : Prop :=
  more g g' /\
  forall b, j_continue j = Some b -> b < next g ->
    exists b', j_continue j' = Some b' /\ b' < next g' /\ (has_continue s = false -> b' = b) /\
      (has_continue s = true -> preds g b < preds g' b /\ preds g b < 2) /\
      (1 <= preds g b -> 1 <= preds g' b' /\ (continue_in_switch s = true -> 2 <= preds g' b')).

(** What does not touch the target of continue. *)
Lemma tracks_none s j g g' : has_continue s = false -> continue_in_switch s = false -> more g g' -> tracks s j g j g'.
Proof.
  intros A B M. split; [exact M|]. intros b J L. exists b. destruct M as [M N]. pose proof (M b).
  split; [exact J|]. split; [lia|]. split; [auto|]. split; [congruence|]. intros. split; [lia|congruence].
Qed.
(** Before and after. *)
Lemma tracks_before s j j0 g g0 j' g' : j_continue j0 = j_continue j -> more g g0 -> tracks s j0 g0 j' g' -> tracks s j g j' g'.
Proof.
  intros JC [M N] [T1 T2]. split; [exact (more_trans _ _ _ (conj M N) T1)|]. intros b J L. rewrite <- JC in J.
  assert (L0 : b < next g0) by lia.
  destruct (T2 b J L0) as (b' & A1 & A2 & A3 & A4 & A5). pose proof (M b). exists b'.
  split; [exact A1|]. split; [exact A2|]. split; [exact A3|]. split.
  - intros Q. pose proof (A4 Q). lia.
  - intros Q. apply A5. lia.
Qed.
Lemma tracks_after s j g j' j1 g' g1 : j_continue j1 = j_continue j' -> more g' g1 -> tracks s j g j' g' -> tracks s j g j1 g1.
Proof.
  intros JC [M N] [T1 T2]. split; [exact (more_trans _ _ _ T1 (conj M N))|]. intros b J L.
  destruct (T2 b J L) as (b' & A1 & A2 & A3 & A4 & A5). exists b'. pose proof (M b'). pose proof (M b).
  split; [congruence|]. split; [lia|]. split; [exact A3|]. split.
  - intros Q. pose proof (A4 Q). lia.
  - intros Q. destruct (A5 Q) as [B1 B2]. split; [lia|]. intros Q1. pose proof (B2 Q1). lia.
Qed.
Lemma tracks_seq s a b j g j1 g1 j' g' :
  has_continue s = has_continue a || has_continue b -> continue_in_switch s = continue_in_switch a || continue_in_switch b ->
  tracks a j g j1 g1 -> tracks b j1 g1 j' g' -> tracks s j g j' g'.
Proof.
  intros HC HS [T1 T2] [U1 U2]. split; [exact (more_trans _ _ _ T1 U1)|]. intros x J L.
  destruct (T2 x J L) as (y & A1 & A2 & A3 & A4 & A5). destruct (U2 y A1 A2) as (z & B1 & B2 & B3 & B4 & B5).
  exists z. split; [exact B1|]. split; [exact B2|]. destruct T1 as [T1 _], U1 as [U1 _].
  pose proof (T1 x). pose proof (U1 x). pose proof (U1 y). rewrite HC, HS. split; [|split].
  - intros Q. apply orb_false_iff in Q as [Q1 Q2]. rewrite (B3 Q2). apply A3. exact Q1.
  - intros Q. destruct (has_continue a).
    + pose proof (A4 eq_refl). lia.
    + cbn in Q. rewrite (A3 eq_refl) in *. pose proof (B4 Q). lia.
  - intros Q. destruct (A5 Q) as [C1 C2]. destruct (B5 C1) as [D1 D2]. split; [exact D1|].
    intros Q1. destruct (continue_in_switch b) eqn:CB; [auto|]. rewrite orb_false_r in Q1. pose proof (C2 Q1).
    destruct (has_continue b) eqn:HB.
    + (* this continue would be a third predecessor *) pose proof (B4 eq_refl). lia.
    + rewrite (B3 eq_refl). lia.
Qed.

Ltac ok_step H :=
  match type of H with
  | bind (parse _ _ _) _ = Ok _ => fail 1
  | bind (if_selection _ _) _ = Ok _ =>
      let a := fresh "r" in let E := fresh "E" in
      apply bind_ok in H as (((? & ?) & a) & E & H); cbn beta iota in H
  | bind _ _ = Ok _ => let a := fresh "g" in let E := fresh "E" in apply bind_ok in H as (a & E & H); cbn beta iota in H
  end.
Ltac more_step :=
  match goal with
  | |- more _ (block_start _ ?g) => apply (more_same _ g); [reflexivity|cbn; lia|]
  | |- more _ (emit _ ?g) => apply (more_same _ g); [reflexivity|cbn; lia|]
  | |- more _ (emit_option ?v ?g) => destruct v; cbn [emit_option]
  | |- more _ (with_labels _ ?g) => apply (more_same _ g); [reflexivity|cbn; lia|]
  | |- more ?g ?g => apply more_refl
  | E : connect _ _ _ = Ok ?g |- more _ ?g => apply (connect_more _ _ _ _ _ E)
  | E : goto _ _ = Ok ?g |- more _ ?g => apply (connect_more _ _ _ _ _ E)
  | E : finish _ _ _ = Ok ?g |- more _ ?g => apply (finish_more _ _ _ _ _ E)
  | E : if_selection _ _ = Ok (_, _, ?g) |- more _ ?g => apply (if_selection_more _ _ _ _ _ _ E)
  | E : step_to _ _ _ = Ok ?g |- more _ ?g => apply (step_to_more _ _ _ _ _ E)
  | |- more ?a {| next := S (next ?g); cur := _; code := _; term := _; preds := _; labels := _ |} =>
      apply (more_same _ g); [reflexivity|cbn; lia|]
  | T : tracks _ _ _ _ ?g |- more _ ?g => apply (more_trans _ _ _ ltac:(idtac) (proj1 T)) || (eapply more_trans; [|exact (proj1 T)])
  end.

Theorem parse_tracks : forall s j g j' g', parse s j g = Ok (j', g') -> tracks s j g j' g'.
Proof.
  induction s as [ |a|a IHa b IHb|c a IHa b IHb|c a IHa|a IHa c|i c v a IHa|e a IHa|k a IHa|a IHa|l a IHa|l| | |r];
    intros j g j' g' H; cbn [parse new_block] in H.
  - injection H as <- <-. apply tracks_none; auto using more_refl.
  - injection H as <- <-. apply tracks_none; auto. repeat more_step.
  - apply bind_ok in H as ([j1 G1] & H1 & H). apply (tracks_seq _ a b _ _ j1 G1); auto.
  - ok_step H. apply bind_ok in H as ([j1 G1] & H1 & H). apply IHa in H1. cbn beta iota in H. cbn [new_block] in H. ok_step H.
    apply bind_ok in H as ([j2 G2] & H2 & H). apply IHb in H2. cbn beta iota in H. ok_step H. injection H as <- <-.
    apply (tracks_seq _ a b _ _ j1 G1); auto.
    + apply (tracks_before _ _ _ _ _ _ _ eq_refl) with (2 := H1). repeat more_step.
    + apply (tracks_after _ _ _ j2 _ G2); [reflexivity|repeat more_step|].
      apply (tracks_before _ _ _ _ _ _ _ eq_refl) with (2 := H2). repeat more_step.
  - do 4 ok_step H. apply bind_ok in H as ([j1 G1] & H1 & H). apply IHa in H1. cbn beta iota in H.
    destruct (j_continue j1); [|discriminate]. ok_step H. injection H as <- <-. apply tracks_none; auto.
    repeat more_step.
  - ok_step H. apply bind_ok in H as ([j1 G1] & H1 & H). apply IHa in H1. cbn beta iota in H.
    repeat ok_step H. injection H as <- <-. apply tracks_none; auto. repeat more_step.
  - do 2 ok_step H. apply bind_ok in H as (G2 & E2 & H). do 1 ok_step H. apply bind_ok in H as ([j1 G1] & H1 & H). apply IHa in H1. cbn beta iota in H.
    repeat ok_step H. injection H as <- <-. apply tracks_none; auto.
    assert (M : more g G2).
    { destruct c; cbn [new_block] in E2; repeat ok_step E2; repeat more_step. }
    repeat more_step; exact M.
  - ok_step H. apply bind_ok in H as ([j1 G1] & H1 & H). apply IHa in H1. cbn beta iota in H.
    destruct (j_entry j1); [|discriminate]. destruct (j_break j1); [|discriminate]. repeat ok_step H. injection H as <- <-.
    assert (M : more g G1) by repeat more_step.
    assert (M2 : more G1 g2) by repeat more_step.
    split; [exact (more_trans _ _ _ M M2)|]. intros b J L. destruct H1 as [T1 T2]. cbn in T2.
    match type of E with goto _ ?x = _ => set (gz := x) in * end.
    assert (M0 : more gz g0) by repeat more_step.
    destruct (T2 b J) as (b' & A1 & A2 & A3 & A4 & A5).
    { destruct M0 as [_ M0]. cbn in M0. lia. }
    exists b. split; [exact J|]. unfold block_start. cbn [next preds]. destruct M0 as [M0 _], T1 as [T1 _], M as [_ M], M2 as [M2 M3]. split; [lia|].
    pose proof (M0 b) as Q1. change (preds gz b) with (preds g b) in Q1. pose proof (T1 b) as Q2. pose proof (M2 b) as Q3. cbn in Q2.
    split; [auto|]. cbn [has_continue continue_in_switch]. cbn in A4. split.
    + intros Q. pose proof (A4 Q). lia.
    + intros Q. split; [lia|]. intros Q4. pose proof (A4 Q4). lia.
  - destruct (j_control j); [|discriminate]. destruct (j_entry j); [|discriminate]. repeat ok_step H. apply IHa in H.
    apply (tracks_before _ _ _ _ _ _ _ (eq_refl : j_continue {| j_break := _; j_continue := j_continue j; j_entry := _; j_default := _; j_control := _ |} = _)) with (2 := H).
    repeat more_step.
  - ok_step H. destruct (j_entry j); [|discriminate]. apply IHa in H.
    apply (tracks_before _ _ _ _ _ _ _ (eq_refl : j_continue {| j_break := _; j_continue := j_continue j; j_entry := _; j_default := _; j_control := _ |} = _)) with (2 := H).
    repeat more_step.
  - apply bind_ok in H as ((b & G1) & E & H). cbn beta iota in H.
    assert (M : more g G1).
    { destruct (lookup l (labels g)); [destruct (used e); [discriminate|]|]; injection E as <- <-; repeat more_step. }
    ok_step H. apply IHa in H. apply (tracks_before _ _ _ _ _ _ _ eq_refl) with (2 := H). repeat more_step. exact M.
  - destruct (lookup l (labels g)).
    + ok_step H. injection H as <- <-. apply tracks_none; auto. repeat more_step.
    + ok_step H. injection H as <- <-. apply tracks_none; auto. repeat more_step.
  - destruct (j_break j); [|discriminate]. ok_step H. injection H as <- <-.
    apply (tracks_after _ _ _ j _ g0); [reflexivity|apply more_refl|]. apply tracks_none; auto. repeat more_step.
  - destruct (j_continue j) as [t|] eqn:JC; [|discriminate]. ok_step H. injection H as <- <-.
    assert (M : more g g0) by repeat more_step. split; [exact M|].
    intros b J L. rewrite JC in J. injection J as ->. exists (next g). split; [reflexivity|].
    assert (NE : next g <> b) by lia. destruct (step_to_preds _ _ _ _ NE E) as [P1 P2]. cbn in P1, P2.
    pose proof (step_to_more _ _ _ _ _ E (more_refl _)) as [_ N1]. cbn in N1. split; [lia|].
    split; [discriminate|]. rewrite P2. unfold upd. rewrite Nat.eqb_refl. destruct (Nat.eqb_spec (next g) b); [contradiction|].
    rewrite Nat.eqb_refl. split; [lia|]. intros _. split; [lia|discriminate].
  - ok_step H. injection H as <- <-. apply tracks_none; auto. repeat more_step.
Qed.

Theorem while_fails c a : continue_in_switch a = true -> forall j g r, parse (SWhile c a) j g <> Ok r.
Proof.
  intros CS j g [j' g'] H. cbn [parse new_block] in H. do 4 ok_step H. apply bind_ok in H as ([j1 G1] & H1 & H). cbn beta iota in H.
  destruct (parse_tracks _ _ _ _ _ H1) as [_ T]. cbn in T.
  destruct (T _ eq_refl) as (b' & A1 & A2 & A3 & A4 & A5).
  { assert (M : more g0 g2) by repeat more_step. destruct M as [_ M]. cbn in M.
    apply connect_fin in E. rewrite (f_next _ _ _ _ E) in M. cbn in M. lia. }
  assert (P : 1 <= preds g2 (S (next g))).
  { assert (M : more g0 g2) by repeat more_step. destruct M as [M _]. pose proof (M (S (next g))) as Q.
    apply connect_preds in E as [_ E]. rewrite E in Q. unfold upd in Q. rewrite Nat.eqb_refl in Q. lia. }
  destruct (A5 P) as [_ B]. pose proof (B CS). rewrite A1 in H. apply bind_ok in H as (g4 & E4 & _).
  apply connect_preds in E4 as [E4 _]. lia.
Qed.

Theorem parse_no_while : forall s j g r, parse s j g = Ok r -> while_with_one s = false.
Proof.
  induction s as [ |a|a IHa b IHb|c a IHa b IHb|c a IHa|a IHa c|i c v a IHa|e a IHa|k a IHa|a IHa|l a IHa|l| | |r];
    intros j g x H; try reflexivity; cbn [while_with_one].
  - cbn [parse] in H. apply bind_ok in H as ([j1 G1] & H1 & H). apply orb_false_iff. split; [exact (IHa _ _ _ H1)|exact (IHb _ _ _ H)].
  - cbn [parse] in H. ok_step H. apply bind_ok in H as ([j1 G1] & H1 & H). cbn beta iota in H. cbn [new_block] in H. ok_step H.
    apply bind_ok in H as ([j2 G2] & H2 & H). apply orb_false_iff. split; [exact (IHa _ _ _ H1)|exact (IHb _ _ _ H2)].
  - apply orb_false_iff. split.
    + destruct (continue_in_switch a) eqn:C; [|reflexivity]. destruct (while_fails c a C j g x H).
    + cbn [parse new_block] in H. do 4 ok_step H. apply bind_ok in H as ([j1 G1] & H1 & H). exact (IHa _ _ _ H1).
  - cbn [parse new_block] in H. ok_step H. apply bind_ok in H as ([j1 G1] & H1 & H). exact (IHa _ _ _ H1).
  - cbn [parse new_block] in H. do 2 ok_step H. apply bind_ok in H as (G2 & E2 & H). ok_step H.
    apply bind_ok in H as ([j1 G1] & H1 & H). exact (IHa _ _ _ H1).
  - cbn [parse new_block] in H. ok_step H. apply bind_ok in H as ([j1 G1] & H1 & H). exact (IHa _ _ _ H1).
  - cbn [parse new_block] in H. destruct (j_control j); [|discriminate]. destruct (j_entry j); [|discriminate].
    repeat ok_step H. exact (IHa _ _ _ H).
  - cbn [parse new_block] in H. ok_step H. destruct (j_entry j); [|discriminate]. exact (IHa _ _ _ H).
  - cbn [parse] in H. apply bind_ok in H as ((b & G1) & E & H). cbn beta iota in H. ok_step H. exact (IHa _ _ _ H).
Qed.
