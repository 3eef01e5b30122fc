(** Induction over statements: what [parse] makes is a translation. *)
From Verif Require Import Base FlowSpec Flow FlowSim FlowProofs.
Local Open Scope nat_scope.

(** ir_goto and then ir_block_start *)
Record moved (j : jumps) (g : st) (b b' : nat) (g' : st) : Prop := {
  m_wfc : wfc j g'; m_open : open g'; m_ext : ext g g'; m_next : next g' = next g; m_pos : pos g' = (b', 0);
  m_free : forall x, free j g x -> x <> b' -> free j g' x;
  m_labels : labels g' = labels g; m_cur : cur g' = b';
  m_silent : forall G, ext g' G -> silent G (pos g) (b, 0);
  m_silentp : forall G, ext g' G -> silentp G (pos g) (b, 0)
}.
Lemma goto_moved j g b b' g1 : wfc j g -> free j g b' -> goto b g = Ok g1 -> moved j g b b' (block_start b' g1).
Proof.
  intros W F H. apply connect_fin in H.
  assert (N : forall x, free j g x -> x <> cur g) by (intros x ((_ & N & _) & _); exact N).
  assert (F1 := fin_free j _ _ _ _ H _ F (N _ F)).
  split.
  - apply start_wfc; [exact F1|]. exact (fin_wfc j _ _ _ _ H W (or_introl eq_refl)).
  - exact (start_open j _ _ F1).
  - exact (fin_ext _ _ _ _ H).
  - exact (f_next _ _ _ _ H).
  - exact (start_pos j _ _ F1).
  - intros x Fx NX. apply start_free; [|exact NX]. exact (fin_free j _ _ _ _ H _ Fx (N _ Fx)).
  - exact (f_labels _ _ _ _ H).
  - reflexivity.
  - intros G E. exact (fin_silent _ _ _ _ _ H E).
  - intros G E. exact (fin_silentp _ _ _ _ _ H E).
Qed.

(** ir_connect from a block that has nothing in it *)
Record connected (j : jumps) (g : st) (s b : nat) (g' : st) : Prop := {
  c_wfc : wfc j g'; c_ext : ext g g'; c_next : next g' = next g; c_pos : pos g' = pos g; c_open : open g -> open g';
  c_free : forall x, free j g x -> x <> s -> free j g' x;
  c_silent : forall G, ext g' G -> silent G (s, 0) (b, 0)
}.
Lemma connect_connected j g s b g' : wfc j g -> free j g s -> connect s b g = Ok g' -> connected j g s b g'.
Proof.
  intros W F H. apply connect_fin in H. split.
  - exact (fin_wfc j _ _ _ _ H W (or_intror F)).
  - exact (fin_ext _ _ _ _ H).
  - exact (f_next _ _ _ _ H).
  - unfold pos. rewrite (f_cur _ _ _ _ H), (f_code _ _ _ _ H). reflexivity.
  - unfold open. rewrite (f_cur _ _ _ _ H), (f_term _ _ _ _ H). unfold upd.
    destruct (Nat.eqb_spec (cur g) s); [|auto]. destruct F as ((_ & N & _) & _). congruence.
  - intros x Fx N. exact (fin_free j _ _ _ _ H _ Fx N).
  - intros G E. pose proof (fin_silent _ _ _ _ _ H E) as S1.
    destruct F as ((_ & _ & C & _) & _). rewrite C in S1. exact S1.
Qed.

Lemma step_to_labels to s t g : step_to to s (with_labels t g) = bind (step_to to s g) (fun g' => Ok (with_labels t g')).
Proof.
  unfold step_to, goto, connect, finish, bind. cbn [preds term cur with_labels next code labels block_start].
  destruct (preds g s <? 2); [|reflexivity].
  destruct (term g (cur g)); [reflexivity|]. cbn [preds term cur with_labels next code labels block_start].
  destruct (upd (preds g) s (S (preds g s)) to <? 2); [|reflexivity].
  destruct (upd (term g) (cur g) (Some (TGoto s)) s); reflexivity.
Qed.

Lemma assoc_in cs : NoDup (map fst cs) -> forall k b, In (k, b) cs -> assoc k cs = Some b.
Proof.
  induction cs as [|[k' b'] cs IH]; intros ND k b H; [destruct H|]. cbn in *. inversion ND; subst.
  destruct H as [H|H].
  - injection H as -> ->. rewrite Z.eqb_refl. reflexivity.
  - destruct (Z.eqb_spec k k'); [|apply IH; auto]. subst k'. exfalso. apply H2. apply (in_map fst) in H. exact H.
Qed.

Lemma seg_app g n cs : forall e e1 cs' e2, seg g n e cs e1 -> seg g n e1 cs' e2 -> seg g n e (cs ++ cs') e2.
Proof.
  induction cs as [|[k c] cs IH]; cbn; intros e e1 cs' e2 H1 H2; [subst; exact H2|].
  destruct H1 as (x & bt & bf & y & A & B & C & D & H1). exists x, bt, bf, y. repeat (split; auto). eapply IH; eauto.
Qed.

Lemma last_cons {A} (l : list A) : forall y d, last l y = last (y :: l) d.
Proof. induction l as [|x l IH]; intros y d; [reflexivity|]. cbn in *. destruct l; [reflexivity|apply IH]. Qed.

Section Main.
Context (defd : nat -> Prop).

Record good (s : stmt) (j : jumps) (g : st) (j' : jumps) (g' : st) : Prop := {
  g_wfc : wfc j' g'; g_open : open g'; g_ext : ext g g'; g_next : next g <= next g';
  g_free : forall b, free j g b -> free j' g' b;
  g_control : j_control j' = j_control j;
  g_entry : cases s = [] -> j_entry j' = j_entry j;
  g_main : exists cs ds,
    map fst cs = cases s /\ length ds = defaults s /\
    j_default j' = last (map Some ds) (j_default j) /\
    forall G, ext g' G ->
      (forall n, j_control j = Some n -> seg G n (j_entry j) cs (j_entry j')) /\
      jumps_to G (j_break j') (j_break j) /\ jumps_to G (j_continue j') (j_continue j) /\
      forall E, jumps_to G (j_break j) (e_break E) -> jumps_to G (j_continue j) (e_continue E) ->
        (forall k b, In (k, b) cs -> e_case E k = Some b) -> (forall d, In d ds -> e_default E = Some d) ->
        tr G defd E s (pos g) (pos g')
}.

Lemma simple s j g g' : cases s = [] -> defaults s = 0 -> wfc j g' -> open g' -> ext g g' -> next g <= next g' ->
  (forall b, free j g b -> free j g' b) ->
  (forall G, ext g' G -> forall E, jumps_to G (j_break j) (e_break E) -> jumps_to G (j_continue j) (e_continue E) ->
     (e_case E = e_case E) -> tr G defd E s (pos g) (pos g')) ->
  good s j g j g'.
Proof.
  intros C D W O X N F T. split; auto. exists [], []. rewrite C, D. split; [reflexivity|]. split; [reflexivity|].
  split; [reflexivity|]. intros G E. split; [intros; reflexivity|]. split; [apply jumps_refl|]. split; [apply jumps_refl|].
  intros E0 B1 B2 _ _. apply T; auto.
Qed.

(** A loop body has no case or default of its own. *)
Lemma body_plain s j g j' g' : good s j g j' g' -> cases s = [] -> defaults s = 0 ->
  j_entry j' = j_entry j /\
  forall G, ext g' G -> jumps_to G (j_break j') (j_break j) /\ jumps_to G (j_continue j') (j_continue j) /\
    forall E, jumps_to G (j_break j) (e_break E) -> jumps_to G (j_continue j) (e_continue E) ->
      tr G defd E s (pos g) (pos g').
Proof.
  intros [_ _ _ _ _ _ E (cs & ds & C & D & _ & T)] C0 D0. split; [auto|].
  rewrite C0 in C. rewrite D0 in D. destruct cs; [|discriminate C]. destruct ds; [|discriminate D].
  intros G X. destruct (T G X) as (_ & J1 & J2 & T0). split; [exact J1|]. split; [exact J2|].
  intros E0 B1 B2. apply T0; auto; intros; contradiction.
Qed.

(** A second statement follows the first. *)
Lemma then_good a b s j g ga j1 g1 g1' j2 g2 g3 :
  ext g ga -> next g <= next ga -> (forall x, free j g x -> free j ga x) ->
  good a j ga j1 g1 -> ext g1 g1' -> next g1 <= next g1' -> (forall x, free j g x -> free j1 g1 x -> free j1 g1' x) ->
  good b j1 g1' j2 g2 ->
  cases s = cases a ++ cases b -> defaults s = defaults a + defaults b ->
  wfc j2 g3 -> open g3 -> ext g2 g3 -> next g2 <= next g3 -> (forall x, free j g x -> free j2 g2 x -> free j2 g3 x) ->
  (forall G E, ext g3 G -> jumps_to G (j_break j) (e_break E) -> jumps_to G (j_continue j) (e_continue E) ->
     tr G defd E a (pos ga) (pos g1) -> tr G defd E b (pos g1') (pos g2) -> tr G defd E s (pos g) (pos g3)) ->
  good s j g j2 g3.
Proof.
  intros X0 N0 F0 [A1 A2 A3 A4 A5 A6 A7 (cs & ds & A8 & A9 & A10 & A11)] X1 N1 F1 [B1 B2 B3 B4 B5 B6 B7 (cs' & ds' & B8 & B9 & B10 & B11)]
    C D W O X2 N2 F2 T.
  assert (X12 : ext g1 g3) by (exact (ext_trans _ _ _ X1 (ext_trans _ _ _ B3 X2))).
  split; auto.
  - exact (ext_trans _ _ _ X0 (ext_trans _ _ _ A3 X12)).
  - lia.
  - intros x Fx. apply F2; [exact Fx|]. apply B5. apply F1; [exact Fx|]. apply A5. apply F0. exact Fx.
  - congruence.
  - rewrite C. intros H. apply app_eq_nil in H as [H1 H2]. rewrite B7, A7; auto.
  - exists (cs ++ cs'), (ds ++ ds'). rewrite map_app, A8, B8, C, app_length, A9, B9, D.
    split; [reflexivity|]. split; [reflexivity|]. split.
    + rewrite B10, A10, map_app. clear. generalize (map Some ds) (map (@Some nat) ds') (j_default j).
      intros l l' d. induction l as [|x l IH]; [reflexivity|]. cbn [app].
      destruct l as [|y l].
      * cbn. destruct l' as [|z l']; [reflexivity|].
        assert (H : forall (u v : option nat), List.last (z :: l') u = List.last (z :: l') v).
        { clear. revert z. induction l' as [|w l' IH]; intros z u v; [reflexivity|]. cbn in *. apply IH. }
        apply H.
      * exact IH.
    + intros G E. destruct (A11 G (ext_trans _ _ _ X12 E)) as (S1 & J1 & J2 & T1).
      destruct (B11 G (ext_trans _ _ _ X2 E)) as (S2 & J3 & J4 & T2).
      split; [|split; [|split]].
      * intros n H. apply (seg_app _ _ _ _ (j_entry j1)); [apply S1; exact H|apply S2; congruence].
      * exact (jumps_trans _ _ _ _ J3 J1).
      * exact (jumps_trans _ _ _ _ J4 J2).
      * intros E0 K1 K2 HC HD. apply T; auto.
        -- apply T1; auto; intros; [apply HC|apply HD]; apply in_or_app; left; assumption.
        -- apply T2; auto.
           ++ exact (jumps_trans _ _ _ _ J1 K1).
           ++ exact (jumps_trans _ _ _ _ J2 K2).
           ++ intros; apply HC; apply in_or_app; right; assumption.
           ++ intros; apply HD; apply in_or_app; right; assumption.
Qed.

Lemma ext_lab g G l e : ext g G -> lookup l (labels g) = Some e -> lab G l = end_block e.
Proof. intros (_ & _ & H) L. destruct (H l e L) as (e' & L' & E). unfold lab. rewrite L'. exact E. Qed.

Definition claim (s : stmt) : Prop := forall j g j' g',
  parse s j g = Ok (j', g') -> no_duff s -> distinct_cases s -> (forall l, In l (gotos s) -> defd l) ->
  wfc j g -> open g -> good s j g j' g'.

Lemma skip_case : claim SSkip.
Proof.
  intros j g j' g' H _ _ _ W O. injection H as <- <-. apply simple; auto using ext_refl. intros. constructor.
Qed.
Lemma do_case a : claim (SDo_ a).
Proof.
  intros j g j' g' H _ _ _ W O. injection H as <- <-. apply simple; auto.
  - apply emit_wfc; auto.
  - apply emit_ext; auto.
  - intros b. apply emit_free.
  - intros G E. intros. apply emit_at; auto.
Qed.
Lemma seq_case a b : claim a -> claim b -> claim (SSeq a b).
Proof.
  intros IA IB j g j' g' H [D1 D2] [C1 C2] GD W O. cbn [parse] in H. apply bind_ok in H as ([j1 g1] & H1 & H2).
  assert (GA := IA _ _ _ _ H1 D1 C1 (fun l h => GD l (in_or_app _ _ _ (or_introl h))) W O).
  assert (GB := IB _ _ _ _ H2 D2 C2 (fun l h => GD l (in_or_app _ _ _ (or_intror h))) (g_wfc _ _ _ _ _ GA) (g_open _ _ _ _ _ GA)).
  apply (then_good a b _ _ _ g j1 g1 g1 j' g' g'); auto using ext_refl.
  - exact (g_wfc _ _ _ _ _ GB).
  - exact (g_open _ _ _ _ _ GB).
  - intros G E _ _ _ T1 T2. exists (pos g1). auto.
Qed.
Lemma return_case r : claim (SReturn r).
Proof.
  intros j g j' g' H _ _ _ W O. cbn [parse] in H. apply bind_ok in H as (g1 & H1 & H). cbn [new_block] in H.
  injection H as <- <-. apply finish_fin in H1.
  assert (W1 := fin_wfc j _ _ _ _ H1 W (or_introl eq_refl)).
  assert (F2 := new_is_free j _ W1).
  apply simple; auto.
  - apply start_wfc; [exact F2|]. exact (new_wfc j _ W1).
  - exact (start_open j _ _ F2).
  - exact (fin_ext _ _ _ _ H1).
  - cbn. rewrite (f_next _ _ _ _ H1). lia.
  - intros b Fb. apply start_free.
    + apply new_free. apply (fin_free j _ _ _ _ H1 _ Fb). destruct Fb as ((_ & N & _) & _). exact N.
    + destruct Fb as ((L & _) & _). rewrite (f_next _ _ _ _ H1). lia.
  - intros G X E _ _ _. exact (fin_at _ _ _ _ H1 G X).
Qed.

Lemma new_small j g b : free j g b -> b <> next g.
Proof. intros ((L & _) & _). lia. Qed.

Lemma break_case : claim SBreak.
Proof.
  intros j g j' g' H _ _ _ W O. cbn [parse new_block] in H. destruct (j_break j) as [b|] eqn:JB; [|discriminate].
  apply bind_ok in H as (g1 & H1 & H). injection H as <- <-.
  assert (ST := step_to_stepped j _ _ _ _ (new_wfc j g W) (new_is_free j g W) H1).
  split; cbn [j_break j_continue j_entry j_default j_control]; auto.
  - eapply wfc_jumps; [|exact (s_wfc _ _ _ _ _ ST)]. reflexivity.
  - exact (s_open _ _ _ _ _ ST).
  - exact (s_ext _ _ _ _ _ ST).
  - pose proof (s_next _ _ _ _ _ ST) as N. cbn in N. lia.
  - intros x Fx. apply (free_jumps j); [reflexivity|]. apply (s_free _ _ _ _ _ ST); [apply new_free; exact Fx|exact (new_small _ _ _ Fx)].
  - exists [], []. split; [reflexivity|]. split; [reflexivity|]. split; [reflexivity|]. intros G X.
    split; [intros; reflexivity|]. split; [rewrite JB; exact (s_step _ _ _ _ _ ST G X)|]. split; [apply jumps_refl|].
    intros E K1 _ _ _. rewrite JB in K1. cbn [jumps_to] in K1. cbn [tr].
    destruct (e_break E) as [B|]; [|contradiction]. exists B. split; [reflexivity|].
    exact (silent_trans _ _ _ _ (silentp_silent _ _ _ (s_pos _ _ _ _ _ ST G X)) K1).
Qed.
Lemma continue_case : claim SContinue.
Proof.
  intros j g j' g' H _ _ _ W O. cbn [parse new_block] in H. destruct (j_continue j) as [b|] eqn:JB; [|discriminate].
  apply bind_ok in H as (g1 & H1 & H). injection H as <- <-.
  assert (ST := step_to_stepped j _ _ _ _ (new_wfc j g W) (new_is_free j g W) H1).
  split; cbn [j_break j_continue j_entry j_default j_control]; auto.
  - eapply wfc_jumps; [|exact (s_wfc _ _ _ _ _ ST)]. reflexivity.
  - exact (s_open _ _ _ _ _ ST).
  - exact (s_ext _ _ _ _ _ ST).
  - pose proof (s_next _ _ _ _ _ ST) as N. cbn in N. lia.
  - intros x Fx. apply (free_jumps j); [reflexivity|]. apply (s_free _ _ _ _ _ ST); [apply new_free; exact Fx|exact (new_small _ _ _ Fx)].
  - exists [], []. split; [reflexivity|]. split; [reflexivity|]. split; [reflexivity|]. intros G X.
    split; [intros; reflexivity|]. split; [apply jumps_refl|]. split; [rewrite JB; exact (s_step _ _ _ _ _ ST G X)|].
    intros E _ K1 _ _. rewrite JB in K1. cbn [jumps_to] in K1. cbn [tr].
    destruct (e_continue E) as [B|]; [|contradiction]. exists B. split; [reflexivity|].
    exact (silent_trans _ _ _ _ (silentp_silent _ _ _ (s_pos _ _ _ _ _ ST G X)) K1).
Qed.

Lemma if_case c a b : claim a -> claim b -> claim (SIf c a b).
Proof.
  intros IA IB j g j' g' H [D1 D2] [C1 C2] GD W O. cbn [parse] in H.
  apply bind_ok in H as ([[bt bf] g1] & H1 & H).
  apply bind_ok in H as ([j2 g2] & H2 & H). cbn [new_block] in H. cbn beta iota in H.
  apply bind_ok in H as (g3 & H3 & H). apply bind_ok in H as ([j4 g4] & H4 & H). cbn beta iota in H.
  apply bind_ok in H as (g5 & H5 & H). injection H as <- <-.
  assert (BR := if_selection_branched j _ _ _ _ _ W H1).
  assert (Fbt := b_bt _ _ _ _ _ _ BR). assert (Fbf := b_bf _ _ _ _ _ _ BR).
  assert (W1 := start_wfc j _ _ Fbt (b_wfc _ _ _ _ _ _ BR)).
  assert (GA := IA _ _ _ _ H2 D1 C1 (fun l h => GD l (in_or_app _ _ _ (or_introl h))) W1 (start_open j _ _ Fbt)).
  assert (W2 := g_wfc _ _ _ _ _ GA).
  assert (Fbf2 : free j2 g2 bf).
  { apply (g_free _ _ _ _ _ GA). apply start_free; [exact Fbf|]. intros E. exact (b_ne _ _ _ _ _ _ BR (eq_sym E)). }
  assert (Nbf : bf <> next g2) by (exact (new_small _ _ _ Fbf2)).
  assert (W2' := new_wfc j2 _ W2). assert (Fbe := new_is_free j2 _ W2).
  assert (MV := goto_moved j2 _ _ bf _ W2' (new_free j2 _ _ Fbf2) H3).
  assert (Fbe3 := m_free _ _ _ _ _ MV _ Fbe (fun e => Nbf (eq_sym e))).
  assert (GB := IB _ _ _ _ H4 D2 C2 (fun l h => GD l (in_or_app _ _ _ (or_intror h))) (m_wfc _ _ _ _ _ MV) (m_open _ _ _ _ _ MV)).
  assert (Fbe4 := g_free _ _ _ _ _ GB _ Fbe3).
  assert (MV2 := goto_moved j4 _ _ (next g2) _ (g_wfc _ _ _ _ _ GB) Fbe4 H5).
  assert (L2 := g_next _ _ _ _ _ GA). cbn in L2. assert (L1 := b_next _ _ _ _ _ _ BR). assert (L1b := b_new _ _ _ _ _ _ BR).
  assert (L3 := m_next _ _ _ _ _ MV). cbn in L3. assert (L4 := g_next _ _ _ _ _ GB). assert (L5 := m_next _ _ _ _ _ MV2).
  assert (NX : forall x, free j g x -> x < next g) by (intros x ((L & _) & _); exact L).
  apply (then_good a b _ _ _ (block_start bt g1) j2 g2 (block_start bf g3) j4 g4); auto.
  - exact (b_ext _ _ _ _ _ _ BR).
  - intros x Fx. apply start_free; [exact (b_free _ _ _ _ _ _ BR _ Fx)|]. specialize (NX x Fx). lia.
  - exact (m_ext _ _ _ _ _ MV).
  - cbn in *. lia.
  - intros x Fx Fx2. apply (m_free _ _ _ _ _ MV); [exact (new_free j2 _ _ Fx2)|]. specialize (NX x Fx). lia.
  - exact (m_wfc _ _ _ _ _ MV2).
  - exact (m_open _ _ _ _ _ MV2).
  - exact (m_ext _ _ _ _ _ MV2).
  - lia.
  - intros x Fx Fx2. apply (m_free _ _ _ _ _ MV2); [exact Fx2|]. specialize (NX x Fx). lia.
  - intros G E X K1 K2 T1 T2.
    assert (X4 := ext_trans _ _ _ (m_ext _ _ _ _ _ MV2) X). assert (X3 := ext_trans _ _ _ (g_ext _ _ _ _ _ GB) X4).
    assert (X2 : ext g2 G) by exact (ext_trans _ _ _ (m_ext _ _ _ _ _ MV) X3).
    rewrite (start_pos j _ _ Fbt) in T1. rewrite (m_pos _ _ _ _ _ MV) in T2. rewrite (m_pos _ _ _ _ _ MV2).
    exists bt, bf, (pos g2), (pos g4). split; [|split; [exact T1|split; [|split; [exact T2|]]]].
    + apply (b_at _ _ _ _ _ _ BR). exact (ext_trans _ _ _ (g_ext _ _ _ _ _ GA) X2).
    + exact (m_silent _ _ _ _ _ MV G X3).
    + exact (m_silent _ _ _ _ _ MV2 G X).
Qed.

Lemma free_lt j g x : free j g x -> x < next g. Proof. intros ((L & _) & _). exact L. Qed.
Definition new3 (g : st) : st := snd (new_block (snd (new_block (snd (new_block g))))).
Lemma new3_ok j g : wfc j g ->
  wfc j (new3 g) /\ free j (new3 g) (next g) /\ free j (new3 g) (S (next g)) /\ free j (new3 g) (S (S (next g))) /\
  forall x, free j g x -> free j (new3 g) x.
Proof.
  intros W. assert (W1 := new_wfc j _ W). assert (W2 := new_wfc j _ W1). assert (W3 := new_wfc j _ W2).
  assert (F1 := new_is_free j _ W). assert (F2 := new_is_free j _ W1). assert (F3 := new_is_free j _ W2).
  split; [exact W3|]. split; [do 2 apply new_free; exact F1|]. split; [apply new_free; exact F2|]. split; [exact F3|].
  intros x Fx. do 3 apply new_free. exact Fx.
Qed.

(** The body of a loop, with its own break and continue, between two states of
    the enclosing statement. *)
Lemma loop_body a j g j' g' B C : claim a -> cases a = [] -> defaults a = 0 -> no_duff a -> distinct_cases a ->
  (forall l, In l (gotos a) -> defd l) -> wfc j g -> open g ->
  parse a {| j_break := Some B; j_continue := Some C; j_entry := j_entry j; j_default := j_default j;
             j_control := j_control j |} g = Ok (j', g') ->
  wfc j g' /\ open g' /\ ext g g' /\ next g <= next g' /\ (forall x, free j g x -> free j g' x) /\
  forall G, ext g' G -> jumps_to G (j_continue j') (Some C) /\
    forall E, tr G defd {| e_break := Some B; e_continue := Some C; e_case := e_case E; e_default := e_default E |} a (pos g) (pos g').
Proof.
  intros IA C0 D0 ND DC GD W O H.
  assert (W' : wfc {| j_break := Some B; j_continue := Some C; j_entry := j_entry j; j_default := j_default j;
                      j_control := j_control j |} g) by (eapply wfc_jumps; [|exact W]; reflexivity).
  assert (GA := IA _ _ _ _ H ND DC GD W' O).
  destruct (body_plain _ _ _ _ _ GA C0 D0) as (JE & T). cbn [j_entry] in JE.
  split; [eapply wfc_jumps; [|exact (g_wfc _ _ _ _ _ GA)]; auto|].
  split; [exact (g_open _ _ _ _ _ GA)|]. split; [exact (g_ext _ _ _ _ _ GA)|]. split; [exact (g_next _ _ _ _ _ GA)|].
  split.
  - intros x Fx. apply (free_jumps j'); [auto|]. apply (g_free _ _ _ _ _ GA). apply (free_jumps j); [reflexivity|exact Fx].
  - intros G X. destruct (T G X) as (_ & J2 & T0). split; [exact J2|]. intros E. apply T0; cbn; constructor.
Qed.

Lemma while_case c a : claim a -> claim (SWhile c a).
Proof.
  intros IA j g j' g' H (C0 & D0 & ND) DC GD W O. cbn [no_duff distinct_cases gotos] in *. cbn [parse new_block] in H. cbn beta iota in H.
  destruct (new3_ok j g W) as (W3 & Fbb & Fbc & Fbe & F3).
  match type of H with bind (goto _ ?x) _ = _ => change x with (new3 g) in H end.
  cbn [next] in H.
  remember (next g) as bb eqn:Ebb. set (bc := S bb) in *. set (be := S bc) in *.
  assert (L3 : next (new3 g) = S be) by (subst bb; reflexivity).
  apply bind_ok in H as (g4 & H4 & H).
  assert (MV := goto_moved j _ _ bc _ W3 Fbc H4). set (g4' := block_start bc g4) in *.
  assert (Fbb4 := m_free _ _ _ _ _ MV _ Fbb ltac:(lia)). assert (Fbe4 := m_free _ _ _ _ _ MV _ Fbe ltac:(lia)).
  assert (L4 := m_next _ _ _ _ _ MV).
  apply bind_ok in H as ([[bt bf] g5] & H5 & H). cbn beta iota in H.
  assert (BR := if_selection_branched j _ _ _ _ _ (m_wfc _ _ _ _ _ MV) H5).
  assert (Nb := b_new _ _ _ _ _ _ BR). assert (Ne := b_ne _ _ _ _ _ _ BR). assert (L5 := b_next _ _ _ _ _ _ BR).
  apply bind_ok in H as (g6 & H6 & H).
  assert (C1 := connect_connected j _ _ _ _ (b_wfc _ _ _ _ _ _ BR) (b_bt _ _ _ _ _ _ BR) H6).
  assert (Fbf6 := c_free _ _ _ _ _ C1 _ (b_bf _ _ _ _ _ _ BR) ltac:(lia)).
  apply bind_ok in H as (g7 & H7 & H).
  assert (C2 := connect_connected j _ _ _ _ (c_wfc _ _ _ _ _ C1) Fbf6 H7).
  assert (L6 := c_next _ _ _ _ _ C1). assert (L7 := c_next _ _ _ _ _ C2).
  assert (K7 : forall x, free j g4' x -> free j g7 x).
  { intros x Fx. pose proof (free_lt _ _ _ Fx). apply (c_free _ _ _ _ _ C2); [|lia]. apply (c_free _ _ _ _ _ C1); [|lia].
    exact (b_free _ _ _ _ _ _ BR _ Fx). }
  assert (Fbb7 := K7 _ Fbb4).
  set (g8 := block_start bb g7) in *.
  assert (W8 := start_wfc j _ _ Fbb7 (c_wfc _ _ _ _ _ C2)).
  apply bind_ok in H as ([j9 g9] & H9 & H). cbn beta iota in H.
  destruct (loop_body _ _ _ _ _ _ _ IA C0 D0 ND DC GD W8 (start_open j _ _ Fbb7) H9) as (W9 & O9 & X9 & L9 & F9 & T9).
  destruct (j_continue j9) as [cc|] eqn:JC; [|discriminate].
  apply bind_ok in H as (g10 & H10 & H). injection H as <- <-.
  assert (Fbe9 : free j g9 be).
  { apply F9. apply start_free; [apply K7; exact Fbe4|lia]. }
  assert (MV2 := goto_moved j _ _ be _ W9 Fbe9 H10).
  assert (L10 := m_next _ _ _ _ _ MV2).
  change (next (block_start bb g7)) with (next g7) in L9.
  assert (X48 : ext g4' g7).
  { exact (ext_trans _ _ _ (b_ext _ _ _ _ _ _ BR) (ext_trans _ _ _ (c_ext _ _ _ _ _ C1) (c_ext _ _ _ _ _ C2))). }
  apply simple; auto.
  - exact (m_wfc _ _ _ _ _ MV2).
  - exact (m_open _ _ _ _ _ MV2).
  - apply (ext_trans _ g4'); [exact (m_ext _ _ _ _ _ MV)|]. apply (ext_trans _ g9); [exact (ext_trans _ _ _ X48 X9)|].
    exact (m_ext _ _ _ _ _ MV2).
  - lia.
  - intros x Fx. pose proof (free_lt _ _ _ Fx). apply (m_free _ _ _ _ _ MV2); [|lia]. apply F9. apply start_free; [|lia].
    apply K7. apply (m_free _ _ _ _ _ MV); [|lia]. apply F3. exact Fx.
  - intros G X E K1 K2 _. assert (X9' := ext_trans _ _ _ (m_ext _ _ _ _ _ MV2) X).
    assert (X7 : ext g7 G) by exact (ext_trans _ _ _ X9 X9').
    assert (X6 := ext_trans _ _ _ (c_ext _ _ _ _ _ C2) X7). assert (X5 := ext_trans _ _ _ (c_ext _ _ _ _ _ C1) X6).
    assert (X4 := ext_trans _ _ _ (b_ext _ _ _ _ _ _ BR) X5).
    destruct (T9 G X9') as (J9 & T). specialize (T E). rewrite (start_pos j _ _ Fbb7) in T.
    rewrite (m_pos _ _ _ _ _ MV2).
    assert (A := b_at _ _ _ _ _ _ BR G X5). rewrite (m_pos _ _ _ _ _ MV) in A.
    exists (bc, 0), bt, bf, (bb, 0), (pos g9), be, bc.
    split; [exact (m_silent _ _ _ _ _ MV G X4)|]. split; [exact A|]. split; [exact (c_silent _ _ _ _ _ C1 G X6)|].
    split; [exact (c_silent _ _ _ _ _ C2 G X7)|]. split; [exact T|]. split; [|split; constructor].
    apply (silent_trans _ _ (cc, 0)); [exact (m_silent _ _ _ _ _ MV2 G X)|]. exact J9.
Qed.

Lemma dowhile_case a c : claim a -> claim (SDoWhile a c).
Proof.
  intros IA j g j' g' H (C0 & D0 & ND) DC GD W O. cbn [no_duff distinct_cases gotos] in *. cbn [parse new_block] in H. cbn beta iota in H.
  destruct (new3_ok j g W) as (W3 & Fbb & Fbc & Fbe & F3).
  match type of H with bind (goto _ ?x) _ = _ => change x with (new3 g) in H end.
  cbn [next] in H.
  remember (next g) as bb eqn:Ebb. set (bc := S bb) in *. set (be := S bc) in *.
  assert (L3 : next (new3 g) = S be) by (subst bb; reflexivity).
  apply bind_ok in H as (g4 & H4 & H).
  assert (MV := goto_moved j _ _ bb _ W3 Fbb H4). set (g4' := block_start bb g4) in *.
  assert (Fbc4 := m_free _ _ _ _ _ MV _ Fbc ltac:(lia)). assert (Fbe4 := m_free _ _ _ _ _ MV _ Fbe ltac:(lia)).
  assert (L4 := m_next _ _ _ _ _ MV).
  apply bind_ok in H as ([j5 g5] & H5 & H). cbn beta iota in H.
  destruct (loop_body _ _ _ _ _ _ _ IA C0 D0 ND DC GD (m_wfc _ _ _ _ _ MV) (m_open _ _ _ _ _ MV) H5) as (W5 & O5 & X5 & L5 & F5 & T5).
  apply bind_ok in H as (g6 & H6 & H).
  assert (MV2 := goto_moved j _ _ bc _ W5 (F5 _ Fbc4) H6). set (g6' := block_start bc g6) in *.
  assert (L6 := m_next _ _ _ _ _ MV2).
  assert (Fbe6 := m_free _ _ _ _ _ MV2 _ (F5 _ Fbe4) ltac:(lia)).
  apply bind_ok in H as ([[bt bf] g7] & H7 & H). cbn beta iota in H.
  assert (BR := if_selection_branched j _ _ _ _ _ (m_wfc _ _ _ _ _ MV2) H7).
  assert (Nb := b_new _ _ _ _ _ _ BR). assert (Ne := b_ne _ _ _ _ _ _ BR). assert (L7 := b_next _ _ _ _ _ _ BR).
  apply bind_ok in H as (g8 & H8 & H).
  assert (C1 := connect_connected j _ _ _ _ (b_wfc _ _ _ _ _ _ BR) (b_bt _ _ _ _ _ _ BR) H8).
  assert (Fbf8 := c_free _ _ _ _ _ C1 _ (b_bf _ _ _ _ _ _ BR) ltac:(lia)).
  apply bind_ok in H as (g9 & H9 & H). injection H as <- <-.
  assert (C2 := connect_connected j _ _ _ _ (c_wfc _ _ _ _ _ C1) Fbf8 H9).
  assert (L8 := c_next _ _ _ _ _ C1). assert (L9 := c_next _ _ _ _ _ C2).
  assert (K9 : forall x, free j g6' x -> free j g9 x).
  { intros x Fx. pose proof (free_lt _ _ _ Fx). apply (c_free _ _ _ _ _ C2); [|lia]. apply (c_free _ _ _ _ _ C1); [|lia].
    exact (b_free _ _ _ _ _ _ BR _ Fx). }
  assert (Fbe9 := K9 _ Fbe6).
  assert (X69 : ext g6' g9).
  { exact (ext_trans _ _ _ (b_ext _ _ _ _ _ _ BR) (ext_trans _ _ _ (c_ext _ _ _ _ _ C1) (c_ext _ _ _ _ _ C2))). }
  apply simple; auto.
  - exact (start_wfc j _ _ Fbe9 (c_wfc _ _ _ _ _ C2)).
  - exact (start_open j _ _ Fbe9).
  - apply (ext_trans _ g4'); [exact (m_ext _ _ _ _ _ MV)|]. apply (ext_trans _ g5); [exact X5|].
    exact (ext_trans _ _ _ (m_ext _ _ _ _ _ MV2) X69).
  - cbn. lia.
  - intros x Fx. pose proof (free_lt _ _ _ Fx). apply start_free; [|lia]. apply K9.
    apply (m_free _ _ _ _ _ MV2); [|lia]. apply F5. apply (m_free _ _ _ _ _ MV); [|lia]. apply F3. exact Fx.
  - intros G X E K1 K2 _. change (ext g9 G) in X.
    assert (X8 := ext_trans _ _ _ (c_ext _ _ _ _ _ C2) X). assert (X7 := ext_trans _ _ _ (c_ext _ _ _ _ _ C1) X8).
    assert (X6 := ext_trans _ _ _ (b_ext _ _ _ _ _ _ BR) X7).
    assert (X5' := ext_trans _ _ _ (m_ext _ _ _ _ _ MV2) X6). assert (X4 := ext_trans _ _ _ X5 X5').
    destruct (T5 G X5') as (J5 & T). specialize (T E). rewrite (m_pos _ _ _ _ _ MV) in T.
    rewrite (start_pos j _ _ Fbe9).
    assert (A := b_at _ _ _ _ _ _ BR G X7). rewrite (m_pos _ _ _ _ _ MV2) in A.
    exists (bc, 0), bt, bf, (bb, 0), (pos g5), be, bc.
    split; [exact (m_silent _ _ _ _ _ MV G X4)|]. split; [exact A|]. split; [exact (c_silent _ _ _ _ _ C1 G X8)|].
    split; [exact (c_silent _ _ _ _ _ C2 G X)|]. split; [exact T|]. split; [|split; constructor].
    exact (m_silent _ _ _ _ _ MV2 G X6).
Qed.

Definition new5 (g : st) : st := snd (new_block (snd (new_block (new3 g)))).
Lemma for_test j g (c : option nat) bb be g' : wfc j g ->
  (match c with
   | Some c =>
       let* r := if_selection (TIf c) g in
       let '(bt, bf, g) := r in
       let* g := connect bt bb g in
       connect bf be g
   | None => goto bb g
   end) = Ok g' ->
  wfc j g' /\ ext g g' /\ next g <= next g' /\ (forall x, free j g x -> free j g' x) /\
  forall G, ext g' G ->
    match c with
    | Some c => exists bt bf, at_end G (pos g) (TIf c bt bf) /\ silent G (bt, 0) (bb, 0) /\ silent G (bf, 0) (be, 0)
    | None => silent G (pos g) (bb, 0)
    end.
Proof.
  intros W H. destruct c as [c|].
  - apply bind_ok in H as ([[bt bf] g5] & H5 & H). cbn beta iota in H.
    assert (BR := if_selection_branched j _ _ _ _ _ W H5).
    assert (Nb := b_new _ _ _ _ _ _ BR). assert (Ne := b_ne _ _ _ _ _ _ BR). assert (L5 := b_next _ _ _ _ _ _ BR).
    apply bind_ok in H as (g6 & H6 & H7).
    assert (C1 := connect_connected j _ _ _ _ (b_wfc _ _ _ _ _ _ BR) (b_bt _ _ _ _ _ _ BR) H6).
    assert (Fbf6 := c_free _ _ _ _ _ C1 _ (b_bf _ _ _ _ _ _ BR) ltac:(lia)).
    assert (C2 := connect_connected j _ _ _ _ (c_wfc _ _ _ _ _ C1) Fbf6 H7).
    assert (L6 := c_next _ _ _ _ _ C1). assert (L7 := c_next _ _ _ _ _ C2).
    split; [exact (c_wfc _ _ _ _ _ C2)|]. split; [|split; [lia|split]].
    + exact (ext_trans _ _ _ (b_ext _ _ _ _ _ _ BR) (ext_trans _ _ _ (c_ext _ _ _ _ _ C1) (c_ext _ _ _ _ _ C2))).
    + intros x Fx. pose proof (free_lt _ _ _ Fx). apply (c_free _ _ _ _ _ C2); [|lia]. apply (c_free _ _ _ _ _ C1); [|lia].
      exact (b_free _ _ _ _ _ _ BR _ Fx).
    + intros G X. assert (X6 := ext_trans _ _ _ (c_ext _ _ _ _ _ C2) X). assert (X5 := ext_trans _ _ _ (c_ext _ _ _ _ _ C1) X6).
      exists bt, bf. split; [exact (b_at _ _ _ _ _ _ BR G X5)|]. split; [exact (c_silent _ _ _ _ _ C1 G X6)|].
      exact (c_silent _ _ _ _ _ C2 G X).
  - apply connect_fin in H. split; [exact (fin_wfc j _ _ _ _ H W (or_introl eq_refl))|].
    split; [exact (fin_ext _ _ _ _ H)|]. split; [rewrite (f_next _ _ _ _ H); lia|]. split.
    + intros x Fx. apply (fin_free j _ _ _ _ H _ Fx). destruct Fx as ((_ & N & _) & _). exact N.
    + intros G X. exact (fin_silent _ _ _ _ _ H X).
Qed.

Lemma for_case i c v a : claim a -> claim (SFor i c v a).
Proof.
  intros IA j g j' g' H (C0 & D0 & ND) DC GD W O. cbn [no_duff distinct_cases gotos] in *. cbn [parse new_block] in H. cbn beta iota in H.
  destruct (new3_ok j g W) as (W3 & Fbi & Fbc & Fbv & F3).
  assert (W4 := new_wfc j _ W3). assert (W5 := new_wfc j _ W4).
  assert (Fbb := new_is_free j _ W3). assert (Fbe := new_is_free j _ W4). apply new_free in Fbb.
  apply new_free in Fbi. apply new_free in Fbi. apply new_free in Fbc. apply new_free in Fbc.
  apply new_free in Fbv. apply new_free in Fbv.
  assert (F5 : forall x, free j g x -> free j (new5 g) x).
  { intros x Fx. do 2 apply new_free. apply F3. exact Fx. }
  match type of H with bind (goto _ ?x) _ = _ => change x with (new5 g) in H end.
  cbn [next] in H.
  fold (new5 g) in *.
  change (next (new3 g)) with (S (S (S (next g)))) in Fbb.
  change (next (snd (new_block (new3 g)))) with (S (S (S (S (next g))))) in Fbe.
  remember (next g) as bi eqn:Ebi. set (bc := S bi) in *. set (bv := S bc) in *. set (bb := S bv) in *. set (be := S bb) in *.
  assert (L5 : next (new5 g) = S be) by (subst bi; reflexivity).
  apply bind_ok in H as (g6 & H6 & H).
  assert (M1 := goto_moved j _ _ bi _ W5 Fbi H6). set (g6' := block_start bi g6) in *.
  set (g7 := emit_option i g6') in *.
  assert (O7 := emit_option_open i _ (m_open _ _ _ _ _ M1)). assert (W7 := emit_option_wfc i j _ (m_open _ _ _ _ _ M1) (m_wfc _ _ _ _ _ M1)).
  assert (K7 : forall x, free j (new5 g) x -> x <> bi -> free j g7 x).
  { intros x Fx N. apply emit_option_free. exact (m_free _ _ _ _ _ M1 _ Fx N). }
  assert (L7 : next g7 = next (new5 g)).
  { rewrite <- (m_next _ _ _ _ _ M1). unfold g7. destruct i; reflexivity. }
  assert (X67 := emit_option_ext i _ (m_open _ _ _ _ _ M1)). fold g7 in X67.
  apply bind_ok in H as (g8 & H8 & H).
  assert (M2 := goto_moved j _ _ bc _ W7 (K7 _ Fbc ltac:(lia)) H8). set (g8' := block_start bc g8) in *.
  assert (L8 := m_next _ _ _ _ _ M2). fold g7 in L8.
  apply bind_ok in H as (g9 & H9 & H).
  destruct (for_test j _ _ _ _ _ (m_wfc _ _ _ _ _ M2) H9) as (W9 & X9 & L9 & F9 & T9).
  assert (K9 : forall x, free j (new5 g) x -> x <> bi -> x <> bc -> free j g9 x).
  { intros x Fx N1 N2. apply F9. apply (m_free _ _ _ _ _ M2); [|exact N2]. apply K7; auto. }
  assert (Fbv9 := K9 _ Fbv ltac:(lia) ltac:(lia)).
  set (g9' := block_start bv g9) in *.
  assert (W9' := start_wfc j _ _ Fbv9 W9). assert (O9' := start_open j _ _ Fbv9). fold g9' in W9', O9'.
  set (g10 := emit_option v g9') in *.
  assert (O10 := emit_option_open v _ O9'). assert (W10 := emit_option_wfc v j _ O9' W9').
  fold g10 in O10, W10.
  assert (K10 : forall x, free j g9 x -> x <> bv -> free j g10 x).
  { intros x Fx N. apply emit_option_free. apply start_free; auto. }
  assert (L10 : next g10 = next g9) by (unfold g10; destruct v; reflexivity).
  assert (X910 := emit_option_ext v _ O9'). fold g10 in X910.
  apply bind_ok in H as (g11 & H11 & H).
  assert (Fbb10 := K10 _ (K9 _ Fbb ltac:(lia) ltac:(lia)) ltac:(lia)).
  assert (M3 := goto_moved j _ _ bb _ W10 Fbb10 H11). set (g11' := block_start bb g11) in *.
  assert (L11 := m_next _ _ _ _ _ M3).
  apply bind_ok in H as ([j12 g12] & H12 & H). cbn beta iota in H.
  destruct (loop_body _ _ _ _ _ _ _ IA C0 D0 ND DC GD (m_wfc _ _ _ _ _ M3) (m_open _ _ _ _ _ M3) H12) as (W12 & O12 & X12 & L12 & F12 & T12).
  apply bind_ok in H as (g13 & H13 & H). injection H as <- <-.
  assert (Fbe12 : free j g12 be).
  { apply F12. apply (m_free _ _ _ _ _ M3); [|lia]. apply K10; [|lia]. apply K9; [exact Fbe|lia|lia]. }
  assert (M4 := goto_moved j _ _ be _ W12 Fbe12 H13). assert (L13 := m_next _ _ _ _ _ M4).
  assert (X610 : ext g6' g10).
  { apply (ext_trans _ _ _ X67). apply (ext_trans _ g8'); [exact (m_ext _ _ _ _ _ M2)|]. apply (ext_trans _ g9); [exact X9|exact X910]. }
  apply simple; auto.
  - exact (m_wfc _ _ _ _ _ M4).
  - exact (m_open _ _ _ _ _ M4).
  - apply (ext_trans _ g6'); [exact (m_ext _ _ _ _ _ M1)|]. apply (ext_trans _ g10); [exact X610|].
    apply (ext_trans _ g11'); [exact (m_ext _ _ _ _ _ M3)|]. apply (ext_trans _ g12); [exact X12|exact (m_ext _ _ _ _ _ M4)].
  - lia.
  - intros x Fx. pose proof (free_lt _ _ _ Fx). apply (m_free _ _ _ _ _ M4); [|lia]. apply F12.
    apply (m_free _ _ _ _ _ M3); [|lia]. apply K10; [|lia]. apply K9; [apply F5; exact Fx|lia|lia].
  - intros G X E K1 K2 _.
    assert (X12' := ext_trans _ _ _ (m_ext _ _ _ _ _ M4) X). assert (X11 := ext_trans _ _ _ X12 X12').
    assert (X10 := ext_trans _ _ _ (m_ext _ _ _ _ _ M3) X11).
    assert (X9' : ext g9 G) by exact (ext_trans _ _ _ X910 X10). assert (X8 := ext_trans _ _ _ X9 X9').
    assert (X7 := ext_trans _ _ _ (m_ext _ _ _ _ _ M2) X8). assert (X6 := ext_trans _ _ _ X67 X7).
    destruct (T12 G X12') as (J12 & T). specialize (T E). rewrite (m_pos _ _ _ _ _ M3) in T.
    specialize (T9 G X9'). rewrite (m_pos _ _ _ _ _ M2) in T9. rewrite (m_pos _ _ _ _ _ M4).
    assert (A1 := emit_option_at i _ G (m_open _ _ _ _ _ M1) X7). rewrite (m_pos _ _ _ _ _ M1) in A1.
    assert (A2 := emit_option_at v _ G O9' X10). assert (SP := start_pos j _ _ Fbv9). fold g9' in SP. rewrite SP in A2.
    exists (bi, 0), (pos g7), (bc, 0), (bb, 0), (pos g12), (bv, 0), (pos g10), be, bv.
    split; [exact (m_silent _ _ _ _ _ M1 G X6)|]. split; [exact A1|]. split; [exact (m_silentp _ _ _ _ _ M2 G X8)|].
    split; [exact T9|]. split; [exact T|]. split; [exact (m_silent _ _ _ _ _ M4 G X)|]. split; [constructor|].
    split; [exact A2|]. split; [exact (m_silentp _ _ _ _ _ M3 G X11)|constructor].
Qed.

Lemma default_case a : claim a -> claim (SDefault a).
Proof.
  intros IA j g j' g' H ND DC GD W O. cbn [no_duff distinct_cases gotos] in *. cbn [parse new_block] in H. cbn beta iota in H.
  apply bind_ok in H as (g1 & H1 & H). destruct (j_entry j) as [e|] eqn:JE; [|discriminate]. rewrite <- JE in H.
  match type of H1 with goto _ ?x = _ => change x with (snd (new_block g)) in H1 end.
  assert (MV := goto_moved j _ _ (next g) _ (new_wfc j g W) (new_is_free j g W) H1).
  match type of H with parse a ?x _ = _ => set (j1 := x) in * end.
  assert (W1 : wfc j1 (block_start (next g) g1)) by (eapply wfc_jumps; [|exact (m_wfc _ _ _ _ _ MV)]; reflexivity).
  destruct (IA _ _ _ _ H ND DC GD W1 (m_open _ _ _ _ _ MV)) as [A1 A2 A3 A4 A5 A6 A7 (cs & ds & A8 & A9 & A10 & A11)].
  assert (L1 := m_next _ _ _ _ _ MV). cbn in L1.
  split; auto.
  - exact (ext_trans _ _ _ (m_ext _ _ _ _ _ MV) A3).
  - cbn in A4. lia.
  - intros x Fx. apply A5. apply (free_jumps j); [reflexivity|]. apply (m_free _ _ _ _ _ MV); [apply new_free; exact Fx|exact (new_small _ _ _ Fx)].
  - exists cs, (next g :: ds). cbn [cases defaults length]. split; [exact A8|]. split; [congruence|]. split.
    + rewrite A10. cbn [map]. apply last_cons.
    + intros G X. destruct (A11 G X) as (S1 & J1 & J2 & T). split; [exact S1|]. split; [exact J1|]. split; [exact J2|].
      intros E K1 K2 HC HD. exists (next g). split; [apply HD; left; reflexivity|].
      assert (X1 := ext_trans _ _ _ A3 X). split; [exact (m_silent _ _ _ _ _ MV G X1)|].
      rewrite (m_pos _ _ _ _ _ MV) in T. apply T; auto. intros d I. apply HD. right. exact I.
Qed.

Lemma case_case k a : claim a -> claim (SCase k a).
Proof.
  intros IA j g j' g' H ND DC GD W O. cbn [no_duff distinct_cases gotos] in *. cbn [parse new_block] in H. cbn beta iota in H.
  destruct (j_control j) as [n|] eqn:JC; [|discriminate]. destruct (j_entry j) as [e|] eqn:JE; [|discriminate].
  apply bind_ok in H as (g1 & H1 & H).
  match type of H1 with goto _ ?x = _ => change x with (snd (new_block (snd (new_block g)))) in H1 end.
  cbn [next] in H. assert (W1 := new_wfc j _ W). assert (W2 := new_wfc j _ W1).
  assert (Fbc := new_free j _ _ (new_is_free j _ W)). assert (Fne := new_is_free j _ W1).
  change (next (snd (new_block g))) with (S (next g)) in Fne.
  assert (F2 : forall x, free j g x -> free j (snd (new_block (snd (new_block g)))) x).
  { intros x Fx. do 2 apply new_free. exact Fx. }
  remember (next g) as bc eqn:Ebc. set (ne := S bc) in *.
  assert (L2 : next (snd (new_block (snd (new_block g)))) = S ne) by (subst bc; reflexivity).
  set (g2 := snd (new_block (snd (new_block g)))) in *.
  assert (Ee : e < next g). { destruct (w_entry _ _ W e JE) as ((L & _) & _). exact L. }
  (* the entry block, without the jumps that name it *)
  set (j0 := {| j_break := None; j_continue := None; j_entry := None; j_default := None; j_control := None |}).
  assert (J0 : forall x g, free j g x -> free j0 g x).
  { intros x y (A & B & C). split; [exact A|]. split; [exact B|discriminate]. }
  assert (W20 : wfc j0 g2).
  { destruct W2. split; auto. intros ? Q. discriminate Q. }
  assert (Fe2 : free j0 g2 e).
  { destruct (w_entry _ _ W2 e JE) as (I1 & I2). split; [exact I1|]. split; [exact I2|discriminate]. }
  assert (MV := goto_moved j0 _ _ e _ W20 Fe2 H1). set (g3 := block_start e g1) in *.
  assert (L3 := m_next _ _ _ _ _ MV).
  apply bind_ok in H as ([[bt bf] g4] & H4 & H). cbn beta iota in H.
  assert (BR := if_selection_branched j0 _ _ _ _ _ (m_wfc _ _ _ _ _ MV) H4).
  assert (Nb := b_new _ _ _ _ _ _ BR). assert (Ne := b_ne _ _ _ _ _ _ BR). assert (L4 := b_next _ _ _ _ _ _ BR).
  apply bind_ok in H as (g5 & H5 & H).
  assert (C1 := connect_connected j0 _ _ _ _ (b_wfc _ _ _ _ _ _ BR) (b_bt _ _ _ _ _ _ BR) H5).
  assert (Fbf5 := c_free _ _ _ _ _ C1 _ (b_bf _ _ _ _ _ _ BR) ltac:(lia)).
  apply bind_ok in H as (g6 & H6 & H).
  assert (C2 := connect_connected j0 _ _ _ _ (c_wfc _ _ _ _ _ C1) Fbf5 H6).
  assert (L5 := c_next _ _ _ _ _ C1). assert (L6 := c_next _ _ _ _ _ C2).
  assert (K6 : forall x, free j0 g2 x -> x <> e -> free j0 g6 x).
  { intros x Fx N. pose proof (free_lt _ _ _ Fx). apply (c_free _ _ _ _ _ C2); [|lia]. apply (c_free _ _ _ _ _ C1); [|lia].
    apply (b_free _ _ _ _ _ _ BR). exact (m_free _ _ _ _ _ MV _ Fx N). }
  assert (Fbc6 := K6 _ (J0 _ _ Fbc) ltac:(lia)). assert (Fne6 := K6 _ (J0 _ _ Fne) ltac:(lia)).
  set (g7 := block_start bc g6) in *.
  assert (W7 := start_wfc j0 _ _ Fbc6 (c_wfc _ _ _ _ _ C2)).
  assert (Fne7 := start_free j0 _ bc _ Fne6 ltac:(lia)).
  match type of H with parse a ?x _ = _ => set (j1 := x) in * end.
  assert (W7' : wfc j1 g7).
  { destruct W7 as [Q1 Q2 Q3 Q4 Q5 Q6 Q7]. split; auto. intros x Q. injection Q as <-. destruct Fne7 as (I1 & I2 & _). auto. }
  assert (SP := start_pos j0 _ _ Fbc6). fold g7 in SP.
  destruct (IA _ _ _ _ H ND DC GD W7' (start_open j0 _ _ Fbc6)) as [A1 A2 A3 A4 A5 A6 A7 (cs & ds & A8 & A9 & A10 & A11)].
  assert (X37 : ext g3 g7).
  { exact (ext_trans _ _ _ (b_ext _ _ _ _ _ _ BR) (ext_trans _ _ _ (c_ext _ _ _ _ _ C1) (c_ext _ _ _ _ _ C2))). }
  assert (L7 : next g7 = next g6) by reflexivity.
  split; auto.
  - exact (ext_trans _ _ _ (m_ext _ _ _ _ _ MV) (ext_trans _ _ _ X37 A3)).
  - lia.
  - intros x Fx. pose proof (free_lt _ _ _ Fx). apply A5.
    assert (F7 : free j0 g7 x).
    { apply start_free; [|lia]. apply K6; [exact (J0 _ _ (F2 _ Fx))|]. destruct Fx as (_ & _ & Q). congruence. }
    destruct F7 as (I1 & I2 & _). split; [exact I1|]. split; [exact I2|]. cbn. intros Q. injection Q as Q. lia.
  - rewrite A6. cbn. symmetry. exact JC.
  - cbn [cases]. discriminate.
  - exists ((k, bc) :: cs), ds. cbn [cases defaults map fst]. split; [congruence|]. split; [exact A9|]. split; [exact A10|].
    intros G X. assert (X7 := ext_trans _ _ _ A3 X). change (ext g6 G) in X7.
    assert (X5 := ext_trans _ _ _ (c_ext _ _ _ _ _ C2) X7). assert (X4 := ext_trans _ _ _ (c_ext _ _ _ _ _ C1) X5).
    assert (X3 := ext_trans _ _ _ (b_ext _ _ _ _ _ _ BR) X4).
    destruct (A11 G X) as (S1 & J1 & J2 & T). split; [|split; [exact J1|split; [exact J2|]]].
    + intros n0 Q. rewrite JC in Q. injection Q as <-. cbn [seg]. exists e, bt, bf, ne. split; [exact JE|].
      split; [|split; [exact (c_silent _ _ _ _ _ C1 G X5)|split; [exact (c_silent _ _ _ _ _ C2 G X7)|]]].
      * assert (A := b_at _ _ _ _ _ _ BR G X4). rewrite (m_pos _ _ _ _ _ MV) in A. exact A.
      * apply S1. reflexivity.
    + intros E K1 K2 HC HD. exists bc. split; [apply HC; left; reflexivity|].
      split; [exact (m_silent _ _ _ _ _ MV G X3)|]. rewrite SP in T. apply T; auto.
      intros k0 b I. apply HC. right. exact I.
Qed.

Lemma switch_case e a : claim a -> claim (SSwitch e a).
Proof.
  intros IA j g j' g' H ND (DU & D1 & DC) GD W O. cbn [no_duff gotos] in *. cbn [parse new_block] in H. cbn beta iota zeta in H.
  set (n := next g) in *. set (ge := emit (IControl e n) g) in *.
  assert (We := emit_wfc j g (IControl e n) O W). fold ge in We.
  destruct (new3_ok j ge We) as (W3 & Fbb & Fbt & Fbe & F3).
  match type of H with bind (goto _ ?x) _ = _ => change x with (new3 ge) in H end.
  cbn [next] in H. change (next ge) with n in *.
  set (bb := n) in *. set (bt := S bb) in *. set (be := S bt) in *.
  assert (L3 : next (new3 ge) = S be) by reflexivity.
  apply bind_ok in H as (g4 & H4 & H).
  assert (MV := goto_moved j _ _ bb _ W3 Fbb H4). set (g4' := block_start bb g4) in *.
  assert (Fbt4 := m_free _ _ _ _ _ MV _ Fbt ltac:(lia)). assert (Fbe4 := m_free _ _ _ _ _ MV _ Fbe ltac:(lia)).
  assert (L4 := m_next _ _ _ _ _ MV). assert (W4 := m_wfc _ _ _ _ _ MV).
  apply bind_ok in H as ([j5 g5] & H5 & H). cbn beta iota in H.
  match type of H5 with parse a ?x _ = _ => set (j1 := x) in * end.
  assert (W1 : wfc j1 g4').
  { destruct W4 as [Q1 Q2 Q3 Q4 Q5 Q6 Q7]. split; auto. intros x Q. injection Q as <-. destruct Fbt4 as (I1 & I2 & _). auto. }
  assert (K1 : forall x, idle g4' x -> ~ ispend g4' x -> x <> bt -> free j1 g4' x).
  { intros x I1 I2 N. split; [exact I1|]. split; [exact I2|]. cbn. congruence. }
  assert (GA := IA _ _ _ _ H5 ND DC GD W1 (m_open _ _ _ _ _ MV)).
  destruct (j_entry j5) as [x'|] eqn:JE5; [|discriminate]. destruct (j_break j5) as [B5|] eqn:JB5; [|discriminate].
  assert (L5 := g_next _ _ _ _ _ GA). assert (W5 := g_wfc _ _ _ _ _ GA).
  (* back to the jumps of the enclosing statement *)
  assert (KE : forall x, idle g x -> ~ ispend g x -> free j5 g5 x).
  { intros x I1 I2. apply (g_free _ _ _ _ _ GA). assert (LX : x < n) by (destruct I1; assumption).
    set (j0 := {| j_break := None; j_continue := None; j_entry := None; j_default := None; j_control := None |}).
    assert (Fx : free j0 g4' x).
    { apply connect_fin in H4. apply start_free; [|lia]. apply (fin_free j0 _ _ _ _ H4).
      - do 3 apply new_free. apply emit_free. split; [exact I1|]. split; [exact I2|discriminate].
      - destruct I1 as (_ & N & _). exact N. }
    destruct Fx as (A & B & _). apply K1; auto. lia. }
  assert (W5' : wfc j g5).
  { destruct W5 as [Q1 Q2 Q3 Q4 Q5 Q6 Q7]. split; auto. intros x Q. destruct (w_entry _ _ W x Q) as (I1 & I2).
    destruct (KE x I1 I2) as (A & B & _). auto. }
  assert (Fx' : free j g5 x').
  { destruct (w_entry _ _ W5 x' JE5) as (I1 & I2). split; [exact I1|]. split; [exact I2|].
    intros Q. destruct (w_entry _ _ W x' Q) as (I3 & I4). destruct (KE x' I3 I4) as (_ & _ & Q'). congruence. }
  assert (Fbe5 : free j5 g5 be).
  { apply (g_free _ _ _ _ _ GA). destruct Fbe4 as (A & B & _). apply K1; auto. lia. }
  assert (Fbe5' : free j g5 be).
  { destruct Fbe5 as (A & B & _). split; [exact A|]. split; [exact B|]. intros Q. destruct (w_entry _ _ W be Q) as ((L & _) & _).
    unfold be, bt, bb, n in L. lia. }
  assert (NXE : be <> x') by (destruct Fbe5 as (_ & _ & Q); congruence).
  apply bind_ok in H as (g6 & H6 & H).
  assert (C1 := connect_connected j _ _ _ _ W5' Fx' H6).
  assert (Fbe6 := c_free _ _ _ _ _ C1 _ Fbe5' NXE).
  apply bind_ok in H as (g7 & H7 & H). injection H as <- <-.
  assert (M2 := goto_moved j _ _ be _ (c_wfc _ _ _ _ _ C1) Fbe6 H7).
  assert (L6 := c_next _ _ _ _ _ C1). assert (L7 := m_next _ _ _ _ _ M2).
  assert (Xe4 : ext ge g4') by exact (m_ext _ _ _ _ _ MV).
  assert (X57 : ext g5 (block_start be g7)) by exact (ext_trans _ _ _ (c_ext _ _ _ _ _ C1) (m_ext _ _ _ _ _ M2)).
  apply simple; auto.
  - exact (m_wfc _ _ _ _ _ M2).
  - exact (m_open _ _ _ _ _ M2).
  - apply (ext_trans _ ge); [exact (emit_ext g _ O)|]. apply (ext_trans _ g4'); [exact Xe4|].
    apply (ext_trans _ g5); [exact (g_ext _ _ _ _ _ GA)|exact X57].
  - unfold n in *. lia.
  - intros x Fx. pose proof (free_lt _ _ _ Fx). destruct Fx as (I1 & I2 & I3). destruct (KE x I1 I2) as (A & B & C).
    apply (m_free _ _ _ _ _ M2); [|unfold n in *; lia]. apply (c_free _ _ _ _ _ C1); [|congruence].
    split; [exact A|]. split; [exact B|exact I3].
  - intros G X E K2 K3 _.
    assert (X6 := ext_trans _ _ _ (m_ext _ _ _ _ _ M2) X). assert (X5 := ext_trans _ _ _ (c_ext _ _ _ _ _ C1) X6).
    assert (X4 := ext_trans _ _ _ (g_ext _ _ _ _ _ GA) X5). assert (Xe := ext_trans _ _ _ Xe4 X4).
    destruct (g_main _ _ _ _ _ GA) as (cs & ds & A8 & A9 & A10 & A11). rewrite <- A9 in D1. rewrite <- A8 in DU.
    destruct (A11 G X5) as (S1 & J1 & J2 & T). specialize (S1 n eq_refl). rewrite JE5 in S1. rewrite JB5 in J1.
    cbn [j_entry j_break j_default j1 jumps_to] in S1, J1, A10.
    rewrite (m_pos _ _ _ _ _ M2).
    exists n, (pos ge), bt, x', cs, (hd_error ds), (bb, 0), (pos g5), be.
    split; [exact (emit_at g _ G Xe)|]. split; [exact (m_silent _ _ _ _ _ MV G X4)|]. split; [exact S1|].
    split; [exact A8|]. split; [intros Q; rewrite Q in A9; destruct ds; [reflexivity|discriminate]|].
    assert (SX := c_silent _ _ _ _ _ C1 G X6). rewrite A10 in SX.
    assert (HD : match ds with [] => True | [d] => True | _ => False end) by (destruct ds as [|? [|]]; cbn in D1; auto; lia).
    split; [|split; [|split]].
    + destruct ds as [|d [|]]; cbn in SX |- *; [exact (silent_trans _ _ _ _ SX J1)|exact SX|contradiction].
    + rewrite (m_pos _ _ _ _ _ MV) in T. apply T.
      * cbn. constructor.
      * exact K3.
      * intros k b I. cbn. apply assoc_in; auto.
      * intros d I. cbn. destruct ds as [|d0 [|]]; [destruct I| |contradiction]. destruct I as [-> |[]]. reflexivity.
    + rewrite <- (c_pos _ _ _ _ _ C1). exact (m_silent _ _ _ _ _ M2 G X).
    + constructor.
Qed.

(** An entry of function_scope is changed or added; its end block stays. *)
Lemma relabel_ext t g : (forall l e, lookup l (labels g) = Some e -> exists e', lookup l t = Some e' /\ end_block e' = end_block e) ->
  ext g (with_labels t g).
Proof. intros H. destruct (ext_refl g) as (A & B & _). split; [exact A|]. split; [exact B|exact H]. Qed.

Lemma label_case l a : claim a -> claim (SLabel l a).
Proof.
  intros IA j g j' g' H ND DC GD W O. cbn [no_duff distinct_cases gotos] in *. cbn [parse] in H.
  apply bind_ok in H as ([b g1] & H1 & H). cbn beta iota in H.
  assert (P : wfc j g1 /\ ext g g1 /\ next g <= next g1 /\ free j g1 b /\ pos g1 = pos g /\
              (forall x, free j g x -> free j g1 x) /\ (forall x, free j g x -> x <> b) /\
              exists e, lookup l (labels g1) = Some e /\ end_block e = b).
  { destruct (lookup l (labels g)) as [e|] eqn:LK.
    - destruct (used e) eqn:US; [discriminate|]. injection H1 as <- <-.
      set (e1 := {| chain := chain e; end_block := end_block e; used := true |}).
      assert (LR : forall l', lookup l' (replace l e1 (labels g)) = if l' =? l then Some e1 else lookup l' (labels g)).
      { intros l'. apply lookup_replace. congruence. }
      assert (PD : ispend g (end_block e)) by (exists l, e; auto).
      assert (PS : forall x, ispend (with_labels (replace l e1 (labels g)) g) x -> ispend g x /\ x <> end_block e).
      { intros x (l' & e' & L' & U' & E'). cbn in L'. rewrite LR in L'. destruct (Nat.eqb_spec l' l).
        - injection L' as <-. discriminate U'.
        - split; [exists l', e'; auto|]. intros Q. subst x. pose proof (w_dist _ _ W l' l e' e L' LK Q). contradiction. }
      assert (EX : ext g (with_labels (replace l e1 (labels g)) g)).
      { apply relabel_ext. intros l' e' L'. rewrite LR. destruct (Nat.eqb_spec l' l); [|eauto].
        subst l'. exists e1. split; [reflexivity|]. cbn. congruence. }
      destruct (w_pend _ _ W _ PD) as (I1 & I2 & I3 & I4).
      assert (NE : j_entry j <> Some (end_block e)).
      { intros Q. destruct (w_entry _ _ W _ Q) as (_ & N). contradiction. }
      split; [|split; [exact EX|split; [apply le_n|split; [|split; [reflexivity|split; [|split]]]]]].
      + destruct W as [Q1 Q2 Q3 Q4 Q5 Q6 Q7]. split; auto.
        * intros x Q. destruct (Q3 x Q) as (A & B). split; [exact A|]. intros C. apply PS in C. tauto.
        * intros x C. apply PS in C. apply Q4. tauto.
        * intros l' e' L'. cbn in L'. rewrite LR in L'. destruct (l' =? l); [injection L' as <-|]; [exact I1|eauto].
        * intros l1 l2 x y L1 L2 EQ. cbn in L1, L2. rewrite LR in L1, L2.
          destruct (Nat.eqb_spec l1 l), (Nat.eqb_spec l2 l); try congruence.
          -- injection L1 as <-. pose proof (Q6 l l2 e y LK L2 EQ). congruence.
          -- injection L2 as <-. pose proof (Q6 l1 l x e L1 LK EQ). congruence.
          -- exact (Q6 l1 l2 x y L1 L2 EQ).
        * intros l' e' L' G X. cbn in L'. rewrite LR in L'. assert (XG := ext_trans _ _ _ EX X).
          destruct (l' =? l); [injection L' as <-; exact (Q7 l e LK G XG)|exact (Q7 l' e' L' G XG)].
      + split; [|split; [|exact NE]].
        * repeat (split; auto).
        * intros C. apply PS in C. tauto.
      + intros x (A & B & C). split; [exact A|]. split; [|exact C]. intros D. apply PS in D. tauto.
      + intros x (A & B & C) Q. subst x. contradiction.
      + exists e1. cbn [labels with_labels]. rewrite LR, Nat.eqb_refl. auto.
    - cbn [new_block] in H1. injection H1 as <- <-.
      match goal with |- wfc _ (with_labels ?t ?y) /\ _ => set (t1 := t) in *; change y with (snd (new_block g)) in * end.
      cbn [labels] in t1. set (e1 := {| chain := next g; end_block := next g; used := true |}) in *.
      assert (W1 := new_wfc j g W). set (g0 := snd (new_block g)) in *.
      assert (LR : forall l', lookup l' t1 = if l' =? l then Some e1 else lookup l' (labels g)).
      { intros l'. apply lookup_app. exact LK. }
      assert (PS : forall x, ispend (with_labels t1 g0) x -> ispend g0 x).
      { intros x (l' & e' & L' & U' & E'). cbn in L'. rewrite LR in L'. destruct (Nat.eqb_spec l' l).
        - injection L' as <-. discriminate U'.
        - exists l', e'; auto. }
      assert (EX : ext g0 (with_labels t1 g0)).
      { apply relabel_ext. intros l' e' L'. rewrite LR. destruct (Nat.eqb_spec l' l); [|eauto].
        subst l'. change (lookup l (labels g) = Some e') in L'. congruence. }
      assert (FF : forall x, free j g0 x -> free j (with_labels t1 g0) x).
      { intros x (A & B & C). split; [exact A|]. split; [|exact C]. intros D. apply PS in D. tauto. }
      split; [|split; [exact EX|split; [cbn; lia|split; [|split; [reflexivity|split; [|split]]]]]].
      + destruct W1 as [Q1 Q2 Q3 Q4 Q5 Q6 Q7]. split; auto.
        * intros x Q. destruct (Q3 x Q) as (A & B). split; [exact A|]. intros C. apply PS in C. tauto.
        * intros x C. apply PS in C. apply Q4. exact C.
        * intros l' e' L'. cbn in L'. rewrite LR in L'. destruct (l' =? l); [injection L' as <-; cbn; lia|exact (Q5 l' e' L')].
        * intros l1 l2 x y L1 L2 EQ. cbn in L1, L2. rewrite LR in L1, L2.
          destruct (Nat.eqb_spec l1 l), (Nat.eqb_spec l2 l); try congruence.
          -- injection L1 as <-. pose proof (w_ends _ _ W l2 y L2). cbn in EQ. lia.
          -- injection L2 as <-. pose proof (w_ends _ _ W l1 x L1). cbn in EQ. lia.
          -- exact (Q6 l1 l2 x y L1 L2 EQ).
        * intros l' e' L' G X. cbn in L'. rewrite LR in L'. assert (XG := ext_trans _ _ _ EX X).
          destruct (l' =? l); [injection L' as <-; constructor|exact (Q7 l' e' L' G XG)].
      + apply FF. exact (new_is_free j g W).
      + intros x Fx. apply FF. apply new_free. exact Fx.
      + intros x Fx. exact (new_small _ _ _ Fx).
      + exists e1. cbn [labels with_labels]. rewrite LR, Nat.eqb_refl. auto. }
  destruct P as (W1 & X1 & L1 & Fb & P1 & F1 & N1 & e & LK & EB). clear H1.
  apply bind_ok in H as (g2 & H2 & H).
  assert (MV := goto_moved j _ _ b _ W1 Fb H2).
  destruct (IA _ _ _ _ H ND DC GD (m_wfc _ _ _ _ _ MV) (m_open _ _ _ _ _ MV)) as [A1 A2 A3 A4 A5 A6 A7 (cs & ds & A8 & A9 & A10 & A11)].
  assert (L2 := m_next _ _ _ _ _ MV).
  split; auto.
  - exact (ext_trans _ _ _ X1 (ext_trans _ _ _ (m_ext _ _ _ _ _ MV) A3)).
  - lia.
  - intros x Fx. apply A5. apply (m_free _ _ _ _ _ MV); auto.
  - exists cs, ds. split; [exact A8|]. split; [exact A9|]. split; [exact A10|].
    intros G X. destruct (A11 G X) as (S1 & J1 & J2 & T). split; [exact S1|]. split; [exact J1|]. split; [exact J2|].
    intros E K1 K2 HC HD. assert (X2 := ext_trans _ _ _ A3 X).
    assert (LB : lab G l = b) by (rewrite <- EB; exact (ext_lab _ _ _ _ (ext_trans _ _ _ (m_ext _ _ _ _ _ MV) X2) LK)).
    cbn [tr]. rewrite LB, <- P1. split; [exact (m_silent _ _ _ _ _ MV G X2)|].
    rewrite (m_pos _ _ _ _ _ MV) in T. apply T; auto.
Qed.

Lemma goto_case l : claim (SGoto l).
Proof.
  intros j g j' g' H _ _ GD W O. cbn [parse] in H.
  assert (DF : defd l) by (apply GD; left; reflexivity).
  destruct (lookup l (labels g)) as [e|] eqn:LK.
  - cbn [new_block] in H. apply bind_ok in H as (g1 & H1 & H). injection H as <- <-.
    match type of H1 with step_to _ _ ?x = _ => change x with (snd (new_block g)) in H1 end.
    assert (ST := step_to_stepped j _ _ _ _ (new_wfc j g W) (new_is_free j g W) H1).
    assert (SL := s_labels _ _ _ _ _ ST). change (labels (snd (new_block g))) with (labels g) in SL.
    set (e1 := {| chain := next g; end_block := end_block e; used := used e |}). rewrite SL.
    assert (LR : forall l', lookup l' (replace l e1 (labels g)) = if l' =? l then Some e1 else lookup l' (labels g)).
    { intros l'. apply lookup_replace. congruence. }
    set (g2 := with_labels (replace l e1 (labels g)) g1).
    assert (EX : ext g1 g2).
    { apply relabel_ext. rewrite SL. intros l' e' L'. rewrite LR. destruct (Nat.eqb_spec l' l); [|eauto].
      subst l'. exists e1. split; [reflexivity|]. cbn. congruence. }
    assert (PS : forall x, ispend g2 x -> ispend g1 x).
    { intros x (l' & e' & L' & U' & E'). cbn in L'. rewrite LR in L'. unfold ispend. rewrite SL. destruct (Nat.eqb_spec l' l).
      - injection L' as <-. exists l, e. auto.
      - exists l', e'. auto. }
    apply simple; auto.
    + assert (W1 := s_wfc _ _ _ _ _ ST). pose proof W1 as W1'. destruct W1' as [Q1 Q2 Q3 Q4 Q5 Q6 Q7]. rewrite SL in *. split; auto.
      * intros x Q. destruct (Q3 x Q) as (A & B). split; [exact A|]. intros C. apply PS in C. tauto.
      * intros x C. apply PS in C. apply Q4. exact C.
      * intros l' e' L'. cbn in L'. rewrite LR in L'. destruct (l' =? l); [injection L' as <-; exact (Q5 l e LK)|exact (Q5 l' e' L')].
      * intros l1 l2 x y L1 L2 EQ. cbn in L1, L2. rewrite LR in L1, L2.
        destruct (Nat.eqb_spec l1 l), (Nat.eqb_spec l2 l); try congruence.
        -- injection L1 as <-. pose proof (Q6 l l2 e y LK L2 EQ). congruence.
        -- injection L2 as <-. pose proof (Q6 l1 l x e L1 LK EQ). congruence.
        -- exact (Q6 l1 l2 x y L1 L2 EQ).
      * intros l' e' L' G X. cbn in L'. rewrite LR in L'. assert (XG := ext_trans _ _ _ EX X).
        destruct (l' =? l); [|exact (Q7 l' e' L' G XG)]. injection L' as <-. cbn.
        exact (silent_trans _ _ _ _ (s_step _ _ _ _ _ ST G XG) (Q7 l e LK G XG)).
    + exact (s_open _ _ _ _ _ ST).
    + exact (ext_trans _ _ _ (s_ext _ _ _ _ _ ST) EX).
    + pose proof (s_next _ _ _ _ _ ST) as N. cbn in N |- *. lia.
    + intros x Fx. assert (F1 := s_free _ _ _ _ _ ST _ (new_free j _ _ Fx) (new_small _ _ _ Fx)).
      destruct F1 as (A & B & C). split; [exact A|]. split; [|exact C]. intros D. apply PS in D. tauto.
    + intros G X E _ _ _. assert (X1 := ext_trans _ _ _ EX X). split; [exact DF|].
      assert (LK1 : lookup l (labels g1) = Some e) by (rewrite SL; exact LK).
      rewrite (ext_lab _ _ _ _ X1 LK1).
      exact (silentp_trans _ _ _ _ (s_pos _ _ _ _ _ ST G X1) (w_chain _ _ (s_wfc _ _ _ _ _ ST) l e LK1 G X1)).
  - cbn [new_block] in H. rewrite step_to_labels in H. apply bind_ok in H as (g2 & H2 & H). injection H as <- <-.
    apply bind_ok in H2 as (g1 & H1 & H2). injection H2 as <-. cbn [next labels] in *.
    match type of H1 with step_to _ _ ?x = _ => change x with (snd (new_block (snd (new_block g)))) in H1 end.
    assert (Wa := new_wfc j _ W). assert (Wb := new_wfc j _ Wa).
    assert (Fe := new_free j _ _ (new_is_free j _ W)). assert (Fs := new_is_free j _ Wa).
    change (next (snd (new_block g))) with (S (next g)) in Fs.
    assert (ST := step_to_stepped j _ _ _ _ Wb Fs H1).
    assert (SL := s_labels _ _ _ _ _ ST). change (labels (snd (new_block (snd (new_block g))))) with (labels g) in SL.
    set (e1 := {| chain := S (next g); end_block := next g; used := false |}).
    set (t1 := labels g ++ [(l, e1)]).
    assert (LR : forall l', lookup l' t1 = if l' =? l then Some e1 else lookup l' (labels g)).
    { intros l'. apply lookup_app. exact LK. }
    set (g2 := with_labels t1 g1).
    assert (Fe1 := s_free _ _ _ _ _ ST _ Fe ltac:(lia)).
    assert (EX : ext g1 g2).
    { apply relabel_ext. rewrite SL. intros l' e' L'. rewrite LR. destruct (Nat.eqb_spec l' l); [congruence|eauto]. }
    assert (PS : forall x, ispend g2 x -> ispend g1 x \/ x = next g).
    { intros x (l' & e' & L' & U' & E'). cbn in L'. rewrite LR in L'. unfold ispend. rewrite SL. destruct (Nat.eqb_spec l' l).
      - injection L' as <-. right. cbn in E'. auto.
      - left. exists l', e'. auto. }
    assert (Wg := s_wfc _ _ _ _ _ ST).
    assert (NE : forall x, j_entry j = Some x -> x <> next g).
    { intros x Q. destruct (w_entry _ _ W x Q) as ((L & _) & _). lia. }
    apply simple; auto.
    + pose proof Wg as W1'. destruct W1' as [Q1 Q2 Q3 Q4 Q5 Q6 Q7]. rewrite SL in *. split; auto.
      * intros x Q. destruct (Q3 x Q) as (A & B). split; [exact A|]. intros C. apply PS in C. destruct C as [C|C]; [tauto|exact (NE x Q C)].
      * intros x C. apply PS in C. destruct C as [C| ->]; [apply Q4; exact C|]. destruct Fe1 as (I & _). exact I.
      * intros l' e' L'. cbn in L'. rewrite LR in L'. destruct (l' =? l); [injection L' as <-|exact (Q5 l' e' L')].
        exact (free_lt _ _ _ Fe1).
      * intros l1 l2 x y L1 L2 EQ. cbn in L1, L2. rewrite LR in L1, L2.
        destruct (Nat.eqb_spec l1 l), (Nat.eqb_spec l2 l); try congruence.
        -- injection L1 as <-. pose proof (w_ends _ _ W l2 y L2). cbn in EQ. lia.
        -- injection L2 as <-. pose proof (w_ends _ _ W l1 x L1). cbn in EQ. lia.
        -- exact (Q6 l1 l2 x y L1 L2 EQ).
      * intros l' e' L' G X. cbn in L'. rewrite LR in L'. assert (XG := ext_trans _ _ _ EX X).
        destruct (l' =? l); [|exact (Q7 l' e' L' G XG)]. injection L' as <-. exact (s_step _ _ _ _ _ ST G XG).
    + exact (s_open _ _ _ _ _ ST).
    + exact (ext_trans _ _ _ (s_ext _ _ _ _ _ ST) EX).
    + pose proof (s_next _ _ _ _ _ ST) as N. cbn in N |- *. lia.
    + intros x Fx. pose proof (free_lt _ _ _ Fx).
      assert (F1 := s_free _ _ _ _ _ ST _ (new_free j _ _ (new_free j _ _ Fx)) ltac:(lia)).
      destruct F1 as (A & B & C). split; [exact A|]. split; [|exact C]. intros D. apply PS in D. destruct D as [D|D]; [tauto|lia].
    + intros G X E _ _ _. assert (X1 := ext_trans _ _ _ EX X). split; [exact DF|].
      assert (LK1 : lookup l (labels g2) = Some e1) by (cbn; rewrite LR, Nat.eqb_refl; reflexivity).
      rewrite (ext_lab _ _ _ _ X LK1). exact (s_pos _ _ _ _ _ ST G X1).
Qed.

Theorem parse_good s : claim s.
Proof.
  induction s.
  - apply skip_case.
  - apply do_case.
  - apply seq_case; assumption.
  - apply if_case; assumption.
  - apply while_case; assumption.
  - apply dowhile_case; assumption.
  - apply for_case; assumption.
  - apply switch_case; assumption.
  - apply case_case; assumption.
  - apply default_case; assumption.
  - apply label_case; assumption.
  - apply goto_case.
  - apply break_case.
  - apply continue_case.
  - apply return_case.
Qed.
End Main.

Lemma start_wfc0 : wfc no_jumps start.
Proof.
  split; cbn; auto; try discriminate.
  intros b (l & e & L & _). discriminate L.
Qed.

(** A case or default outside of a switch is an error. *)
Lemma outside s : forall j g j' g', parse s j g = Ok (j', g') -> j_control j = None -> j_entry j = None ->
  cases s = [] /\ defaults s = 0 /\ j_control j' = None /\ j_entry j' = None.
Proof.
  induction s; intros j g j' g' H JC JE; cbn [parse] in H; cbn [cases defaults].
  - injection H as <- <-. auto.
  - injection H as <- <-. auto.
  - apply bind_ok in H as ([j1 g1] & H1 & H2). destruct (IHs1 _ _ _ _ H1 JC JE) as (-> & -> & A & B).
    destruct (IHs2 _ _ _ _ H2 A B) as (-> & -> & C). auto.
  - apply bind_ok in H as ([[bt bf] g1] & _ & H). apply bind_ok in H as ([j2 g2] & H2 & H). cbn [new_block] in H. cbn beta iota in H.
    apply bind_ok in H as (g3 & _ & H). apply bind_ok in H as ([j4 g4] & H4 & H). cbn beta iota in H.
    apply bind_ok in H as (g5 & _ & H). injection H as <- <-.
    destruct (IHs1 _ _ _ _ H2 JC JE) as (-> & -> & A & B). destruct (IHs2 _ _ _ _ H4 A B) as (-> & -> & C). auto.
  - cbn [new_block] in H. cbn beta iota in H.
    apply bind_ok in H as (? & _ & H). apply bind_ok in H as ([[? ?] ?] & _ & H). apply bind_ok in H as (? & _ & H).
    apply bind_ok in H as (? & _ & H). apply bind_ok in H as ([j1 g1] & H1 & H). cbn beta iota in H.
    destruct (j_continue j1); [|discriminate]. apply bind_ok in H as (? & _ & H). injection H as <- <-.
    destruct (IHs _ _ _ _ H1 JC JE) as (-> & -> & _). auto.
  - cbn [new_block] in H. cbn beta iota in H.
    apply bind_ok in H as (? & _ & H). apply bind_ok in H as ([j1 g1] & H1 & H). cbn beta iota in H.
    apply bind_ok in H as (? & _ & H). apply bind_ok in H as ([[? ?] ?] & _ & H). apply bind_ok in H as (? & _ & H).
    apply bind_ok in H as (? & _ & H). injection H as <- <-.
    destruct (IHs _ _ _ _ H1 JC JE) as (-> & -> & _). auto.
  - cbn [new_block] in H. cbn beta iota in H.
    apply bind_ok in H as (? & _ & H). apply bind_ok in H as (? & _ & H). apply bind_ok in H as (? & _ & H).
    apply bind_ok in H as (? & _ & H). apply bind_ok in H as ([j1 g1] & H1 & H). cbn beta iota in H.
    apply bind_ok in H as (? & _ & H). injection H as <- <-.
    destruct (IHs _ _ _ _ H1 JC JE) as (-> & -> & _). auto.
  - cbn [new_block] in H. cbn beta iota in H.
    apply bind_ok in H as (? & _ & H). apply bind_ok in H as ([j1 g1] & H1 & H). cbn beta iota in H.
    destruct (j_entry j1); [|discriminate]. destruct (j_break j1); [|discriminate].
    apply bind_ok in H as (? & _ & H). apply bind_ok in H as (? & _ & H). injection H as <- <-. auto.
  - rewrite JC in H. discriminate.
  - cbn [new_block] in H. cbn beta iota in H. apply bind_ok in H as (? & _ & H). rewrite JE in H. discriminate.
  - apply bind_ok in H as ([? ?] & _ & H). apply bind_ok in H as (? & _ & H). exact (IHs _ _ _ _ H JC JE).
  - destruct (lookup l (labels g)); cbn [new_block] in H; cbn beta iota in H;
      apply bind_ok in H as (? & _ & H); injection H as <- <-; auto.
  - cbn [new_block] in H. destruct (j_break j); [|discriminate]. apply bind_ok in H as (? & _ & H). injection H as <- <-. auto.
  - cbn [new_block] in H. destruct (j_continue j); [|discriminate]. apply bind_ok in H as (? & _ & H). injection H as <- <-. auto.
  - apply bind_ok in H as (? & _ & H). cbn [new_block] in H. injection H as <- <-. auto.
Qed.

(** The whole function. *)
Section Function.
Context {store : Type}.
Context (act : nat -> store -> store) (test : nat -> store -> store * bool) (sel : nat -> store -> store * Z).

Lemma function_ms body implicit g :
  parse_function body implicit = Ok g -> no_duff body -> distinct_cases body -> gotos_defined body ->
  let defd := fun l => In l (gotos body) in
  exists last,
    (exists E p r, tr g defd E body p r /\ silent g r last /\ mc g defd last E Kstop last) /\
    (match implicit with
     | Some r => at_end g last (TReturn r)
     | None => snd last = length (code g (fst last)) /\ term g (fst last) = None
     end) /\
    forall m control, @ms g defd last store (Running body Kstop m) (At 0 0 m control).
Proof.
  intros H ND DC GD defd. unfold parse_function in H. apply bind_ok in H as ([j1 g1] & H1 & H). cbn beta iota in H.
  assert (GA := parse_good defd body _ _ _ _ H1 ND DC (fun l h => h) start_wfc0 eq_refl).
  set (last := pos g1).
  assert (X : ext g1 g /\ match implicit with
              | Some r => at_end g last (TReturn r)
              | None => snd last = length (code g (fst last)) /\ term g (fst last) = None
              end).
  { destruct implicit as [r|].
    - apply finish_fin in H. split; [exact (fin_ext _ _ _ _ H)|]. exact (fin_at _ _ _ _ H g (ext_refl g)).
    - injection H as <-. split; [apply ext_refl|]. split; [reflexivity|]. exact (g_open _ _ _ _ _ _ GA). }
  destruct X as [X LAST].
  destruct (g_main _ _ _ _ _ _ GA) as (cs & ds & A8 & A9 & _ & A11). destruct (A11 g X) as (_ & _ & _ & T).
  set (E := {| e_break := None; e_continue := None; e_case := fun k => assoc k cs; e_default := hd_error ds |}).
  assert (CS : cs = [] /\ ds = []).
  { destruct (outside _ _ _ _ _ H1 eq_refl eq_refl) as (Q1 & Q2 & _). rewrite Q1 in A8. rewrite Q2 in A9.
    destruct cs; [|discriminate A8]. destruct ds; [|discriminate A9]. auto. }
  destruct CS as [-> ->].
  assert (TB : tr g defd E body (0, 0) last).
  { apply (T E); cbn; auto; intros; contradiction. }
  assert (MC : mc g defd last E Kstop last) by (constructor; reflexivity).
  exists last. split; [|split; [exact LAST|]].
  - exists E, (0, 0), last. split; [exact TB|]. split; [constructor|exact MC].
  - intros m control. exists E, 0, 0, last, last, control. split; [reflexivity|]. split; [exact TB|]. split; [constructor|exact MC].
Qed.

(** Statements and graph stop alike, and pass through the same stores. *)
Theorem function_follows body implicit g :
  parse_function body implicit = Ok g -> no_duff body -> distinct_cases body -> gotos_defined body ->
  forall m control,
  let run n := steps act test sel body implicit n (Running body Kstop m) in
  let grun n := gsteps act test sel g n (At 0 0 m control) in
  (forall n, run n <> Wrong) /\
  (forall r m', (exists n, run n = Returned r m') <-> (exists n, grun n = GReturned r m')) /\
  (forall m', (exists n, run n = Fell m') <-> (exists n, grun n = GFell m')) /\
  (forall n s k m', run n = Running s k m' -> exists n' b i c, grun n' = At b i m' c).
Proof.
  intros H ND DC GD m control run grun.
  destruct (function_ms body implicit g H ND DC GD) as (last & BODY & LAST & MS). specialize (MS m control).
  assert (FO : forall n, exists n', ms g (fun l => In l (gotos body)) last (run n) (grun n')).
  { intros n. destruct (follows g _ last act test sel body implicit GD BODY LAST n _ _ MS) as (y & [n' R] & M).
    exists n'. unfold grun. rewrite R. exact M. }
  assert (ST : forall n, stopped (grun n) -> exists n', match run n' with Running _ _ _ => False | _ => True end).
  { intros n S1. exact (stops g _ last act test sel body implicit GD BODY LAST n _ _ _ _ (le_n _) MS eq_refl S1). }
  assert (SAME : forall n n', stopped (grun n) -> stopped (grun n') -> grun n = grun n').
  { assert (LE : forall n n', n <= n' -> stopped (grun n) -> grun n' = grun n).
    { intros n n' L S1. unfold grun. replace n' with (n + (n' - n)) by lia. rewrite runG_add. apply stopped_stays. exact S1. }
    intros n n' S1 S2. destruct (Nat.le_ge_cases n n') as [L|L]; [symmetry|]; apply LE; auto. }
  assert (BACK : forall n y, grun n = y -> stopped y -> exists n', ms g (fun l => In l (gotos body)) last (run n') y /\
                   match run n' with Running _ _ _ => False | _ => True end).
  { intros n y Q S1. rewrite <- Q in S1. destruct (ST n S1) as (n1 & F). exists n1. split; [|exact F].
    destruct (FO n1) as (n2 & M). rewrite <- Q. rewrite (SAME n n2); [exact M|exact S1|].
    destruct (run n1); try contradiction; cbn in M; try (rewrite M; exact I). }
  split; [|split; [|split]].
  - intros n Q. destruct (FO n) as (n' & M). rewrite Q in M. exact M.
  - intros r m'. split.
    + intros [n Q]. destruct (FO n) as (n' & M). rewrite Q in M. exists n'. exact M.
    + intros [n Q]. destruct (BACK n _ Q I) as (n' & M & F). exists n'.
      destruct (run n'); cbn in M; try contradiction; try discriminate. injection M as -> ->. reflexivity.
  - intros m'. split.
    + intros [n Q]. destruct (FO n) as (n' & M). rewrite Q in M. exists n'. exact M.
    + intros [n Q]. destruct (BACK n _ Q I) as (n' & M & F). exists n'.
      destruct (run n'); cbn in M; try contradiction; try discriminate. injection M as ->. reflexivity.
  - intros n s k m' Q. destruct (FO n) as (n' & M). rewrite Q in M. destruct M as (E & b & i & r & q & c & Y & _).
    exists n', b, i, c. exact Y.
Qed.
End Function.
