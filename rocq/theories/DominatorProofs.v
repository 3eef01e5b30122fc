From Verif Require Import Base Fuel IR IRProofs RemoveDead RemoveDeadProofs Dominator DominatorSpec.

Lemma upd_eq {A} (f : nat -> A) n x : upd f n x n = x. Proof. unfold upd. now rewrite Nat.eqb_refl. Qed.
Lemma upd_ne {A} (f : nat -> A) n x m : m <> n -> upd f n x m = f m.
Proof. intros H. unfold upd. destruct (Nat.eqb_spec m n); [contradiction|reflexivity]. Qed.

(** Ancestors in the tree so far. *)
Inductive anc (im : nat -> option nat) (b : nat) : nat -> Prop :=
| anc_self : anc im b b
| anc_up x d : im b = Some x -> anc im x d -> anc im b d.
Lemma anc_trans im a b c : anc im a b -> anc im b c -> anc im a c.
Proof. induction 1; auto. intros. eapply anc_up; eauto. Qed.
Lemma anc_inv im b d : anc im b d -> d = b \/ exists x, im b = Some x /\ anc im x d.
Proof. destruct 1; eauto. Qed.

Section Tree.
Variable g : graph.
Variable entry : nat.
Variable post : nat -> nat.
Variable ord : list nat.   (* the blocks after the entry *)
Variable preds : nat -> list nat.
Hypothesis preds_edge : forall p b, In p (preds b) <-> edge g p b.
Definition listed (b : nat) : Prop := In b (entry :: ord).
Hypothesis numbered : forall a n c, entry :: ord = a ++ n :: c -> post n = length c.
Hypothesis nodup : NoDup (entry :: ord).
Hypothesis entry_first : forall p, ~ edge g p entry.
Hypothesis parents : forall b, In b ord -> exists p, edge g p b /\ listed p /\ (post b < post p)%nat.
Hypothesis reach_O : forall b l, path g entry b l -> listed b.

Lemma post_max b : listed b -> (post b <= post entry)%nat.
Proof.
  intros H. rewrite (numbered [] entry ord eq_refl). unfold listed in H. apply in_split in H as (l1 & l2 & E).
  rewrite (numbered _ _ _ E). apply (f_equal (@length nat)) in E. rewrite app_length in E. cbn in E. lia.
Qed.
Lemma post_inj a b : listed a -> listed b -> post a = post b -> a = b.
Proof.
  unfold listed. intros Ha Hb E. apply in_split in Ha as (l1 & l2 & E1). apply in_split in Hb as (m1 & m2 & E2).
  rewrite (numbered _ _ _ E1), (numbered _ _ _ E2) in E. rewrite E1 in E2. revert m1 E2. clear - E. induction l1 as [|x l1 IH]; intros [|y m1] E2; cbn in E2.
  - now injection E2.
  - injection E2 as -> E2. subst. rewrite app_length in E. cbn in E. lia.
  - injection E2 as -> E2. subst. rewrite app_length in E. cbn in E. lia.
  - injection E2 as _ E2. eauto.
Qed.

(** * The tree at any moment *)
Notation map := (nat -> option nat).
Definition done (im : map) (b : nat) : Prop := im b <> None.
Definition up (im : map) : Prop := im entry = Some entry /\ forall b x, im b = Some x -> b <> entry -> listed b /\ listed x /\ (post b < post x)%nat /\ done im x.
Lemma done_O im b : up im -> done im b -> listed b.
Proof. intros [_ U] D. destruct (Nat.eq_dec b entry) as [->|N]; [left; reflexivity|]. unfold done in D. destruct (im b) eqn:E; [|congruence]. now apply (U b n). Qed.
Lemma done_entry im : up im -> done im entry. Proof. intros [E _]. unfold done. congruence. Qed.
Lemma anc_facts im b d : up im -> done im b -> anc im b d -> done im d /\ (d = b \/ (post b < post d)%nat).
Proof.
  intros U D A. induction A as [|b x d E A IH]; [auto|]. destruct (Nat.eq_dec b entry) as [->|N].
  - destruct U as [Ue _]. rewrite Ue in E. injection E as <-. auto.
  - destruct (proj2 U b x E N) as (_ & _ & L & Dx). destruct (IH Dx) as (Dd & [->|Ld]); split; auto; right; lia.
Qed.
Lemma anc_post im b d : up im -> done im b -> anc im b d -> (post b <= post d)%nat.
Proof. intros U D A. destruct (anc_facts im b d U D A) as (_ & [->|]); lia. Qed.
Lemma anc_done im b d : up im -> done im b -> anc im b d -> done im d.
Proof. intros U D A. apply (anc_facts im b d U D A). Qed.
Lemma anc_entry_only im d : up im -> anc im entry d -> d = entry.
Proof. intros U A. destruct (anc_facts im entry d U (done_entry im U) A) as (D & [|L]); [auto|]. assert (X := post_max d (done_O im d U D)). lia. Qed.
Lemma anc_entry im : up im -> forall k b, (post entry - post b <= k)%nat -> done im b -> anc im b entry.
Proof.
  intros U. induction k as [|k IH]; intros b L D; (destruct (Nat.eq_dec b entry) as [->|N]; [constructor|]).
  - exfalso. apply N. apply post_inj; [eapply done_O; eauto|left; reflexivity|]. assert (X := post_max b (done_O im b U D)). lia.
  - unfold done in D. destruct (im b) as [x|] eqn:E; [|congruence]. destruct (proj2 U b x E N) as (Ob & Ox & Lx & Dx). eapply anc_up; [exact E|].
    apply IH; [|exact Dx]. assert (X := post_max x Ox). lia.
Qed.

(** * intersect *)
Lemma climb_ok im limit : up im -> (limit <= post entry)%nat -> forall fuel b, done im b -> (post entry - post b < fuel)%nat ->
  exists c, climb fuel post im b limit = Some (Ok c) /\ anc im b c /\ (limit <= post c)%nat /\ (forall d, anc im b d -> (limit <= post d)%nat -> anc im c d).
Proof.
  intros U Lm. induction fuel as [|fuel IH]; intros b D F; [lia|]. cbn [climb]. destruct (Nat.ltb_spec (post b) limit) as [L|L].
  - assert (N : b <> entry) by (intros ->; lia). unfold done in D. destruct (im b) as [x|] eqn:E; [|congruence].
    destruct (proj2 U b x E N) as (Ob & Ox & Lx & Dx). assert (X := post_max x Ox).
    destruct (IH x Dx) as (c & Ec & A & Lc & K); [lia|]. exists c. split; [exact Ec|]. split; [eapply anc_up; eauto|]. split; [exact Lc|].
    intros d Ad Ld. apply anc_inv in Ad as [->|(y & Ey & Ay)]; [lia|]. rewrite E in Ey. injection Ey as <-. auto.
  - exists b. split; [reflexivity|]. split; [constructor|]. split; [lia|auto].
Qed.
Lemma meet_ok im : up im -> forall fuel b1 b2, done im b1 -> done im b2 ->
  (3 * post entry - post b1 - post b2 + 1 < fuel)%nat ->
  exists m, meet fuel post im b1 b2 = Some (Ok m) /\ done im m /\ forall d, anc im m d <-> anc im b1 d /\ anc im b2 d.
Proof.
  intros U. induction fuel as [|fuel IH]; intros b1 b2 D1 D2 F; [lia|]. cbn [meet]. destruct (Nat.eqb_spec b1 b2) as [->|N].
  - exists b2. split; [reflexivity|]. split; [auto|]. intuition.
  - assert (O1 := done_O im b1 U D1). assert (O2 := done_O im b2 U D2). assert (M1 := post_max b1 O1). assert (M2 := post_max b2 O2).
    destruct (climb_ok im (post b2) U M2 fuel b1 D1) as (c1 & E1 & A1 & L1 & K1); [lia|]. rewrite E1. cbn [exbind].
    assert (Dc1 := anc_done im _ _ U D1 A1). assert (Mc1 := post_max c1 (done_O im c1 U Dc1)).
    destruct (climb_ok im (post c1) U Mc1 fuel b2 D2) as (c2 & E2 & A2 & L2 & K2); [lia|]. rewrite E2. cbn [exbind].
    assert (Dc2 := anc_done im _ _ U D2 A2). assert (Mc2 := post_max c2 (done_O im c2 U Dc2)).
    assert (P1 := anc_post im _ _ U D1 A1). assert (P2 := anc_post im _ _ U D2 A2).
    assert (Ne : post b1 <> post b2) by (intros E; apply N; now apply post_inj).
    destruct (IH c1 c2 Dc1 Dc2) as (m & Em & Dm & K); [lia|]. exists m. split; [exact Em|]. split; [exact Dm|]. intros d. rewrite K. split.
    + intros [X Y]. split; eapply anc_trans; eauto.
    + intros [X Y]. assert (X1 : anc im c1 d) by (apply K1; [exact X|exact (anc_post im _ _ U D2 Y)]).
      split; [exact X1|]. apply K2; [exact Y|]. exact (anc_post im _ _ U Dc1 X1).
Qed.
Variable fuel : nat.
Hypothesis fuel_ok : (3 * post entry + 1 < fuel)%nat.
Lemma meet_arguments_ok im : up im -> forall l ni, (forall n, ni = Some n -> done im n) ->
  exists r, meet_arguments fuel post im l ni = Some (Ok r) /\
    match r with
    | None => ni = None /\ forall p, In (Some p) l -> ~ done im p
    | Some m => done im m /\ forall d, anc im m d <-> (forall n, ni = Some n -> anc im n d) /\ (forall p, In (Some p) l -> done im p -> anc im p d)
    end.
Proof.
  intros U. induction l as [|a l IH]; intros ni Dn; cbn [meet_arguments].
  - exists ni. split; [reflexivity|]. destruct ni as [n|].
    + split; [auto|]. intros d. split; [intros A; split; [intros m E; now injection E as <-|intros p []]|]. intros [A _]. auto.
    + split; [reflexivity|]. intros p [].
  - assert (Skip : (forall p, a = Some p -> ~ done im p) -> exists r, meet_arguments fuel post im l ni = Some (Ok r) /\
      match r with
      | None => ni = None /\ forall p, In (Some p) (a :: l) -> ~ done im p
      | Some m => done im m /\ forall d, anc im m d <-> (forall n, ni = Some n -> anc im n d) /\ (forall p, In (Some p) (a :: l) -> done im p -> anc im p d)
      end).
    { intros Sk. destruct (IH ni Dn) as (r & Er & K). exists r. split; [exact Er|]. destruct r as [m|].
      - destruct K as [Dm K]. split; [exact Dm|]. intros d. rewrite K. split; intros [X Y]; split; auto.
        + intros p [E|I] Dp; [exfalso; eapply Sk; eauto|auto].
        + intros p I. apply Y. right. exact I.
      - destruct K as [K1 K2]. split; [exact K1|]. intros p [E|I]; auto. }
    destruct a as [p|]; [|cbn [exbind]; apply Skip; discriminate]. destruct (im p) as [x|] eqn:Ep.
    + assert (Dp : done im p) by (unfold done; congruence). clear Skip.
      assert (S : exists n1, intersect fuel post im ni p = Some (Ok (Some n1)) /\ done im n1 /\ forall d, anc im n1 d <-> (forall n, ni = Some n -> anc im n d) /\ anc im p d).
      { destruct ni as [n|]; cbn [intersect].
        - destruct (meet_ok im U fuel n p (Dn n eq_refl) Dp) as (m & Em & Dm & K); [lia|]. rewrite Em. exists m. split; [reflexivity|]. split; [exact Dm|].
          intros d. rewrite K. split; intros [X Y]; split; auto. intros n' E. now injection E as <-.
        - exists p. split; [reflexivity|]. split; [exact Dp|]. intros d. split; [intros A; split; [discriminate|auto]|]. now intros [_ A]. }
      destruct S as (n1 & E1 & D1 & K1). rewrite E1. cbn [exbind].
      destruct (IH (Some n1)) as (r & Er & K); [intros n E; now injection E as <-|]. exists r. split; [exact Er|]. destruct r as [m|]; [|destruct K; discriminate].
      destruct K as [Dm K]. split; [exact Dm|]. intros d. rewrite K. split.
      * intros [X Y]. specialize (X n1 eq_refl). apply K1 in X as [X1 X2]. split; [exact X1|]. intros q [E|I] Dq; [injection E as <-; auto|auto].
      * intros [X Y]. split; [intros n E; injection E as <-; apply K1; split; [exact X|apply Y; [left; reflexivity|exact Dp]]|]. intros q I. apply Y. right. exact I.
    + cbn [exbind]. apply Skip. intros q E. injection E as <-. unfold done. congruence.
Qed.
Hypothesis block_kind : forall b, In b ord -> type (node_at g b) = IR_REGION \/
  exists i p, type (node_at g b) = IR_PROJECT /\ argument g b 0 = Some i /\ type (node_at g i) = IR_IF /\ argument g i 0 = Some p.
(** What is computed for a block: where the chains of all predecessors that have one meet. *)
Lemma new_idom_ok im b : up im -> In b ord -> exists r, new_idom fuel g post im b = Some (Ok r) /\
  match r with
  | None => forall p, In p (preds b) -> ~ done im p
  | Some m => done im m /\ forall d, anc im m d <-> (forall p, In p (preds b) -> done im p -> anc im p d)
  end.
Proof.
  intros U I. unfold new_idom. destruct (block_kind b I) as [T|(i & p & T & A & Ti & Ai)]; rewrite T.
  - cbn [exbind]. change (IR_REGION =? IR_PROJECT) with false. change (IR_REGION =? IR_REGION) with true. cbn iota.
    destruct (meet_arguments_ok im U (arguments (node_at g b)) None) as (r & Er & K); [discriminate|]. exists r. split; [exact Er|].
    assert (P : forall p, In (Some p) (arguments (node_at g b)) <-> In p (preds b)).
    { intros p. rewrite preds_edge. split.
      - intros H. apply In_nth with (d := None) in H as (k & _ & E). exact (edge_jump g p b k T E).
      - intros [i T' _ _ _|k _ E]; [rewrite T in T'; discriminate|]. unfold argument in E. rewrite <- E. apply nth_In.
        destruct (Nat.lt_ge_cases k (length (arguments (node_at g b)))); [auto|]. rewrite nth_overflow in E by auto. discriminate. }
    destruct r as [m|].
    + destruct K as [Dm K]. split; [exact Dm|]. intros d. rewrite K. split.
      * intros [_ X] p Ip. apply X. now apply P.
      * intros X. split; [discriminate|]. intros p Ip. apply X. now apply P.
    + destruct K as [_ K]. intros p Ip. apply K. now apply P.
  - change (IR_PROJECT =? IR_PROJECT) with true. rewrite A, Ti. change (IR_IF =? IR_IF) with true. cbn [exbind]. rewrite Ai.
    assert (P : forall q, In q (preds b) <-> q = p).
    { intros q. rewrite preds_edge. split; [|intros ->; eapply edge_branch; eauto]. intros [i' _ A' _ Ai'|k T' _]; [|rewrite T in T'; discriminate]. congruence. }
    destruct (im p) eqn:Ep.
    + exists (Some p). split; [reflexivity|]. assert (Dp : done im p) by (unfold done; congruence). split; [exact Dp|]. intros d. split.
      * intros X q Iq _. apply P in Iq as ->. exact X.
      * intros X. apply X; [now apply P|exact Dp].
    + exists None. split; [reflexivity|]. intros q Iq. apply P in Iq as ->. unfold done. congruence.
Qed.

(** * Invariants *)
(** There is a way from [c] down to [q] through blocks numbered no higher than [c]. *)
Inductive low (c : nat) : nat -> Prop :=
| low_self : low c c
| low_edge p q : low c p -> edge g p q -> (post q <= post c)%nat -> low c q.
Lemma low_trans d x b : low d x -> low x b -> (post x <= post d)%nat -> low d b.
Proof. intros A B L. induction B; auto. eapply low_edge; eauto. lia. Qed.
Lemma low_path c q : low c q -> forall l, path g entry c l -> exists m, path g entry q (l ++ m) /\ forall y, In y m -> (post y <= post c)%nat.
Proof.
  induction 1 as [|p q Lp IH E L]; intros l P.
  - exists []. rewrite app_nil_r. split; [exact P|]. intros y [].
  - destruct (IH l P) as (m & Pm & K). exists (m ++ [q]). rewrite app_assoc. split; [eapply path_edge; eauto|].
    intros y I. apply in_app_or in I as [I|[<-|[]]]; auto.
Qed.
Definition dom (d b : nat) : Prop := dominates g entry d b.
Lemma dom_pred d p c : dom d c -> d <> c -> edge g p c -> dom d p.
Proof. intros H N E l P. assert (X := H _ (path_edge g entry p c l P E)). apply in_app_or in X as [X|[X|[]]]; [exact X|congruence]. Qed.
Lemma dom_low d c q : dom d q -> low c q -> (post c < post d)%nat -> dom d c.
Proof. intros H L G l P. destruct (low_path c q L l P) as (m & Pm & K). assert (X := H _ Pm). apply in_app_or in X as [X|X]; [exact X|]. apply K in X. lia. Qed.

Record V (im : map) : Prop := {
  v_up : up im;
  v_prefix : forall b b', done im b -> listed b' -> (post b < post b')%nat -> done im b';
  v_dom : forall b d, done im b -> dom d b -> anc im b d;
  v_low : forall b x, im b = Some x -> b <> entry -> low x b;
  v_meet : forall b x e, im b = Some x -> b <> entry -> (forall p, In p (preds b) -> done im p -> anc im p e) -> anc im x e }.
Lemma anc_low im b d : V im -> done im b -> anc im b d -> low d b.
Proof.
  intros Vi D A. induction A as [|b x d E A IH]; [constructor|]. destruct (Nat.eq_dec b entry) as [->|N].
  - destruct (proj1 (v_up im Vi)) as []. rewrite (proj1 (v_up im Vi)) in E. injection E as <-. auto.
  - destruct (proj2 (v_up im Vi) b x E N) as (_ & _ & L & Dx). eapply low_trans; [apply IH; exact Dx|eapply v_low; eauto|]. exact (anc_post im _ _ (v_up im Vi) Dx A).
Qed.
(** The chain of a forward predecessor goes through the immediate dominator, for blocks
    visited in this pass and for those whose dominator is not yet visited. *)
Definition R (n : nat) (im : map) : Prop :=
  forall b x p, im b = Some x -> b <> entry -> (n <= post b \/ post x < n)%nat -> edge g p b -> listed p -> (post b < post p)%nat -> anc im p x.

Section Step.
Variable im : map.
Variable c z : nat.
Hypothesis Vi : V im.
Hypothesis Ri : R (S (post c)) im.
Hypothesis Oc : In c ord.
Hypothesis before : forall b, listed b -> (post c < post b)%nat -> done im b.
Hypothesis Dz : done im z.
Hypothesis Mz : forall d, anc im z d <-> (forall p, In p (preds c) -> done im p -> anc im p d).
Let im' := upd im c (Some z).
Lemma c_ne : c <> entry. Proof. inversion nodup; subst. intros ->. contradiction. Qed.
Lemma Oc' : listed c. Proof. right. exact Oc. Qed.
Lemma z_above : (post c < post z)%nat.
Proof.
  destruct (parents c Oc) as (p & E & Op & L). assert (Dp := before p Op L). assert (A : anc im p z) by (apply (proj1 (Mz z) (anc_self im z) p); [now apply preds_edge|exact Dp]).
  assert (X := anc_post im p z (v_up im Vi) Dp A). lia.
Qed.
Lemma up_step : up im'.
Proof.
  destruct (v_up im Vi) as [Ue U]. split; [unfold im'; rewrite upd_ne; [exact Ue|intros E; apply c_ne; auto]|]. intros b x E N. unfold im' in E.
  assert (K : forall y, done im y -> done im' y). { intros y D. unfold done, im'. unfold upd. destruct (Nat.eqb y c); [discriminate|exact D]. }
  destruct (Nat.eq_dec b c) as [->|Nc].
  - rewrite upd_eq in E. injection E as <-. split; [apply Oc'|]. split; [eapply done_O; [apply Vi|exact Dz]|]. split; [exact z_above|auto].
  - rewrite upd_ne in E by auto. destruct (U b x E N) as (X1 & X2 & X3 & X4). auto.
Qed.
Lemma done_step b : done im b -> done im' b. Proof. unfold done, im', upd. destruct (Nat.eqb b c); [discriminate|auto]. Qed.
Lemma done_back b : b <> c -> done im' b -> done im b. Proof. intros N. unfold done, im'. rewrite upd_ne; auto. Qed.
Lemma above_same q d : done im q -> (post c < post q)%nat -> anc im q d <-> anc im' q d.
Proof.
  intros D L. split; intros A.
  - induction A as [|q x d E A IH]; [constructor|]. assert (N : q <> c) by (intros ->; lia). eapply anc_up; [unfold im'; rewrite upd_ne; eauto|].
    destruct (Nat.eq_dec q entry) as [->|Ne]; [rewrite (proj1 (v_up im Vi)) in E; injection E as <-; auto|].
    destruct (proj2 (v_up im Vi) q x E Ne) as (_ & _ & Lx & Dx). apply IH; [auto|lia].
  - induction A as [|q x d E A IH]; [constructor|]. assert (N : q <> c) by (intros ->; lia). unfold im' in E. rewrite upd_ne in E by auto. eapply anc_up; [exact E|].
    destruct (Nat.eq_dec q entry) as [->|Ne]; [rewrite (proj1 (v_up im Vi)) in E; injection E as <-; auto|].
    destruct (proj2 (v_up im Vi) q x E Ne) as (_ & _ & Lx & Dx). apply IH; [auto|lia].
Qed.
Lemma up_or q d : anc im q d -> anc im' q d \/ anc im' q c /\ (done im q -> anc im q c /\ (post c < post d)%nat).
Proof.
  intros A. induction A as [|q x d E A IH]; [left; constructor|]. destruct (Nat.eq_dec q c) as [->|N].
  - right. split; [constructor|]. intros D. split; [constructor|]. destruct (proj2 (v_up im Vi) c x E c_ne) as (_ & _ & L & Dx).
    assert (Y := anc_post im x d (v_up im Vi) Dx A). lia.
  - assert (E' : im' q = Some x) by (unfold im'; rewrite upd_ne; auto).
    destruct IH as [IH|[IH K]]; [left; eapply anc_up; eauto|]. right. split; [eapply anc_up; eauto|]. intros D.
    assert (Dx : done im x). { destruct (Nat.eq_dec q entry) as [->|Ne]; [rewrite (proj1 (v_up im Vi)) in E; injection E as <-; exact D|]. now apply (proj2 (v_up im Vi) q x E Ne). }
    destruct (K Dx). split; [eapply anc_up; eauto|auto].
Qed.
Lemma up_split q e : done im q -> anc im' q e -> anc im q c -> (post e <= post c)%nat \/ anc im z e.
Proof.
  intros D A. induction A as [q|q x e E A IH]; intros B.
  - left. exact (anc_post im q c (v_up im Vi) D B).
  - destruct (Nat.eq_dec q c) as [->|N].
    + unfold im' in E. rewrite upd_eq in E. injection E as <-. right. apply above_same; [exact Dz|exact z_above|exact A].
    + unfold im' in E. rewrite upd_ne in E by auto. apply anc_inv in B as [->|(y & Ey & B)]; [contradiction|]. rewrite E in Ey. injection Ey as <-.
      apply IH; [|exact B]. destruct (Nat.eq_dec q entry) as [->|Ne]; [rewrite (proj1 (v_up im Vi)) in E; injection E as <-; exact D|]. now apply (proj2 (v_up im Vi) q x E Ne).
Qed.
Lemma mono q e : done im q -> anc im' q e -> anc im q e.
Proof.
  intros D A. induction A as [|q x e E A IH]; [constructor|]. destruct (Nat.eq_dec q c) as [->|N].
  - unfold im' in E. rewrite upd_eq in E. injection E as <-. apply above_same in A; [|exact Dz|exact z_above].
    unfold done in D. destruct (im c) as [y|] eqn:Ec; [|congruence]. eapply anc_up; [exact Ec|]. eapply anc_trans; [|exact A].
    apply (v_meet im Vi c y z Ec c_ne). apply Mz. constructor.
  - unfold im' in E. rewrite upd_ne in E by auto. eapply anc_up; [exact E|]. apply IH.
    destruct (Nat.eq_dec q entry) as [->|Ne]; [rewrite (proj1 (v_up im Vi)) in E; injection E as <-; exact D|]. now apply (proj2 (v_up im Vi) q x E Ne).
Qed.
Lemma through_c e : anc im z e -> anc im' c e.
Proof. intros A. eapply anc_up; [unfold im'; apply upd_eq|]. apply above_same; [exact Dz|exact z_above|exact A]. Qed.
Lemma V_step : V im'.
Proof.
  assert (Dom : forall d, dom d c -> d = c \/ anc im z d).
  { intros d H. destruct (Nat.eq_dec d c) as [|N]; [auto|]. right. apply Mz. intros p Ip Dp. apply (v_dom im Vi p d Dp). eapply dom_pred; eauto. now apply preds_edge. }
  constructor.
  - exact up_step.
  - intros b b' D listed' L. apply done_step. destruct (Nat.eq_dec b c) as [->|N]; [now apply before|]. apply done_back in D; [|exact N]. eapply v_prefix; eauto.
  - intros b d D H. destruct (Nat.eq_dec b c) as [->|N].
    + destruct (Dom d H) as [->|A]; [constructor|now apply through_c].
    + apply done_back in D; [|exact N]. destruct (up_or b d (v_dom im Vi b d D H)) as [|[A K]]; [auto|]. destruct (K D) as [K1 K2].
      eapply anc_trans; [exact A|]. apply through_c. destruct (Dom d) as [->|X]; [eapply dom_low; eauto; eapply anc_low; eauto|lia|exact X].
  - intros b x E N. unfold im' in E. destruct (Nat.eq_dec b c) as [->|Nc].
    + rewrite upd_eq in E. injection E as <-. destruct (parents c Oc) as (p & Ep & Op & L). assert (Dp := before p Op L).
      assert (A : anc im p z) by (apply (proj1 (Mz z) (anc_self im z) p); [now apply preds_edge|exact Dp]).
      eapply low_edge; [eapply anc_low; eauto|exact Ep|]. assert (X := z_above). lia.
    + rewrite upd_ne in E by auto. eapply v_low; eauto.
  - intros b x e E N H. unfold im' in E. destruct (Nat.eq_dec b c) as [->|Nc].
    + rewrite upd_eq in E. injection E as <-. apply above_same; [exact Dz|exact z_above|]. apply Mz. intros p Ip Dp. apply mono; [exact Dp|]. apply H; [exact Ip|now apply done_step].
    + rewrite upd_ne in E by auto. destruct (proj2 (v_up im Vi) b x E N) as (Ob & Ox & Lx & Dx).
      assert (A : anc im x e). { apply (v_meet im Vi b x e E N). intros p Ip Dp. apply mono; [exact Dp|]. apply H; [exact Ip|now apply done_step]. }
      destruct (up_or x e A) as [|[A1 K]]; [auto|]. destruct (K Dx) as [K1 K2]. eapply anc_trans; [exact A1|]. apply through_c.
      destruct Ob as [<-|Ob]; [contradiction|]. destruct (parents b Ob) as (p & Ep & Op & Lp).
      assert (Db : done im b) by (unfold done; congruence). assert (Dp := v_prefix im Vi b p Db Op Lp).
      assert (Ap : anc im p x). { apply (Ri b x p E N); auto. right. assert (X := anc_post im x c (v_up im Vi) Dx K1). lia. }
      assert (Ae : anc im' p e) by (apply H; [now apply preds_edge|now apply done_step]).
      destruct (up_split p e Dp Ae) as [X|X]; [eapply anc_trans; eauto|lia|exact X].
Qed.
Lemma R_step : R (post c) im'.
Proof.
  intros b x p E N P Ed Op L. unfold im' in E. destruct (Nat.eq_dec b c) as [->|Nc].
  - rewrite upd_eq in E. injection E as <-. assert (Dp := before p Op L). apply above_same; [exact Dp|exact L|]. apply (proj1 (Mz z) (anc_self im z) p); [now apply preds_edge|exact Dp].
  - rewrite upd_ne in E by auto. assert (Db : done im b) by (unfold done; congruence). assert (Dp := v_prefix im Vi b p Db Op L).
    destruct (proj2 (v_up im Vi) b x E N) as (Ob & Ox & Lx & Dx).
    assert (Nb : post b <> post c) by (intros Eq; apply Nc; apply post_inj; auto; apply Oc').
    assert (A : anc im p x) by (apply (Ri b x p E N); auto; lia).
    destruct (up_or p x A) as [|[A1 K]]; [auto|]. destruct (K Dp) as [K1 K2]. exfalso.
    assert (X := anc_post im p c (v_up im Vi) Dp K1). lia.
Qed.
Lemma measure_step y : im c = Some y -> y <> z -> (post y < post z)%nat.
Proof.
  intros E N. destruct (proj2 (v_up im Vi) c y E c_ne) as (_ & _ & _ & Dy).
  assert (A : anc im y z) by (apply (v_meet im Vi c y z E c_ne); apply Mz; constructor).
  destruct (anc_facts im y z (v_up im Vi) Dy A) as (_ & [|]); [congruence|auto].
Qed.
End Step.

(** * Passes *)
Definition weight (im : map) (b : nat) : nat := match im b with None => S (post entry) | Some x => post entry - post x end.
Definition total (im : map) (l : list nat) : nat := list_sum (List.map (weight im) l).
Lemma total_same im im' l : (forall b, In b l -> im' b = im b) -> total im' l = total im l.
Proof. intros H. unfold total. f_equal. apply map_ext_in. intros b I. unfold weight. now rewrite H. Qed.
Lemma total_upd im c z l : NoDup l -> In c l -> (weight (upd im c (Some z)) c < weight im c)%nat -> (total (upd im c (Some z)) l < total im l)%nat.
Proof.
  intros N I W. induction l as [|x l IH]; [destruct I|]. inversion N as [|? ? Nx Nl]; subst. unfold total. cbn [List.map list_sum]. fold (total im l) (total (upd im c (Some z)) l).
  change (list_sum (weight (upd im c (Some z)) x :: List.map (weight (upd im c (Some z))) l)) with (weight (upd im c (Some z)) x + total (upd im c (Some z)) l)%nat.
  change (list_sum (weight im x :: List.map (weight im) l)) with (weight im x + total im l)%nat.
  destruct (Nat.eq_dec x c) as [->|Nc].
  - rewrite (total_same im (upd im c (Some z)) l); [lia|]. intros b Ib. apply upd_ne. intros ->. contradiction.
  - assert (weight (upd im c (Some z)) x = weight im x) by (unfold weight; now rewrite upd_ne). destruct I as [|I]; [contradiction|]. specialize (IH Nl I). lia.
Qed.
Lemma R_all n im : (forall k, R k im) -> R n im. Proof. auto. Qed.
(** A pass: nothing changes and every block has what is computed for it, or the measure
    goes down. *)
Lemma pass_ok : forall l pre im ch, pre ++ l = ord -> V im -> (forall b, listed b -> ~ In b l -> done im b) -> R (length l) im ->
  exists im' ch', pass fuel g post l im ch = Some (Ok (im', ch')) /\ V im' /\ (forall b, listed b -> done im' b) /\ R 0 im' /\
    (ch' = ch /\ im' = im /\ (forall b, In b l -> exists x, im b = Some x /\ new_idom fuel g post im b = Some (Ok (Some x))) \/
     ch' = true /\ (total im' ord < total im ord)%nat).
Proof.
  induction l as [|c l IH]; intros pre im ch E Vi Dn Ri; cbn [pass].
  - exists im, ch. split; [reflexivity|]. split; [auto|]. split; [intros b Ob; apply Dn; auto|]. split; [exact Ri|]. left. split; [auto|]. split; [auto|]. intros b [].
  - assert (Ic : In c ord) by (rewrite <- E; apply in_or_app; cbn; auto).
    assert (Pc : post c = length l). { apply (numbered (entry :: pre) c l). cbn. now rewrite <- E. }
    assert (Pl : forall b, In b l -> (post b < post c)%nat).
    { intros b Ib. apply in_split in Ib as (a & r & El). assert (Q : post b = length r). { apply (numbered (entry :: pre ++ c :: a) b r). cbn. rewrite <- E, El, <- app_assoc. reflexivity. }
      rewrite Pc, El, app_length. cbn. lia. }
    assert (before : forall b, listed b -> (post c < post b)%nat -> done im b).
    { intros b Ob L. apply Dn; [exact Ob|]. intros [->|I]; [lia|]. apply Pl in I. lia. }
    replace (length (c :: l)) with (S (post c)) in Ri by (cbn; lia).
    destruct (new_idom_ok im c (v_up im Vi) Ic) as (r & Er & K). rewrite Er. cbn [exbind].
    destruct r as [z|].
    2:{ exfalso. destruct (parents c Ic) as (p & Ep & Op & L). apply (K p); [now apply preds_edge|now apply before]. }
    destruct K as [Dz Mz]. assert (Vs := V_step im c z Vi Ri Ic before Dz Mz). assert (Rs := R_step im c z Vi Ri Ic before Mz). rewrite Pc in Rs.
    assert (E' : (pre ++ [c]) ++ l = ord) by (rewrite <- app_assoc; exact E).
    destruct (same_idom (im c) (Some z)) eqn:Sm.
    + assert (Ec : im c = Some z). { destruct (im c) as [y|]; [|discriminate]. cbn in Sm. apply Nat.eqb_eq in Sm. congruence. }
      destruct (IH (pre ++ [c]) im ch E' Vi) as (im' & ch' & Ep & V' & D' & R' & K').
      { intros b Ob Nb. destruct (Nat.eq_dec b c) as [->|Nc]; [unfold done; congruence|]. apply Dn; [exact Ob|]. intros [|]; [congruence|contradiction]. }
      { intros b x p Eb Nb P Ed Op L. assert (X := Rs b x p). assert (Ex : forall q, upd im c (Some z) q = im q).
        { intros q. destruct (Nat.eq_dec q c) as [->|Nq]; [rewrite upd_eq; congruence|now rewrite upd_ne]. }
        rewrite Ex in X. specialize (X Eb Nb P Ed Op L). assert (Dp : done im p).
        { eapply v_prefix; [exact Vi| |exact Op|exact L]. unfold done. congruence. }
        apply (mono im c z) in X; auto. }
      exists im', ch'. split; [exact Ep|]. split; [auto|]. split; [auto|]. split; [auto|]. destruct K' as [(K1 & K2 & K3)|K']; [left|right; exact K'].
      split; [auto|]. split; [auto|]. intros b [<-|Ib]; [exists z; auto|auto].
    + assert (Nz : im c <> Some z). { intros X. rewrite X in Sm. cbn in Sm. rewrite Nat.eqb_refl in Sm. discriminate. }
      destruct (IH (pre ++ [c]) (upd im c (Some z)) true E' Vs) as (im' & ch' & Ep & V' & D' & R' & K').
      { intros b Ob Nb. destruct (Nat.eq_dec b c) as [->|Nc]; [unfold done; rewrite upd_eq; discriminate|]. unfold done. rewrite upd_ne by auto. apply Dn; [exact Ob|]. intros [|]; [congruence|contradiction]. }
      { exact Rs. }
      exists im', ch'. split; [exact Ep|]. split; [auto|]. split; [auto|]. split; [auto|]. right.
      assert (W : (total (upd im c (Some z)) ord < total im ord)%nat).
      { apply total_upd; [now inversion nodup|exact Ic|]. unfold weight. rewrite upd_eq. destruct (im c) as [y|] eqn:Ey; [|lia].
        assert (X : (post y < post z)%nat) by (apply (measure_step im c z); auto; congruence).
        assert (Y := post_max z (done_O im z (v_up im Vi) Dz)). lia. }
      destruct K' as [(K1 & K2 & K3)|(K1 & K2)]; split; auto; [now subst|lia].
Qed.
Definition settled (im : map) : Prop := forall b, In b ord -> exists x, im b = Some x /\ new_idom fuel g post im b = Some (Ok (Some x)).
Lemma passes_ok : forall n im, V im -> R (length ord) im -> (forall b, listed b -> ~ In b ord -> done im b) -> (total im ord < n)%nat ->
  exists im', passes n fuel g post ord im = Some (Ok im') /\ V im' /\ (forall b, listed b -> done im' b) /\ settled im'.
Proof.
  induction n as [|n IH]; intros im Vi Ri Di L; [lia|]. cbn [passes].
  destruct (pass_ok ord [] im false eq_refl Vi Di Ri) as (im' & ch' & E & V' & D' & R' & K). rewrite E. cbn [exbind].
  destruct K as [(-> & -> & K)|(-> & K)].
  - exists im. split; [reflexivity|]. auto.
  - apply IH; auto; [|lia]. intros b x p Eb Nb _. apply (R' b x p Eb Nb). lia.
Qed.
(** * At the end *)
Lemma settled_dom im : V im -> (forall b, listed b -> done im b) -> settled im -> forall b l, path g entry b l -> forall d, anc im b d -> In d l.
Proof.
  intros Vi D S b l P. induction P as [|p b l P IH E]; intros d A.
  - apply anc_entry_only in A; [|apply Vi]. cbn. auto.
  - assert (Ob : listed b) by (apply (reach_O b (l ++ [b])); econstructor; eauto). destruct Ob as [<-|Ob]; [exfalso; eapply entry_first; eauto|].
    apply in_or_app. apply anc_inv in A as [->|(x & Ex & A)]; [cbn; auto|]. left. apply IH.
    destruct (S b Ob) as (x' & Ex' & N). rewrite Ex in Ex'. injection Ex' as <-.
    destruct (new_idom_ok im b (v_up im Vi) Ob) as (r & Er & K). rewrite N in Er. injection Er as <-. destruct K as [_ K].
    apply (proj1 (K d) A p); [now apply preds_edge|]. apply D. eapply reach_O; eauto.
Qed.
Definition first : map := upd (fun _ => None) entry (Some entry).
Lemma first_some b x : first b = Some x -> b = entry /\ x = entry.
Proof. unfold first, upd. destruct (Nat.eqb_spec b entry); [|discriminate]. intros H. injection H as <-. auto. Qed.
Lemma first_V : V first.
Proof.
  constructor.
  - split; [apply upd_eq|]. intros b x E N. apply first_some in E as [-> _]. contradiction.
  - intros b b' D Ob L. unfold done in D. destruct (first b) eqn:E; [|congruence]. apply first_some in E as [-> _]. apply post_max in Ob. lia.
  - intros b d D H. unfold done in D. destruct (first b) eqn:E; [|congruence]. apply first_some in E as [-> _]. destruct (H _ (path_start g entry)) as [<-|[]]. constructor.
  - intros b x E N. apply first_some in E as [-> _]. contradiction.
  - intros b x e E N. apply first_some in E as [-> _]. contradiction.
Qed.
Lemma total_bound im : (total im ord <= length ord * S (post entry))%nat.
Proof.
  assert (W : forall b, (weight im b <= S (post entry))%nat) by (intros b; unfold weight; destruct (im b); lia).
  unfold total. induction ord as [|x l IH]; [cbn; lia|]. change (weight im x + list_sum (List.map (weight im) l) <= S (post entry) + length l * S (post entry))%nat.
  assert (X := W x). assert (Y : (list_sum (List.map (weight im) l) <= length l * S (post entry))%nat); [|lia].
  clear - W. induction l as [|y l IH]; [cbn; lia|]. change (weight im y + list_sum (List.map (weight im) l) <= S (post entry) + length l * S (post entry))%nat. assert (X := W y). lia.
Qed.
Theorem tree_ok n : (length ord * S (post entry) < n)%nat -> exists im, passes n fuel g post ord first = Some (Ok im) /\
  im entry = Some entry /\ (forall b, ~ listed b -> im b = None) /\
  (forall b, listed b -> forall d, anc im b d <-> dominates g entry d b) /\
  (forall b, In b ord -> exists x, im b = Some x /\ listed x /\ (post b < post x)%nat).
Proof.
  intros L. destruct (passes_ok n first first_V) as (im & E & Vi & D & S).
  - intros b x p Eb N. apply first_some in Eb as [-> _]. contradiction.
  - intros b [<-|I] N; [|contradiction]. unfold done, first. rewrite upd_eq. discriminate.
  - assert (X := total_bound first). lia.
  - exists im. split; [exact E|]. split; [apply Vi|]. split; [|split].
    + intros b N. destruct (im b) eqn:Eb; [|reflexivity]. exfalso. apply N. eapply done_O; [apply Vi|unfold done; congruence].
    + intros b Ob d. split; [|intros H; apply (v_dom im Vi); auto]. intros A l P. eapply settled_dom; eauto.
    + intros b I. destruct (S b I) as (x & Ex & _). exists x. split; [exact Ex|]. assert (N : b <> entry) by (inversion nodup; subst; intros ->; contradiction).
      destruct (proj2 (v_up im Vi) b x Ex N) as (_ & X & Y & _). auto.
Qed.
Lemma depths_ok im : im entry = Some entry -> (forall d, anc im entry d -> d = entry) -> (forall b, In b ord -> exists x, im b = Some x /\ listed x /\ (post b < post x)%nat /\ ~ anc im x b) ->
  forall l pre depth, pre ++ l = ord ->
  (forall b, In b (entry :: pre) -> exists L, NoDup L /\ (forall d, In d L <-> anc im b d) /\ length L = depth b) ->
  exists depth', depths im l depth = Ok depth' /\ forall b, listed b -> exists L, NoDup L /\ (forall d, In d L <-> anc im b d) /\ length L = depth' b.
Proof.
  intros Ee Ae H. induction l as [|b l IH]; intros pre depth E K; cbn [depths].
  - exists depth. split; [reflexivity|]. intros b Ob. apply K. rewrite app_nil_r in E. now rewrite E.
  - assert (Ib : In b ord) by (rewrite <- E; apply in_or_app; cbn; auto). destruct (H b Ib) as (x & Ex & Ox & Lx & Nx). rewrite Ex.
    apply (IH (pre ++ [b])); [rewrite <- app_assoc; exact E|].
    assert (Ix : In x (entry :: pre)).
    { destruct Ox as [<-|Ox]; [left; reflexivity|]. right. rewrite <- E in Ox. apply in_app_or in Ox as [Ox|Ox]; [exact Ox|]. exfalso.
      assert (Pb : post b = length l) by (apply (numbered (entry :: pre) b l); cbn; now rewrite <- E).
      destruct Ox as [->|Ox]; [lia|]. apply in_split in Ox as (a & r & El).
      assert (Px : post x = length r) by (apply (numbered (entry :: pre ++ b :: a) x r); cbn; rewrite <- E, El, <- app_assoc; reflexivity).
      rewrite El, app_length in Pb. cbn in Pb. lia. }
    destruct (K x Ix) as (L & NL & AL & Len).
    assert (Nb : ~ In b (entry :: pre)).
    { intros I. assert (X := nodup). rewrite <- E in X. change (NoDup ((entry :: pre) ++ b :: l)) in X. apply NoDup_remove_2 in X. apply X. apply in_or_app. auto. }
    intros q Iq. destruct (Nat.eq_dec q b) as [->|Nq].
    + exists (b :: L). split; [constructor; [rewrite AL; exact Nx|exact NL]|]. split; [|cbn; now rewrite upd_eq, Len].
      intros d. cbn [In]. rewrite AL. split; [intros [<-|A]; [constructor|eapply anc_up; eauto]|]. intros A. apply anc_inv in A as [->|(y & Ey & A)]; [auto|]. right. congruence.
    + rewrite upd_ne by auto. apply K. destruct Iq as [<-|Iq]; [left; reflexivity|]. apply in_app_or in Iq as [|[|[]]]; [right; auto|congruence].
Qed.
End Tree.
