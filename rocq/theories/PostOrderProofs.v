From Verif Require Import Base Fuel IR IRProofs RemoveDead RemoveDeadProofs Dominator DominatorSpec DominatorProofs.

Section Order.
Variable g : graph.
Definition srel (n m : nat) : Prop := exists l, successors g n = Ok l /\ In m l.
Inductive reach (n : nat) : nat -> Prop :=
| reach_self : reach n n
| reach_step m x : reach n m -> srel m x -> reach n x.
Lemma reach_trans a b c : reach a b -> reach b c -> reach a c.
Proof. intros H K. induction K; auto. eapply reach_step; eauto. Qed.

(** What a walk from the blocks [from] adds. *)
Record added (w w' : walk_state) (from new : list nat) : Prop := {
  a_list : list_head w' = new ++ list_head w;
  a_seen : forall n, seen w' n = true <-> seen w n = true \/ In n new;
  a_from : forall n, In n from -> seen w' n = true;
  a_new : forall n, In n new -> seen w n = false;
  a_nodup : NoDup new;
  a_closed : forall n, In n new -> exists l, successors g n = Ok l /\ forall x, In x l -> seen w' x = true;
  a_keep : forall n, ~ In n new -> post_idx w' n = post_idx w n;
  a_post : forall a n c, new = a ++ n :: c -> post_idx w' n = (length c + length (list_head w))%nat;
  a_parent : forall b, In b new -> In b from \/ exists p, In p new /\ srel p b /\ (post_idx w' b < post_idx w' p)%nat;
  a_reach : forall b, In b new -> exists n, In n from /\ reach n b }.
Lemma added_none w from : (forall n, In n from -> seen w n = true) -> added w w from [].
Proof.
  intros F. constructor.
  - reflexivity.
  - intros n. cbn. intuition.
  - exact F.
  - intros n [].
  - constructor.
  - intros n [].
  - reflexivity.
  - intros a n c E. destruct a; discriminate.
  - intros n [].
  - intros n [].
Qed.
Lemma added_list (f : walk_state -> nat -> ex walk_state) : (forall w n w', f w n = Some (Ok w') -> exists new, added w w' [n] new) ->
  forall l w w', each f w l = Some (Ok w') -> exists new, added w w' l new.
Proof.
  intros F. induction l as [|x l IH]; intros w w' H; cbn [each] in H.
  - injection H as <-. exists []. apply added_none. intros n [].
  - apply ex_ok in H as (w1 & H1 & H). destruct (F _ _ _ H1) as (n1 & A1). destruct (IH _ _ H) as (n2 & A2). clear F IH H1 H.
    assert (Dis : forall n, In n n1 -> ~ In n n2). { intros n I1 I2. apply (a_new _ _ _ _ A2) in I2. assert (X := proj2 (a_seen _ _ _ _ A1 n) (or_intror I1)). congruence. }
    assert (Mono : forall n, seen w1 n = true -> seen w' n = true) by (intros n S; apply (a_seen _ _ _ _ A2); auto).
    exists (n2 ++ n1). constructor.
    + rewrite (a_list _ _ _ _ A2), (a_list _ _ _ _ A1). apply app_assoc.
    + intros n. rewrite (a_seen _ _ _ _ A2), (a_seen _ _ _ _ A1), in_app_iff. tauto.
    + intros n [<-|I]; [apply Mono, (a_from _ _ _ _ A1); cbn; auto|now apply (a_from _ _ _ _ A2)].
    + intros n I. apply in_app_or in I as [I|I]; [|now apply (a_new _ _ _ _ A1)]. apply (a_new _ _ _ _ A2) in I.
      destruct (seen w n) eqn:E; [|reflexivity]. assert (X := proj2 (a_seen _ _ _ _ A1 n) (or_introl E)). congruence.
    + clear - Dis A1 A2. assert (N2 := a_nodup _ _ _ _ A2). assert (N1 := a_nodup _ _ _ _ A1). clear A1 A2. induction n2 as [|y n2 IH]; [exact N1|]. inversion N2; subst. cbn. constructor.
      * intros I. apply in_app_or in I as [|I]; [contradiction|]. apply (Dis y I). cbn. auto.
      * apply IH; auto. intros n I1 I2. apply (Dis n I1). cbn. auto.
    + intros n I. apply in_app_or in I as [I|I]; [now apply (a_closed _ _ _ _ A2)|]. destruct (a_closed _ _ _ _ A1 n I) as (s & Es & K). exists s. split; auto.
    + intros n N. rewrite (a_keep _ _ _ _ A2), (a_keep _ _ _ _ A1); auto; intros I; apply N; apply in_or_app; auto.
    + intros a n c E. assert (I : In n (n2 ++ n1)) by (rewrite E; apply in_or_app; cbn; auto).
      assert (D : exists b, n2 = a ++ n :: b /\ c = b ++ n1 \/ exists b, n1 = b ++ n :: c).
      { clear - E. revert a E. induction n2 as [|y n2 IH]; intros a E.
        - exists []. right. exists a. exact E.
        - destruct a as [|z a]; cbn in E.
          + injection E as -> E. exists n2. left. auto.
          + injection E as -> E. destruct (IH a E) as (b & [[X Y]|X]); [exists b; left; split; [cbn; congruence|auto]|exists []; right; exact X]. }
      destruct D as (b & [[X Y]|(d & X)]).
      * rewrite (a_post _ _ _ _ A2 a n b X), (a_list _ _ _ _ A1), Y, !app_length. lia.
      * assert (I1 : In n n1) by (rewrite X; apply in_or_app; cbn; auto). rewrite (a_keep _ _ _ _ A2); [|now apply Dis]. exact (a_post _ _ _ _ A1 d n c X).
    + intros b I. apply in_app_or in I as [I|I].
      * destruct (a_parent _ _ _ _ A2 b I) as [|(p & Ip & Sp & L)]; [left; cbn; auto|]. right. exists p. split; [apply in_or_app; auto|]. auto.
      * destruct (a_parent _ _ _ _ A1 b I) as [[<-|[]]|(p & Ip & Sp & L)]; [left; cbn; auto|]. right. exists p. split; [apply in_or_app; auto|]. split; [auto|].
        rewrite (a_keep _ _ _ _ A2 b), (a_keep _ _ _ _ A2 p); auto.
    + intros b I. apply in_app_or in I as [I|I].
      * destruct (a_reach _ _ _ _ A2 b I) as (n & In' & Rn). exists n. cbn. auto.
      * destruct (a_reach _ _ _ _ A1 b I) as (n & [<-|[]] & Rn). exists x. cbn. auto.
Qed.
Lemma recurse_added fuel : forall w n w', post_order_recurse fuel g w n = Some (Ok w') -> exists new, added w w' [n] new.
Proof.
  induction fuel as [|fuel IH]; intros w n w' H; [discriminate|]. cbn [post_order_recurse] in H. destruct (seen w n) eqn:S.
  - injection H as <-. exists []. apply added_none. intros m [<-|[]]. exact S.
  - apply ex_ok in H as (l & Hl & H). injection Hl as Hl. apply ex_ok in H as (w1 & H1 & H). injection H as <-.
    apply (added_list _ IH) in H1 as (new & A). exists (n :: new).
    assert (Nn : ~ In n new). { intros I. apply (a_new _ _ _ _ A) in I. cbn in I. rewrite upd_eq in I. discriminate. }
    assert (Seen : forall m, seen w1 m = true <-> seen w m = true \/ m = n \/ In m new).
    { intros m. rewrite (a_seen _ _ _ _ A). cbn. unfold upd. destruct (Nat.eqb_spec m n) as [->|]; intuition. }
    constructor; cbn [seen list_head post_idx].
    + rewrite (a_list _ _ _ _ A). reflexivity.
    + intros m. rewrite Seen. cbn. intuition.
    + intros m [<-|[]]. apply Seen. auto.
    + intros m [<-|I]; [exact S|]. apply (a_new _ _ _ _ A) in I. cbn in I. unfold upd in I. destruct (Nat.eqb m n); [discriminate|exact I].
    + constructor; [exact Nn|apply A].
    + intros m [<-|I]; [exists l; split; [exact Hl|apply A]|now apply (a_closed _ _ _ _ A)].
    + intros m N. rewrite upd_ne by (intros ->; apply N; cbn; auto). rewrite (a_keep _ _ _ _ A); [reflexivity|]. intros I. apply N. cbn. auto.
    + intros a m c E. destruct a as [|y a]; cbn in E.
      * injection E as <- <-. rewrite upd_eq, (a_list _ _ _ _ A), app_length. reflexivity.
      * injection E as <- E. rewrite upd_ne; [exact (a_post _ _ _ _ A a m c E)|]. intros ->. apply Nn. rewrite E. apply in_or_app. cbn. auto.
    + intros b [<-|I]; [left; cbn; auto|]. right. assert (Nb : b <> n) by (intros ->; contradiction). rewrite (upd_ne _ _ _ b Nb).
      destruct (a_parent _ _ _ _ A b I) as [Il|(p & Ip & Sp & L)].
      * exists n. split; [cbn; auto|]. split; [exists l; auto|]. rewrite upd_eq, (a_list _ _ _ _ A), app_length.
        apply in_split in I as (a & c & E). rewrite (a_post _ _ _ _ A a b c E), E, app_length. cbn. lia.
      * exists p. split; [cbn; auto|]. split; [auto|]. rewrite upd_ne; [exact L|]. intros ->. contradiction.
    + intros b [<-|I]; exists n; (split; [cbn; auto|]); [constructor|]. destruct (a_reach _ _ _ _ A b I) as (m & Im & Rm). eapply reach_trans; [|exact Rm].
      eapply reach_step; [constructor|]. exists l. auto.
Qed.
(** Enough fuel. *)
Definition unseen (w : walk_state) : nat := length (filter (fun n => negb (seen w n)) (seq 0 (count g))).
Lemma unseen_le w w' : (forall n, seen w n = true -> seen w' n = true) -> (unseen w' <= unseen w)%nat.
Proof. intros H. apply filter_mono. intros n _ E. destruct (seen w n) eqn:S; [|reflexivity]. apply H in S. rewrite S in E. discriminate. Qed.
Hypothesis steps : forall n, (n < count g)%nat -> exists l, successors g n = Ok l /\ forall x, In x l -> (x < count g)%nat.
Lemma recurse_total : forall fuel w n, (n < count g)%nat -> (unseen w < fuel)%nat -> exists w', post_order_recurse fuel g w n = Some (Ok w').
Proof.
  induction fuel as [|fuel IH]; intros w n L U; [lia|]. cbn [post_order_recurse]. destruct (seen w n) eqn:S; [eexists; reflexivity|].
  destruct (steps n L) as (l & Hl & Rl). rewrite Hl. cbn [exbind].
  assert (U1 : (unseen (Walk (upd (seen w) n true) (list_head w) (post_idx w)) < fuel)%nat).
  { assert (X : (unseen (Walk (upd (seen w) n true) (list_head w) (post_idx w)) < unseen w)%nat); [|lia]. unfold unseen. cbn. apply filter_strict with n.
    - intros m _. unfold upd. destruct (Nat.eqb_spec m n) as [->|]; [discriminate|auto].
    - apply in_seq. lia.
    - now rewrite upd_eq.
    - now rewrite S. }
  assert (E : exists w1, each (post_order_recurse fuel g) (Walk (upd (seen w) n true) (list_head w) (post_idx w)) l = Some (Ok w1)).
  { generalize dependent (Walk (upd (seen w) n true) (list_head w) (post_idx w)). clear Hl. induction l as [|x l IHl]; intros w0 U0; cbn [each]; [eexists; reflexivity|].
    destruct (IH w0 x (Rl x (or_introl eq_refl)) U0) as (w2 & H2). rewrite H2. cbn [exbind]. apply IHl; [intros y Iy; apply Rl; cbn; auto|].
    destruct (recurse_added _ _ _ _ H2) as (new & A). assert (X := unseen_le w0 w2 (fun m Hm => proj2 (a_seen _ _ _ _ A m) (or_introl Hm))). lia. }
  destruct E as (w1 & E). rewrite E. cbn [exbind]. eexists. reflexivity.
Qed.
End Order.

(** * Successors and predecessors *)
Section Control.
Variable g : graph.
Variable entry : nat.
Hypothesis I0 : Inv g.
Hypothesis C0 : control_graph g entry.
Lemma use_argument u n : In u (uses g n) <-> exists k, argument g u k = Some n.
Proof.
  rewrite (count_occ_In Nat.eq_dec). fold (occ u (uses g n)). rewrite (i_uses g I0). unfold slots. split.
  - intros H. apply (count_occ_In onat_dec) in H. apply In_nth with (d := None) in H as (k & _ & E). exists k. exact E.
  - intros (k & E). exact (proj2 (proj2 (in_range g I0 u k n E))).
Qed.
Lemma is_control_total u : exists c, node_is_control g u = Ok c.
Proof.
  unfold node_is_control. destruct (_ =? IR_REGION); [eauto|]. destruct (Z.eqb_spec (type (node_at g u)) IR_PROJECT) as [T|]; [|eauto].
  destruct (argument g u 0) eqn:E; [eauto|]. destruct C0 as (_ & P & _). exfalso. now apply (P u T).
Qed.
Lemma successors_total l : exists r, successors_of_uses g l = Ok r.
Proof. induction l as [|u l [r IH]]; [exists []; reflexivity|]. cbn [successors_of_uses]. destruct (is_control_total u) as [c ->]. rewrite IH. cbn [bind]. eauto. Qed.
Lemma successors_spec l r m : successors_of_uses g l = Ok r -> In m r <->
  exists u, In u l /\ (node_is_control g u = Ok true /\ m = u \/ node_is_control g u = Ok false /\ type (node_at g u) = IR_IF /\ (project g u 0 = Some m \/ project g u 1 = Some m)).
Proof.
  revert r. induction l as [|u l IH]; intros r H; cbn [successors_of_uses] in H.
  - injection H as <-. split; [intros []|intros (u & [] & _)].
  - destruct (node_is_control g u) as [c| |] eqn:C; try discriminate. cbn [bind] in H. destruct (successors_of_uses g l) as [rest| |] eqn:R; try discriminate. injection H as <-.
    rewrite in_app_iff, (IH rest eq_refl).
    assert (K : In m (if c then [u] else if type (node_at g u) =? IR_IF then some_node (project g u 0) ++ some_node (project g u 1) else []) <->
      (node_is_control g u = Ok true /\ m = u \/ node_is_control g u = Ok false /\ type (node_at g u) = IR_IF /\ (project g u 0 = Some m \/ project g u 1 = Some m))).
    { rewrite C. destruct c.
      - cbn. split; [intros [<-|[]]; auto|]. intros [[_ ->]|[X _]]; [auto|discriminate].
      - destruct (Z.eqb_spec (type (node_at g u)) IR_IF) as [T|T].
        + rewrite in_app_iff. assert (P : forall o, In m (some_node o) <-> o = Some m). { intros [x|]; cbn; split; [intros [->|[]]; auto|intros E; injection E; auto|intros []|discriminate]. }
          rewrite !P. intuition. discriminate.
        + cbn. split; [intros []|]. intros [[X _]|(_ & X & _)]; [discriminate|contradiction]. }
    rewrite K. split.
    + intros [H|(x & I & H)]; [exists u; cbn; auto|exists x; cbn; auto].
    + intros (x & [->|I] & H); [auto|right; exists x; auto].
Qed.
Definition is_block (n : nat) : Prop := node_is_control g n = Ok true.
Lemma srel_edge n m : is_block n -> srel g n m <-> edge g n m.
Proof.
  intros B. destruct C0 as (_ & Cp & Cl & Ci & Ca & Cb & Cq & _). split.
  - intros (l & E & I). apply (successors_spec _ _ _ E) in I as (u & Iu & K). apply use_argument in Iu as (k & Ek). destruct K as [[Cu ->]|(_ & T & P)].
    + unfold node_is_control in Cu. destruct (Z.eqb_spec (type (node_at g u)) IR_REGION) as [T|T]; [eapply edge_jump; eauto|].
      destruct (Z.eqb_spec (type (node_at g u)) IR_PROJECT) as [T'|T']; [|discriminate]. exfalso. exact (Cq u k n T' Ek B).
    + assert (k = 0%nat) by (eapply Cb; eauto). subst k. assert (Q : type (node_at g m) = IR_PROJECT /\ argument g m 0 = Some u) by (destruct P as [P|P]; [apply (Ci u 0%nat)|apply (Ci u 1%nat)]; auto).
      destruct Q. eapply edge_branch; eauto.
  - intros E. unfold srel, successors. destruct (successors_total (uses g n)) as [l El]. exists l. split; [exact El|]. apply (successors_spec _ _ _ El). destruct E as [i T A Ti Ai|k T A].
    + exists i. split; [apply use_argument; eauto|]. right. assert (N : node_is_control g i = Ok false) by (unfold node_is_control; rewrite Ti; reflexivity).
      split; [exact N|]. split; [exact Ti|]. exact (Cl m i T A Ti).
    + exists m. split; [apply use_argument; eauto|]. left. split; [|reflexivity]. unfold node_is_control. rewrite T. reflexivity.
Qed.
Lemma edge_block n m : edge g n m -> is_block n /\ is_block m /\ (n < count g)%nat /\ (m < count g)%nat.
Proof.
  destruct C0 as (_ & _ & _ & _ & _ & _ & _ & Cr & Ci). intros [i T A Ti Ai|k T A].
  - split; [eapply Ci; eauto|]. split; [unfold is_block, node_is_control; rewrite T, A, Ti; reflexivity|]. split; [exact (proj1 (proj2 (in_range g I0 _ _ _ Ai)))|exact (proj1 (in_range g I0 _ _ _ A))].
  - split; [eapply Cr; eauto|]. split; [unfold is_block, node_is_control; rewrite T; reflexivity|]. destruct (in_range g I0 _ _ _ A) as (X & Y & _). auto.
Qed.
Definition preds (b : nat) : list nat :=
  if type (node_at g b) =? IR_REGION then some_arguments g b
  else if type (node_at g b) =? IR_PROJECT then
    match argument g b 0 with
    | Some i => if type (node_at g i) =? IR_IF then some_node (argument g i 0) else []
    | None => []
    end
  else [].
Lemma preds_spec p b : In p (preds b) <-> edge g p b.
Proof.
  unfold preds. destruct (Z.eqb_spec (type (node_at g b)) IR_REGION) as [T|T].
  - rewrite (some_arguments_spec g b p I0). split; [intros (k & E); eapply edge_jump; eauto|]. intros [i T' _ _ _|k _ E]; [rewrite T in T'; discriminate|eauto].
  - destruct (Z.eqb_spec (type (node_at g b)) IR_PROJECT) as [T'|T']; [|split; [intros []|]; intros [i X _ _ _|k X _]; contradiction].
    destruct (argument g b 0) as [i|] eqn:A; [|split; [intros []|]; intros [i X Y _ _|k X _]; [congruence|contradiction]].
    destruct (Z.eqb_spec (type (node_at g i)) IR_IF) as [Ti|Ti].
    + destruct (argument g i 0) as [q|] eqn:Q; cbn.
      * split; [intros [<-|[]]; eapply edge_branch; eauto|]. intros [i' _ A' _ Q'|k X _]; [|contradiction]. rewrite A in A'. injection A' as <-. left. congruence.
      * split; [intros []|]. intros [i' _ A' _ Q'|k X _]; [congruence|contradiction].
    + split; [intros []|]. intros [i' _ A' Ti' _|k X _]; [congruence|contradiction].
Qed.
End Control.
