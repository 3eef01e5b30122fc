(** The order of the instructions in the blocks. *)
From Verif Require Import Base Fuel IR IRProofs RemoveDead RemoveDeadProofs Dominator DominatorSpec DominatorProofs PostOrderProofs Mem2reg Schedule ScheduleSpec ScheduleProofs SchedulePlace.

Lemma each_app {G A} (f : G -> A -> ex G) l1 : forall l2 g, each f g (l1 ++ l2) = exbind (each f g l1) (fun g1 => each f g1 l2).
Proof.
  induction l1 as [|x l1 IH]; intros l2 g; cbn [each app exbind ok]; [reflexivity|]. destruct (f g x) as [[g1| |]|]; cbn [exbind]; auto.
Qed.
Lemma each_some {G A} (f : G -> A -> ex G) (t : A -> bool) : forall l g,
  each (fun g a => match a with Some x => if t x then f g x else ok g | None => ok g end) g l =
  each f g (flat_map (fun a => match a with Some x => if t x then [x] else [] | None => [] end) l).
Proof.
  induction l as [|a l IH]; intros g; cbn [each flat_map]; [reflexivity|]. destruct a as [x|]; [destruct (t x)|]; cbn [app each exbind ok]; [|apply IH|apply IH].
  destruct (f g x) as [[g1| |]|]; cbn [exbind]; auto.
Qed.

Section Order.
Variable g : graph.
Variable entry : nat.
Hypothesis I : Inv g.
Hypothesis C : control_graph g entry.
Variable blk : nat -> option nat.

(** What is visited on behalf of [x], in order. *)
Definition operands_here (x : nat) : list nat :=
  flat_map (fun a => match a with Some d => if same_block blk d x then [d] else [] | None => [] end) (arguments (node_at g x)).
Definition users_here (x : nat) : list nat :=
  match prev_state g x with Some q => if same_block blk q x then uses g q else [] | None => [] end.
Definition needs (x : nat) : list nat := operands_here x ++ users_here x.
Definition to_list (x : nat) : Prop := instruction g x /\ blk x <> None.
Lemma to_list_dec x : to_list x \/ ~ to_list x.
Proof. unfold to_list. destruct (instruction_dec g entry C x), (blk x); first [left; split; [assumption|discriminate]|right; tauto]. Qed.

Lemma local_step n s x : (x < count g)%nat -> local_recursive (S n) g blk s x =
  if stamp s x =? 5 then ok s else
  exbind (Some (node_is_instruction g x)) (fun i => if negb i || (match blk x with Some _ => false | None => true end) then ok s else
    exbind (each (local_recursive n g blk) (Line (upd (stamp s) x 5) (listing s)) (needs x)) (fun s2 => ok (Line (stamp s2) (listing s2 ++ [x])))).
Proof.
  intros L. cbn [local_recursive]. destruct (stamp s x =? 5); [reflexivity|]. destruct (instruction_spec g entry C x L) as (i & -> & _). cbn [exbind].
  destruct (negb i || _); [reflexivity|]. rewrite (each_some (local_recursive n g blk) (fun d => same_block blk d x)). unfold needs. rewrite each_app.
  fold (operands_here x). destruct (each _ _ (operands_here x)) as [[s1| |]|]; cbn [exbind]; [|reflexivity|reflexivity|reflexivity].
  unfold users_here. destruct (prev_state g x) as [q|]; [destruct (same_block blk q x)|]; reflexivity.
Qed.
Lemma operands_here_spec x d : In d (operands_here x) <-> exists k, argument g x k = Some d /\ same_block blk d x = true.
Proof.
  unfold operands_here, argument. rewrite in_flat_map. split.
  - intros (a & Ia & K). destruct a as [e|]; [|destruct K]. destruct (same_block blk e x) eqn:E; [|destruct K]. destruct K as [<-|[]].
    apply In_nth with (d := None) in Ia as (k & _ & Ek). exists k. auto.
  - intros (k & Ek & E). exists (Some d). split; [|rewrite E; left; reflexivity]. rewrite <- Ek. apply nth_In.
    destruct (Nat.lt_ge_cases k (length (arguments (node_at g x)))) as [|L]; [auto|]. rewrite nth_overflow in Ek by exact L. discriminate.
Qed.
Lemma prev_state_spec x q : prev_state g x = Some q <-> replaces_state g x q.
Proof.
  unfold prev_state, replaces_state.
  set (l1 := [IR_CALL; IR_VA_START; IR_LOAD_VOLATILE; IR_LOAD_BASE_RELATIVE_ADDRESS; IR_SET_ZERO_PTR; IR_LOAD_PART_ADDRESS]).
  set (l2 := [IR_STORE; IR_VA_ARG; IR_STORE_PART_ADDRESS; IR_COPY_MEMORY; IR_DIV; IR_IDIV; IR_MOD; IR_IMOD]).
  assert (In1 : forall l t, existsb (Z.eqb t) l = true <-> In t l).
  { intros l t. rewrite existsb_exists. split; [intros (y & Iy & E); apply Z.eqb_eq in E; now subst|]. intros It. exists t. split; [exact It|apply Z.eqb_refl]. }
  assert (Dis : forall t, In t l1 -> In t l2 -> False).
  { intros t H1 H2. unfold l1, l2 in *. cbn in H1, H2. repeat (destruct H1 as [<-|H1]; [repeat (destruct H2 as [H2|H2]; [discriminate|]); exact H2|]). exact H1. }
  destruct (existsb (Z.eqb (type (node_at g x))) l1) eqn:E1; [|destruct (existsb (Z.eqb (type (node_at g x))) l2) eqn:E2].
  - apply In1 in E1. split; [auto|]. intros [[_ H]|[H _]]; [exact H|]. exfalso. exact (Dis _ E1 H).
  - apply In1 in E2. split; [auto|]. intros [[H _]|[_ H]]; [|exact H]. exfalso. exact (Dis _ H E2).
  - split; [discriminate|]. intros [[H _]|[H _]]; apply In1 in H; congruence.
Qed.
Lemma same_block_spec a b : same_block blk a b = true <-> exists c, blk a = Some c /\ blk b = Some c.
Proof.
  unfold same_block. destruct (blk a) as [x|], (blk b) as [y|]; try (split; [discriminate|intros (c & E1 & E2); discriminate]). rewrite Nat.eqb_eq. split.
  - intros ->. eauto.
  - intros (c & E1 & E2). congruence.
Qed.
Lemma users_here_spec x u : In u (users_here x) <-> exists q c k, replaces_state g x q /\ blk q = Some c /\ blk x = Some c /\ argument g u k = Some q.
Proof.
  unfold users_here. split.
  - destruct (prev_state g x) as [q|] eqn:E; [|intros []]. destruct (same_block blk q x) eqn:Es; [|intros []]. apply prev_state_spec in E. apply same_block_spec in Es as (c & E1 & E2).
    intros Iu. apply (use_argument g I) in Iu as (k & Ek). exists q, c, k. auto.
  - intros (q & c & k & R & E1 & E2 & Ek). apply prev_state_spec in R. rewrite R. rewrite (proj2 (same_block_spec q x)) by eauto. apply (use_argument g I). eauto.
Qed.
Lemma needs_range x d : In d (needs x) -> (d < count g)%nat.
Proof.
  intros H. apply in_app_or in H as [H|H].
  - apply operands_here_spec in H as (k & Ek & _). exact (proj1 (proj2 (in_range g I _ _ _ Ek))).
  - apply users_here_spec in H as (q & c & k & _ & _ & _ & Ek). exact (proj1 (in_range g I _ _ _ Ek)).
Qed.

(** * The walk ends *)
Definition fresh_left (s : line) : nat := length (filter (fun n => negb (stamp s n =? 5)) (seq 0 (count g))).
Lemma filter_less {A} (f f' : A -> bool) l : (forall x, f' x = true -> f x = true) -> (length (filter f' l) <= length (filter f l))%nat.
Proof. intros H. induction l as [|x l IH]; cbn; [lia|]. destruct (f' x) eqn:E'; [rewrite (H x E'); cbn; lia|]. destruct (f x); cbn; lia. Qed.
Lemma filter_strict {A} (f f' : A -> bool) l y : (forall x, f' x = true -> f x = true) -> In y l -> f y = true -> f' y = false -> (length (filter f' l) < length (filter f l))%nat.
Proof.
  intros H Iy Fy Fy'. induction l as [|x l IH]; [destruct Iy|]. cbn. assert (X := filter_less f f' l H). destruct Iy as [->|Iy].
  - rewrite Fy, Fy'. cbn. lia.
  - specialize (IH Iy). destruct (f' x) eqn:E'; [rewrite (H x E'); cbn; lia|]. destruct (f x); cbn; lia.
Qed.
Definition kept (s s' : line) : Prop := forall n, stamp s n = 5 -> stamp s' n = 5.
Lemma kept_less s s' : kept s s' -> (fresh_left s' <= fresh_left s)%nat.
Proof. intros K. apply filter_less. intros x. rewrite !Bool.negb_true_iff, !Z.eqb_neq. intros N E. apply N, K, E. Qed.
Lemma local_total : forall n s x, (x < count g)%nat -> (fresh_left s < n)%nat -> exists s', local_recursive n g blk s x = Some (Ok s') /\ kept s s'.
Proof.
  induction n as [|n IH]; intros s x Lx Lf; [lia|]. rewrite local_step by exact Lx. destruct (Z.eqb_spec (stamp s x) 5) as [E|N]; [exists s; split; [reflexivity|intros m; auto]|].
  destruct (instruction_spec g entry C x Lx) as (i & -> & _). cbn [exbind]. destruct (negb i || _); [exists s; split; [reflexivity|intros m; auto]|].
  set (s0 := Line (upd (stamp s) x 5) (listing s)).
  assert (K0 : kept s s0) by (intros m Em; cbn; unfold upd; destruct (Nat.eqb m x); auto).
  assert (L0 : (fresh_left s0 < n)%nat).
  { assert (X : (fresh_left s0 < fresh_left s)%nat); [|lia]. apply filter_strict with (y := x).
    - intros m. rewrite !Bool.negb_true_iff, !Z.eqb_neq. intros Nm Em. apply Nm, K0, Em.
    - apply in_seq. lia.
    - rewrite Bool.negb_true_iff, Z.eqb_neq. exact N.
    - cbn. rewrite upd_eq. reflexivity. }
  assert (All : forall l t, (forall d, In d l -> (d < count g)%nat) -> (fresh_left t < n)%nat -> exists t', each (local_recursive n g blk) t l = Some (Ok t') /\ kept t t').
  { induction l as [|d l IHl]; intros t Hl Lt; cbn [each]; [exists t; split; [reflexivity|intros m; auto]|].
    destruct (IH t d (Hl d (or_introl eq_refl)) Lt) as (t1 & E1 & K1). rewrite E1. cbn [exbind]. assert (X := kept_less t t1 K1).
    destruct (IHl t1 (fun e Ie => Hl e (or_intror Ie))) as (t2 & E2 & K2); [lia|]. exists t2. split; [exact E2|]. intros m Em. auto. }
  destruct (All (needs x) s0 (needs_range x) L0) as (s2 & E2 & K2). rewrite E2. cbn [exbind]. eexists. split; [reflexivity|]. intros m Em. cbn. auto.
Qed.
Lemma locals_total n l : forall s, (forall d, In d l -> (d < count g)%nat) -> (count g < n)%nat -> exists s', each (local_recursive n g blk) s l = Some (Ok s').
Proof.
  induction l as [|d l IH]; intros s Hl Ln; cbn [each]; [eexists; reflexivity|].
  destruct (local_total n s d (Hl d (or_introl eq_refl))) as (s1 & E1 & _).
  { assert (X : (fresh_left s <= count g)%nat); [|lia]. unfold fresh_left. eapply Nat.le_trans; [apply filter_len|]. rewrite seq_length. lia. }
  rewrite E1. cbn [exbind]. apply IH; [intros e Ie; apply Hl; right; exact Ie|exact Ln].
Qed.
Lemma children_spec b l : (forall d, In d l -> (d < count g)%nat) -> exists r, children g blk b l = Ok r /\ forall x, In x r <-> In x l /\ instruction g x /\ blk x = Some b.
Proof.
  induction l as [|x l IH]; intros Hl; cbn [children].
  - exists []. split; [reflexivity|]. cbn. tauto.
  - destruct (instruction_spec g entry C x (Hl x (or_introl eq_refl))) as (i & -> & Ki). cbn [bind]. destruct IH as (r & Er & Kr); [intros d Id; apply Hl; right; exact Id|].
    rewrite Er. cbn [bind]. eexists. split; [reflexivity|]. intros y. destruct (i && is (blk x) b) eqn:E.
    + apply Bool.andb_true_iff in E as [E1 E2]. apply is_spec in E2. apply Ki in E1. cbn [In]. rewrite Kr. split; [intros [<-|H]; tauto|]. intros [[<-|H] K]; tauto.
    + cbn [In]. rewrite Kr. split; [tauto|]. intros [[<-|H] [K1 K2]]; [|tauto]. exfalso. apply Ki in K1. rewrite K1 in E. cbn [andb] in E. apply is_spec in K2. congruence.
Qed.
Lemma blocks_total n : (count g < n)%nat -> forall l stamps, exists r, local_blocks n g blk stamps l = Some (Ok r) /\ map fst r = l.
Proof.
  intros Ln. induction l as [|b l IH]; intros stamps; cbn [local_blocks]; [exists []; split; reflexivity|].
  destruct (children_spec b (seq 0 (count g))) as (c & Ec & Kc); [intros d Id; apply in_seq in Id; lia|]. rewrite Ec. cbn [exbind].
  destruct (locals_total n c (Line stamps [])) as (s & Es); [intros d Id; apply Kc in Id as [Id _]; apply in_seq in Id; lia|exact Ln|]. rewrite Es. cbn [exbind].
  destruct (IH (stamp s)) as (r & Er & Em). rewrite Er. cbn [exbind]. eexists. split; [reflexivity|]. cbn. now rewrite Em.
Qed.

(** * What the walk lists, for one block *)
Section Walk.
Variable Good : nat -> Prop.          (* instructions that may be listed in this block *)
Variable must : nat -> nat -> Prop.   (* must x d: d has to come before x *)
Variable rank : nat -> nat.
Variable Early : nat -> Prop.         (* listed in blocks before *)
Hypothesis visits : forall z l1 u l2, Good z -> to_list z -> needs z = l1 ++ u :: l2 -> to_list u -> u <> z ->
  Good u /\ (rank u < rank z)%nat /\ forall d, must u d -> In d (needs u) \/ In d l1 /\ d <> z.
Hypothesis must_lists : forall x d, Good x -> must x d -> to_list d /\ d <> x.

Record walks (P : list nat) (s : line) : Prop := {
  w_stamp : forall x, stamp s x = 5 <-> Early x \/ In x P \/ In x (listing s);
  w_nodup : NoDup (listing s);
  w_apart : forall x, In x (listing s) -> ~ Early x /\ ~ In x P;
  w_good : forall x, In x (listing s) -> to_list x /\ Good x;
  w_before : forall l1 x l2, listing s = l1 ++ x :: l2 -> forall d, must x d -> In d l1 \/ Early d }.
Definition pre (P : list nat) (s : line) (x : nat) : Prop :=
  In x P \/ ~ to_list x \/ Good x /\ (forall z, In z P -> (rank x < rank z)%nat) /\ forall d, must x d -> In d (needs x) \/ Early d \/ In d (listing s).
Definition longer (s s' : line) : Prop := exists new, listing s' = listing s ++ new.
Lemma longer_in s s' x : longer s s' -> In x (listing s) -> In x (listing s').
Proof. intros [n ->] H. apply in_or_app. auto. Qed.
Lemma longer_trans s1 s2 s3 : longer s1 s2 -> longer s2 s3 -> longer s1 s3.
Proof. intros [a A] [b B]. exists (a ++ b). rewrite B, A. now rewrite app_assoc. Qed.
Lemma longer_refl s : longer s s. Proof. exists []. now rewrite app_nil_r. Qed.

Lemma walk_ok : forall n P s x s', (x < count g)%nat -> local_recursive n g blk s x = Some (Ok s') -> walks P s -> pre P s x ->
  walks P s' /\ longer s s' /\ (to_list x -> In x P \/ Early x \/ In x (listing s')).
Proof.
  induction n as [|n IH]; intros P s x s' Lx E W Pr; [discriminate|]. rewrite local_step in E by exact Lx.
  destruct (Z.eqb_spec (stamp s x) 5) as [Es|Ns].
  { injection E as <-. split; [exact W|]. split; [apply longer_refl|]. intros _. apply (w_stamp _ _ W) in Es. tauto. }
  destruct (instruction_spec g entry C x Lx) as (i & Ei & Ki). rewrite Ei in E. cbn [exbind] in E.
  destruct (negb i || _) eqn:Et.
  { injection E as <-. split; [exact W|]. split; [apply longer_refl|]. intros [Ix Bx]. exfalso. apply Ki in Ix. subst i. cbn [negb orb] in Et. destruct (blk x); [discriminate|congruence]. }
  apply Bool.orb_false_iff in Et as [Et1 Et2]. apply Bool.negb_false_iff in Et1. assert (Ix : instruction g x) by (apply Ki; exact Et1).
  assert (Tx : to_list x) by (split; [exact Ix|]; destruct (blk x); [discriminate|discriminate]). clear Ei Ki Et1 Et2.
  assert (Nw : ~ Early x /\ ~ In x P /\ ~ In x (listing s)). { assert (X := w_stamp _ _ W x). tauto. } destruct Nw as (Ne & Np & Nl).
  destruct Pr as [X|[X|(Gx & Rx & Mx)]]; [contradiction|contradiction|].
  set (s0 := Line (upd (stamp s) x 5) (listing s)) in *.
  assert (W0 : walks (x :: P) s0).
  { split; cbn [stamp listing s0].
    - intros y. unfold upd. destruct (Nat.eqb_spec y x) as [->|Ny]; [cbn; tauto|]. rewrite (w_stamp _ _ W). cbn [In]. intuition congruence.
    - apply (w_nodup _ _ W).
    - intros y Iy. destruct (w_apart _ _ W y Iy) as [A B]. split; [exact A|]. intros [->|Z]; contradiction.
    - apply (w_good _ _ W).
    - apply (w_before _ _ W). }
  destruct (each (local_recursive n g blk) s0 (needs x)) as [[s2| |]|] eqn:E2; try discriminate. cbn [exbind] in E. injection E as <-.
  assert (All : forall l L t t', needs x = L ++ l -> each (local_recursive n g blk) t l = Some (Ok t') -> walks (x :: P) t -> longer s0 t ->
    (forall d, In d L -> to_list d -> d <> x -> Early d \/ In d (listing t)) ->
    walks (x :: P) t' /\ longer s0 t' /\ (forall d, In d (L ++ l) -> to_list d -> d <> x -> Early d \/ In d (listing t'))).
  { induction l as [|u l IHl]; intros L t t' En Et Wt Lt Dt; cbn [each] in Et.
    - injection Et as <-. rewrite app_nil_r. auto.
    - destruct (local_recursive n g blk t u) as [[t1| |]|] eqn:Eu; try discriminate. cbn [exbind] in Et.
      assert (Iu : In u (needs x)) by (rewrite En; apply in_or_app; cbn; auto).
      assert (Pu : pre (x :: P) t u).
      { destruct (Nat.eq_dec u x) as [->|Nu]; [left; left; reflexivity|]. destruct (to_list_dec u) as [Tu|Tu]; [|right; left; exact Tu].
        destruct (visits x L u l Gx Tx En Tu Nu) as (Gu & Ru & Mu). right. right. split; [exact Gu|]. split.
        - intros z [<-|Iz]; [exact Ru|]. specialize (Rx z Iz). lia.
        - intros d Md. destruct (Mu d Md) as [H|[H Nd]]; [auto|]. destruct (must_lists u d Gu Md) as [Td _]. right. exact (Dt d H Td Nd). }
      destruct (IH (x :: P) t u t1 (needs_range x u Iu) Eu Wt Pu) as (W1 & L1 & D1).
      replace (L ++ u :: l) with ((L ++ [u]) ++ l) by (rewrite <- app_assoc; reflexivity). apply (IHl (L ++ [u]) t1 t'); [rewrite <- app_assoc; exact En|exact Et|exact W1|eapply longer_trans; eauto|].
      intros d Id Td Nd. apply in_app_or in Id as [Id|[<-|[]]].
        + destruct (Dt d Id Td Nd) as [H|H]; [auto|]. right. exact (longer_in t t1 d L1 H).
        + destruct (D1 Td) as [[H|H]|H]; [congruence| |exact H]. exfalso.
          destruct (visits x L u l Gx Tx En Td Nd) as (_ & Ru & _). specialize (Rx u H). lia. }
  destruct (All (needs x) [] s0 s2 eq_refl E2 W0 (longer_refl s0)) as (W2 & L2 & D2); [intros d []|]. clear All. cbn [app] in D2.
  assert (Nx2 : ~ In x (listing s2)). { intros X. apply (proj2 (w_apart _ _ W2 x X)). left. reflexivity. }
  split; [|split].
  - split; cbn [stamp listing].
    + intros y. rewrite (w_stamp _ _ W2). cbn [In]. rewrite in_app_iff. cbn [In]. intuition congruence.
    + assert (Nd := w_nodup _ _ W2). clear - Nd Nx2. induction (listing s2) as [|y l IHl]; [constructor; [intros []|constructor]|].
      inversion Nd as [|? ? Ny Nd']; subst. cbn [app]. constructor; [|apply IHl; [|exact Nd']; intros X; apply Nx2; right; exact X].
      intros X. apply in_app_or in X as [X|[X|[]]]; [contradiction|]. subst. apply Nx2. left. reflexivity.
    + intros y Iy. apply in_app_or in Iy as [Iy|[<-|[]]]; [|auto]. destruct (w_apart _ _ W2 y Iy) as [A B]. split; [exact A|]. intros Z. apply B. right. exact Z.
    + intros y Iy. apply in_app_or in Iy as [Iy|[<-|[]]]; [apply (w_good _ _ W2 y Iy)|auto].
    + intros l1 y l2 El d Md. destruct l2 as [|z l2 _] using rev_ind.
      * apply app_inj_tail in El as [<- <-]. destruct (must_lists x d Gx Md) as [Td Nd]. destruct (Mx d Md) as [H|[H|H]]; [destruct (D2 d H Td Nd); auto|auto|].
        left. destruct L2 as [new L2]. rewrite L2. apply in_or_app. left. exact H.
      * change (y :: l2 ++ [z]) with ((y :: l2) ++ [z]) in El. rewrite app_assoc in El. apply app_inj_tail in El as [El _]. exact (w_before _ _ W2 l1 y l2 El d Md).
  - destruct L2 as [new L2]. exists (new ++ [x]). cbn [listing]. rewrite L2. now rewrite app_assoc.
  - intros _. right. right. cbn [listing]. apply in_or_app. right. left. reflexivity.
Qed.

Lemma walks_ok n l : forall s s', (forall x, In x l -> (x < count g)%nat /\ Good x /\ forall d, must x d -> In d (needs x)) ->
  each (local_recursive n g blk) s l = Some (Ok s') -> walks [] s -> walks [] s' /\ longer s s' /\ forall x, In x l -> to_list x -> Early x \/ In x (listing s').
Proof.
  induction l as [|x l IH]; intros s s' Hl E W; cbn [each] in E.
  - injection E as <-. split; [exact W|]. split; [apply longer_refl|]. intros x [].
  - destruct (local_recursive n g blk s x) as [[s1| |]|] eqn:Ex; try discriminate. cbn [exbind] in E. destruct (Hl x (or_introl eq_refl)) as (Lx & Gx & Mx).
    destruct (walk_ok n [] s x s1 Lx Ex W) as (W1 & L1 & D1).
    { right. right. split; [exact Gx|]. split; [intros z []|]. intros d Md. left. exact (Mx d Md). }
    destruct (IH s1 s' (fun y Iy => Hl y (or_intror Iy)) E W1) as (W2 & L2 & D2). split; [exact W2|]. split; [eapply longer_trans; eauto|].
    intros y [<-|Iy] Ty; [|auto]. destruct (D1 Ty) as [[]|[H|H]]; [auto|]. right. exact (longer_in s1 s' _ L2 H).
Qed.
End Walk.

(** * All blocks *)
Variable Good : nat -> nat -> Prop.
Variable must : nat -> nat -> nat -> Prop.
Variable rank : nat -> nat.
Definition listed_in (r : list (nat * list nat)) (x : nat) : Prop := exists b l, In (b, l) r /\ In x l.
Lemma blocks_ok n : forall l r stamps Early, local_blocks n g blk stamps l = Some (Ok r) -> (forall x, stamps x = 5 <-> Early x) ->
  (forall b, In b l ->
     (forall z l1 u l2, Good b z -> to_list z -> needs z = l1 ++ u :: l2 -> to_list u -> u <> z ->
        Good b u /\ (rank u < rank z)%nat /\ forall d, must b u d -> In d (needs u) \/ In d l1 /\ d <> z) /\
     (forall x d, Good b x -> must b x d -> to_list d /\ d <> x) /\
     (forall x, instruction g x -> blk x = Some b -> Good b x /\ forall d, must b x d -> In d (needs x))) ->
  forall r1 b ls r2, r = r1 ++ (b, ls) :: r2 ->
    NoDup ls /\ (forall x, In x ls -> to_list x /\ Good b x /\ ~ Early x /\ ~ listed_in r1 x) /\
    (forall l1 x l2, ls = l1 ++ x :: l2 -> forall d, must b x d -> In d l1 \/ Early d \/ listed_in r1 d) /\
    (forall x, instruction g x -> blk x = Some b -> In x ls \/ Early x \/ listed_in r1 x).
Proof.
  induction l as [|b0 l IH]; intros r stamps Early E St H r1 b ls r2 Er; cbn [local_blocks] in E.
  - injection E as <-. destruct r1; discriminate.
  - destruct (children_spec b0 (seq 0 (count g))) as (c & Ec & Kc); [intros d Id; apply in_seq in Id; lia|]. rewrite Ec in E. cbn [exbind] in E.
    destruct (each (local_recursive n g blk) (Line stamps []) c) as [[s| |]|] eqn:Es; try discriminate. cbn [exbind] in E.
    destruct (local_blocks n g blk (stamp s) l) as [[r'| |]|] eqn:El; try discriminate. cbn [exbind] in E. injection E as <-.
    destruct (H b0 (or_introl eq_refl)) as (Hv & Hm & Hc).
    assert (W0 : walks (Good b0) (must b0) Early [] (Line stamps [])).
    { split; cbn [stamp listing]; [intros x; rewrite St; cbn; tauto|constructor|intros x []|intros x []|intros [|? ?] x l2 X; discriminate]. }
    destruct (walks_ok (Good b0) (must b0) rank Early Hv Hm n c (Line stamps []) s) as (W & _ & D); [|exact Es|exact W0|].
    { intros x Ix. apply Kc in Ix as (Ix & Nx & Bx). apply in_seq in Ix. split; [lia|]. exact (Hc x Nx Bx). }
    destruct r1 as [|[b1 ls1] r1].
    + cbn [app] in Er. injection Er as <- <- <-. split; [apply (w_nodup _ _ _ _ _ W)|]. split; [|split].
      * intros x Ix. destruct (w_good _ _ _ _ _ W x Ix) as [A B]. split; [exact A|]. split; [exact B|]. split; [apply (w_apart _ _ _ _ _ W x Ix)|]. intros (? & ? & [] & _).
      * intros l1 x l2 X d Md. destruct (w_before _ _ _ _ _ W l1 x l2 X d Md); auto.
      * intros x Ix Bx. assert (Ic : In x c). { apply Kc. split; [|auto]. apply in_seq. destruct Ix as [Ix _]. lia. }
        destruct (D x Ic) as [Z|Z]; auto. split; [exact Ix|congruence].
    + cbn [app] in Er. injection Er as <- <- Er.
      assert (Li : forall x, listed_in ((b0, listing s) :: r1) x <-> In x (listing s) \/ listed_in r1 x).
      { intros x. split.
        - intros (b' & l' & [X|X] & Y); [injection X as <- <-; auto|]. right. exists b', l'. auto.
        - intros [X|(b' & l' & X & Y)]; [exists b0, (listing s); cbn; auto|exists b', l'; cbn; auto]. }
      destruct (IH r' (stamp s) (fun x => Early x \/ In x (listing s)) El) with (r1 := r1) (b := b) (ls := ls) (r2 := r2) as (A & B & K & F); [| |exact Er|].
      * intros x. rewrite (w_stamp _ _ _ _ _ W). cbn. tauto.
      * intros b' Ib'. apply H. right. exact Ib'.
      * split; [exact A|]. split; [|split].
        -- intros x Ix. destruct (B x Ix) as (B1 & B2 & B3 & B4). split; [exact B1|]. split; [exact B2|]. split; [tauto|]. rewrite Li. tauto.
        -- intros l1 x l2 X d Md. rewrite Li. destruct (K l1 x l2 X d Md) as [Z|[[Z|Z]|Z]]; auto.
        -- intros x Ix Bx. rewrite Li. destruct (F x Ix Bx) as [Z|[[Z|Z]|Z]]; auto.
Qed.
End Order.
