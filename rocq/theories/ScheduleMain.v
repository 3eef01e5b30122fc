(** Instructions are computed before they are used. *)
From Verif Require Import Base Fuel IR IRProofs RemoveDead RemoveDeadProofs Dominator DominatorSpec DominatorProofs PostOrderProofs Mem2reg Schedule ScheduleSpec ScheduleProofs C28Props SchedulePlace ScheduleOrder.

(** Of two blocks that are both on every way to a third, one is on every way to the other. *)
Lemma anc_linear im e a : anc im e a -> forall b, anc im e b -> anc im a b \/ anc im b a.
Proof.
  induction 1 as [e|e x a E A IH]; intros b B; [auto|]. destruct (anc_inv _ _ _ B) as [->|(x' & E' & B')].
  - right. eapply anc_up; eauto.
  - rewrite E in E'. injection E' as <-. auto.
Qed.
Lemma dom_linear g entry a b e : Inv g -> control_graph g entry -> block_reachable g entry e -> dominates g entry a e -> dominates g entry b e ->
  dominates g entry b a \/ dominates g entry a b.
Proof.
  intros I C R A B. destruct (tree_walk g entry (S (3 * (count g + 2) * (count g + 2))) I C (Nat.lt_succ_diag_r _)) as (_ & _ & idom & _ & _ & _ & Ch & _).
  destruct (anc_linear idom e a) with (b := b) as [H|H]; [apply chain_anc, Ch; auto|apply chain_anc, Ch; auto|left|right]; apply Ch; try (apply chain_anc; exact H); eapply dom_reachable; eauto.
Qed.

Section Main.
Variable g : graph.
Variable entry : nat.
Hypothesis I : Inv g.
Hypothesis C : control_graph g entry.
Variables order home : nat -> nat.
Hypothesis wf : well_formed g entry order home.
Variable blk : nat -> option nat.
Hypothesis P : placed g entry blk.
Hypothesis Q : calm g entry blk.
Variable top : nat.
Hypothesis top_ok : forall n, (n < count g)%nat -> (order n <= top)%nat.

Notation to_list := (to_list g blk).
Definition hoisted (b x : nat) : Prop := blk x <> Some b /\ exists y q k, replaces_state g y q /\ blk y = Some b /\ blk q = Some b /\ argument g x k = Some q /\ x <> y.
Definition Good (b x : nat) : Prop := to_list x /\ (blk x = Some b \/ hoisted b x).
Definition must (b x d : nat) : Prop := ~ phi g x /\ to_list d /\ d <> x /\
  ((exists k, argument g x k = Some d /\ blk d = Some b) \/
   (exists q k, replaces_state g x q /\ blk x = Some b /\ blk q = Some b /\ argument g d k = Some q)).
Definition rank (x : nat) : nat := if type (node_at g x) =? IR_PHI then 0%nat else if pinned g x then (top + 2)%nat else S (order x).

Lemma some_instruction x b : blk x = Some b -> instruction g x.
Proof. intros E. destruct (instruction_dec g entry C x) as [|X]; [auto|]. rewrite (pl_none _ _ _ P x X) in E. discriminate. Qed.
Lemma replaces_untied x q : replaces_state g x q -> ~ tied g x.
Proof. intros [[H _]|[H _]] [T|[T|T]]; rewrite T in H; cbn in H; repeat (destruct H as [H|H]; [discriminate|]); exact H. Qed.
Lemma replaces_argument x q : replaces_state g x q -> exists k, argument g x k = Some q.
Proof. intros [[_ H]|[_ H]]; eauto. Qed.
Lemma hoisted_free b x : to_list x -> hoisted b x -> ~ tied g x /\ (exists q k, argument g x k = Some q /\ blk q = Some b /\
  forall j a, argument g x j = Some a -> instruction g a -> a = q \/ exists d, blk a = Some d /\ d <> b /\ dominates g entry d b).
Proof.
  intros [Ix Bx] (Nb & y & q & k & R & By & Bq & A & Nx). destruct (calm_users _ _ _ Q y q b x k R By Bq A Ix Nx Bx) as (_ & T & [H|H]); [contradiction|].
  split; [exact T|]. exists q, k. auto.
Qed.
Lemma not_phi x : ~ tied g x -> ~ phi g x. Proof. intros T X. apply T. left. exact X. Qed.
(** A block is above what it takes over from other blocks. *)
Lemma good_above b x c : Good b x -> blk x = Some c -> dominates g entry b c.
Proof.
  intros [Tx [E|H]] Ec; [rewrite Ec in E; injection E as ->; apply dom_self|].
  destruct (hoisted_free b x Tx H) as (T & q & k & A & Bq & _).
  destruct (operand_above g entry I C order home wf blk P x k q c A (proj1 Tx) (some_instruction q b Bq) (not_phi x T) Ec (block_of_reachable g entry C order home wf blk P x c (proj1 Tx) T Ec)) as (b' & Eb & D).
  rewrite Bq in Eb. injection Eb as <-. exact D.
Qed.
Lemma hoist_alone b x c k a : to_list x -> hoisted b x -> blk x = Some c -> argument g x k = Some a -> blk a = Some c -> False.
Proof.
  intros Tx H Ec A Ea. destruct (hoisted_free b x Tx H) as (T & q & j & Aq & Bq & K). assert (D := good_above b x c (conj Tx (or_intror H)) Ec).
  assert (Nb : c <> b) by (destruct H as [N _]; congruence).
  destruct (K k a A (some_instruction a c Ea)) as [->|(d & Ed & Nd & Dd)]; [congruence|]. rewrite Ea in Ed. injection Ed as <-. apply Nb.
  symmetry. apply (dom_antisym g entry b c); [|exact D|exact Dd]. exact (block_of_reachable g entry C order home wf blk P x c (proj1 Tx) T Ec).
Qed.
Lemma must_here b x d : blk x = Some b -> must b x d -> In d (needs g blk x).
Proof.
  intros E (_ & _ & _ & [(k & A & B)|(q & k & R & _ & Bq & A)]); apply in_or_app.
  - left. apply operands_here_spec. exists k. split; [exact A|]. apply same_block_spec. eauto.
  - right. apply (users_here_spec g I). exists q, b, k. auto.
Qed.
Lemma rank_phi x : phi g x -> rank x = 0%nat. Proof. intros E. unfold rank. unfold phi in E. rewrite E. reflexivity. Qed.
Lemma rank_untied x : ~ tied g x -> rank x = S (order x).
Proof.
  intros T. unfold rank. destruct (Z.eqb_spec (type (node_at g x)) IR_PHI) as [E|_]; [exfalso; apply T; left; exact E|].
  destruct (pinned g x) eqn:E; [|reflexivity]. apply pinned_spec in E. contradiction.
Qed.
Lemma rank_low x : instruction g x -> type (node_at g x) <> IR_IF -> type (node_at g x) <> IR_RETURN -> (rank x <= S top)%nat.
Proof.
  intros Ix N1 N2. destruct (tied_dec g x) as [[T|[T|T]]|T]; [rewrite (rank_phi x T); lia|contradiction|contradiction|]. rewrite (rank_untied x T). assert (Y := top_ok x (proj1 Ix)). lia.
Qed.
Lemma operand_rank b z u : blk z = Some b -> In u (operands_here g blk z) -> to_list u -> blk u = Some b /\ (rank u < rank z)%nat.
Proof.
  intros Bz H [Iu _]. assert (Iz := some_instruction z b Bz). apply operands_here_spec in H as (k & A & Sb). apply same_block_spec in Sb as (c & E1 & E2). rewrite Bz in E2. injection E2 as <-. split; [exact E1|].
  destruct (wf_ends _ _ _ _ wf z k u A Iz) as [N1 N2]. assert (Lu := rank_low u Iu N1 N2).
  destruct (tied_dec g z) as [Tz|Tz].
  - destruct (Z.eq_dec (type (node_at g z)) IR_PHI) as [Pz|Nz].
    + exfalso. assert (Ar : argument g z 0 = Some b) by (rewrite <- (pl_tied _ _ _ P z Tz); exact Bz). destruct k as [|k].
      * rewrite Ar in A. injection A as ->. destruct (wf_phi _ _ _ _ wf z Pz) as (r & Er & Tr). rewrite Ar in Er. injection Er as <-. destruct Iu as (_ & _ & Nb). apply Nb. left. exact Tr.
      * exact (calm_phi _ _ _ Q z b k u Pz Ar A E1).
    + assert (rank z = top + 2)%nat; [|lia]. unfold rank. destruct (Z.eqb_spec (type (node_at g z)) IR_PHI); [contradiction|]. rewrite (proj2 (pinned_spec g z) Tz). reflexivity.
  - rewrite (rank_untied z Tz). destruct (tied_dec g u) as [[T|[T|T]]|T]; [rewrite (rank_phi u T); lia|contradiction|contradiction|].
    rewrite (rank_untied u T). assert (X := wf_operands _ _ _ _ wf z k u A Iz Iu Tz). lia.
Qed.
Lemma app_cases {A} (a b l1 l2 : list A) u : a ++ b = l1 ++ u :: l2 -> In u a \/ exists m, l1 = a ++ m /\ In u b.
Proof.
  revert l1. induction a as [|x a IH]; intros l1 E; cbn in E.
  - right. exists l1. split; [reflexivity|]. rewrite E. apply in_or_app. cbn. auto.
  - destruct l1 as [|y l1]; cbn in E; [injection E as -> _; cbn; auto|]. injection E as -> E. destruct (IH l1 E) as [H|(m & -> & H)]; [cbn; auto|]. right. exists m. auto.
Qed.
Lemma visits_ok b z l1 u l2 : Good b z -> to_list z -> needs g blk z = l1 ++ u :: l2 -> to_list u -> u <> z ->
  Good b u /\ (rank u < rank z)%nat /\ forall d, must b u d -> In d (needs g blk u) \/ In d l1 /\ d <> z.
Proof.
  intros [Tz Hz] _ En Tu Nu. destruct (app_cases _ _ _ _ _ En) as [H|(m & El & H)].
  - destruct Hz as [Bz|Hz].
    + destruct (operand_rank b z u Bz H Tu) as [Bu R]. split; [split; auto|]. split; [exact R|]. intros d Md. left. exact (must_here b u d Bu Md).
    + exfalso. apply operands_here_spec in H as (k & A & Sb). apply same_block_spec in Sb as (c & E1 & E2). exact (hoist_alone b z c k u Tz Hz E2 A E1).
  - apply (users_here_spec g I) in H as (q & c & k & R & Bq & Bz & A). destruct Hz as [Bz'|Hz].
    + rewrite Bz in Bz'. injection Bz' as ->. destruct (calm_users _ _ _ Q z q b u k R Bz Bq A (proj1 Tu) Nu (proj2 Tu)) as (Nr & Nt & K).
      assert (X := wf_states _ _ _ _ wf z q u k R A Nr Nt). assert (Tz' := replaces_untied z q R).
      split; [|split].
      * split; [exact Tu|]. assert (D : blk u = Some b \/ blk u <> Some b) by (destruct (blk u) as [e|]; [destruct (Nat.eq_dec e b); [subst; auto|right; congruence]|right; discriminate]).
        destruct D as [D|D]; [auto|]. right. split; [exact D|]. exists z, q, k. auto.
      * rewrite (rank_untied u Nt), (rank_untied z Tz'). lia.
      * intros d Md. destruct K as [K|K]; [left; exact (must_here b u d K Md)|]. assert (Md' := Md).
        destruct Md as (Np & Td & Nd & [(j & Aj & Bd)|(q' & j & R' & Bu & _)]); [|left; exact (must_here b u d Bu Md')].
        destruct (K j d Aj (proj1 Td)) as [->|(e & Ee & Ne & _)]; [|congruence]. right. split.
        -- rewrite El. apply in_or_app. left. destruct (replaces_argument z q R) as (i & Ai). apply operands_here_spec. exists i. split; [exact Ai|]. apply same_block_spec. eauto.
        -- intros ->. destruct (replaces_argument z z R) as (i & Ai). assert (Y := wf_operands _ _ _ _ wf z i z Ai (proj1 Tz) (proj1 Tz) Tz'). lia.
    + exfalso. destruct (replaces_argument z q R) as (i & Ai). exact (hoist_alone b z c i q Tz Hz Bz Ai Bq).
Qed.
Lemma must_lists b x d : Good b x -> must b x d -> to_list d /\ d <> x.
Proof. intros _ (_ & T & N & _). auto. Qed.
End Main.

(** The whole of ir_local_schedule. *)
Section Lists.
Variable g : graph.
Variable entry : nat.
Hypothesis I : Inv g.
Hypothesis C : control_graph g entry.
Variables order home : nat -> nat.
Hypothesis wf : well_formed g entry order home.
Variable blk : nat -> option nat.
Hypothesis P : placed g entry blk.
Hypothesis Q : calm g entry blk.
Variable l : list nat.
Hypothesis l_nodup : NoDup l.
Hypothesis l_all : forall b, In b l <-> block_reachable g entry b.
Hypothesis l_order : forall a d c x, l = a ++ d :: c -> dominates g entry x d -> x = d \/ In x a.
Variable fuel : nat.
Variable stamps : nat -> Z.
Hypothesis clear_stamps : forall n, stamps n <> 5.
Variable r : list (nat * list nat).
Hypothesis made : local_blocks fuel g blk stamps l = Some (Ok r).
Hypothesis names : map fst r = l.

Lemma lists r1 b ls r2 : r = r1 ++ (b, ls) :: r2 ->
  NoDup ls /\
  (forall x, In x ls -> to_list g blk x /\ Good g blk b x /\ ~ listed_in r1 x) /\
  (forall l1 x l2, ls = l1 ++ x :: l2 -> forall d, must g blk b x d -> In d l1 \/ listed_in r1 d) /\
  (forall x, instruction g x -> blk x = Some b -> In x ls \/ listed_in r1 x).
Proof.
  intros E. destruct (order_top g order) as (top & Ht).
  destruct (blocks_ok g entry I C blk (Good g blk) (must g blk) (rank g order top) fuel l r stamps (fun _ => False) made) with (r1 := r1) (b := b) (ls := ls) (r2 := r2) as (N & A & B & D).
  - intros x. split; [intros X; exact (clear_stamps x X)|contradiction].
  - intros c Hc. split; [|split].
    + intros z l1 u l2. apply (visits_ok g entry I C order home wf blk P Q top Ht).
    + apply must_lists.
    + intros x Ix Bx. split; [split; [split; [exact Ix|congruence]|auto]|]. intros d. apply (must_here g I); exact Bx.
  - exact E.
  - split; [exact N|]. split; [|split].
    + intros x Hx. destruct (A x Hx) as (A1 & A2 & _ & A3). auto.
    + intros l1 x l2 El d Hd. destruct (B l1 x l2 El d Hd) as [H|[H|H]]; [auto|contradiction|auto].
    + intros x Ix Bx. destruct (D x Ix Bx) as [H|[H|H]]; [auto|contradiction|auto].
Qed.
Lemma block_in_r b : block_reachable g entry b -> exists r1 ls r2, r = r1 ++ (b, ls) :: r2.
Proof.
  intros R. apply l_all in R. rewrite <- names in R. apply in_map_iff in R as ((b' & ls) & E & H). cbn in E. subst b'.
  apply in_split in H as (r1 & r2 & E). eauto.
Qed.
Lemma listed_here x b : instruction g x -> blk x = Some b -> block_reachable g entry b -> listed_in r x.
Proof.
  intros Ix Bx R. destruct (block_in_r b R) as (r1 & ls & r2 & E). destruct (lists r1 b ls r2 E) as (_ & _ & _ & D).
  destruct (D x Ix Bx) as [H|(c & m & H1 & H2)].
  - exists b, ls. rewrite E. split; [apply in_or_app; cbn; auto|exact H].
  - exists c, m. rewrite E. split; [apply in_or_app; auto|exact H2].
Qed.
Lemma in_r_above b m x c : In (b, m) r -> In x m -> blk x = Some c -> dominates g entry b c.
Proof.
  intros H Hx Bx. apply in_split in H as (r1 & r2 & E). destruct (lists r1 b m r2 E) as (_ & A & _). destruct (A x Hx) as (_ & G & _).
  exact (good_above g entry I C order home wf blk P Q b x c G Bx).
Qed.
Lemma in_r_reachable b m : In (b, m) r -> block_reachable g entry b.
Proof. intros H. apply l_all. rewrite <- names. exact (in_map fst r (b, m) H). Qed.
Lemma fst_unique r1 b m r2 m' : r = r1 ++ (b, m) :: r2 -> In (b, m') r -> m' = m.
Proof.
  intros E H. assert (N := l_nodup). rewrite <- names, E, map_app in N. cbn in N. apply NoDup_remove_2 in N. rewrite E in H.
  apply in_app_or in H as [H|[H|H]]; [|congruence|]; exfalso; apply N; apply in_or_app; [left|right]; exact (in_map fst _ _ H).
Qed.
Lemma in_early r1 b m r2 d ls : r = r1 ++ (b, m) :: r2 -> In (d, ls) r1 -> d <> b.
Proof.
  intros E H ->. assert (N := l_nodup). rewrite <- names, E, map_app in N. cbn in N. apply NoDup_remove_2 in N. apply N. apply in_or_app. left. exact (in_map fst _ _ H).
Qed.
Lemma before_split (ls l1 : list nat) x l2 d : ls = l1 ++ x :: l2 -> In d l1 -> before ls d x.
Proof. intros E H. apply in_split in H as (u & v & ->). exists u, v, l2. rewrite E, <- app_assoc. reflexivity. Qed.

(** Dominators of listed blocks are listed before them. *)
Lemma above_before r1 b m r2 d ls : r = r1 ++ (b, m) :: r2 -> In (d, ls) r -> dominates g entry d b -> d = b /\ ls = m \/ In (d, ls) r1.
Proof.
  intros E H D. destruct (Nat.eq_dec d b) as [->|N]; [left; split; [reflexivity|exact (fst_unique r1 b m r2 ls E H)]|]. right.
  assert (El : l = map fst r1 ++ b :: map fst r2) by (rewrite <- names, E, map_app; reflexivity).
  destruct (l_order _ _ _ _ El D) as [->|Hd]; [contradiction|]. apply in_map_iff in Hd as ((d' & ls') & Ed & H'). cbn in Ed. subst d'.
  apply in_split in H as (s1 & s2 & E'). assert (ls' = ls) as ->; [|exact H']. apply (fst_unique s1 d ls s2 ls' E'). rewrite E. apply in_or_app. auto.
Qed.

Theorem listed_once c m c' m' x : In (c, m) r -> In (c', m') r -> In x m -> In x m' -> c = c'.
Proof.
  intros H H' Hx Hx'. apply in_split in H as (r1 & r2 & E). assert (H := H'). rewrite E in H. apply in_app_or in H as [H|[H|H]].
  - destruct (lists r1 c m r2 E) as (_ & A & _). destruct (A x Hx) as (_ & _ & N). exfalso. apply N. exists c', m'. auto.
  - congruence.
  - apply in_split in H as (s1 & s2 & ->). assert (E2 : r = (r1 ++ (c, m) :: s1) ++ (c', m') :: s2) by (rewrite E, <- app_assoc; reflexivity).
    destruct (lists _ c' m' s2 E2) as (_ & A & _). destruct (A x Hx') as (_ & _ & N). exfalso. apply N. exists c, m. split; [apply in_or_app; cbn; auto|exact Hx].
Qed.
Theorem listed_nodup c m : In (c, m) r -> NoDup m.
Proof. intros H. apply in_split in H as (r1 & r2 & E). exact (proj1 (lists r1 c m r2 E)). Qed.
Theorem listed_where c m x : In (c, m) r -> In x m -> instruction g x /\ exists b, blk x = Some b /\ block_reachable g entry b.
Proof.
  intros H Hx. assert (Rc := in_r_reachable c m H). apply in_split in H as (r1 & r2 & E). destruct (lists r1 c m r2 E) as (_ & A & _). destruct (A x Hx) as (T & [_ G] & _).
  split; [exact (proj1 T)|]. destruct (blk x) as [b|] eqn:Eb; [|destruct (proj2 T Eb)]. exists b. split; [reflexivity|].
  destruct G as [G|G]; [congruence|]. destruct (hoisted_free g entry blk Q c x T G) as (Tx & _). exact (block_of_reachable g entry C order home wf blk P x b (proj1 T) Tx Eb).
Qed.
(** Something placed above [c] is computed before what is listed there. *)
Lemma computed c m y a b : In (c, m) r -> In y m -> instruction g a -> blk a = Some b -> dominates g entry b c -> (b = c -> must g blk c y a) ->
  before m a y \/ exists d ls, In (d, ls) r /\ In a ls /\ d <> c /\ dominates g entry d c.
Proof.
  intros H Hy Ia Ba D M. assert (Rc := in_r_reachable c m H). assert (Rb := dom_reachable g entry b c Rc D). destruct (Nat.eq_dec b c) as [->|N].
  - specialize (M eq_refl). apply in_split in H as (r1 & r2 & E). destruct (lists r1 c m r2 E) as (_ & A & B & _). apply in_split in Hy as (l1 & l2 & Em). destruct (B l1 y l2 Em a M) as [X|(d & ls & H1 & H2)].
    + left. exact (before_split m l1 y l2 a Em X).
    + right. exists d, ls. assert (Hd : In (d, ls) r) by (rewrite E; apply in_or_app; auto). split; [exact Hd|]. split; [exact H2|]. split; [exact (in_early r1 c m r2 d ls E H1)|].
      exact (in_r_above d ls a c Hd H2 Ba).
  - right. destruct (listed_here a b Ia Ba Rb) as (d & ls & Hd & Ha). exists d, ls. split; [exact Hd|]. split; [exact Ha|].
    assert (Da := in_r_above d ls a b Hd Ha Ba). split; [|exact (dom_trans g entry d b c Da D)]. intros ->. apply N. exact (dom_antisym g entry b c Rc D Da).
Qed.
Theorem operand_before y k a : ~ phi g y -> argument g y k = Some a -> instruction g a -> computed_before g entry r a y.
Proof.
  intros Np A Ia c m H Hy. assert (Rc := in_r_reachable c m H). assert (H0 := H). apply in_split in H as (r1 & r2 & E). destruct (lists r1 c m r2 E) as (_ & K & _). destruct (K y Hy) as (Ty & [_ G] & _).
  assert (Na : a <> y).
  { intros ->. destruct (tied_dec g y) as [[T|[T|T]]|T]; [contradiction|apply (proj1 (wf_ends _ _ _ _ wf y k y A (proj1 Ty)) T)|apply (proj2 (wf_ends _ _ _ _ wf y k y A (proj1 Ty)) T)|].
    exact (Nat.lt_irrefl _ (wf_operands _ _ _ _ wf y k y A (proj1 Ty) Ia T)). }
  assert (M : forall b, blk a = Some b -> b = c -> must g blk c y a).
  { intros b Ba ->. split; [exact Np|]. split; [split; [exact Ia|congruence]|]. split; [exact Na|]. left. eauto. }
  destruct G as [G|G].
  - destruct (operand_above g entry I C order home wf blk P y k a c A (proj1 Ty) Ia Np G Rc) as (b & Ba & D). exact (computed c m y a b H0 Hy Ia Ba D (M b Ba)).
  - destruct (hoisted_free g entry blk Q c y Ty G) as (_ & q & j & Aq & Bq & J). destruct (J k a A Ia) as [->|(d & Ba & Nd & D)].
    + exact (computed c m y q c H0 Hy Ia Bq (dom_self g entry c) (M c Bq)).
    + exact (computed c m y a d H0 Hy Ia Ba D (M d Ba)).
Qed.
Theorem phi_operand_in y b k a p : phi g y -> argument g y 0 = Some b -> block_reachable g entry b -> argument g y (S k) = Some a -> instruction g a -> argument g b k = Some p ->
  computed_in g entry r a p.
Proof.
  intros Py Ab Rb Aa Ia Ap. destruct (phi_operand_above g entry I C order home wf blk P y b k a p Py Ab Rb Aa Ia Ap) as (e & Be & D).
  destruct (wf_phi_operand _ _ _ _ wf y b k a Py Ab Rb Aa) as (p' & Ep & Rp). rewrite Ap in Ep. injection Ep as <-.
  destruct (listed_here a e Ia Be (dom_reachable g entry e p Rp D)) as (d & m & Hd & Ha). exists d, m. split; [exact Hd|]. split; [exact Ha|].
  exact (dom_trans g entry d e p (in_r_above d m a e Hd Ha Be) D).
Qed.
Theorem user_before y q b u k : replaces_state g y q -> blk y = Some b -> blk q = Some b -> argument g u k = Some q -> instruction g u -> u <> y -> blk u <> None -> computed_before g entry r u y.
Proof.
  intros R By Bq A Iu Nu Bu c m H Hy. assert (H0 := H). assert (Rc := in_r_reachable c m H). apply in_split in H as (r1 & r2 & E). destruct (lists r1 c m r2 E) as (_ & K & B & _). destruct (K y Hy) as (Ty & [_ G] & _).
  assert (c = b).
  { destruct G as [G|G]; [congruence|]. exfalso. destruct (replaces_argument g y q R) as (i & Ai). exact (hoist_alone g entry I C order home wf blk P Q c y b i q Ty G By Ai Bq). }
  subst c. assert (M : must g blk b y u).
  { split; [apply not_phi, (replaces_untied g y q R)|]. split; [split; auto|]. split; [exact Nu|]. right. exists q, k. auto. }
  apply in_split in Hy as (l1 & l2 & Em). destruct (B l1 y l2 Em u M) as [X|(d & ls & H1 & H2)]; [left; exact (before_split m l1 y l2 u Em X)|]. right.
  assert (Hd : In (d, ls) r) by (rewrite E; apply in_or_app; auto). assert (Nd := in_early r1 b m r2 d ls E H1). exists d, ls. split; [exact Hd|]. split; [exact H2|]. split; [exact Nd|].
  destruct (calm_users _ _ _ Q y q b u k R By Bq A Iu Nu Bu) as (_ & Tu & _). destruct (blk u) as [e|] eqn:Eu; [|congruence].
  assert (Re := block_of_reachable g entry C order home wf blk P u e Iu Tu Eu).
  assert (De := in_r_above d ls u e Hd H2 Eu).
  destruct (operand_above g entry I C order home wf blk P u k q e A Iu (some_instruction g entry C blk P q b Bq) (not_phi g u Tu) Eu Re) as (b' & Bb & Db). rewrite Bq in Bb. injection Bb as <-.
  destruct (dom_linear g entry d b e I C Re De Db) as [X|X]; [|exact X]. exfalso.
  apply in_split in H1 as (s1 & s2 & E1). assert (E' : r = s1 ++ (d, ls) :: (s2 ++ (b, m) :: r2)) by (rewrite E, E1, <- app_assoc; reflexivity).
  destruct (above_before s1 d ls _ b m E' H0 X) as [[Y _]|Y]; [congruence|]. apply (in_early r1 b m r2 b m E); [|reflexivity]. rewrite E1. apply in_or_app. auto.
Qed.
End Lists.

(** Everything about ir_local_schedule. *)
Theorem schedule_all (g : graph) (entry : nat) (order home : nat -> nat) : Inv g -> control_graph g entry -> well_formed g entry order home ->
  exists f0, forall fuel, (f0 <= fuel)%nat -> exists blk r, ir_local_schedule fuel g entry = Some (Ok (blk, r)) /\ placed g entry blk /\
    NoDup (map fst r) /\ (forall b, In b (map fst r) <-> block_reachable g entry b) /\
    (calm g entry blk ->
      (forall c m, In (c, m) r -> NoDup m) /\
      (forall c m c' m' x, In (c, m) r -> In (c', m') r -> In x m -> In x m' -> c = c') /\
      (forall x, listed_in r x <-> instruction g x /\ exists b, blk x = Some b /\ block_reachable g entry b) /\
      (forall y k a, ~ phi g y -> argument g y k = Some a -> instruction g a -> computed_before g entry r a y) /\
      (forall y b k a p, phi g y -> argument g y 0 = Some b -> block_reachable g entry b -> argument g y (S k) = Some a -> instruction g a -> argument g b k = Some p -> computed_in g entry r a p) /\
      (forall y q b u k, replaces_state g y q -> blk y = Some b -> blk q = Some b -> argument g u k = Some q -> instruction g u -> u <> y -> blk u <> None -> computed_before g entry r u y)).
Proof.
  intros I C wf. destruct (place_all g entry order home I C wf) as (f0 & F). exists (f0 + S (count g))%nat. intros fuel L.
  destruct (F fuel ltac:(lia)) as (w & ord & p & Ew & El & Nd & Re & Fi & Es & Pl & Pm).
  destruct (blocks_total g entry I C (block p) fuel ltac:(lia) (list_head w) (marks p)) as (r & Er & Nr). rewrite El in Er, Nr.
  exists (block p), r. split; [|split; [exact Pl|]].
  { unfold ir_local_schedule. rewrite Ew. cbn [exbind]. rewrite Es. cbn [exbind]. rewrite El, Er. reflexivity. }
  rewrite Nr. split; [exact Nd|]. split; [exact Re|]. intros Q. split; [|split; [|split; [|split; [|split]]]].
  - exact (listed_nodup g entry I C order home wf (block p) Pl Q _ fuel (marks p) Pm r Er).
  - exact (listed_once g entry I C order home wf (block p) Pl Q _ fuel (marks p) Pm r Er).
  - intros x. split; [intros (c & m & H & Hx); exact (listed_where g entry I C order home wf (block p) Pl Q _ Re fuel (marks p) Pm r Er Nr c m x H Hx)|].
    intros (Ix & b & Bx & Rb). exact (listed_here g entry I C order home wf (block p) Pl Q _ Re fuel (marks p) Pm r Er Nr x b Ix Bx Rb).
  - exact (operand_before g entry I C order home wf (block p) Pl Q _ Nd Re fuel (marks p) Pm r Er Nr).
  - exact (phi_operand_in g entry I C order home wf (block p) Pl Q _ Re fuel (marks p) Pm r Er Nr).
  - exact (user_before g entry I C order home wf (block p) Pl Q _ Nd Re Fi fuel (marks p) Pm r Er Nr).
Qed.
