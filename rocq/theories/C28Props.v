(** C28: the dominator tree. *)
From Verif Require Import Base Fuel IR IRProofs RemoveDead RemoveDeadProofs Dominator DominatorSpec DominatorProofs PostOrderProofs C27Props.

(** Blocks on the way up from [b] by immediate dominators, [b] included. *)
Inductive on_chain (idom : nat -> option nat) : nat -> nat -> Prop :=
| chain_here b : on_chain idom b b
| chain_up b x d : idom b = Some x -> on_chain idom x d -> on_chain idom b d.
Lemma chain_anc im b d : on_chain im b d <-> anc im b d.
Proof. split; induction 1; try constructor; [eapply anc_up|eapply chain_up]; eauto. Qed.

Lemma tree_walk (g : graph) (entry fuel : nat) : Inv g -> control_graph g entry -> (3 * (count g + 2) * (count g + 2) < fuel)%nat ->
  exists w ord idom depth, (post_order fuel g entry = Some (Ok w) /\ list_head w = entry :: ord /\
      NoDup (entry :: ord) /\ (forall b, In b (entry :: ord) <-> block_reachable g entry b) /\
      (forall a d c x, entry :: ord = a ++ d :: c -> dominates g entry x d -> x = d \/ In x a) /\
      (forall b1 b2, done idom b1 -> done idom b2 ->
         exists m, meet fuel (post_idx w) idom b1 b2 = Some (Ok m) /\ done idom m /\ forall d, anc idom m d <-> anc idom b1 d /\ anc idom b2 d)) /\
    dominator_tree fuel g entry = Some (Ok (idom, depth)) /\
    (forall b d, block_reachable g entry b -> on_chain idom b d <-> dominates g entry d b) /\
    (idom entry = Some entry) /\
    (forall b, block_reachable g entry b -> b <> entry -> exists x, idom b = Some x /\ x <> b) /\
    (forall b, ~ block_reachable g entry b -> idom b = None) /\
    (forall b, block_reachable g entry b -> exists L, NoDup L /\ (forall d, In d L <-> dominates g entry d b) /\ depth b = length L).
Proof.
  intros I C F. set (N := count g) in *.
  assert (F1 : (N + 2 < fuel)%nat) by nia. assert (F2 : (3 * N + 1 < fuel)%nat) by nia. assert (F3 : (N * S N < fuel)%nat) by nia. clear F.
  assert (Eb : is_block g entry /\ (entry < N)%nat /\ forall p, ~ edge g p entry).
  { destruct C as ((f & T & Z & A & Tf) & _). split; [unfold is_block, node_is_control; rewrite T, A, Tf, Z; reflexivity|].
    split; [exact (proj1 (in_range g I _ _ _ A))|]. intros p [i _ A' Ti _|k T' _]; [|rewrite T in T'; discriminate]. rewrite A in A'. injection A' as <-. rewrite Tf in Ti. discriminate. }
  destruct Eb as (Be & Le & Ne).
  assert (Steps : forall n, (n < count g)%nat -> exists l, successors g n = Ok l /\ forall x, In x l -> (x < count g)%nat).
  { intros n _. destruct (successors_total g entry C (uses g n)) as [l El]. exists l. split; [exact El|]. intros x Ix.
    apply (successors_spec g _ _ _ El) in Ix as (u & Iu & K). apply (use_argument g I) in Iu as (k & Ek). destruct (in_range g I _ _ _ Ek) as (Lu & _).
    destruct K as [[_ ->]|(_ & T & P)]; [exact Lu|]. destruct C as (_ & _ & _ & Ci & _).
    assert (Q : type (node_at g x) = IR_PROJECT /\ argument g x 0 = Some u) by (destruct P as [P|P]; [apply (Ci u 0%nat)|apply (Ci u 1%nat)]; auto).
    exact (proj1 (in_range g I _ _ _ (proj2 Q))). }
  destruct (recurse_total g Steps fuel (Walk (fun _ => false) [] (fun _ => 0%nat)) entry Le) as (w & Ew).
  { unfold unseen. eapply Nat.le_lt_trans; [apply filter_len|]. rewrite seq_length. change (count g) with N. lia. }
  destruct (recurse_added g fuel _ _ _ Ew) as (new & A).
  assert (Ln : list_head w = new) by (rewrite (a_list _ _ _ _ _ A); cbn; now rewrite app_nil_r).
  assert (Sn : forall n, seen w n = true <-> In n new). { intros n. rewrite (a_seen _ _ _ _ _ A). cbn. intuition. discriminate. }
  assert (Num : forall a n c, new = a ++ n :: c -> post_idx w n = length c). { intros a n c E. rewrite (a_post _ _ _ _ _ A a n c E). cbn. lia. }
  assert (Bl : forall b, In b new -> is_block g b /\ block_reachable g entry b).
  { intros b Ib. destruct (a_reach _ _ _ _ _ A b Ib) as (n & [<-|[]] & Rn). clear Ib. induction Rn as [|m x Rm IH Sx]; [split; [exact Be|exists [entry]; constructor]|].
    destruct IH as (Bm & l & Pl). apply (srel_edge g entry I C m x Bm) in Sx. split; [apply (edge_block g entry I C m x Sx)|]. exists (l ++ [x]). econstructor; eauto. }
  assert (Cl : forall b l, path g entry b l -> In b new).
  { intros b l P. induction P as [|p b l P IH E]; [apply Sn, (a_from _ _ _ _ _ A); cbn; auto|].
    destruct (a_closed _ _ _ _ _ A p IH) as (s & Es & K). apply Sn, K. destruct (proj2 (srel_edge g entry I C p b (proj1 (Bl p IH))) E) as (s' & Es' & Ib). congruence. }
  assert (Rng : forall b, In b new -> (b < N)%nat).
  { intros b Ib. destruct (Bl b Ib) as (_ & l & P). destruct P as [|p b l P E]; [exact Le|]. apply (edge_block g entry I C p b E). }
  assert (Ien : In entry new) by (apply (Cl entry [entry]); constructor).
  destruct new as [|h ord]; [destruct Ien|].
  assert (Max : forall b, In b (h :: ord) -> (post_idx w b <= length ord)%nat).
  { intros b Ib. apply in_split in Ib as (a & c & E). rewrite (Num a b c E). apply (f_equal (@length nat)) in E. rewrite app_length in E. cbn in E. lia. }
  assert (h = entry).
  { destruct (a_parent _ _ _ _ _ A h (or_introl eq_refl)) as [[X|[]]|(p & Ip & _ & L)]; [auto|]. apply Max in Ip. rewrite (Num [] h ord eq_refl) in L. lia. }
  subst h. assert (Nd := a_nodup _ _ _ _ _ A).
  assert (Par : forall b, In b ord -> exists p, edge g p b /\ listed entry ord p /\ (post_idx w b < post_idx w p)%nat).
  { intros b Ib. destruct (a_parent _ _ _ _ _ A b (or_intror Ib)) as [[X|[]]|(p & Ip & Sp & L)]; [subst; inversion Nd; contradiction|].
    exists p. split; [apply (srel_edge g entry I C p b); [apply Bl; exact Ip|exact Sp]|]. auto. }
  assert (Kind : forall b, In b ord -> type (node_at g b) = IR_REGION \/
    exists i p, type (node_at g b) = IR_PROJECT /\ argument g b 0 = Some i /\ type (node_at g i) = IR_IF /\ argument g i 0 = Some p).
  { intros b Ib. destruct (Par b Ib) as (p & E & _). destruct E as [i T1 T2 T3 T4|k T1 T2]; [right; exists i, p; auto|auto]. }
  assert (Len : (length (entry :: ord) <= N)%nat).
  { rewrite <- (seq_length N 0). apply NoDup_incl_length; [exact Nd|]. intros x Ix. apply in_seq. specialize (Rng x Ix). lia. }
  assert (Pe : post_idx w entry = length ord) by (apply (Num [] entry ord eq_refl)).
  assert (Fu : (3 * post_idx w entry + 1 < fuel)%nat) by (cbn in Len; lia).
  assert (Fn : (length ord * S (post_idx w entry) < fuel)%nat). { rewrite Pe. cbn [length] in Len. clear - Len F3. assert (length ord * S (length ord) <= N * S N)%nat by (apply Nat.mul_le_mono; lia). lia. }
  destruct (tree_ok g entry (post_idx w) ord (preds g) (preds_spec g I) Num Nd Ne Par Cl fuel Fu Kind fuel Fn) as (im & Ei & Eent & Eno & Ean & Eup).
  assert (Dep : exists depth', depths im ord (upd (fun _ => 0%nat) entry 1%nat) = Ok depth' /\
     forall b, listed entry ord b -> exists L, NoDup L /\ (forall d, In d L <-> anc im b d) /\ length L = depth' b).
  { apply (depths_ok g entry (post_idx w) ord (preds g) (preds_spec g I) Num Nd Ne Par Cl fuel Fu Kind im Eent) with (pre := []).
    - intros d Ad. assert (X := proj1 (Ean entry (or_introl eq_refl) d) Ad _ (path_start g entry)). destruct X as [X|[]]. auto.
    - intros b Ib. destruct (Eup b Ib) as (x & Ex & Ox & Lx). exists x. split; [auto|]. split; [auto|]. split; [auto|]. intros Ab.
      clear - Ab Lx Eup Eent Ox Nd Max Pe. assert (K : forall q d, anc im q d -> listed entry ord q -> (post_idx w q <= post_idx w d)%nat).
      { intros q d Aq. induction Aq as [q|q y d Ey Aq IH]; intros Oq; [lia|]. destruct Oq as [<-|Oq].
        - rewrite Eent in Ey. injection Ey as <-. apply IH. left. reflexivity.
        - destruct (Eup q Oq) as (y' & Ey' & Oy & Ly). rewrite Ey in Ey'. injection Ey' as <-. specialize (IH Oy). lia. }
      specialize (K x b Ab Ox). lia.
    - reflexivity.
    - intros b [<-|[]]. exists [entry]. split; [constructor; [intros []|constructor]|]. split; [|now rewrite upd_eq]. intros d. split.
      + intros [<-|[]]. constructor.
      + intros Ad. exact (proj1 (Ean entry (or_introl eq_refl) d) Ad _ (path_start g entry)). }
  destruct Dep as (depth & Ed & Kd). exists w, ord, im, depth. split; [|split; [|split; [|split; [|split; [|split]]]]].
  - assert (Tr : up entry (post_idx w) ord im).
    { split; [exact Eent|]. intros b x Eb Nb. assert (Ob : listed entry ord b).
      { destruct (in_dec Nat.eq_dec b (entry :: ord)) as [X|X]; [exact X|]. rewrite (Eno b X) in Eb. discriminate. }
      split; [exact Ob|]. destruct Ob as [X|X]; [congruence|]. destruct (Eup b X) as (y & Ey & Oy & Ly). rewrite Eb in Ey. injection Ey as <-.
      split; [exact Oy|]. split; [exact Ly|]. unfold done. destruct Oy as [<-|Oy]; [congruence|]. destruct (Eup x Oy) as (z & Ez & _). congruence. }
    split; [exact Ew|]. split; [exact Ln|]. split; [exact Nd|]. split; [|split].
    + intros b. split; [intros Ib; apply (Bl b Ib)|]. intros (l & P). exact (Cl b l P).
    + intros a d c x E Dx. assert (Id : In d (entry :: ord)) by (rewrite E; apply in_or_app; cbn; auto). apply (Ean d Id) in Dx.
      assert (Dd : done im d) by (unfold done; destruct Id as [<-|X]; [congruence|destruct (Eup d X) as (z & Ez & _); congruence]).
      destruct (anc_facts g entry (post_idx w) ord (preds g) (preds_spec g I) Num Ne Par Cl im d x Tr Dd Dx) as (Dn & [->|Lx]); [auto|]. right.
      assert (Ox : In x (entry :: ord)). { destruct (in_dec Nat.eq_dec x (entry :: ord)) as [X|X]; [exact X|]. exfalso. apply Dn. apply Eno. exact X. }
      rewrite E in Ox. apply in_app_or in Ox as [Ox|Ox]; [exact Ox|]. exfalso. destruct Ox as [->|Ox]; [lia|].
      apply in_split in Ox as (c1 & c2 & ->). rewrite (Num a d (c1 ++ x :: c2) E), (Num (a ++ d :: c1) x c2), app_length in Lx; [cbn in Lx; lia|].
      rewrite E, <- app_assoc. reflexivity.
    + intros b1 b2 D1 D2. apply (meet_ok g entry (post_idx w) ord (preds g) (preds_spec g I) Num Ne Par Cl im); [exact Tr|exact D1|exact D2|lia].
  - unfold dominator_tree, post_order. rewrite Ew. cbn [exbind]. rewrite Ln. unfold first in Ei. rewrite Ei. cbn [exbind]. rewrite Ed. reflexivity.
  - intros b d (l & P). rewrite chain_anc. apply Ean. exact (Cl b l P).
  - exact Eent.
  - intros b (l & P) Nb. destruct (Cl b l P) as [X|X]; [congruence|]. destruct (Eup b X) as (x & Ex & _ & L). exists x. split; [exact Ex|]. intros ->. lia.
  - intros b Nb. apply Eno. intros Ob. apply Nb. apply Bl. exact Ob.
  - intros b (l & P). destruct (Kd b (Cl b l P)) as (L & NL & AL & Ll). exists L. split; [exact NL|]. split; [|auto]. intros d. rewrite AL. apply Ean. exact (Cl b l P).
Qed.

Lemma tree_all (g : graph) (entry fuel : nat) : Inv g -> control_graph g entry -> (3 * (count g + 2) * (count g + 2) < fuel)%nat ->
  exists idom depth, dominator_tree fuel g entry = Some (Ok (idom, depth)) /\
    (forall b d, block_reachable g entry b -> on_chain idom b d <-> dominates g entry d b) /\
    (idom entry = Some entry) /\
    (forall b, block_reachable g entry b -> b <> entry -> exists x, idom b = Some x /\ x <> b) /\
    (forall b, ~ block_reachable g entry b -> idom b = None) /\
    (forall b, block_reachable g entry b -> exists L, NoDup L /\ (forall d, In d L <-> dominates g entry d b) /\ depth b = length L).
Proof. intros I C F. destruct (tree_walk g entry fuel I C F) as (w & ord & idom & depth & _ & K). exists idom, depth. exact K. Qed.

(** The computation ends for every control-flow graph. The chain of immediate dominators of
    a reachable block is its set of dominators, the depth is their number, unreachable
    blocks have no dominator. *)
Theorem C28_dominators (fuel fuel' : nat) (h : list op) (g : graph) (entry : nat) :
  run fuel empty h = Some (Ok g) -> control_graph g entry -> (3 * (count g + 2) * (count g + 2) < fuel')%nat ->
  exists idom depth, dominator_tree fuel' g entry = Some (Ok (idom, depth)) /\
    (forall b d, block_reachable g entry b -> on_chain idom b d <-> dominates g entry d b) /\
    (idom entry = Some entry) /\
    (forall b, block_reachable g entry b -> b <> entry -> exists x, idom b = Some x /\ x <> b) /\
    (forall b, ~ block_reachable g entry b -> idom b = None) /\
    (forall b, block_reachable g entry b -> exists L, NoDup L /\ (forall d, In d L <-> dominates g entry d b) /\ depth b = length L).
Proof. intros H. apply run_grows in H as [I _]; [|apply inv_empty]. now apply tree_all. Qed.
Print Assumptions C28_dominators.

(** An irreducible graph: the entry (1) branches (4) to 5 and 6, which jump to the regions 7
    and 8; these jump to each other through branches (9 and 12), and out. *)
Definition irreducible : list op := [
  New IR_FUNCTION 0 0; New IR_PROJECT 0 0; SetArgument 1 0 (Some 0%nat); New IR_PROJECT 0 3; SetArgument 2 0 (Some 0%nat); WriteState 1 2;
  New 0 4 0 (* 3 *); New IR_IF 0 0 (* 4 *); SetArgument 4 0 (Some 1%nat); SetArgument 4 1 (Some 3%nat);
  New IR_PROJECT 0 0 (* 5 *); SetArgument 5 0 (Some 4%nat); New IR_PROJECT 0 1 (* 6 *); SetArgument 6 0 (Some 4%nat);
  New IR_REGION 0 0 (* 7 *); New IR_REGION 0 0 (* 8 *); SetArgument 7 0 (Some 5%nat); SetArgument 8 0 (Some 6%nat);
  New IR_IF 0 0 (* 9 *); SetArgument 9 0 (Some 7%nat); SetArgument 9 1 (Some 3%nat);
  New IR_PROJECT 0 0 (* 10 *); SetArgument 10 0 (Some 9%nat); New IR_PROJECT 0 1 (* 11 *); SetArgument 11 0 (Some 9%nat); SetArgument 8 1 (Some 10%nat);
  New IR_IF 0 0 (* 12 *); SetArgument 12 0 (Some 8%nat); SetArgument 12 1 (Some 3%nat);
  New IR_PROJECT 0 0 (* 13 *); SetArgument 13 0 (Some 12%nat); New IR_PROJECT 0 1 (* 14 *); SetArgument 14 0 (Some 12%nat); SetArgument 7 1 (Some 13%nat);
  New IR_REGION 0 0 (* 15 *); SetArgument 15 0 (Some 11%nat); SetArgument 15 1 (Some 14%nat);
  New IR_REGION 0 0 (* 16: unreachable *); New IR_RETURN 0 0 (* 17 *); SetArgument 17 0 (Some 15%nat)].
Definition irreducible_graph : graph := Eval vm_compute in match run 40 empty irreducible with Some (Ok g) => g | _ => empty end.
Example irreducible_runs : run 40 empty irreducible = Some (Ok irreducible_graph).
Proof. vm_compute. reflexivity. Qed.
Ltac each_of n k := lazymatch k with O => try discriminate | S ?k' => let m := fresh "m" in destruct n as [|m]; [try discriminate|each_of m k'] end.
Ltac each_node n := let k := eval compute in 18%nat in each_of n k.
Lemma no_argument g (n k p : nat) : Inv g -> argument g n k = Some p -> (k < 4)%nat.
Proof. intros I E. destruct (Nat.lt_ge_cases k 4) as [|L]; [auto|]. unfold argument in E. rewrite nth_overflow in E by (rewrite (i_len g I); exact L). discriminate. Qed.
Example irreducible_control : control_graph irreducible_graph 1.
Proof.
  assert (I : Inv irreducible_graph) by (apply (run_grows 40 irreducible empty); [apply inv_empty|exact irreducible_runs]).
  assert (Sl : forall n k p, argument irreducible_graph n k = Some p -> (k < 4)%nat) by (intros n k p; now apply no_argument).
  split; [exists 0%nat; vm_compute; auto|]. split; [|split; [|split; [|split; [|split; [|split; [|split]]]]]].
  - intros n. each_node n.
  - intros n i T E. each_node n; injection E as <-; vm_compute; auto; discriminate.
  - intros n k b T L E. destruct k as [|[|k]]; [| |lia]; each_node n; injection E as <-; vm_compute; auto.
  - intros n T. each_node n.
  - intros n k p T E B. assert (L := Sl _ _ _ E). destruct k as [|k]; [reflexivity|]. exfalso. do 3 (destruct k as [|k]; [each_node n; injection E as <-; discriminate B|]). lia.
  - intros n k p T E B. assert (L := Sl _ _ _ E). do 4 (destruct k as [|k]; [each_node n; injection E as <-; discriminate B|]). lia.
  - intros n k p T E. assert (L := Sl _ _ _ E). do 4 (destruct k as [|k]; [each_node n; injection E as <-; reflexivity|]). lia.
  - intros n p T E. each_node n; injection E as <-; reflexivity.
Qed.
Example irreducible_tree : match dominator_tree 100 irreducible_graph 1 with
  | Some (Ok (idom, depth)) => map idom [1; 5; 6; 7; 8; 10; 11; 13; 14; 15; 16]%nat = map Some [1; 1; 1; 1; 1; 7; 7; 8; 8; 1]%nat ++ [None] /\ depth 13%nat = 3%nat
  | _ => False end.
Proof. vm_compute. auto. Qed.
