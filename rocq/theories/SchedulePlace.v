(** Placement, in the terms of the specification. *)
From Verif Require Import Base Fuel IR IRProofs RemoveDead RemoveDeadProofs Dominator DominatorSpec DominatorProofs PostOrderProofs Mem2reg Schedule ScheduleSpec ScheduleProofs C28Props.

(** * Dominance *)
Lemma path_prefix g entry b l : path g entry b l -> forall d, In d l -> exists l1 l2, path g entry d l1 /\ l = l1 ++ l2.
Proof.
  induction 1 as [|p b l P IH E]; intros d Id.
  - destruct Id as [<-|[]]. exists [entry], []. split; [constructor|reflexivity].
  - apply in_app_or in Id as [Id|[<-|[]]].
    + destruct (IH d Id) as (l1 & l2 & P1 & ->). exists l1, (l2 ++ [b]). split; [exact P1|]. now rewrite app_assoc.
    + exists (l ++ [b]), []. split; [econstructor; eauto|]. now rewrite app_nil_r.
Qed.
Lemma dom_reachable g entry d b : block_reachable g entry b -> dominates g entry d b -> block_reachable g entry d.
Proof. intros (l & P) D. destruct (path_prefix g entry b l P d (D l P)) as (l1 & _ & P1 & _). exists l1. exact P1. Qed.
Lemma dom_trans g entry a b c : dominates g entry a b -> dominates g entry b c -> dominates g entry a c.
Proof. intros A B l P. destruct (path_prefix g entry c l P b (B l P)) as (l1 & l2 & P1 & ->). apply in_or_app. left. exact (A l1 P1). Qed.
Lemma dom_self g entry b : dominates g entry b b.
Proof. intros l P. destruct P; [left; reflexivity|apply in_or_app; right; left; reflexivity]. Qed.
Lemma dom_antisym g entry a b : block_reachable g entry b -> dominates g entry a b -> dominates g entry b a -> a = b.
Proof.
  intros (l & P) A B. destruct (Nat.eq_dec a b) as [|N]; [auto|]. exfalso.
  assert (K : forall n l x, (length l <= n)%nat -> path g entry x l -> x = a \/ x = b -> False).
  { induction n as [|n IH]; intros l' x L P' X.
    - destruct P'; [cbn in L; lia|]. rewrite app_length in L. cbn in L. lia.
    - assert (Y : exists z, z <> x /\ (z = a \/ z = b) /\ dominates g entry z x) by (destruct X as [-> | ->]; [exists b|exists a]; auto).
      destruct Y as (z & Nz & Z & Dz). assert (Iz := Dz l' P'). destruct P' as [|p x l' P' E]; [destruct Iz as [Iz|[]]; congruence|].
      apply in_app_or in Iz as [Iz|[Iz|[]]]; [|congruence]. destruct (path_prefix g entry p l' P' z Iz) as (l1 & l2 & P1 & ->).
      apply (IH l1 z); [|exact P1|exact Z]. rewrite !app_length in L. cbn in L. lia. }
  exact (K _ l b (le_n _) P (or_intror eq_refl)).
Qed.

Lemma order_top (g : graph) (order : nat -> nat) : exists top, forall n, (n < count g)%nat -> (order n <= top)%nat.
Proof.
  induction (count g) as [|k [t H]]; [exists 0%nat; lia|]. exists (Nat.max t (order k)). intros n L.
  destruct (Nat.eq_dec n k) as [->|]; [lia|]. specialize (H n). lia.
Qed.

Theorem place_all (g : graph) (entry : nat) (order home : nat -> nat) : Inv g -> control_graph g entry -> well_formed g entry order home ->
  exists f0, forall fuel, (f0 <= fuel)%nat -> exists w ord p, post_order fuel g entry = Some (Ok w) /\ list_head w = entry :: ord /\
    NoDup (entry :: ord) /\ (forall b, In b (entry :: ord) <-> block_reachable g entry b) /\
    (forall a d c x, entry :: ord = a ++ d :: c -> dominates g entry x d -> x = d \/ In x a) /\
    schedule_to_blocks fuel g entry = Some (Ok p) /\ placed g entry (block p) /\ (forall n, marks p n <> 5).
Proof.
  intros I C wf. destruct (order_top g order) as (top & T). exists (S (3 * (count g + 2) * (count g + 2)) + (top + 3))%nat. intros fuel L.
  destruct (tree_walk g entry fuel I C) as (w & ord & idom & depth & (Ew & El & Nd & Re & Fi & Me) & Et & Ch & Ee & Es & En & _); [lia|].
  assert (Rd : forall b, done idom b <-> block_reachable g entry b).
  { intros b. split.
    - intros D. destruct (in_dec Nat.eq_dec b (entry :: ord)) as [X|X]; [now apply Re|]. exfalso. apply D. apply En. intros R. apply X. now apply Re.
    - intros R. unfold done. destruct (Nat.eq_dec b entry) as [->|N]; [congruence|]. destruct (Es b R N) as (x & Ex & _). congruence. }
  destruct (placed_ok g entry I C order home wf fuel (post_idx w) idom Me Rd top T fuel) as (p & Ep & Pt & Po & Pr & Pn & Pm); [lia|].
  exists w, ord, p. split; [exact Ew|]. split; [exact El|]. split; [exact Nd|]. split; [exact Re|]. split; [exact Fi|]. split.
  { unfold schedule_to_blocks. rewrite Ew. cbn [exbind]. rewrite Et. cbn [exbind]. exact Ep. }
  split; [|exact Pm]. split; [exact Pt|exact Pr| |exact Pn].
  intros n In Tn Nr. assert (M := Po n (conj In (conj Tn Nr))).
  assert (W : forall c, total_want g entry p n c <-> demand g entry (block p) n c).
  { intros c. split.
    - intros (v & y & ([->|Rv] & Ak & Ny) & Wy); exists v, y || exists n, y; (split; [|exact Wy]); auto.
    - intros (v & y & Hv & Wy). exists v, y. split; [|exact Wy]. assert (Ak : exists k, argument g y k = Some v) by (destruct Wy; eauto).
      split; [destruct Hv as [[-> _]|Rv]; auto|]. split; [exact Ak|]. destruct Hv as [[_ Ny]|Rv]; [exact Ny|]. intros P. destruct Ak as (k & Ek).
      assert (k = O) by (eapply (wf_result _ _ _ _ wf); eauto). subst k. apply (wf_results _ _ _ _ wf v y); [split; auto|apply Rv]. }
  assert (Rc : forall c, demand g entry (block p) n c -> block_reachable g entry c).
  { intros c (v & y & _ & [k c' _ _ _ R|r k c' P Ar R Av Ac]); [exact R|]. destruct (wf_phi_operand _ _ _ _ wf y r k v P Ar R Av) as (q & Eq & Rq). congruence. }
  destruct (block p n) as [b|]; cbn [meets] in M.
  - destruct M as (Db & _ & K). assert (Rb := proj1 (Rd b) Db). split; [exact Rb|]. split.
    + intros c Dc. apply Ch; [exact (Rc c Dc)|]. apply chain_anc. apply K; [constructor|]. now apply W.
    + intros d H. apply Ch; [exact Rb|]. apply chain_anc, K. intros c Wc. apply W in Wc. apply chain_anc, Ch; [exact (Rc c Wc)|]. exact (H c Wc).
  - intros c Dc. apply (M c). now apply W.
Qed.

(** * Operands *)
Section Operands.
Variable g : graph.
Variable entry : nat.
Hypothesis I : Inv g.
Hypothesis C : control_graph g entry.
Variables order home : nat -> nat.
Hypothesis wf : well_formed g entry order home.
Variable blk : nat -> option nat.
Hypothesis P : placed g entry blk.

Lemma phi_tied n : phi g n -> tied g n. Proof. left. assumption. Qed.
(** An instruction that is not tied to a block: its own node or the one it is a result of. *)
Lemma main_of n : instruction g n -> ~ tied g n -> exists m, instruction g m /\ ~ tied g m /\ ~ is_result g m /\ blk n = blk m /\ (m = n \/ result_of g m n).
Proof.
  intros In T. destruct (is_result_dec g entry C n) as [(m & R & Im & Tm)|N].
  - exists m. split; [exact Im|]. split; [exact Tm|]. split; [exact (proj2 (proj2 (result_own g entry order home wf m n R Im Tm)))|]. split; [exact (pl_result _ _ _ P m n R Im Tm)|auto].
  - exists n. tauto.
Qed.
Lemma block_of_reachable n b : instruction g n -> ~ tied g n -> blk n = Some b -> block_reachable g entry b.
Proof.
  intros In T E. destruct (main_of n In T) as (m & Im & Tm & Nm & Eq & _). assert (K := pl_other _ _ _ P m Im Tm Nm). rewrite <- Eq, E in K. apply K.
Qed.
(** Instructions are never moved above the block they were made in. *)
Lemma below_home top : (forall x, (x < count g)%nat -> (order x <= top)%nat) -> forall k n b, (top - order n < k)%nat -> instruction g n -> ~ is_result g n -> blk n = Some b -> block_reachable g entry b ->
  dominates g entry (home n) b.
Proof.
  intros Top. induction k as [|k IH]; intros n b L In Nr E Rb; [lia|].
  destruct (tied_dec g n) as [T|T].
  { rewrite (pl_tied _ _ _ P n T) in E. rewrite (wf_home_tied _ _ _ _ wf n b T E). apply dom_self. }
  assert (Use : forall v y c, instruction g v -> (order n <= order v)%nat -> wanted g entry blk v y c -> type (node_at g y) <> IR_PROJECT -> dominates g entry (home v) c).
  { intros v y c Iv Lv W Ny. destruct W as [j c' Np A B R|r j c' Pp A R A' B].
    - assert (Iy : instruction g y). { destruct (instruction_dec g entry C y) as [|X]; [auto|]. rewrite (pl_none _ _ _ P y X) in B. discriminate. }
      assert (Hy : dominates g entry (home y) c').
      { destruct (tied_dec g y) as [Ty|Ty].
        - rewrite (pl_tied _ _ _ P y Ty) in B. rewrite (wf_home_tied _ _ _ _ wf y c' Ty B). apply dom_self.
        - apply (IH y c'); auto; [|intros X; apply is_result_type in X; contradiction].
          assert (X := wf_operands _ _ _ _ wf y j v A Iy Iv Ty). assert (Y := Top y (proj1 Iy)). lia. }
      apply dom_trans with (home y); [|exact Hy]. apply (wf_home _ _ _ _ wf y j v A Iy Iv Np). exact (dom_reachable g entry (home y) c' R Hy).
    - exact (wf_home_phi _ _ _ _ wf y r j v c' Pp A R A' Iv B). }
  assert (K := pl_other _ _ _ P n In T Nr). rewrite E in K. destruct K as (_ & _ & K).
  apply K. intros c (v & y & Hv & W). destruct Hv as [[-> Ny]|R].
  - apply (Use n y c); auto.
  - assert (Iv := result_instruction g I n v In T R).
    assert (Lv := wf_operands _ _ _ _ wf v 0 n (proj2 R) Iv In (fun t => tied_type g v t (proj1 R))).
    assert (Ny : type (node_at g y) <> IR_PROJECT).
    { intros Py. assert (Ak : exists j, argument g y j = Some v) by (destruct W; eauto). destruct Ak as (j & Ej).
      assert (j = O) by (eapply (wf_result _ _ _ _ wf); eauto). subst j. apply (wf_results _ _ _ _ wf v y); [split; auto|apply R]. }
    assert (Dv : dominates g entry (home v) c) by (apply (Use v y c); auto; lia).
    assert (Rc : block_reachable g entry c). { destruct W as [j c' _ _ _ Rr|r j c' Pp Ar Rr Av Ac]; [exact Rr|]. destruct (wf_phi_operand _ _ _ _ wf y r j v Pp Ar Rr Av) as (q & Eq' & Rq). congruence. }
    apply dom_trans with (home v); [|exact Dv]. apply (wf_home _ _ _ _ wf v 0 n (proj2 R) Iv In); [|exact (dom_reachable g entry _ c Rc Dv)].
    intros X. destruct R as [R _]. unfold phi in X. rewrite X in R. discriminate.
Qed.
Lemma below n b : instruction g n -> ~ is_result g n -> blk n = Some b -> block_reachable g entry b -> dominates g entry (home n) b.
Proof.
  intros In Nr E R. destruct (order_top g order) as (top & Top). apply (below_home top Top (S top) n b); auto. lia.
Qed.
(** The operands of an instruction are placed above it. *)
Lemma operand_above y k a c : argument g y k = Some a -> instruction g y -> instruction g a -> ~ phi g y -> blk y = Some c -> block_reachable g entry c ->
  exists b, blk a = Some b /\ dominates g entry b c.
Proof.
  intros A Iy Ia Np E R. destruct (tied_dec g a) as [Ta|Ta].
  - (* only a phi can be an operand *)
    assert (Pa : phi g a) by (destruct (wf_ends _ _ _ _ wf y k a A Iy); destruct Ta as [T|[T|T]]; [exact T|contradiction|contradiction]).
    destruct (wf_phi _ _ _ _ wf a Pa) as (r & Er & _). exists r. split; [now rewrite (pl_tied _ _ _ P a Ta)|]. rewrite <- (wf_home_tied _ _ _ _ wf a r Ta Er).
    assert (Nr : ~ is_result g y).
    { intros (m & (Py & Am) & _ & Tm). assert (k = O) by (eapply (wf_result _ _ _ _ wf); eauto). subst k. rewrite A in Am. injection Am as <-. contradiction. }
    assert (B := below y c Iy Nr E R). apply dom_trans with (home y); [|exact B]. apply (wf_home _ _ _ _ wf y k a A Iy Ia Np). exact (dom_reachable g entry _ c R B).
  - destruct (Z.eq_dec (type (node_at g y)) IR_PROJECT) as [Py|Ny].
    + assert (k = O) by (eapply (wf_result _ _ _ _ wf); eauto). subst k. exists c. split; [|apply dom_self]. rewrite <- E. symmetry. apply (pl_result _ _ _ P a y); [split; auto|exact Ia|exact Ta].
    + destruct (main_of a Ia Ta) as (m & Im & Tm & Nm & Eq & Ma). rewrite Eq. assert (K := pl_other _ _ _ P m Im Tm Nm).
      assert (D : demand g entry blk m c). { exists a, y. split; [destruct Ma as [->|Ma]; auto|]. eapply wanted_here; eauto. }
      destruct (blk m) as [b|]; [|exfalso; exact (K c D)]. exists b. split; [reflexivity|]. apply K. exact D.
Qed.
(** What a phi takes is placed above the predecessor it belongs to. *)
Lemma phi_operand_above y r k a p : phi g y -> argument g y 0 = Some r -> block_reachable g entry r -> argument g y (S k) = Some a -> instruction g a -> argument g r k = Some p ->
  exists b, blk a = Some b /\ dominates g entry b p.
Proof.
  intros Py Er R A Ia Ep. destruct (tied_dec g a) as [Ta|Ta].
  - assert (Iy : instruction g y). { split; [exact (proj1 (in_range g I _ _ _ A))|]. unfold phi in Py. split; [rewrite Py; discriminate|]. intros [B|(B & _)]; rewrite Py in B; discriminate. }
    assert (Pa : phi g a) by (destruct (wf_ends _ _ _ _ wf y (S k) a A Iy); destruct Ta as [T|[T|T]]; [exact T|contradiction|contradiction]).
    destruct (wf_phi _ _ _ _ wf a Pa) as (q & Eq & _). exists q. split; [now rewrite (pl_tied _ _ _ P a Ta)|]. rewrite <- (wf_home_tied _ _ _ _ wf a q Ta Eq).
    exact (wf_home_phi _ _ _ _ wf y r k a p Py Er R A Ia Ep).
  - destruct (main_of a Ia Ta) as (m & Im & Tm & Nm & Eq & Ma). rewrite Eq. assert (K := pl_other _ _ _ P m Im Tm Nm).
    assert (D : demand g entry blk m p).
    { exists a, y. split; [destruct Ma as [->|Ma]; [left; split; [reflexivity|unfold phi in Py; rewrite Py; discriminate]|auto]|]. eapply wanted_there; eauto. }
    destruct (blk m) as [b|]; [|exfalso; exact (K p D)]. exists b. split; [reflexivity|]. apply K. exact D.
Qed.
End Operands.
