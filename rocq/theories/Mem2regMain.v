(** The promotion of one local variable, as a whole (Mem2reg.v): the graph that results
    and what its new nodes are worth. *)
From Verif Require Import Base Fuel IR IRProofs Mem2reg Mem2regSpec Mem2regProofs.

Section Main.
Variables (g : graph) (alloc : nat) (idx : Z) (St : nat -> Prop) (rank : nat -> nat).
Hypothesis I0 : Inv g.
Hypothesis F0 : finished g.
Hypothesis SG : state_graph g alloc St rank.
Hypothesis AC : (alloc < count g)%nat.
Hypothesis IDX : idx <> 0.
Hypothesis FRESH : forall n, visited (node_at g n) <> idx.
Hypothesis OWN : forall s v, type (node_at g s) = IR_STORE -> argument g s 0 = Some alloc -> argument g s 1 = Some v -> ~ loads g alloc v /\ ~ writes g alloc v.
Let vsize := number (node_at g alloc).
Notation memo := (memo idx).
Notation plain := (plain g alloc).
Notation K := (K g alloc idx St).
Notation consistent := (consistent g alloc idx).
Notation P := (P g alloc idx St).
Notation J := (J g alloc).

Lemma all_ok l : uses_ok g alloc vsize l = Ok true -> forall u, In u l -> use_ok g alloc vsize u = Ok true.
Proof.
  induction l as [|x l IH]; cbn [uses_ok]; [intros _ u []|]. intros H u I. destruct (use_ok g alloc vsize x) as [[|]| |] eqn:E; cbn [bind] in H; try discriminate.
  destruct I as [<-|I]; auto.
Qed.
Lemma fine_store s : uses_ok g alloc vsize (uses g alloc) = Ok true -> type (node_at g s) = IR_STORE -> argument g s 0 = Some alloc ->
  exists v, argument g s 1 = Some v /\ ~ loads g alloc v /\ ~ writes g alloc v /\ v <> alloc.
Proof.
  intros H T A. pose proof (all_ok _ H s (slot_use g alloc I0 s 0 A)) as U. unfold use_ok in U. rewrite T in U. cbn -[argument size vsize] in U.
  destruct (argument g s 1) as [v|] eqn:V; [|discriminate]. exists v. split; [reflexivity|]. destruct (OWN s v T A V) as (O1 & O2). split; [exact O1|]. split; [exact O2|].
  intros X. subst v. rewrite Nat.eqb_refl in U. injection U as U. rewrite andb_false_r in U. discriminate.
Qed.
Lemma fine_use n i : uses_ok g alloc vsize (uses g alloc) = Ok true -> argument g n i = Some alloc -> loads g alloc n \/ writes g alloc n.
Proof.
  intros H A. pose proof (all_ok _ H n (slot_use g alloc I0 n i A)) as U. unfold use_ok in U. cbv zeta in U.
  destruct (Z.eqb_spec (type (node_at g n)) IR_SET_ZERO_PTR) as [T|_].
  { right. split; [auto|]. rewrite (st_slot _ _ _ _ SG n i A) in A by auto. exact A. }
  destruct (Z.eqb_spec (type (node_at g n)) IR_STORE) as [T|_].
  { destruct (argument g n 1) as [v|]; [|discriminate]. injection U as U. apply andb_prop in U as (_ & U). right. split; [auto|]. apply (is_true alloc), U. }
  destruct (Z.eqb_spec (type (node_at g n)) IR_LOAD) as [T|_]; [|discriminate].
  left. split; [exact T|]. rewrite (st_slot _ _ _ _ SG n i A) in A by auto. exact A.
Qed.

(** The value of an entry. *)
Lemma entry_value k g' m h : consistent [] k ->
  (forall n, type (node_at g' n) = type (node_at k n)) ->
  (forall n i, (count g <= n)%nat -> argument g' n i = argument k n i) ->
  history g g' (fun q i => if (q <? count g)%nat then argument g q i else argument g' q i) (m :: h) ->
  forall r x, memo k (at_ m) = Some r -> content g alloc (m :: h) = Some x -> value m r = Some x.
Proof.
  intros CO TT AA H. remember (m :: h) as l eqn:L. revert m h L. induction H as [m T Z|m m' h H IH NX Z]; intros m0 h0 L r x M C; injection L as <- <-.
  - cbn [content] in C. rewrite T in C. destruct (is _ _); discriminate.
  - specialize (IH m h eq_refl). specialize (CO (at_ m') r M (fun X => X)).
    assert (NW : (is (argument g (at_ m') 0) alloc && (type (node_at g (at_ m')) =? IR_STORE)) = false ->
                 (is (argument g (at_ m') 0) alloc && (type (node_at g (at_ m')) =? IR_SET_ZERO_PTR)) = false -> content g alloc (m' :: m :: h) = content g alloc (m :: h)).
    { intros A B. change (content g alloc (m' :: m :: h)) with
        (if is (argument g (at_ m') 0) alloc then
           if type (node_at g (at_ m')) =? IR_STORE then match argument g (at_ m') 1 with Some v => value m' v | None => None end
           else if type (node_at g (at_ m')) =? IR_SET_ZERO_PTR then Some 0 else content g alloc (m :: h)
         else content g alloc (m :: h)).
      destruct (is (argument g (at_ m') 0) alloc); [|reflexivity]. cbn [andb] in A, B. rewrite A, B. reflexivity. }
    unfold fits_in in CO. destruct NX as [(NP & FO & KEEP)|(TP & i & b & Hi & A & B & GET)].
    + destruct (Z.eqb_spec (type (node_at g (at_ m'))) IR_FUNCTION) as [TF|_].
      { unfold follows, prev_state in FO. rewrite TF in FO. discriminate. }
      destruct (Z.eqb_spec (type (node_at g (at_ m'))) IR_PHI) as [|_]; [contradiction|].
      destruct (is (argument g (at_ m') 0) alloc && (type (node_at g (at_ m')) =? IR_STORE)) eqn:ES.
      { apply andb_prop in ES as (E1 & E2). cbn [content] in C. rewrite E1, E2, CO in C. exact C. }
      destruct (is (argument g (at_ m') 0) alloc && (type (node_at g (at_ m')) =? IR_SET_ZERO_PTR)) eqn:EZ.
      { pose proof EZ as EZ'. apply andb_prop in EZ as (E1 & E2). rewrite E1 in ES. cbn [andb] in ES. cbn [content] in C. rewrite E1, ES, E2 in C. injection C as <-.
        apply Z. rewrite TT. apply CO. }
      rewrite (NW eq_refl eq_refl) in C. destruct CO as (p & FP & MP). rewrite FO in FP. injection FP as <-.
      apply KEEP. apply (IH r x MP C).
    + rewrite TP in CO. cbn -[node_at IR_PHI Mem2regProofs.memo] in CO. rewrite NW in C by (rewrite TP; apply andb_false_r).
      destruct CO as (RC & RT & R0 & RI). destruct (RI i (at_ m) Hi A) as (c & C1 & C2).
      assert (NG : (r <? count g)%nat = false) by (apply Nat.ltb_ge; exact RC).
      apply (GET r c x).
      * rewrite TT. exact RT.
      * rewrite NG, AA by exact RC. congruence.
      * rewrite NG, AA by exact RC. exact C1.
      * apply (IH c x C2 C).
Qed.

(** Every execution can be continued to the new nodes. *)
Lemma old_below n i a : argument g n i = Some a -> (a < count g)%nat.
Proof. intros A. apply (in_range g I0 n i a A). Qed.
Definition inputs (g' : graph) : nat -> nat -> option nat := fun q i => if (q <? count g)%nat then argument g q i else argument g' q i.
Lemma continues g' : (forall n, (n < count g)%nat -> type (node_at g' n) = type (node_at g n)) ->
  forall h, runs g h -> exists h', extends g h h' /\ runs_with g g' h'.
Proof.
  intros TO h H. unfold runs_with, extends. fold (inputs g').
  induction H as [m T Z|m m' h H (h1 & EX & R) NX Z].
  - set (m1 := {| at_ := at_ m; value := fun n => if (n <? count g)%nat then value m n else if type (node_at g' n) =? IR_ZERO then Some 0 else None |}).
    exists [m1]. split.
    { constructor; [|constructor]. split; [reflexivity|]. intros n L. unfold m1. cbn [value]. destruct (Nat.ltb_spec n (count g)); [reflexivity|lia]. }
    constructor; [exact T|]. intros n TN. unfold m1. cbn [value]. destruct (Nat.ltb_spec n (count g)) as [L|L]; [apply Z; rewrite <- TO by exact L; exact TN|]. rewrite TN. reflexivity.
  - inversion EX as [|a m1 la lb (EA & EV) ER]; subst.
    assert (C : exists f, (forall n, (n < count g)%nat -> f n = value m' n) /\ (forall n, (count g <= n)%nat -> type (node_at g' n) = IR_ZERO -> f n = Some 0) /\
                next g g' (inputs g') m1 {| at_ := at_ m'; value := f |}).
    { destruct NX as [(NP & FO & KEEP)|(TP & i & b & Hi & A & B & GET)].
      - exists (fun n => if (n <? count g)%nat then value m' n else value m1 n).
        split; [intros n L; destruct (Nat.ltb_spec n (count g)); [reflexivity|lia]|].
        split.
        { intros n L TN. destruct (Nat.ltb_spec n (count g)); [lia|]. inversion R; subst; auto. }
        left. cbn [at_ value]. split; [exact NP|]. split; [rewrite EA; exact FO|].
        intros n x X. destruct (Nat.ltb_spec n (count g)) as [L|L]; [|exact X]. apply KEEP. rewrite <- EV by exact L. exact X.
      - exists (fun n => if (n <? count g)%nat then value m' n else
                         if type (node_at g' n) =? IR_ZERO then Some 0 else match argument g' n i with Some a => value m1 a | None => None end).
        split; [intros n L; destruct (Nat.ltb_spec n (count g)); [reflexivity|lia]|].
        split; [intros n L TN; destruct (Nat.ltb_spec n (count g)); [lia|]; rewrite TN; reflexivity|].
        right. cbn [at_ value]. split; [exact TP|]. exists i, b. rewrite EA. split; [exact Hi|]. split; [exact A|]. split; [exact B|].
        intros q a x TQ Q0 QI X. unfold inputs in Q0, QI. destruct (Nat.ltb_spec q (count g)) as [L|L].
        + apply (GET q a x); [rewrite <- TO by exact L; exact TQ|exact Q0|exact QI|]. rewrite <- EV; [exact X|apply (old_below q i a QI)].
        + rewrite TQ, QI. exact X. }
    destruct C as (f & F1 & F2 & NX'). exists ({| at_ := at_ m'; value := f |} :: m1 :: lb). split.
    + constructor; [|exact EX]. cbn. split; [reflexivity|exact F1].
    + constructor; [exact R|exact NX'|]. intros n TN. cbn. destruct (Nat.lt_ge_cases n (count g)) as [L|L]; [rewrite F1 by exact L; apply Z; rewrite <- TO by exact L; exact TN|apply F2; assumption].
Qed.
Lemma history_tail g' : forall later l, history g g' (inputs g') (later ++ l) -> l <> [] -> history g g' (inputs g') l.
Proof.
  induction later as [|m later IH]; intros l H N; [exact H|]. apply IH; [|exact N].
  cbn [app] in H. remember (later ++ l) as t eqn:E. inversion H; subst; [|assumption].
  destruct later; [cbn in *; subst; contradiction|discriminate].
Qed.

Definition replacement (k : graph) (l : nat) : nat :=
  match argument g l 1 with Some s => match memo k s with Some r => r | None => O end | None => O end.

Theorem promotion fuel g' : try_remove_alloc fuel g alloc idx = Some (Ok g') ->
  g' = g \/
  exists rep : nat -> nat,
    (* the nodes of the graph, and their inputs *)
    Inv g' /\ finished g' /\ (count g <= count g')%nat /\ (forall n, (n < count g)%nat -> type (node_at g' n) = type (node_at g n)) /\
    (forall n i, (n < count g)%nat ->
       match argument g n i with
       | None => argument g' n i = None
       | Some a => (loads g alloc a -> argument g' n i = Some (rep a)) /\
                   (~ loads g alloc a -> exists t, skips g alloc a t /\ argument g' n i = Some t)
       end) /\
    (* the object is not used any more *)
    (forall n i a, argument g' n i = Some a -> ~ loads g alloc a /\ ~ writes g alloc a) /\
    (* what the replacements are worth *)
    (forall h later m earlier l x, runs_with g g' h -> h = later ++ m :: earlier -> loads g alloc l -> argument g l 1 = Some (at_ m) ->
       content g alloc (m :: earlier) = Some x -> value m (rep l) = Some x) /\
    (forall h, runs g h -> exists h', extends g h h' /\ runs_with g g' h').
Proof.
  unfold try_remove_alloc. fold vsize. cbv zeta. intros H. apply ex_ok in H as (b & HB & H). injection HB as HB. destruct b; [right|left; injection H as <-; reflexivity].
  apply ex_ok in H as (k2 & H2 & H).
  pose proof (fun s => fine_store s HB) as VAL. pose proof (fun n i => fine_use n i HB) as STORES.
  assert (P0 : P [] g).
  { constructor; [apply K_start|apply consistent_start|intros l []]; auto. }
  destruct (load_loop g alloc vsize idx St rank I0 SG IDX VAL FRESH AC fuel fuel O [] g k2 P0 H2) as (done & P2 & _ & AL).
  assert (DONE : forall l, loads g alloc l -> In l done).
  { intros l LD. destruct (uses_nth g alloc idx VAL FRESH AC g l eq_refl (slot_use g alloc I0 l 0 (proj2 LD))) as (j & J1 & J2). apply (AL j l ltac:(lia) J2 LD). }
  destruct (write_loop g alloc idx St rank I0 SG VAL FRESH AC k2 done P2 STORES fuel fuel O [] k2 g' (J_start g alloc idx St k2 done P2) H) as (D & JJ & _ & AW).
  assert (WD : forall w, writes g alloc w <-> In w D).
  { intros w. split; [|apply (j_D _ _ _ _ _ JJ)]. intros W. destruct (uses_nth g alloc idx VAL FRESH AC g w eq_refl (slot_use g alloc I0 w 0 (proj2 W))) as (j & J1 & J2).
    apply (AW j w ltac:(lia) J2 W). }
  pose proof (l_K _ _ _ _ _ _ P2) as KK. pose proof (l_con _ _ _ _ _ _ P2) as CO.
  pose proof (same_type _ _ (j_same _ _ _ _ _ JJ)) as TT. destruct (j_same _ _ _ _ _ JJ) as (CC & _).
  assert (KEEP : forall n i b, argument k2 n i = Some b -> ~ writes g alloc b -> argument g' n i = Some b).
  { intros n i b A NW. pose proof (j_args _ _ _ _ _ JJ n i) as X. rewrite A in X. destruct X as (c & X & S). destruct S as [s N|s p t I E S]; [exact X|]. destruct NW. apply WD, I. }
  exists (replacement k2). split; [apply (j_inv _ _ _ _ _ JJ)|]. split; [apply (j_fin _ _ _ _ _ JJ)|]. split; [rewrite CC; apply (k_count _ _ _ _ _ _ KK)|]. split.
  { intros n L. rewrite TT. apply (k_type _ _ _ _ _ _ KK n L). }
  assert (SLOTS : forall n i, (n < count g)%nat ->
       match argument g n i with
       | None => argument g' n i = None
       | Some a => (loads g alloc a -> argument g' n i = Some (replacement k2 a)) /\
                   (~ loads g alloc a -> exists t, skips g alloc a t /\ argument g' n i = Some t)
       end).
  { intros n i L. pose proof (k_args _ _ _ _ _ _ KK n i L) as A. pose proof (j_args _ _ _ _ _ JJ n i) as X. destruct (argument g n i) as [a|].
    - destruct A as (b & A & B). split.
      + intros LD. destruct B as [(_ & _ & s & S1 & S2)|(N & _)]; [|destruct N; apply DONE, LD].
        destruct (k_memo _ _ _ _ _ _ KK s b S2) as (_ & (_ & NW & _) & _). rewrite (KEEP n i b A NW). unfold replacement. rewrite S1, S2. reflexivity.
      + intros NL. destruct B as [(_ & LD & _)|(_ & ->)]; [contradiction|]. rewrite A in X. destruct X as (c & X & S). exists c. split; [|exact X].
        apply (skipD_all g alloc D WD a c S).
    - rewrite A in X. exact X. }
  split; [exact SLOTS|]. split.
  { intros n i a A. destruct (Nat.lt_ge_cases n (count g)) as [L|L].
    - specialize (SLOTS n i L). destruct (argument g n i) as [o|] eqn:AO; [|congruence]. destruct SLOTS as (S1 & S2).
      destruct (Z.eq_dec (type (node_at g o)) IR_LOAD) as [TO|TO].
      + destruct (onat_dec (argument g o 0) (Some alloc)) as [AA|AA].
        * assert (LD : loads g alloc o) by (split; assumption). rewrite (S1 LD) in A. injection A as <-. unfold replacement.
          destruct (l_found _ _ _ _ _ _ P2 o (DONE o LD)) as (s & r & X1 & X2). rewrite X1, X2. destruct (k_memo _ _ _ _ _ _ KK s r X2) as (_ & (Y1 & Y2 & _) & _). auto.
        * assert (NL : ~ loads g alloc o) by (intros (_ & X); contradiction). destruct (S2 NL) as (t & SK & X). rewrite X in A. injection A as <-.
          revert NL. clear - SK SG I0. induction SK as [s N|s p t W E SK IH]; intros NL; [auto|]. apply IH. intros LD.
          destruct (write_prev g alloc St rank SG s W) as (q & Q & SQ & _). rewrite Q in E. injection E as ->. apply (state_not_load g alloc St rank SG p SQ LD).
      + assert (NL : ~ loads g alloc o) by (intros (X & _); contradiction). destruct (S2 NL) as (t & SK & X). rewrite X in A. injection A as <-.
        revert NL. clear - SK SG I0. induction SK as [s N|s p t W E SK IH]; intros NL; [auto|]. apply IH. intros LD.
        destruct (write_prev g alloc St rank SG s W) as (q & Q & SQ & _). rewrite Q in E. injection E as ->. apply (state_not_load g alloc St rank SG p SQ LD).
    - pose proof (j_args _ _ _ _ _ JJ n i) as X. destruct (argument k2 n i) as [b|] eqn:B; [|congruence].
      destruct (k_new _ _ _ _ _ _ KK n i b L B) as (Y1 & Y2 & _). rewrite (KEEP n i b B Y2) in A. injection A as <-. auto. }
  split.
  - intros h later m earlier l x R -> LD A C. apply (history_tail g') in R; [|discriminate].
    destruct (l_found _ _ _ _ _ _ P2 l (DONE l LD)) as (s & r & X1 & X2). unfold replacement. rewrite A in X1. injection X1 as <-. rewrite A, X2.
    refine (entry_value k2 g' m earlier CO TT _ R r x X2 C).
    intros n i L. destruct (argument k2 n i) as [b|] eqn:B.
    + destruct (k_new _ _ _ _ _ _ KK n i b L B) as (_ & Y2 & _). apply (KEEP n i b B Y2).
    + pose proof (j_args _ _ _ _ _ JJ n i) as X. rewrite B in X. exact X.
  - intros h R. apply (continues g'); [|exact R]. intros n L. rewrite TT. apply (k_type _ _ _ _ _ _ KK n L).
Qed.
End Main.
