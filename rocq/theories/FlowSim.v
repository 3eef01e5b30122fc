(** When a part of the graph does what a statement does ([tr]), and that
    running the graph then follows the statements. *)
From Verif Require Import Base FlowSpec Flow.
Local Open Scope nat_scope.

Inductive silent (g : st) : nat * nat -> nat * nat -> Prop :=
| silent_refl : forall p, silent g p p
| silent_goto : forall b i b' q, i = length (code g b) -> term g b = Some (TGoto b') -> silent g (b', 0) q ->
    silent g (b, i) q.

Lemma silent_trans g p q r : silent g p q -> silent g q r -> silent g p r.
Proof. induction 1; auto. intros. econstructor; eauto. Qed.

(** At least one jump. *)
Definition silentp (g : st) (p q : nat * nat) : Prop :=
  exists b, snd p = length (code g (fst p)) /\ term g (fst p) = Some (TGoto b) /\ silent g (b, 0) q.
Lemma silentp_silent g p q : silentp g p q -> silent g p q.
Proof. destruct p as [b i]. intros (b' & L & T & S1). exact (silent_goto _ _ _ _ _ L T S1). Qed.
Lemma silentp_trans g p q r : silentp g p q -> silent g q r -> silentp g p r.
Proof. intros (b & L & T & S1) S2. exists b. split; [exact L|]. split; [exact T|exact (silent_trans _ _ _ _ S1 S2)]. Qed.

Record env := { e_break : option nat; e_continue : option nat; e_case : Z -> option nat; e_default : option nat }.

Definition lab (g : st) (l : nat) : nat := match lookup l (labels g) with Some e => end_block e | None => 0 end.
Definition at_instr (g : st) (p : nat * nat) (i : instr) (q : nat * nat) : Prop :=
  nth_error (code g (fst p)) (snd p) = Some i /\ q = (fst p, S (snd p)).
Definition at_option (g : st) (p : nat * nat) (a : option nat) (q : nat * nat) : Prop :=
  match a with Some a => at_instr g p (IAct a) q | None => p = q end.
Definition at_end (g : st) (p : nat * nat) (t : ending) : Prop :=
  snd p = length (code g (fst p)) /\ term g (fst p) = Some t.

(** The comparisons with the constants of [cs], from block [e] to [e']. *)
Fixpoint seg (g : st) (n : nat) (e : option nat) (cs : list (Z * nat)) (e' : option nat) : Prop :=
  match cs with
  | [] => e = e'
  | (k, c) :: cs =>
      exists x bt bf e1, e = Some x /\ at_end g (x, 0) (TIfEq n k bt bf) /\ silent g (bt, 0) (c, 0) /\
        silent g (bf, 0) (e1, 0) /\ seg g n (Some e1) cs e'
  end.
Fixpoint assoc (k : Z) (cs : list (Z * nat)) : option nat :=
  match cs with
  | [] => None
  | (k', c) :: cs => if (k =? k')%Z then Some c else assoc k cs
  end.

Section Sim.
Context (g : st) (defd : nat -> Prop).

Fixpoint tr (E : env) (s : stmt) (p q : nat * nat) {struct s} : Prop :=
  match s with
  | SSkip => silent g p q
  | SDo_ a => at_instr g p (IAct a) q
  | SSeq a b => exists r, tr E a p r /\ tr E b r q
  | SIf c a b =>
      exists bt bf ra rb, at_end g p (TIf c bt bf) /\ tr E a (bt, 0) ra /\ silent g ra q /\
        tr E b (bf, 0) rb /\ silent g rb q
  | SWhile c a =>
      exists h bt bf pb r B C, silent g p h /\ at_end g h (TIf c bt bf) /\ silent g (bt, 0) pb /\ silent g (bf, 0) q /\
        tr {| e_break := Some B; e_continue := Some C; e_case := e_case E; e_default := e_default E |} a pb r /\
        silent g r h /\ silent g (C, 0) h /\ silent g (B, 0) q
  | SDoWhile a c =>
      exists h bt bf pb r B C, silent g p pb /\ at_end g h (TIf c bt bf) /\ silent g (bt, 0) pb /\ silent g (bf, 0) q /\
        tr {| e_break := Some B; e_continue := Some C; e_case := e_case E; e_default := e_default E |} a pb r /\
        silent g r h /\ silent g (C, 0) h /\ silent g (B, 0) q
  | SFor i c v a =>
      exists p1 p2 h pb r v1 v2 B C, silent g p p1 /\ at_option g p1 i p2 /\ silentp g p2 h /\
        match c with
        | Some c => exists bt bf, at_end g h (TIf c bt bf) /\ silent g (bt, 0) pb /\ silent g (bf, 0) q
        | None => silent g h pb
        end /\
        tr {| e_break := Some B; e_continue := Some C; e_case := e_case E; e_default := e_default E |} a pb r /\
        silent g r v1 /\ silent g (C, 0) v1 /\ at_option g v1 v v2 /\ silentp g v2 h /\ silent g (B, 0) q
  | SSwitch e a =>
      exists n p1 x x' cs D pb r B, at_instr g p (IControl e n) p1 /\ silent g p1 (x, 0) /\ seg g n (Some x) cs (Some x') /\
        map fst cs = cases a /\ (defaults a = 0 -> D = None) /\
        match D with Some d => silent g (x', 0) (d, 0) | None => silent g (x', 0) q end /\
        tr {| e_break := Some B; e_continue := e_continue E; e_case := fun k => assoc k cs; e_default := D |} a pb r /\
        silent g r q /\ silent g (B, 0) q
  | SCase k a => exists b, e_case E k = Some b /\ silent g p (b, 0) /\ tr E a (b, 0) q
  | SDefault a => exists b, e_default E = Some b /\ silent g p (b, 0) /\ tr E a (b, 0) q
  | SLabel l a => silent g p (lab g l, 0) /\ tr E a (lab g l, 0) q
  | SGoto l => defd l /\ silentp g p (lab g l, 0)
  | SBreak => exists b, e_break E = Some b /\ silent g p (b, 0)
  | SContinue => exists b, e_continue E = Some b /\ silent g p (b, 0)
  | SReturn r => at_end g p (TReturn r)
  end.

Context (last : nat * nat).
Inductive mc : env -> cont -> nat * nat -> Prop :=
| mc_stop : forall E, e_break E = None -> e_continue E = None -> mc E Kstop last
| mc_seq : forall E s k q r r', tr E s q r -> silent g r r' -> mc E k r' -> mc E (Kseq s k) q
| mc_while : forall E E0 c s k h B C r r', e_break E = Some B -> e_continue E = Some C -> silent g (C, 0) h ->
    tr E0 (SWhile c s) h r -> silent g (B, 0) r -> silent g r r' -> mc E0 k r' -> mc E (Kwhile c s k) h
| mc_do : forall E E0 c s k h bt bf B C r r', e_break E = Some B -> e_continue E = Some C -> silent g (C, 0) h ->
    at_end g h (TIf c bt bf) -> tr E0 (SDoWhile s c) (bt, 0) r -> silent g (bf, 0) r -> silent g (B, 0) r ->
    silent g r r' -> mc E0 k r' -> mc E (Kdo s c k) h
| mc_for : forall E E0 c v s k v1 v2 B C r r', e_break E = Some B -> e_continue E = Some C -> silent g (C, 0) v1 ->
    at_option g v1 v v2 -> tr E0 (SFor None c v s) v2 r -> silent g (B, 0) r ->
    silent g r r' -> mc E0 k r' -> mc E (Kfor c v s k) v1
| mc_switch : forall E E0 k B q r, e_break E = Some B -> e_continue E = e_continue E0 -> silent g (B, 0) r ->
    silent g q r -> mc E0 k r -> mc E (Kswitch k) q.

Definition place (E : env) (t : target) (b : nat) : Prop :=
  match t with ToLabel l => b = lab g l | ToCase v => e_case E v = Some b | ToDefault => e_default E = Some b end.

Lemma target_eqb_eq a b : target_eqb a b = true -> a = b.
Proof.
  destruct a, b; cbn; try discriminate; intros H.
  - apply Nat.eqb_eq in H. congruence.
  - apply Z.eqb_eq in H. congruence.
  - reflexivity.
Qed.

Lemma wider t (E1 E : env) (P : nat -> env -> nat * nat -> nat * nat -> Prop) :
  (forall k, e_case E1 k = e_case E k) -> e_default E1 = e_default E ->
  (exists E' b r' q', place E1 t b /\ P b E' r' q') -> exists E' b r' q', place E t b /\ P b E' r' q'.
Proof.
  intros H1 H2 (E' & b & r' & q' & A & B). exists E', b, r', q'. split; [|exact B].
  destruct t; cbn [place] in *; congruence.
Qed.

Lemma find_tr s : forall t E k p r q s' k',
  find t s k = Some (s', k') -> tr E s p r -> silent g r q -> mc E k q ->
  exists E' b r' q', place E t b /\ tr E' s' (b, 0) r' /\ silent g r' q' /\ mc E' k' q'.
Proof.
  induction s; intros t E k0 p rr q s' k' F T SL M; cbn [find] in F; try discriminate.
  - destruct T as (m & T1 & T2).
    destruct (find t s1 (Kseq s2 k0)) as [[? ?]|] eqn:F1.
    + injection F as -> ->. apply (IHs1 _ _ _ _ _ _ _ _ F1 T1 (silent_refl _ _)).
      exact (mc_seq _ _ _ _ _ _ T2 SL M).
    + exact (IHs2 _ _ _ _ _ _ _ _ F T2 SL M).
  - destruct T as (bt & bf & ra & rb & _ & T1 & S1 & T2 & S2).
    destruct (find t s1 k0) as [[? ?]|] eqn:F1.
    + injection F as -> ->. exact (IHs1 _ _ _ _ _ _ _ _ F1 T1 (silent_trans _ _ _ _ S1 SL) M).
    + exact (IHs2 _ _ _ _ _ _ _ _ F T2 (silent_trans _ _ _ _ S2 SL) M).
  - pose proof T as T'.
    destruct T as (h & bt & bf & pb & r & B & C & S1 & S2 & S3 & S4 & T & S5 & S6 & S7).
    apply (wider t {| e_break := Some B; e_continue := Some C; e_case := e_case E; e_default := e_default E |} E
             (fun b E' r' q' => tr E' s' (b, 0) r' /\ silent g r' q' /\ mc E' k' q')); [intros ?; reflexivity|reflexivity|].
    refine (IHs _ _ _ _ _ _ _ _ F T S5 _).
    apply (mc_while _ E c s k0 h B C rr q); [reflexivity|reflexivity|exact S6|..]; auto.
    exists h, bt, bf, pb, r, B, C. repeat (split; auto). constructor.
  - destruct T as (h & bt & bf & pb & r & B & C & S1 & S2 & S3 & S4 & T & S5 & S6 & S7).
    apply (wider t {| e_break := Some B; e_continue := Some C; e_case := e_case E; e_default := e_default E |} E
             (fun b E' r' q' => tr E' s' (b, 0) r' /\ silent g r' q' /\ mc E' k' q')); [intros ?; reflexivity|reflexivity|].
    refine (IHs _ _ _ _ _ _ _ _ F T S5 _).
    apply (mc_do _ E c s k0 h bt bf B C rr q); [reflexivity|reflexivity|exact S6|..]; auto.
    exists h, bt, bf, pb, r, B, C. repeat (split; auto).
  - destruct T as (p1 & p2 & h & pb & r & v1 & v2 & B & C & S1 & S2 & S3 & S4 & T & S5 & S6 & S7 & S8 & S9).
    apply (wider t {| e_break := Some B; e_continue := Some C; e_case := e_case E; e_default := e_default E |} E
             (fun b E' r' q' => tr E' s' (b, 0) r' /\ silent g r' q' /\ mc E' k' q')); [intros ?; reflexivity|reflexivity|].
    refine (IHs _ _ _ _ _ _ _ _ F T S5 _).
    apply (mc_for _ E cond adv s k0 v1 v2 B C rr q); [reflexivity|reflexivity|exact S6|..]; auto.
    exists v2, v2, h, pb, r, v1, v2, B, C. repeat (split; auto); constructor.
  - destruct T as (n & p1 & x & x' & cs & D & pb & r & B & S1 & S2 & S3 & S4 & S5 & S6 & T & S7 & S8).
    destruct t; cbn [is_label] in F; try discriminate.
    edestruct (IHs (ToLabel l)) as (E' & b & r' & q' & P & Q); [exact F|exact T| | |exists E', b, r', q'; split; [exact P|exact Q]].
    + exact (silent_trans _ _ _ _ S7 SL).
    + apply (mc_switch _ E k0 B q q); [reflexivity|reflexivity|..]; auto.
      * exact (silent_trans _ _ _ _ S8 SL).
      * constructor.
  - destruct T as (b & P & S1 & T). destruct (target_eqb t (ToCase k)) eqn:Q.
    + apply target_eqb_eq in Q. subst t. injection F as <- <-. exists E, b, rr, q. auto.
    + exact (IHs _ _ _ _ _ _ _ _ F T SL M).
  - destruct T as (b & P & S1 & T). destruct (target_eqb t ToDefault) eqn:Q.
    + apply target_eqb_eq in Q. subst t. injection F as <- <-. exists E, b, rr, q. auto.
    + exact (IHs _ _ _ _ _ _ _ _ F T SL M).
  - destruct T as (S1 & T). destruct (target_eqb t (ToLabel l)) eqn:Q.
    + apply target_eqb_eq in Q. subst t. injection F as <- <-. exists E, (lab g l), rr, q. cbn. auto.
    + exact (IHs _ _ _ _ _ _ _ _ F T SL M).
Qed.

Lemma find_case_none v s : forall k, find (ToCase v) s k = None -> ~ In v (cases s).
Proof.
  induction s; intros k0 F; cbn [find cases] in *; auto.
  - intros H. apply in_app_or in H. destruct (find (ToCase v) s1 (Kseq s2 k0)) eqn:F1; [discriminate|].
    destruct H as [H|H]; [exact (IHs1 _ F1 H)|exact (IHs2 _ F H)].
  - intros H. apply in_app_or in H. destruct (find (ToCase v) s1 k0) eqn:F1; [discriminate|].
    destruct H as [H|H]; [exact (IHs1 _ F1 H)|exact (IHs2 _ F H)].
  - exact (IHs _ F).
  - exact (IHs _ F).
  - exact (IHs _ F).
  - destruct (target_eqb (ToCase v) (ToCase k)) eqn:Q; [discriminate|].
    cbn in Q. apply Z.eqb_neq in Q. intros [H|H]; [congruence|exact (IHs _ F H)].
  - exact (IHs _ F).
  - exact (IHs _ F).
Qed.
Lemma find_default_none s : forall k, find ToDefault s k = None -> defaults s = 0.
Proof.
  induction s; intros k0 F; cbn [find defaults] in *; auto.
  - destruct (find ToDefault s1 (Kseq s2 k0)) eqn:F1; [discriminate|]. rewrite (IHs1 _ F1), (IHs2 _ F). reflexivity.
  - destruct (find ToDefault s1 k0) eqn:F1; [discriminate|]. rewrite (IHs1 _ F1), (IHs2 _ F). reflexivity.
  - exact (IHs _ F).
  - exact (IHs _ F).
  - exact (IHs _ F).
  - exact (IHs _ F).
  - cbn in F. discriminate.
  - exact (IHs _ F).
Qed.

Context {store : Type}.
Context (act : nat -> store -> store) (test : nat -> store -> store * bool) (sel : nat -> store -> store * Z).
Context (body : stmt) (implicit : option nat).
Notation stepS := (step act test sel body implicit).
Notation runG := (gsteps act test sel g).

Lemma runG_add n m x : runG (n + m) x = runG m (runG n x).
Proof. revert x; induction n; intros x; [reflexivity|]. cbn [Nat.add gsteps]. apply IHn. Qed.

Definition reach (x y : gstate store) : Prop := exists n, runG n x = y.
Lemma reach_refl x : reach x x. Proof. exists 0. reflexivity. Qed.
Lemma reach_trans x y z : reach x y -> reach y z -> reach x z.
Proof. intros [n <-] [m <-]. exists (n + m). apply runG_add. Qed.
Lemma reach_step x : reach x (gstep act test sel g x). Proof. exists 1. reflexivity. Qed.
(** At least one step. *)
Definition reachp (x y : gstate store) : Prop := reach (gstep act test sel g x) y.
Lemma reachp_reach x y : reachp x y -> reach x y.
Proof. intros H. exact (reach_trans _ _ _ (reach_step x) H). Qed.
Lemma reachp_trans x y z : reachp x y -> reach y z -> reachp x z.
Proof. intros H1 H2. exact (reach_trans _ _ _ H1 H2). Qed.
Lemma reach_reachp x y z : reach x y -> reachp y z -> reachp x z.
Proof.
  intros [n <-] H. destruct n as [|n]; [exact H|]. unfold reachp. cbn [gsteps] in H.
  refine (reach_trans _ _ _ _ (reachp_reach _ _ H)). exists n. reflexivity.
Qed.

Lemma nth_error_at_end (l : list instr) : nth_error l (length l) = None.
Proof. apply nth_error_None. lia. Qed.

Lemma reach_silent p q : silent g p q -> forall m c, reach (At (fst p) (snd p) m c) (At (fst q) (snd q) m c).
Proof.
  induction 1 as [p|b i b' q L T S IH]; intros m c; [apply reach_refl|].
  refine (reach_trans _ _ _ (reach_step _) _). cbn. subst i. rewrite nth_error_at_end, T. apply IH.
Qed.
Lemma reach_silentp p q : silentp g p q -> forall m c, reachp (At (fst p) (snd p) m c) (At (fst q) (snd q) m c).
Proof.
  intros (b & L & T & S1) m c. unfold reachp. cbn. rewrite L, nth_error_at_end, T. exact (reach_silent _ _ S1 m c).
Qed.
Lemma reach_act p a q m c : at_instr g p (IAct a) q ->
  reachp (At (fst p) (snd p) m c) (At (fst q) (snd q) (act a m) c).
Proof. intros [H ->]. unfold reachp. cbn. rewrite H. apply reach_refl. Qed.
Lemma reach_option p a q m c : at_option g p a q ->
  reach (At (fst p) (snd p) m c) (At (fst q) (snd q) (match a with Some a => act a m | None => m end) c).
Proof. destruct a; cbn [at_option]; [intros H; apply reachp_reach, reach_act, H|intros ->; apply reach_refl]. Qed.
Lemma reach_control p e n q m c : at_instr g p (IControl e n) q ->
  reachp (At (fst p) (snd p) m c) (At (fst q) (snd q) (fst (sel e m)) (upd c n (snd (sel e m)))).
Proof.
  intros [H ->]. unfold reachp. cbn. rewrite H. destruct (sel e m). apply reach_refl.
Qed.
Lemma reach_if p c bt bf m cc : at_end g p (TIf c bt bf) ->
  reachp (At (fst p) (snd p) m cc) (At (if snd (test c m) then bt else bf) 0 (fst (test c m)) cc).
Proof.
  intros [L H]. unfold reachp. cbn. rewrite L, nth_error_at_end, H.
  destruct (test c m). apply reach_refl.
Qed.
Lemma reach_return p r m c : at_end g p (TReturn r) -> reachp (At (fst p) (snd p) m c) (GReturned r m).
Proof. intros [L H]. unfold reachp. cbn. rewrite L, nth_error_at_end, H. apply reach_refl. Qed.

Lemma reach_seg n m c cs : forall x x', seg g n (Some x) cs (Some x') ->
  reach (At x 0 m c) (At (match assoc (c n) cs with Some b => b | None => x' end) 0 m c).
Proof.
  induction cs as [|[k b] cs IH]; intros x x' H; cbn [seg assoc] in *.
  - injection H as <-. apply reach_refl.
  - destruct H as (y & bt & bf & e1 & Ey & [L T] & S1 & S2 & H). injection Ey as <-. cbn [fst snd] in *.
    refine (reach_trans _ _ _ (reach_step _) _). cbn.
    destruct (code g x) eqn:CX; [|discriminate L]. cbn [nth_error]. rewrite T.
    destruct (c n =? k)%Z.
    + apply (reach_silent _ _ S1).
    + refine (reach_trans _ _ _ (reach_silent _ _ S2 m c) _). apply IH. exact H.
Qed.

(** How many steps of the statements there can be without one of the graph. *)
Fixpoint mu_s (s : stmt) : nat :=
  match s with
  | SSkip => 0
  | SSeq a b => mu_s a + mu_s b + 2
  | SDoWhile a c => mu_s a + 2
  | SCase _ a | SDefault a | SLabel _ a => mu_s a + 1
  | _ => 1
  end.
Fixpoint mu_k (k : cont) : nat :=
  match k with
  | Kstop => 1
  | Kseq s k => mu_s s + 1 + mu_k k
  | Kwhile _ _ k => 2 + mu_k k
  | Kdo _ _ k => 1 + mu_k k
  | Kfor _ _ _ k => 2 + mu_k k
  | Kswitch k => 1 + mu_k k
  end.
Definition mu (x : state store) : nat := match x with Running s k _ => mu_s s + mu_k k | _ => 0 end.
Definition moves (x x' : state store) (y y' : gstate store) : Prop := reachp y y' \/ (reach y y' /\ mu x' < mu x).

Definition ms (x : state store) (y : gstate store) : Prop :=
  match x with
  | Running s k m =>
      exists E b i r q c, y = At b i m c /\ tr E s (b, i) r /\ silent g r q /\ mc E k q
  | Returned r m => y = GReturned r m
  | Fell m => y = GFell m
  | Wrong => False
  end.

Hypothesis DEFD : forall l, defd l -> find (ToLabel l) body Kstop <> None.
Hypothesis BODY : exists E p r, tr E body p r /\ silent g r last /\ mc E Kstop last.
Hypothesis LAST : match implicit with
                  | Some r => at_end g last (TReturn r)
                  | None => snd last = length (code g (fst last)) /\ term g (fst last) = None
                  end.

Lemma ms_run E p r q s k m c : tr E s p r -> silent g r q -> mc E k q -> ms (Running s k m) (At (fst p) (snd p) m c).
Proof. intros T S1 M. destruct p as [b i]. exists E, b, i, r, q, c. auto. Qed.

Lemma simulation s k m y : ms (Running s k m) y ->
  exists y', moves (Running s k m) (stepS (Running s k m)) y y' /\ ms (stepS (Running s k m)) y'.
Proof.
  cbn [ms]. intros (E & b & i & r & q & c & -> & T & SL & M).
  assert (SK : forall E k q p m, silent g p q -> mc E k q -> ms (Running SSkip k m) (At (fst p) (snd p) m c)).
  { intros E1 k1 q1 p1 m1 S1 M1. apply (ms_run E1 p1 q1 q1); auto. constructor. }
  change (At b i m c) with (At (fst (b, i)) (snd (b, i)) m c). remember (b, i) as p eqn:EP. clear EP b i.
  destruct s; cbn [step].
  - (* skip *)
    cbn [tr] in T. pose proof (silent_trans _ _ _ _ T SL) as S0. clear T SL r.
    pose proof (reach_silent _ _ S0 m c) as R.
    inversion M; subst.
    + exists (match implicit with Some r => GReturned r m | None => GFell m end). split.
      * left. refine (reach_reachp _ _ _ R _). destruct implicit as [r|].
        -- apply reach_return. exact LAST.
        -- destruct LAST as [LL HT]. unfold reachp. cbn.
           rewrite LL, nth_error_at_end, HT. apply reach_refl.
      * destruct implicit; reflexivity.
    + eexists. split; [right; split; [exact R|cbn; lia]|]. eapply ms_run; eauto.
    + eexists. split; [right; split; [exact R|cbn; lia]|]. eapply ms_run; eauto.
    + eexists. split; [left; exact (reach_reachp _ _ _ R (reach_if _ _ _ _ _ _ H2))|].
      destruct (test c0 m) as [m' [|]]; cbn [fst snd].
      * apply (ms_run E1 (bt, 0) r r'); auto.
      * apply (SK E1 k0 r' (bf, 0)); auto. eapply silent_trans; eauto.
    + eexists. split; [right; split; [exact (reach_trans _ _ _ R (reach_option _ _ _ _ _ H2))|cbn; lia]|].
      apply (ms_run E1 v2 r r'); auto.
    + eexists. split; [right; split; [exact R|cbn; lia]|]. apply (SK E1 k0 r q); auto.
  - (* an action *)
    eexists. split; [left; apply (reach_act _ _ _ _ _ T)|]. apply (SK E k q r); auto.
  - (* sequence *)
    destruct T as (r1 & T1 & T2). eexists. split; [right; split; [apply reach_refl|cbn; lia]|].
    apply (ms_run E p r1 r1); auto; [constructor|]. exact (mc_seq _ _ _ _ _ _ T2 SL M).
  - (* if *)
    destruct T as (bt & bf & ra & rb & A & T1 & S1 & T2 & S2).
    eexists. split; [left; apply (reach_if _ _ _ _ _ _ A)|].
    destruct (test c0 m) as [m' [|]]; cbn [fst snd].
    + apply (ms_run E (bt, 0) ra q); auto. exact (silent_trans _ _ _ _ S1 SL).
    + apply (ms_run E (bf, 0) rb q); auto. exact (silent_trans _ _ _ _ S2 SL).
  - (* while *)
    destruct T as (h & bt & bf & pb & r1 & B & C & S1 & A & S3 & S4 & T & S5 & S6 & S7).
    destruct (test c0 m) as [m' v] eqn:TE.
    pose proof (reach_reachp _ _ _ (reach_silent _ _ S1 m c) (reach_if _ _ _ _ _ _ A)) as R. rewrite TE in R. cbn [fst snd] in R.
    destruct v.
    + eexists. split; [left; exact (reachp_trans _ _ _ R (reach_silent _ _ S3 m' c))|].
      eapply ms_run; [exact T|exact S5|].
      apply (mc_while _ E c0 s k h B C r q); [reflexivity|reflexivity|exact S6|..]; auto.
      exists h, bt, bf, pb, r1, B, C. repeat (split; auto). constructor.
    + eexists. split; [left; exact R|]. apply (SK E k q (bf, 0)); auto. exact (silent_trans _ _ _ _ S4 SL).
  - (* do *)
    destruct T as (h & bt & bf & pb & r1 & B & C & S1 & A & S3 & S4 & T & S5 & S6 & S7).
    eexists. split; [right; split; [exact (reach_silent _ _ S1 m c)|cbn; lia]|].
    eapply ms_run; [exact T|exact S5|].
    apply (mc_do _ E c0 s k h bt bf B C r q); [reflexivity|reflexivity|exact S6|..]; auto.
    exists h, bt, bf, pb, r1, B, C. repeat (split; auto).
  - (* for *)
    destruct T as (p1 & p2 & h & pb & r1 & v1 & v2 & B & C & S1 & A & S3 & S4 & T & S5 & S6 & S7 & S8 & S9).
    pose proof (reach_trans _ _ _ (reach_silent _ _ S1 m c) (reach_option _ _ _ _ _ A)) as R.
    assert (SELF : forall x, silentp g x h -> tr E (SFor None cond adv s) x r).
    { intros x SX. exists x, x, h, pb, r1, v1, v2, B, C. repeat (split; auto); constructor. }
    destruct init as [i|].
    + eexists. split; [left; exact (reach_reachp _ _ _ (reach_silent _ _ S1 m c) (reach_act _ _ _ _ _ A))|].
      eapply ms_run; [apply (SELF p2); auto|exact SL|exact M].
    + cbn [at_option] in A. subst p2.
      pose proof (reach_reachp _ _ _ R (reach_silentp _ _ S3 m c)) as R'.
      assert (MB : mc {| e_break := Some B; e_continue := Some C; e_case := e_case E; e_default := e_default E |}
                      (Kfor cond adv s k) v1).
      { apply (mc_for _ E cond adv s k v1 v2 B C r q); [reflexivity|reflexivity|exact S6|..]; auto. }
      destruct cond as [cc|].
      * destruct S4 as (bt & bf & A & S41 & S42).
        pose proof (reachp_trans _ _ _ R' (reachp_reach _ _ (reach_if _ _ _ _ _ _ A))) as R''.
        destruct (test cc m) as [m' v]. cbn [fst snd] in R''. destruct v.
        -- eexists. split; [left; exact (reachp_trans _ _ _ R'' (reach_silent _ _ S41 m' c))|].
           eapply ms_run; [exact T|exact S5|exact MB].
        -- eexists. split; [left; exact R''|]. apply (SK E k q (bf, 0)); auto. exact (silent_trans _ _ _ _ S42 SL).
      * eexists. split; [left; exact (reachp_trans _ _ _ R' (reach_silent _ _ S4 m c))|].
        eapply ms_run; [exact T|exact S5|exact MB].
  - (* switch *)
    destruct T as (n & p1 & x & x' & cs & D & pb & r1 & B & S1 & S2 & S3 & S4 & S5 & S6 & T & S7 & S8).
    pose proof (reachp_trans _ _ _ (reach_control _ _ _ _ m c S1) (reach_silent _ _ S2 _ _)) as R.
    destruct (sel e m) as [m' v]. cbn [fst snd] in R.
    pose proof (reachp_trans _ _ _ R (reach_seg n m' (upd c n v) cs x x' S3)) as R'. clear R.
    assert (UP : upd c n v n = v) by (unfold upd; rewrite Nat.eqb_refl; reflexivity). rewrite UP in R'.
    set (E' := {| e_break := Some B; e_continue := e_continue E; e_case := fun k => assoc k cs; e_default := D |}) in *.
    assert (MB : mc E' (Kswitch k) q).
    { apply (mc_switch _ E k B q q); [reflexivity|reflexivity|..]; auto; [exact (silent_trans _ _ _ _ S8 SL)|constructor]. }
    assert (SB := silent_trans _ _ _ _ S7 SL).
    destruct (find (ToCase v) s (Kswitch k)) as [[s' k']|] eqn:F.
    + destruct (find_tr _ _ _ _ _ _ _ _ _ F T SB MB) as (E1 & b & r2 & q2 & P & T2 & S9 & M2).
      cbn [place e_case E'] in P. rewrite P in R'.
      eexists. split; [left; exact R'|]. exists E1, b, 0, r2, q2, (upd c n v). auto.
    + apply find_case_none in F. rewrite <- S4 in F.
      assert (N : assoc v cs = None).
      { clear -F. induction cs as [|[a b] cs IH]; [reflexivity|]. cbn in *. destruct (v =? a)%Z eqn:Q.
        - apply Z.eqb_eq in Q. exfalso. apply F. left. auto.
        - apply IH. intros H. apply F. right. exact H. }
      rewrite N in R'.
      destruct (find ToDefault s (Kswitch k)) as [[s' k']|] eqn:F2.
      * destruct (find_tr _ _ _ _ _ _ _ _ _ F2 T SB MB) as (E1 & b & r2 & q2 & P & T2 & S9 & M2).
        cbn [place e_default E'] in P. rewrite P in S6.
        eexists. split; [left; exact (reachp_trans _ _ _ R' (reach_silent _ _ S6 _ _))|].
        exists E1, b, 0, r2, q2, (upd c n v). auto.
      * apply find_default_none in F2. rewrite (S5 F2) in S6.
        eexists. split; [left; exact (reachp_trans _ _ _ R' (reach_silent _ _ (silent_trans _ _ _ _ S6 SL) _ _))|].
        destruct q as [qb qi]. exists E, qb, qi, (qb, qi), (qb, qi), (upd c n v). split; [reflexivity|].
        split; [constructor|]. split; [constructor|exact M].
  - destruct T as (b & P & S1 & T). eexists. split; [right; split; [exact (reach_silent _ _ S1 m c)|cbn; lia]|]. eapply ms_run; eauto.
  - destruct T as (b & P & S1 & T). eexists. split; [right; split; [exact (reach_silent _ _ S1 m c)|cbn; lia]|]. eapply ms_run; eauto.
  - destruct T as (S1 & T). eexists. split; [right; split; [exact (reach_silent _ _ S1 m c)|cbn; lia]|]. eapply ms_run; eauto.
  - (* goto *)
    destruct T as (DF & S1). destruct BODY as (E0 & p0 & r0 & TB & S2 & M0).
    destruct (find (ToLabel l) body Kstop) as [[s' k']|] eqn:F; [|destruct (DEFD l DF F)].
    destruct (find_tr _ _ _ _ _ _ _ _ _ F TB S2 M0) as (E1 & b & r2 & q2 & P & T2 & S9 & M2).
    cbn [place] in P. subst b.
    eexists. split; [left; exact (reach_silentp _ _ S1 m c)|]. exists E1, (lab g l), 0, r2, q2, c. auto.
  - (* break *)
    destruct T as (b & P & S1). pose proof (reach_silent _ _ S1 m c) as R.
    inversion M; subst.
    + congruence.
    + eexists. split; [right; split; [apply reach_refl|cbn; lia]|]. eapply ms_run; [|apply H0|exact H1]. exists b. auto.
    + eexists. split; [right; split; [exact R|cbn; lia]|]. apply (SK E1 k0 r' (b, 0)); auto.
      rewrite H in P. injection P as ->. eapply silent_trans; eauto.
    + eexists. split; [right; split; [exact R|cbn; lia]|]. apply (SK E1 k0 r' (b, 0)); auto.
      rewrite H in P. injection P as ->. eapply silent_trans; eauto.
    + eexists. split; [right; split; [exact R|cbn; lia]|]. apply (SK E1 k0 r' (b, 0)); auto.
      rewrite H in P. injection P as ->. eapply silent_trans; eauto.
    + eexists. split; [right; split; [exact R|cbn; lia]|]. apply (SK E1 k0 r0 (b, 0)); auto.
      rewrite H in P. injection P as ->. auto.
  - (* continue *)
    destruct T as (b & P & S1). pose proof (reach_silent _ _ S1 m c) as R.
    inversion M; subst.
    + congruence.
    + eexists. split; [right; split; [apply reach_refl|cbn; lia]|]. eapply ms_run; [|apply H0|exact H1]. exists b. auto.
    + eexists. split; [right; split; [exact R|cbn; lia]|]. apply (SK E _ q (b, 0)); auto. congruence.
    + eexists. split; [right; split; [exact R|cbn; lia]|]. apply (SK E _ q (b, 0)); auto. congruence.
    + eexists. split; [right; split; [exact R|cbn; lia]|]. apply (SK E _ q (b, 0)); auto. congruence.
    + eexists. split; [right; split; [apply reach_refl|cbn; lia]|]. eapply (ms_run E1 p r0 r0); auto; [|constructor]. exists b.
      split; [congruence|exact S1].
  - eexists. split; [left; apply (reach_return _ _ _ _ T)|reflexivity].
Qed.

Lemma simulate x y : ms x y -> exists y', reach y y' /\ ms (stepS x) y'.
Proof.
  destruct x as [s k m|r m|m|].
  - intros M. destruct (simulation s k m y M) as (y' & [R|[R _]] & M'); exists y'; split; auto. apply reachp_reach. exact R.
  - intros H. exists y. split; [apply reach_refl|exact H].
  - intros H. exists y. split; [apply reach_refl|exact H].
  - intros [].
Qed.

Theorem follows n : forall x y, ms x y -> exists y', reach y y' /\ ms (steps act test sel body implicit n x) y'.
Proof.
  induction n; intros x y M; [exists y; split; [apply reach_refl|exact M]|].
  destruct (simulate _ _ M) as (y1 & R1 & M1). destruct (IHn _ _ M1) as (y2 & R2 & M2).
  exists y2. split; [exact (reach_trans _ _ _ R1 R2)|exact M2].
Qed.

(** When the graph stops, so do the statements. *)
Definition stopped (y : gstate store) : Prop := match y with At _ _ _ _ => False | _ => True end.
Lemma stopped_stays n y : stopped y -> runG n y = y.
Proof. intros H. induction n; [reflexivity|]. cbn [gsteps]. destruct y; [destruct H|exact IHn|exact IHn]. Qed.
Lemma ms_stopped x y : ms x y -> stopped y -> match x with Running _ _ _ => False | _ => True end.
Proof. destruct x; cbn; auto. intros (E & b & i & r & q & c & -> & _) H. exact H. Qed.

Theorem stops N : forall M x y z, mu x < M -> ms x y -> runG N y = z -> stopped z ->
  exists n, match steps act test sel body implicit n x with Running _ _ _ => False | _ => True end.
Proof.
  induction N as [N IHN] using lt_wf_ind. induction M as [|M IHM]; [lia|].
  intros x y z MU H R ST. destruct x as [s k m|r m|m|]; [|exists 0; exact I..].
  destruct (simulation s k m y H) as (y' & MV & H').
  destruct MV as [[n R']|[[n R'] LT]].
  - destruct (Nat.le_gt_cases (S n) N) as [LE|GT].
    + assert (R2 : runG (N - S n) y' = z).
      { rewrite <- R', <- R. replace N with (S n + (N - S n)) at 2 by lia. rewrite runG_add. reflexivity. }
      destruct (IHN (N - S n) ltac:(lia) (S (mu (stepS (Running s k m)))) _ _ _ (le_n _) H' R2 ST) as (n2 & Q).
      exists (S n2). exact Q.
    + exists 1. cbn [steps]. apply (ms_stopped _ _ H').
      replace y' with z; [exact ST|]. rewrite <- R'. change (runG n (gstep act test sel g y)) with (runG (S n) y).
      replace (S n) with (N + (S n - N)) by lia. rewrite runG_add, R. symmetry. apply stopped_stays. exact ST.
  - destruct (Nat.le_gt_cases n N) as [LE|GT].
    + assert (R2 : runG (N - n) y' = z).
      { rewrite <- R', <- R. replace N with (n + (N - n)) at 2 by lia. rewrite runG_add. reflexivity. }
      destruct n as [|n].
      * rewrite Nat.sub_0_r in R2. destruct (IHM (stepS (Running s k m)) y' z (Nat.lt_le_trans _ _ _ LT (proj1 (Nat.lt_succ_r _ _) MU)) H' R2 ST) as (n2 & Q). exists (S n2). exact Q.
      * destruct (IHN (N - S n) ltac:(lia) (S (mu (stepS (Running s k m)))) _ _ _ (le_n _) H' R2 ST) as (n2 & Q).
        exists (S n2). exact Q.
    + exists 1. cbn [steps]. apply (ms_stopped _ _ H').
      replace y' with z; [exact ST|]. rewrite <- R'.
      replace n with (N + (n - N)) by lia. rewrite runG_add, R. symmetry. apply stopped_stays. exact ST.
Qed.
End Sim.
