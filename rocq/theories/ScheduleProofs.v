(** Placement of instructions. *)
From Verif Require Import Base Fuel IR IRProofs RemoveDead RemoveDeadProofs Dominator DominatorSpec DominatorProofs PostOrderProofs Mem2reg Schedule ScheduleSpec.

Lemma is_spec a b : is a b = true <-> a = Some b.
Proof. unfold is. destruct a as [x|]; [|split; discriminate]. rewrite Nat.eqb_eq. split; [now intros ->|intros E; now injection E]. Qed.
Lemma pinned_spec g n : pinned g n = true <-> tied g n.
Proof. unfold pinned, tied. cbn [existsb]. rewrite !Bool.orb_true_iff, !Z.eqb_eq. intuition. Qed.

Section Placement.
Variable g : graph.
Variable entry : nat.
Hypothesis I : Inv g.
Hypothesis C : control_graph g entry.
Variables order home : nat -> nat.
Hypothesis wf : well_formed g entry order home.
Variable fuel : nat.
Variable post : nat -> nat.
Variable idom : nat -> option nat.
Hypothesis meet_at : forall b1 b2, done idom b1 -> done idom b2 ->
  exists m, meet fuel post idom b1 b2 = Some (Ok m) /\ done idom m /\ forall d, anc idom m d <-> anc idom b1 d /\ anc idom b2 d.
Hypothesis reached : forall b, done idom b <-> block_reachable g entry b.
Variable top : nat.
Hypothesis top_ok : forall n, (n < count g)%nat -> (order n <= top)%nat.

Definition rk (n : nat) : nat := top - order n.

(** * Kinds of nodes *)
Lemma control_block n : exists c, node_is_control g n = Ok c /\ (c = true <-> block_node g n).
Proof.
  unfold node_is_control, block_node. destruct (Z.eqb_spec (type (node_at g n)) IR_REGION) as [E|N]; [exists true; tauto|].
  destruct (Z.eqb_spec (type (node_at g n)) IR_PROJECT) as [E|N2].
  - destruct C as (_ & Ca & _). specialize (Ca n E). destruct (argument g n 0) as [a|]; [|congruence]. eexists. split; [reflexivity|].
    rewrite Bool.orb_true_iff, Bool.andb_true_iff, !Z.eqb_eq. split.
    + intros H. right. split; [exact E|]. exists a. split; [reflexivity|]. tauto.
    + intros [H|(_ & b & Eb & H)]; [congruence|]. injection Eb as <-. tauto.
  - exists false. split; [reflexivity|]. split; [discriminate|]. tauto.
Qed.
Lemma instruction_spec n : (n < count g)%nat -> exists i, node_is_instruction g n = Ok i /\ (i = true <-> instruction g n).
Proof.
  intros L. unfold node_is_instruction, instruction. destruct (Z.eqb_spec (type (node_at g n)) IR_FUNCTION) as [E|N].
  - exists false. split; [reflexivity|]. split; [discriminate|tauto].
  - destruct (control_block n) as (c & Ec & K). rewrite Ec. cbn [bind]. exists (negb c). split; [reflexivity|]. rewrite Bool.negb_true_iff. split.
    + intros ->. split; [exact L|]. split; [exact N|]. intros B. apply K in B. discriminate.
    + intros (_ & _ & B). destruct c; [exfalso; now apply B, K|reflexivity].
Qed.
Lemma slot (n k a : nat) : argument g n k = Some a -> (k < 4)%nat.
Proof. intros E. destruct (Nat.lt_ge_cases k 4) as [|L]; [auto|]. unfold argument in E. rewrite nth_overflow in E by (rewrite (i_len g I); exact L). discriminate. Qed.
Definition own (n : nat) : Prop := instruction g n /\ ~ tied g n /\ ~ is_result g n.
Lemma tied_dec n : tied g n \/ ~ tied g n.
Proof. destruct (pinned g n) eqn:E; [left; now apply pinned_spec|right]. intros T. apply pinned_spec in T. congruence. Qed.
Lemma block_dec n : block_node g n \/ ~ block_node g n.
Proof. destruct (control_block n) as ([|] & _ & K); [left; now apply K|right]. intros B. apply K in B. discriminate. Qed.
Lemma instruction_dec n : instruction g n \/ ~ instruction g n.
Proof.
  unfold instruction. destruct (Nat.lt_ge_cases n (count g)) as [L|L]; [|right; intros [X _]; revert X; apply Nat.le_ngt; exact L]. destruct (Z.eq_dec (type (node_at g n)) IR_FUNCTION); [right; tauto|].
  destruct (block_dec n); tauto.
Qed.
Lemma is_result_dec n : is_result g n \/ ~ is_result g n.
Proof.
  unfold is_result, result_of. destruct (Z.eq_dec (type (node_at g n)) IR_PROJECT) as [E|N]; [|right; intros (m & (E & _) & _); contradiction].
  destruct (argument g n 0) as [m|] eqn:A; [|right; intros (m & (_ & F) & _); discriminate].
  destruct (instruction_dec m) as [Im|Im], (tied_dec m) as [T|T]; first [left; exists m; tauto|right; intros (m' & (_ & F) & Im' & T'); injection F as <-; tauto].
Qed.
Lemma is_result_type n : is_result g n -> type (node_at g n) = IR_PROJECT.
Proof. intros (m & (E & _) & _). exact E. Qed.
Lemma tied_type n : tied g n -> type (node_at g n) <> IR_PROJECT.
Proof. intros [E|[E|E]] F; rewrite E in F; discriminate. Qed.
Lemma result_own m q : result_of g m q -> instruction g m -> ~ tied g m -> own m.
Proof. intros R Im T. split; [exact Im|]. split; [exact T|]. intros X. apply is_result_type in X. exact (wf_results _ _ _ _ wf _ _ R X). Qed.

(** * The users of an instruction *)
Definition customer (n v y : nat) : Prop := (v = n \/ result_of g n v) /\ (exists k, argument g y k = Some v) /\ type (node_at g y) <> IR_PROJECT.
Lemma customers_spec n v y : In (v, y) (customers g n) <-> customer n v y.
Proof.
  unfold customers, customer. rewrite in_flat_map. split.
  - intros (u & Iu & K). apply (use_argument g I) in Iu as (k & Ek). destruct (Z.eqb_spec (type (node_at g u)) IR_PROJECT) as [E|N].
    + apply in_map_iff in K as (x & Ex & Ix). injection Ex as -> ->. apply (use_argument g I) in Ix as (j & Ej).
      assert (k = O) by (eapply (wf_result _ _ _ _ wf); eauto). subst k. split; [right; split; auto|]. split; [eauto|]. intros P.
      assert (j = O) by (eapply (wf_result _ _ _ _ wf); eauto). subst j. apply (wf_results _ _ _ _ wf v y); [split; auto|exact E].
    + destruct K as [K|[]]. injection K as <- <-. split; [auto|]. split; [eauto|exact N].
  - intros ([->|[P A]] & (k & Ek) & N).
    + exists y. split; [apply (use_argument g I); eauto|]. destruct (Z.eqb_spec (type (node_at g y)) IR_PROJECT); [contradiction|]. cbn. auto.
    + exists v. split; [apply (use_argument g I); eauto|]. destruct (Z.eqb_spec (type (node_at g v)) IR_PROJECT); [|contradiction].
      apply in_map_iff. exists y. split; [reflexivity|]. apply (use_argument g I). eauto.
Qed.
Lemma result_instruction n q : instruction g n -> ~ tied g n -> result_of g n q -> instruction g q.
Proof.
  intros (_ & F & B) T [P A]. split; [exact (proj1 (in_range g I _ _ _ A))|]. split; [rewrite P; discriminate|]. intros [X|(_ & a & Ea & X)]; [rewrite P in X; discriminate|].
  rewrite A in Ea. injection Ea as <-. destruct X as [X|[X _]]; [|contradiction]. apply T. right. left. exact X.
Qed.
Lemma customer_rank n v y : instruction g n -> ~ tied g n -> customer n v y -> instruction g y -> ~ tied g y -> (rk y < rk n)%nat.
Proof.
  intros In T ([->|R] & (k & Ek) & _) Iy Ty; unfold rk.
  - assert (X := wf_operands _ _ _ _ wf y k n Ek Iy In Ty). assert (Y := top_ok y (proj1 Iy)). lia.
  - assert (Iv := result_instruction n v In T R). assert (X := wf_operands _ _ _ _ wf y k v Ek Iy Iv Ty). assert (Y := top_ok y (proj1 Iy)).
    destruct R as [P A]. assert (Z := wf_operands _ _ _ _ wf v 0 n A Iv In (fun t => tied_type v t P)). lia.
Qed.

(** * Where the users want the value *)
Definition meets (lca : option nat) (W : nat -> Prop) : Prop :=
  match lca with
  | None => forall c, ~ W c
  | Some b => done idom b /\ (exists c, W c) /\ forall d, anc idom b d <-> forall c, W c -> anc idom c d
  end.
Lemma meets_ext lca (W W' : nat -> Prop) : (forall c, W c <-> W' c) -> meets lca W -> meets lca W'.
Proof.
  intros E. destruct lca as [b|]; cbn.
  - intros (D & (c & Wc) & K). split; [exact D|]. split; [exists c; now apply E|]. intros d. rewrite K. split; intros H x Wx; apply H, E, Wx.
  - intros H c Wc. apply (H c), E, Wc.
Qed.
Lemma meets_add lca W c : meets lca W -> done idom c -> exists l, intersect fuel post idom lca c = Some (Ok l) /\ meets l (fun x => W x \/ x = c).
Proof.
  intros M D. destruct lca as [b|]; cbn [intersect].
  - destruct M as (Db & (e & We) & K).
    destruct (meet_at b c Db D) as (m & Em & Dm & Km). rewrite Em. eexists. split; [reflexivity|].
    split; [exact Dm|]. split; [exists e; auto|]. intros d. rewrite Km, K. split.
    + intros [X Y] x [Wx| ->]; auto.
    + intros H. split; [intros x Wx; apply H; auto|apply H; auto].
  - eexists. split; [reflexivity|]. split; [exact D|]. split; [exists c; auto|]. intros d. split; [|intros H; apply H; auto].
    intros A x [Wx| ->]; [exfalso; exact (M x Wx)|exact A].
Qed.
Definition want (blk : nat -> option nat) (v y : nat) : nat -> Prop := wanted g entry blk v y.
Lemma user_block_ok blk lca W v y : (exists k, argument g y k = Some v) -> (tied g y -> blk y = argument g y 0) -> meets lca W -> instruction g v ->
  exists l, user_block fuel g post idom blk lca v y = Some (Ok l) /\ meets l (fun c => W c \/ want blk v y c).
Proof.
  intros (k & Ek) T M Iv. unfold user_block.
  assert (Skip : (forall c, ~ want blk v y c) -> meets lca (fun c => W c \/ want blk v y c)).
  { intros H. apply (meets_ext lca W); [|exact M]. intros c. split; [auto|]. intros [X|X]; [exact X|exfalso; exact (H c X)]. }
  assert (Phi : phi g y -> exists r, blk y = Some r /\ argument g y 0 = Some r /\ type (node_at g r) = IR_REGION).
  { intros P. destruct (wf_phi _ _ _ _ wf y P) as (r & Er & Tr). exists r. split; [|auto]. rewrite T; [exact Er|left; exact P]. }
  destruct (blk y) as [use|] eqn:Eb.
  2:{ eexists. split; [reflexivity|]. apply Skip. intros c [j c' _ _ E _|r j c' P _ _ _ _]; [rewrite Eb in E; discriminate|]. destruct (Phi P) as (r' & X & _). discriminate. }
  destruct (idom use) as [x|] eqn:Ei.
  2:{ eexists. split; [reflexivity|]. apply Skip. intros c [j c' _ _ E R|r j c' P E R _ _].
      - rewrite Eb in E. injection E as <-. apply reached in R. exact (R Ei).
      - destruct (Phi P) as (r' & X & Y & _). injection X as <-. rewrite E in Y. injection Y as ->. apply reached in R. exact (R Ei). }
  assert (Ru : block_reachable g entry use) by (apply reached; unfold done; congruence).
  destruct (Z.eqb_spec (type (node_at g y)) IR_PHI) as [P|N].
  - destruct (Phi P) as (r & X & Er & Tr). injection X as <-. rewrite Er, Tr. cbn [negb Z.eqb].
    change (IR_REGION =? IR_REGION) with true. cbn [negb].
    assert (Step : forall l V j, meets l V -> exists l', (if is (argument g y (S j)) v then meet_with fuel post idom l (argument g use j) else ok l) = Some (Ok l') /\
      meets l' (fun c => V c \/ argument g y (S j) = Some v /\ argument g use j = Some c)).
    { intros l V j Ml. destruct (is (argument g y (S j)) v) eqn:Es.
      - apply is_spec in Es. destruct (wf_phi_operand _ _ _ _ wf y use j v P Er Ru Es) as (p & Ep & Rp). rewrite Ep. cbn [meet_with].
        destruct (meets_add l V p Ml (proj2 (reached p) Rp)) as (l' & El & K). exists l'. split; [exact El|]. eapply meets_ext; [|exact K]. cbn beta.
        intros c. split; [intros [Vc| ->]; auto|]. intros [Vc|[_ Z]]; [auto|]. right. congruence.
      - exists l. split; [reflexivity|]. apply (meets_ext l V); [|exact Ml]. intros c. split; [auto|]. intros [Vc|[Z _]]; [exact Vc|]. apply is_spec in Z. congruence. }
    destruct (Step lca W 0%nat M) as (l1 & E1 & M1). rewrite E1. cbn [exbind]. destruct (Step l1 _ 1%nat M1) as (l2 & E2 & M2). exists l2. split; [exact E2|].
    eapply meets_ext; [|exact M2]. cbn beta. intros c. split.
    + intros [[Wc|[Z1 Z2]]|[Z1 Z2]]; [auto| |]; right; eapply wanted_there; eauto.
    + intros [Wc|[j c' Np|r j c' _ Er' _ Ej Ec]]; [auto|contradiction|]. rewrite Er in Er'. injection Er' as <-. assert (L := slot _ _ _ Ej).
      destruct j as [|[|[|j]]]; [auto|auto| |lia]. rewrite (wf_phi_size _ _ _ _ wf y P) in Ej. discriminate.
  - destruct (meets_add lca W use M (proj2 (reached use) Ru)) as (l & El & K). exists l. split; [exact El|]. eapply meets_ext; [|exact K]. cbn beta. intros c. split.
    + intros [Wc| ->]; [auto|]. right. eapply wanted_here; eauto.
    + intros [Wc|[j c' _ _ E _|r j c' P _ _ _ _]]; [auto| |contradiction]. right. congruence.
Qed.

(** * The state of the walk: the nodes [P] are being worked on *)
Definition ready (P : list nat) (p : place) (y : nat) : Prop := instruction g y -> ~ tied g y -> marks p y = 11 /\ ~ In y P.
Definition total_want (p : place) (n c : nat) : Prop := exists v y, customer n v y /\ want (block p) v y c.
Record settled_at (P : list nat) (p : place) (n : nat) : Prop := {
  s_ready : forall v y, customer n v y -> ready P p y;
  s_meets : meets (block p n) (total_want p n);
  s_result : forall q, result_of g n q -> block p q = block p n }.
Record good (P : list nat) (p : place) : Prop := {
  g_tied : forall n, tied g n -> block p n = argument g n 0;
  g_none : forall n, ~ tied g n -> marks p n <> 11 -> ~ is_result g n -> block p n = None;
  g_old : forall n, marks p n = visited (node_at g n) \/ marks p n = 11;
  g_mark : forall n, marks p n = 11 -> instruction g n /\ ~ tied g n;
  g_work : forall n, own n -> marks p n = 11 -> In n P \/ settled_at P p n }.
Record extends (K : nat) (p p' : place) : Prop := {
  e_new : forall n, marks p' n = 11 -> marks p n = 11 \/ (rk n < K)%nat;
  e_mark : forall n, marks p n = 11 -> marks p' n = 11;
  e_block : forall n, marks p n = 11 -> ~ is_result g n -> block p' n = block p n }.
Lemma extends_refl K p : extends K p p. Proof. split; auto. Qed.
Lemma extends_trans K p q r : extends K p q -> extends K q r -> extends K p r.
Proof. intros [N A B] [N' A' B']. split; intros; [|auto|rewrite B' by auto; auto]. destruct (N' n H) as [X|X]; auto. Qed.
(** What users want does not change once they are ready. *)
Lemma want_same K P p P' p' v y c : good P p -> good P' p' -> extends K p p' -> type (node_at g y) <> IR_PROJECT -> ready P p y -> want (block p) v y c <-> want (block p') v y c.
Proof.
  intros G G' E N R. assert (Eb : block p' y = block p y).
  { destruct (tied_dec y) as [T|T]; [now rewrite (g_tied _ _ G), (g_tied _ _ G')|]. destruct (instruction_dec y) as [Iy|Iy].
    - destruct (R Iy T) as [My _]. apply (e_block _ _ _ E y My). intros X. apply N. now apply is_result_type.
    - assert (Nr : ~ is_result g y) by (intros X; apply N; now apply is_result_type).
      assert (A1 : block p y = None) by (apply (g_none _ _ G); auto; intros X; apply Iy; apply (g_mark _ _ G); exact X).
      assert (A2 : block p' y = None) by (apply (g_none _ _ G'); auto; intros X; apply Iy; apply (g_mark _ _ G'); exact X). congruence. }
  split; intros [k c' Np A B D|r k c' Pp A D A' B]; [eapply wanted_here; eauto; congruence|eapply wanted_there; eauto|eapply wanted_here; eauto; congruence|eapply wanted_there; eauto].
Qed.
Lemma ready_extends K P p p' y : extends K p p' -> ready P p y -> ready P p' y.
Proof. intros E R Iy T. destruct (R Iy T) as [M N]. split; [apply (e_mark _ _ _ E); exact M|exact N]. Qed.

(** * The blocks written at the end *)
Lemma written (l : list nat) (lca : option nat) (x : nat) : forall blk : nat -> option nat, fold_left (fun blk u => if type (node_at g u) =? IR_PROJECT then upd blk u lca else blk) l blk x =
  if existsb (fun u => (type (node_at g u) =? IR_PROJECT) && Nat.eqb x u) l then lca else blk x.
Proof.
  induction l as [|u l IH]; intros blk; [reflexivity|]. cbn [fold_left existsb]. rewrite IH. destruct (existsb _ l) eqn:E; [now rewrite Bool.orb_true_r|].
  rewrite Bool.orb_false_r. destruct (type (node_at g u) =? IR_PROJECT); [|reflexivity]. cbn [andb]. unfold upd. destruct (Nat.eqb x u); reflexivity.
Qed.
Lemma settle_at p ins lca x : block (settle g p ins lca) x = lca /\ (x = ins \/ result_of g ins x) \/ block (settle g p ins lca) x = block p x /\ x <> ins /\ ~ result_of g ins x.
Proof.
  unfold settle. cbn [block]. unfold upd at 1 3. destruct (Nat.eqb_spec x ins) as [->|N]; [auto|]. rewrite written.
  destruct (existsb _ (uses g ins)) eqn:E.
  - left. split; [reflexivity|]. right. apply existsb_exists in E as (u & Iu & K). apply Bool.andb_true_iff in K as [K1 K2]. apply Z.eqb_eq in K1. apply Nat.eqb_eq in K2. subst u.
    apply (use_argument g I) in Iu as (k & Ek). assert (k = O) by (eapply (wf_result _ _ _ _ wf); eauto). subst k. split; auto.
  - right. split; [reflexivity|]. split; [exact N|]. intros [T A]. assert (X : existsb (fun u => (type (node_at g u) =? IR_PROJECT) && Nat.eqb x u) (uses g ins) = true); [|congruence].
    apply existsb_exists. exists x. split; [apply (use_argument g I); eauto|]. rewrite T, Nat.eqb_refl. reflexivity.
Qed.

(** * schedule_late *)
Definition late (n : nat) : place -> nat -> ex place := schedule_late fuel g post idom n.
Definition works (n K : nat) (P : list nat) (ins : nat) : Prop := instruction g ins -> ~ tied g ins -> (S (rk ins) < n)%nat /\ (rk ins < K)%nat /\ forall x, In x P -> (rk ins < rk x)%nat.
Definition some_want (p : place) (L : list (nat * nat)) (c : nat) : Prop := exists v y, In (v, y) L /\ want (block p) v y c.
Lemma users_late (f : place -> nat -> ex place) (n K : nat) (P : list nat) (ins : nat) : instruction g ins -> ~ tied g ins ->
  (forall p y, (y < count g)%nat -> good P p -> type (node_at g y) <> IR_PROJECT -> works n K P y -> exists p', f p y = Some (Ok p') /\ good P p' /\ extends K p p' /\ ready P p' y) ->
  (forall v y, customer ins v y -> works n K P y) ->
  forall l L p lca, customers g ins = L ++ l -> good P p -> (forall v y, In (v, y) L -> ready P p y) -> meets lca (some_want p L) ->
  exists p' lca', each (schedule_user_late fuel g post idom f) (p, lca) l = Some (Ok (p', lca')) /\ good P p' /\ extends K p p' /\
    (forall v y, In (v, y) (L ++ l) -> ready P p' y) /\ meets lca' (some_want p' (L ++ l)).
Proof.
  intros Ii Ti Hf Hw. induction l as [|[v y] l IH]; intros L p lca E G R M; cbn [each].
  - exists p, lca. split; [reflexivity|]. rewrite app_nil_r. split; [exact G|]. split; [apply extends_refl|]. auto.
  - assert (Cu : customer ins v y) by (apply customers_spec; rewrite E; apply in_or_app; cbn; auto). destruct (proj1 (proj2 Cu)) as (k & Ek).
    destruct (Hf p y (proj1 (in_range g I _ _ _ Ek)) G (proj2 (proj2 Cu)) (Hw v y Cu)) as (p1 & E1 & G1 & X1 & R1). unfold schedule_user_late at 1. cbn [fst snd]. rewrite E1. cbn [exbind].
    assert (M1 : meets lca (some_want p1 L)).
    { eapply meets_ext; [|exact M]. intros c. split; intros (v' & y' & Il & W); exists v', y'; (split; [exact Il|]); (eapply (want_same K P p P p1); eauto);
        (assert (Cu' : customer ins v' y') by (apply customers_spec; rewrite E; apply in_or_app; auto)); apply Cu'. }
    assert (Iv : instruction g v) by (destruct Cu as ([->|Rv] & _); [exact Ii|eapply result_instruction; eauto]).
    destruct (user_block_ok (block p1) lca _ v y (ex_intro _ k Ek) (g_tied _ _ G1 y) M1 Iv) as (l1 & El & Ml). rewrite El. cbn [exbind].
    destruct (IH (L ++ [(v, y)]) p1 l1) as (p2 & l2 & E2 & G2 & X2 & R2 & M2).
    + rewrite <- app_assoc. exact E.
    + exact G1.
    + intros v' y' Il. apply in_app_or in Il as [Il|[Il|[]]]; [eapply ready_extends; eauto|]. injection Il as <- <-. exact R1.
    + eapply meets_ext; [|exact Ml]. intros c. split.
      * intros [(v' & y' & Il & W)|W]; [exists v', y'|exists v, y]; (split; [apply in_or_app; cbn; auto|exact W]).
      * intros (v' & y' & Il & W). apply in_app_or in Il as [Il|[Il|[]]]; [left; exists v', y'; auto|]. injection Il as <- <-. auto.
    + rewrite <- app_assoc in R2, M2. cbn [app] in R2, M2. exists p2, l2. split; [exact E2|]. split; [exact G2|]. split; [eapply extends_trans; eauto|]. auto.
Qed.

Lemma mark_good P p ins : good P p -> instruction g ins -> ~ tied g ins -> marks p ins <> 11 -> good (ins :: P) (Place (upd (marks p) ins 11) (block p)).
Proof.
  intros G Ii Ti Mi. assert (Up : forall n, upd (marks p) ins 11 n = 11 <-> n = ins \/ marks p n = 11) by (intros n; unfold upd; destruct (Nat.eqb_spec n ins); tauto).
  split; cbn [block marks].
  - apply (g_tied _ _ G).
  - intros n T M R. apply (g_none _ _ G n T); [|exact R]. intros X. apply M, Up. auto.
  - intros n. unfold upd. destruct (Nat.eqb n ins); [auto|apply (g_old _ _ G)].
  - intros n M. apply Up in M as [->|M]; [auto|]. exact (g_mark _ _ G n M).
  - intros n O M. apply Up in M as [->|M]; [left; left; reflexivity|]. destruct (g_work _ _ G n O M) as [X|X]; [left; right; exact X|]. right.
    split; [|exact (s_meets _ _ _ X)|exact (s_result _ _ _ X)].
    intros v y Cu Iy Ty. destruct (s_ready _ _ _ X v y Cu Iy Ty) as [My Ny]. cbn [marks]. split; [apply Up; auto|]. intros [->|Z]; contradiction.
Qed.
Lemma settle_good P p ins lca : good (ins :: P) p -> instruction g ins -> ~ tied g ins -> marks p ins = 11 -> ~ In ins P ->
  (forall v y, customer ins v y -> ready (ins :: P) p y) -> meets lca (total_want p ins) ->
  (is_result g ins -> forall m, result_of g m ins -> settled_at (ins :: P) p m -> lca = block p m) ->
  (is_result g ins -> P = []) -> good P (settle g p ins lca).
Proof.
  intros G Ii Ti Mi Np R M Pa Pe. set (p' := settle g p ins lca).
  assert (At : forall x, block p' x = lca /\ (x = ins \/ result_of g ins x) \/ block p' x = block p x /\ x <> ins /\ ~ result_of g ins x) by (intros x; apply settle_at).
  assert (Mk : forall x, marks p' x = marks p x) by reflexivity.
  assert (Same : forall x, ~ is_result g x -> x <> ins -> block p' x = block p x).
  { intros x Nr Nx. destruct (At x) as [[_ [E|E]]|[E _]]; [contradiction| |exact E]. exfalso. apply Nr. exists ins. auto. }
  assert (Wants : forall n v y c, customer n v y -> y <> ins -> want (block p') v y c <-> want (block p) v y c).
  { intros n v y c Cu Ny. assert (Eb : block p' y = block p y) by (apply Same; [|exact Ny]; intros X; apply is_result_type in X; apply (proj2 (proj2 Cu)), X).
    split; intros [k c' Nq A B D|r k c' Pp A D A' B]; [eapply wanted_here; eauto; congruence|eapply wanted_there; eauto|eapply wanted_here; eauto; congruence|eapply wanted_there; eauto]. }
  assert (Ready : forall n v y, customer n v y -> ready (ins :: P) p y -> y <> ins).
  { intros n v y Cu Ry ->. destruct (Ry Ii Ti) as [_ X]. apply X. left. reflexivity. }
  assert (Less : forall y, ready (ins :: P) p y -> ready P p' y).
  { intros y Ry Iy Ty. destruct (Ry Iy Ty) as [A B]. split; [rewrite Mk; exact A|]. intros X. apply B. right. exact X. }
  split.
  - intros n T. rewrite Same; [apply (g_tied _ _ G n T)| |intros ->; contradiction]. intros X. apply is_result_type in X. exact (tied_type n T X).
  - intros n T Mn Nr. rewrite Mk in Mn. rewrite Same; [apply (g_none _ _ G n T Mn Nr)|exact Nr|intros ->; contradiction].
  - intros n. rewrite Mk. apply (g_old _ _ G).
  - intros n Mn. rewrite Mk in Mn. exact (g_mark _ _ G n Mn).
  - intros n O Mn. rewrite Mk in Mn. destruct (Nat.eq_dec n ins) as [->|Nn].
    + right. split.
      * intros v y Cu. apply Less. eapply R; eauto.
      * destruct (At ins) as [[E _]|[_ [X _]]]; [|congruence]. rewrite E. eapply meets_ext; [|exact M]. intros c.
        split; intros (v & y & Cu & W); exists v, y; (split; [exact Cu|]); (eapply (Wants ins v y c); [exact Cu|eapply Ready; eauto|exact W]).
      * intros q Rq. destruct (At q) as [[E _]|[_ [_ X]]]; [|contradiction]. destruct (At ins) as [[E' _]|[_ [X _]]]; congruence.
    + destruct (g_work _ _ G n O Mn) as [[X|X]|X]; [congruence|auto|]. right.
      assert (En : block p' n = block p n) by (apply Same; [apply O|exact Nn]). split.
      * intros v y Cu. apply Less. eapply (s_ready _ _ _ X); eauto.
      * rewrite En. eapply meets_ext; [|exact (s_meets _ _ _ X)]. intros c.
        split; intros (v & y & Cu & W); exists v, y; (split; [exact Cu|]); (eapply (Wants n v y c); [exact Cu|eapply Ready; [exact Cu|eapply (s_ready _ _ _ X); eauto]|exact W]).
      * intros q Rq. rewrite En. destruct (At q) as [[E [->|Rq']]|[E _]].
        -- rewrite E. apply Pa; [exists n; split; [exact Rq|split; apply O]|exact Rq|exact X].
        -- exfalso. destruct Rq as [_ A], Rq' as [_ A']. congruence.
        -- rewrite E. exact (s_result _ _ _ X q Rq).
Qed.

Lemma late_ok : forall n K P p ins, (0 < n)%nat -> (ins < count g)%nat -> good P p -> works n K P ins -> (is_result g ins -> P = []) ->
  exists p', late n p ins = Some (Ok p') /\ good P p' /\ extends K p p' /\ (~ is_result g ins -> ready P p' ins).
Proof.
  induction n as [|n IH]; intros K P p ins Ln L G Wk Re; [lia|]. unfold late. cbn [schedule_late].
  assert (Stop : (instruction g ins -> ~ tied g ins -> ~ is_result g ins -> marks p ins = 11) ->
    exists p', ok p = Some (Ok p') /\ good P p' /\ extends K p p' /\ (~ is_result g ins -> ready P p' ins)).
  { intros Y. exists p. split; [reflexivity|]. split; [exact G|]. split; [apply extends_refl|]. intros Nr Ii Ti. split; [auto|]. intros X. destruct (Wk Ii Ti) as (_ & _ & Z). specialize (Z ins X). lia. }
  destruct (Z.eqb_spec (marks p ins) 11) as [M|M]; [cbn [orb]; apply Stop; auto|]. cbn [orb].
  destruct (block p ins) as [b|] eqn:Eb.
  { apply Stop. intros _ T Nr. exfalso. rewrite (g_none _ _ G ins T M Nr) in Eb. discriminate. }
  destruct (instruction_spec ins L) as (i & Ei & Ki). rewrite Ei. cbn [exbind]. destruct i; cbn [negb].
  2:{ apply Stop. intros X. apply Ki in X. discriminate. }
  assert (Ii : instruction g ins) by (apply Ki; reflexivity).
  assert (Ti : ~ tied g ins \/ tied g ins) by (destruct (tied_dec ins); auto). destruct Ti as [Ti|Ti].
  2:{ exfalso. rewrite (g_tied _ _ G ins Ti) in Eb. destruct Ti as [T|[T|T]].
      - destruct (wf_phi _ _ _ _ wf ins T) as (r & Er & _). congruence.
      - destruct C as (_ & _ & _ & _ & Cf & _). exact (Cf ins T Eb).
      - exact (wf_return _ _ _ _ wf ins T Eb). }
  destruct (Wk Ii Ti) as (Rk & Rk' & Lo).
  assert (Np : ~ In ins P) by (intros X; specialize (Lo ins X); lia).
  assert (Lw : forall v y, customer ins v y -> works n (rk ins) (ins :: P) y).
  { intros v y Cu Iy Ty. assert (X := customer_rank ins v y Ii Ti Cu Iy Ty). split; [lia|]. split; [lia|]. intros x [<-|Ix]; [exact X|]. specialize (Lo x Ix). lia. }
  destruct (users_late (late n) n (rk ins) (ins :: P) ins Ii Ti) with (l := customers g ins) (L := @nil (nat * nat)) (p := Place (upd (marks p) ins 11) (block p)) (lca := @None nat)
    as (p1 & lca & E1 & G1 & X1 & R1 & M1).
  - intros q y Ly Gq Ny Wy. destruct (IH (rk ins) (ins :: P) q y) as (q' & Eq & Gq' & Xq & Rq); [lia|exact Ly|exact Gq|exact Wy| |].
    + intros X. apply is_result_type in X. contradiction.
    + exists q'. split; [exact Eq|]. split; [exact Gq'|]. split; [exact Xq|]. apply Rq. intros X. apply is_result_type in X. contradiction.
  - exact Lw.
  - reflexivity.
  - apply mark_good; auto.
  - intros v y [].
  - cbn. intros c (v & y & [] & _).
  - cbn [app] in R1, M1. unfold late in E1. rewrite E1. cbn [exbind]. eexists. split; [reflexivity|].
    assert (Mi : marks p1 ins = 11) by (apply (e_mark _ _ _ X1); cbn [marks]; apply upd_eq).
    assert (Ra : forall v y, customer ins v y -> ready (ins :: P) p1 y) by (intros v y Cu; apply (R1 v y); now apply customers_spec).
    assert (Mt : meets lca (total_want p1 ins)).
    { eapply meets_ext; [|exact M1]. intros c. split; intros (v & y & X & W); exists v, y; (split; [now apply customers_spec|exact W]). }
    assert (X0 : forall x, marks p x = 11 -> x <> ins) by (intros x Mx ->; contradiction).
    assert (Gs : good P (settle g p1 ins lca)).
    { apply settle_good; auto. intros Rs m Rm Sm.
      (* the instruction whose result this is was settled without a block *)
      destruct (Rs) as (m' & Rm' & Im & Tm). assert (m' = m) by (destruct Rm as [_ A], Rm' as [_ A']; congruence). subst m'.
      assert (Om := result_own m ins Rm Im Tm). assert (Nm : m <> ins). { intros ->. destruct Rm as [A _]. exact (wf_results _ _ _ _ wf ins ins Rm' A). }
      assert (Em : block p1 ins = block p1 m) by (exact (s_result _ _ _ Sm ins Rm)).
      assert (Ep : block p1 m = None).
      { destruct (Z.eq_dec (marks p m) 11) as [Mm|Mm].
        - rewrite (e_block _ _ _ X1 m); [|cbn [marks]; rewrite upd_ne by auto; exact Mm|apply Om]. cbn [block].
          destruct (g_work _ _ G m Om Mm) as [Z|Z]; [rewrite (Re Rs) in Z; destruct Z|]. rewrite <- (s_result _ _ _ Z ins Rm). exact Eb.
        - (* m was not reached meanwhile: only users of the result were *)
          apply (g_none _ _ G1 m); [exact Tm| |apply Om]. intros Z. destruct (e_new _ _ _ X1 m Z) as [Y|Y]; [cbn [marks] in Y; rewrite upd_ne in Y by auto; contradiction|].
          assert (O := wf_operands _ _ _ _ wf ins 0 m (proj2 Rm) Ii Im Ti). assert (Y1 := top_ok ins L). unfold rk in Y. lia. }
      rewrite Ep. assert (Sm' := s_meets _ _ _ Sm). rewrite Ep in Sm'. cbn [meets] in Sm'. destruct lca as [b|]; [|reflexivity]. exfalso.
      destruct Mt as (_ & (c & v & y & Cu & W) & _). apply (Sm' c). exists v, y. split; [|exact W]. destruct Cu as ([->|Rv] & Ky & Ny).
      - split; [right; exact Rm|]. auto.
      - exfalso. apply (wf_results _ _ _ _ wf ins v Rv). apply Rm. }
    split; [exact Gs|]. split.
    + split.
      * intros x Mx. change (marks (settle g p1 ins lca) x) with (marks p1 x) in Mx. destruct (e_new _ _ _ X1 x Mx) as [Z|Z]; [|right; lia].
        cbn [marks] in Z. unfold upd in Z. destruct (Nat.eqb_spec x ins) as [->|]; [right; exact Rk'|auto].
      * intros x Mx. change (marks (settle g p1 ins lca) x) with (marks p1 x). apply (e_mark _ _ _ X1). cbn [marks]. unfold upd. destruct (Nat.eqb x ins); auto.
      * intros x Mx Nr. assert (Nx := X0 x Mx). assert (Eq : block p1 x = block p x) by (apply (e_block _ _ _ X1 x); [cbn [marks]; rewrite upd_ne by auto; exact Mx|exact Nr]). rewrite <- Eq.
        destruct (settle_at p1 ins lca x) as [[_ [Z|Z]]|[Z _]]; [contradiction| |exact Z]. exfalso. apply Nr. exists ins. auto.
    + intros Nr _ _. split; [exact Mi|exact Np].
Qed.

(** * All instructions *)
Lemma late_all_ok n : (top + 2 < n)%nat -> forall l L p, L ++ l = seq 0 (count g) -> good [] p -> (forall x, In x L -> own x -> marks p x = 11) ->
  exists p', each (fun p ins => let! i := Some (node_is_instruction g ins) in if negb i then ok p else schedule_late fuel g post idom n p ins) p l = Some (Ok p') /\
    good [] p' /\ forall x, In x (L ++ l) -> own x -> marks p' x = 11.
Proof.
  intros Ln. induction l as [|x l IH]; intros L p E G M; cbn [each].
  - exists p. split; [reflexivity|]. rewrite app_nil_r. auto.
  - assert (Lx : (x < count g)%nat). { assert (X : In x (seq 0 (count g))) by (rewrite <- E; apply in_or_app; cbn; auto). apply in_seq in X. lia. }
    destruct (instruction_spec x Lx) as (i & Ei & Ki). rewrite Ei. cbn [exbind].
    assert (St : exists p1, (if negb i then ok p else schedule_late fuel g post idom n p x) = Some (Ok p1) /\ good [] p1 /\ forall y, In y (L ++ [x]) -> own y -> marks p1 y = 11).
    { destruct i; cbn [negb].
      - destruct (late_ok n (S (rk x)) [] p x) as (p1 & E1 & G1 & X1 & R1); [lia|exact Lx|exact G| |reflexivity|].
        + intros _ _. unfold rk. split; [lia|]. split; [lia|]. intros y [].
        + exists p1. split; [exact E1|]. split; [exact G1|]. intros y Iy Oy. apply in_app_or in Iy as [Iy|[<-|[]]]; [apply (e_mark _ _ _ X1); auto|].
          destruct Oy as (A & B & D). exact (proj1 (R1 D A B)).
      - exists p. split; [reflexivity|]. split; [exact G|]. intros y Iy Oy. apply in_app_or in Iy as [Iy|[<-|[]]]; [auto|].
        destruct Oy as (A & _). apply Ki in A. discriminate. }
    destruct St as (p1 & E1 & G1 & M1). rewrite E1. cbn [exbind]. destruct (IH (L ++ [x]) p1) as (p2 & E2 & G2 & M2); [rewrite <- app_assoc; exact E|exact G1|exact M1|].
    exists p2. split; [exact E2|]. split; [exact G2|]. rewrite <- app_assoc in M2. exact M2.
Qed.
Lemma pins_good : good [] (pins g).
Proof.
  assert (F : forall n, marks (pins g) n <> 11) by (intros n; apply (wf_fresh _ _ _ _ wf n)).
  split; cbn [pins block marks].
  - intros n T. apply pinned_spec in T. now rewrite T.
  - intros n T _ _. destruct (pinned g n) eqn:E; [|reflexivity]. apply pinned_spec in E. contradiction.
  - intros n. auto.
  - intros n M. exfalso. exact (F n M).
  - intros n _ M. exfalso. exact (F n M).
Qed.
Theorem placed_ok n : (top + 2 < n)%nat -> exists p, late_all fuel g post idom n (pins g) = Some (Ok p) /\
  (forall x, tied g x -> block p x = argument g x 0) /\
  (forall x, own x -> meets (block p x) (total_want p x)) /\
  (forall x q, result_of g x q -> instruction g x -> ~ tied g x -> block p q = block p x) /\
  (forall x, ~ instruction g x -> block p x = None) /\ (forall x, marks p x <> 5).
Proof.
  intros Ln. destruct (late_all_ok n Ln (seq 0 (count g)) [] (pins g) eq_refl pins_good) as (p & E & G & M); [intros x []|].
  assert (S : forall x, own x -> settled_at [] p x).
  { intros x O. destruct (g_work _ _ G x O) as [[]|Z]; [|exact Z]. apply M; [|exact O]. cbn [app]. apply in_seq. destruct O as ((L & _) & _). lia. }
  exists p. split; [exact E|]. split; [exact (g_tied _ _ G)|]. split; [intros x O; exact (s_meets _ _ _ (S x O))|]. split.
  - intros x q R Ix Tx. apply (s_result _ _ _ (S x (result_own x q R Ix Tx)) q R).
  - split.
    + intros x Nx. destruct (Nat.lt_ge_cases x (count g)) as [L|L].
      * assert (Nr : ~ is_result g x) by (intros (m & Rm & Im & Tm); apply Nx; exact (result_instruction m x Im Tm Rm)).
        destruct (tied_dec x) as [T|T].
        -- exfalso. apply Nx. split; [exact L|]. split; [intros F; destruct T as [T|[T|T]]; rewrite T in F; discriminate|].
           intros [B|(B & _)]; destruct T as [T|[T|T]]; rewrite T in B; discriminate.
        -- apply (g_none _ _ G x T); [|exact Nr]. intros Z. apply Nx. apply (g_mark _ _ G x Z).
      * assert (An : forall k, argument g x k = None) by (intros k; unfold argument; rewrite (proj2 (i_new g I x L)); cbn; do 4 (destruct k; [reflexivity|]); destruct k; reflexivity).
        destruct (tied_dec x) as [T|T]; [rewrite (g_tied _ _ G x T); apply An|]. apply (g_none _ _ G x T).
        -- intros Z. apply Nx. apply (g_mark _ _ G x Z).
        -- intros (m & (_ & A) & _). rewrite An in A. discriminate.
    + intros x. destruct (g_old _ _ G x) as [-> | ->]; [apply (wf_fresh _ _ _ _ wf x)|discriminate].
Qed.
End Placement.
