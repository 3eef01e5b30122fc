(** Proofs for C82. *)
From Verif Require Import Base Fuel IR IRProofs Peephole PeepholeSpec.
Local Open Scope Z_scope.
Local Open Scope list_scope.

Lemma self_slots fuel o use k : forall g j, (j + k <= IR_MAX)%nat -> replace_slots fuel g use o (Some o) j k = ok g.
Proof.
  induction k as [|k IH]; intros g j L; [reflexivity|]. cbn [replace_slots]. destruct (argument g use j) as [p|] eqn:E.
  - destruct (Nat.eqb_spec p o) as [->|N].
    + unfold node_set_argument. rewrite E, Nat.eqb_refl. destruct (Nat.ltb_spec j IR_MAX); [|lia]. cbn. apply IH. lia.
    + cbn. apply IH. lia.
  - cbn. apply IH. lia.
Qed.
Lemma self_uses fuel g o : forall i, (i <= length (buf (node_at g o)))%nat -> replace_uses fuel g o (Some o) i = ok g.
Proof.
  induction i as [|i IH]; intros L; [reflexivity|]. cbn [replace_uses]. destruct (nth_error (buf (node_at g o)) i) as [u|] eqn:E.
  - rewrite self_slots by (unfold IR_MAX; lia). cbn. apply IH. lia.
  - apply nth_error_None in E. lia.
Qed.

Definition keeps (g g' : graph) : Prop :=
  same_nodes g g' /\ (forall n i, argument g' n i = None <-> argument g n i = None) /\
  forall V (val : nat -> V), consistent g val -> consistent g' val /\ same_operands val g g'.
Lemma keeps_refl g : keeps g g.
Proof. split; [apply nodes_refl|]. split; [tauto|]. intros V val C. split; [exact C|]. intros n i. reflexivity. Qed.
Lemma keeps_trans a b c : keeps a b -> keeps b c -> keeps a c.
Proof.
  intros (S1 & N1 & K1) (S2 & N2 & K2). split; [eapply nodes_trans; eauto|]. split; [intros n i; rewrite N2; apply N1|].
  intros V val C. destruct (K1 V val C) as [C1 O1]. destruct (K2 V val C1) as [C2 O2]. split; [exact C2|]. intros n i. rewrite O2. apply O1.
Qed.
Lemma replace_keeps g g' o r : one_operand g o r -> same_nodes g g' ->
  (forall m j, argument g' m j = (if onat_dec (argument g m j) (Some o) then Some r else argument g m j)) -> keeps g g'.
Proof.
  intros O S A. split; [exact S|]. split.
  - intros n i. rewrite A. destruct (onat_dec (argument g n i) (Some o)) as [E|]; [rewrite E; split; discriminate|tauto].
  - intros V val C. assert (SO : same_operands val g g').
    { intros n i. rewrite A. destruct (onat_dec (argument g n i) (Some o)) as [E|]; [|reflexivity]. rewrite E. cbn. rewrite (C o r O). reflexivity. }
    split; [|exact SO]. intros n q (T & Q). destruct S as [_ S]. destruct (S n) as (T' & _). rewrite T' in T.
    assert (X : forall i a, argument g' n i = Some a -> exists b, argument g n i = Some b /\ val a = val b).
    { intros i a E. pose proof (SO n i) as P. rewrite E in P. destruct (argument g n i) as [b|]; [|discriminate]. injection P as P. exists b. auto. }
    assert (Y : forall i, argument g' n i = None -> argument g n i = None).
    { intros i E. pose proof (SO n i) as P. rewrite E in P. destruct (argument g n i); [discriminate|reflexivity]. }
    destruct Q as [(E1 & E2)|(E1 & E2)].
    + destruct (X _ _ E1) as (b & Eb & ->). apply C. split; [exact T|]. left. auto.
    + destruct (X _ _ E2) as (b & Eb & ->). apply C. split; [exact T|]. right. auto.
Qed.

(** A phi that has been looked at is used no more, or is its own operand. *)
Definition settled (g : graph) (n : nat) : Prop := forall r, one_operand g n r -> r = n \/ forall m j, argument g m j <> Some n.
Lemma settled_replace g g' o r n : one_operand g o r -> n <> o -> same_nodes g g' ->
  (forall m j, argument g' m j = (if onat_dec (argument g m j) (Some o) then Some r else argument g m j)) -> settled g n -> settled g' n.
Proof.
  intros O N [_ S] A ST q (T & Q). destruct (S n) as (T' & _). rewrite T' in T.
  assert (U : (forall m j, argument g m j <> Some n) -> forall m j, argument g' m j <> Some n).
  { intros U m j. rewrite A. destruct (onat_dec (argument g m j) (Some o)); [|apply U]. intros E. injection E as ->.
    destruct O as (_ & [(E & _)|(_ & E)]); exact (U _ _ E). }
  assert (G : forall x, one_operand g n x -> (forall i, argument g n i = Some x -> argument g' n i = Some q -> True) -> x = n -> forall i, argument g n i = Some x -> argument g' n i = Some n).
  { intros x _ _ -> i E. rewrite A, E. destruct (onat_dec (Some n) (Some o)); [congruence|reflexivity]. }
  assert (Y : forall i, argument g' n i = None -> argument g n i = None).
  { intros i E. rewrite A in E. destruct (onat_dec (argument g n i) (Some o)); [discriminate|exact E]. }
  assert (X : forall i a, argument g' n i = Some a -> exists b, argument g n i = Some b).
  { intros i a E. rewrite A in E. destruct (onat_dec (argument g n i) (Some o)) as [E'|]; eauto. }
  destruct Q as [(E1 & E2)|(E1 & E2)].
  - destruct (X _ _ E1) as (b & Eb). assert (OB : one_operand g n b) by (split; [exact T|left; auto]). destruct (ST b OB) as [Eq|Un]; [|right; exact (U Un)].
    left. pose proof (G b OB (fun _ _ _ => I) Eq _ Eb) as E. congruence.
  - destruct (X _ _ E2) as (b & Eb). assert (OB : one_operand g n b) by (split; [exact T|right; auto]). destruct (ST b OB) as [Eq|Un]; [|right; exact (U Un)].
    left. pose proof (G b OB (fun _ _ _ => I) Eq _ Eb) as E. congruence.
Qed.
Lemma one_step fuel g n : Inv g -> finished g -> type (node_at g n) = IR_PHI ->
  exists g', peephole_phi fuel g n = Some (Ok g') /\ Inv g' /\ finished g' /\ keeps g g' /\ settled g' n /\ forall m, m <> n -> settled g m -> settled g' m.
Proof.
  intros I F T. assert (R : forall r, one_operand g n r -> exists g', ir_replace_node fuel g n (Some r) = Some (Ok g') /\ Inv g' /\ finished g' /\ keeps g g' /\ settled g' n /\ forall m, m <> n -> settled g m -> settled g' m).
  { intros r O. destruct (Nat.eq_dec n r) as [<-|N].
    - exists g. split; [apply self_uses, (i_buf g I)|]. split; [exact I|]. split; [exact F|]. split; [apply keeps_refl|]. split; [|auto].
      intros q (_ & Q). left. destruct O as (_ & O). destruct O as [(? & ?)|(? & ?)], Q as [(? & ?)|(? & ?)]; congruence.
    - assert (L : (r < count g)%nat) by (destruct O as (_ & [(E & _)|(_ & E)]); destruct (in_range g I _ _ _ E) as (? & ? & ?); lia).
      destruct (replace_finished fuel g n r I F N L) as (g' & E & I' & S & F' & A). exists g'. split; [exact E|]. split; [exact I'|]. split; [exact F'|].
      split; [exact (replace_keeps _ _ _ _ O S A)|]. split; [|intros m Nm; exact (settled_replace _ _ _ _ _ O Nm S A)].
      intros q _. right. intros m j. rewrite A. destruct (onat_dec (argument g m j) (Some n)); congruence. }
  unfold peephole_phi. destruct (argument g n 1) as [a|] eqn:E1, (argument g n 2) as [b|] eqn:E2.
  - exists g. split; [reflexivity|]. split; [exact I|]. split; [exact F|]. split; [apply keeps_refl|]. split; [|auto]. intros r (_ & [(? & ?)|(? & ?)]); congruence.
  - apply R. split; [exact T|]. left. auto.
  - apply R. split; [exact T|]. right. auto.
  - exists g. split; [reflexivity|]. split; [exact I|]. split; [exact F|]. split; [apply keeps_refl|]. split; [|auto]. intros r (_ & [(? & ?)|(? & ?)]); congruence.
Qed.
Lemma all_steps fuel : forall l g done, NoDup (l ++ done) -> Inv g -> finished g -> (forall n, In n done -> settled g n) ->
  exists g', peephole_nodes fuel g l = Some (Ok g') /\ Inv g' /\ finished g' /\ keeps g g' /\ forall n, In n (l ++ done) -> settled g' n.
Proof.
  induction l as [|n l IH]; intros g done ND I F D; cbn [peephole_nodes].
  - exists g. split; [reflexivity|]. split; [exact I|]. split; [exact F|]. split; [apply keeps_refl|exact D].
  - assert (ST : exists g1, (if type (node_at g n) =? IR_PHI then peephole_phi fuel g n else ok g) = Some (Ok g1) /\ Inv g1 /\ finished g1 /\ keeps g g1 /\ forall m, In m (n :: done) -> settled g1 m).
    { assert (NN : ~ In n done) by (intros X; inversion ND; subst; match goal with Z : ~ In n (l ++ done) |- _ => apply Z end; apply in_or_app; right; exact X).
      destruct (Z.eqb_spec (type (node_at g n)) IR_PHI) as [T|T].
      - destruct (one_step fuel g n I F T) as (g1 & E & I1 & F1 & K1 & S1 & S2). exists g1. split; [exact E|]. split; [exact I1|]. split; [exact F1|]. split; [exact K1|].
        intros m [<-|M]; [exact S1|]. apply S2; [congruence|exact (D m M)].
      - exists g. split; [reflexivity|]. split; [exact I|]. split; [exact F|]. split; [apply keeps_refl|]. intros m [<-|M]; [intros r (X & _); contradiction|exact (D m M)]. }
    destruct ST as (g1 & -> & I1 & F1 & K1 & D1).
    assert (ND' : NoDup (l ++ n :: done)) by (apply NoDup_Add with (a := n) (l := l ++ done); [apply Add_app|]; inversion ND; auto).
    destruct (IH g1 (n :: done) ND' I1 F1 D1) as (g' & E & I' & F' & K' & D'). exists g'. split; [exact E|]. split; [exact I'|]. split; [exact F'|]. split; [eapply keeps_trans; eauto|].
    intros m M. apply D'. apply in_or_app. cbn [app In] in M. destruct M as [->|M]; [right; left; reflexivity|]. apply in_app_iff in M. destruct M; [left|right; right]; assumption.
Qed.
