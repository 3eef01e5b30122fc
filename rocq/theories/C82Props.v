(** C82: phis with one operand. *)
From Verif Require Import Base Fuel IR IRProofs C27Props Peephole PeepholeSpec PeepholeProofs.
Local Open Scope Z_scope.
Local Open Scope list_scope.

(** On every graph the compiler can build, complete as it is when the pass runs, the pass
    ends; the nodes stay what they are; every operand of every node has the value it had,
    whatever the values are, as long as phis with one operand have its value; and no node
    uses such a phi any more, unless it is its own operand. *)
Theorem C82_peephole : forall fuel h g, run fuel empty h = Some (Ok g) -> finished g ->
  exists g', optimize_peephole fuel g = Some (Ok g') /\
    (count g' = count g /\ forall n, type (node_at g' n) = type (node_at g n) /\ size (node_at g' n) = size (node_at g n) /\ number (node_at g' n) = number (node_at g n)) /\
    (forall (V : Type) (val : nat -> V), consistent g val -> same_operands val g g') /\
    (forall n r, one_operand g' n r -> r <> n -> forall m j, argument g' m j <> Some n) /\
    (forall a b, count_occ Nat.eq_dec (uses g' a) b = count_occ onat_dec (arguments (node_at g' b)) (Some a)).
Proof.
  intros fuel h g H F. apply run_grows in H as [I _]; [|apply inv_empty]. set (l := rev (filter (fun n => negb (type (node_at g n) =? IR_DEAD)) (seq 0 (count g)))).
  destruct (all_steps fuel l g []) as (g' & E & I' & F' & ((C & S) & _ & K) & D); auto.
  { rewrite app_nil_r. apply NoDup_rev, NoDup_filter, seq_NoDup. }
  { intros n []. }
  exists g'. split; [exact E|]. split; [split; [exact C|intros n; destruct (S n) as (S1 & S2 & S3 & _); auto]|].
  split; [intros V val CV; exact (proj2 (K V val CV))|]. split; [|intros a b; apply (i_uses g' I')].
  intros n r O N. assert (L : (n < count g)%nat) by (destruct O as (_ & [(X & _)|(_ & X)]); destruct (in_range g' I' _ _ _ X) as (? & _); lia).
  destruct (D n) with (r := r) as [->|U]; [|exact O|congruence|exact U].
  rewrite app_nil_r. unfold l. rewrite <- in_rev. apply filter_In. split; [apply in_seq; lia|].
  destruct O as (T & _). destruct (S n) as (S1 & _). rewrite <- S1, T. reflexivity.
Qed.
Print Assumptions C82_peephole.

(** A chain of two such phis, a phi of itself, and a phi with two operands. *)
Definition chain : list op := [
  New IR_FUNCTION 0 0; New IR_REGION 0 0 (* 1 *); SetArgument 1 0 (Some 0%nat); SealBlock 1;
  New 0 4 0 (* 2 *);
  New IR_PHI 4 0 (* 3 *); SetArgument 3 0 (Some 1%nat); SetArgument 3 1 (Some 2%nat);
  New 0 4 0 (* 4 *); SetArgument 4 0 (Some 3%nat);
  New IR_PHI 4 0 (* 5 *); SetArgument 5 0 (Some 1%nat); SetArgument 5 2 (Some 3%nat);
  New 0 4 0 (* 6 *); SetArgument 6 0 (Some 5%nat); SetArgument 6 1 (Some 4%nat);
  New IR_PHI 4 0 (* 7 *); SetArgument 7 0 (Some 1%nat); SetArgument 7 1 (Some 7%nat);
  New IR_PHI 4 0 (* 8 *); SetArgument 8 0 (Some 1%nat); SetArgument 8 1 (Some 5%nat); SetArgument 8 2 (Some 4%nat)].
Definition chained : graph := Eval vm_compute in match run 20 empty chain with Some (Ok g) => g | _ => empty end.
Example C82_hypotheses : run 20 empty chain = Some (Ok chained) /\ finished chained /\ one_operand chained 5 3 /\ one_operand chained 3 2 /\
  consistent chained (fun n => match n with 3%nat | 5%nat => 2%nat | _ => n end).
Proof.
  split; [vm_compute; reflexivity|]. split; [|split; [|split]].
  - split; intros n H.
    + do 9 (destruct n as [|n]; [first [discriminate H|reflexivity]|]). discriminate H.
    + exfalso. do 9 (destruct n as [|n]; [discriminate H|]). discriminate H.
  - split; [reflexivity|]. right. split; reflexivity.
  - split; [reflexivity|]. left. split; reflexivity.
  - intros n r (T & Q). do 9 (destruct n as [|n]; [first [discriminate T|destruct Q as [(Q1 & Q2)|(Q1 & Q2)]; first [discriminate Q1|discriminate Q2|injection Q1 as <-; reflexivity|injection Q2 as <-; reflexivity]]|]). discriminate T.
Qed.
Example C82_run : match optimize_peephole 20 chained with
  | Some (Ok g) => argument g 6 0 = Some 2%nat /\ argument g 6 1 = Some 4%nat /\ argument g 4 0 = Some 2%nat /\ argument g 8 1 = Some 2%nat /\ uses g 3 = [] /\ uses g 7 = [7%nat]
  | _ => False end.
Proof. vm_compute. auto 10. Qed.
