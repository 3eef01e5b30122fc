(** C56: dead code removal. *)
From Verif Require Import Base Fuel IR IRProofs RemoveDead RemoveDeadSpec RemoveDeadProofs C27Props.

(** On every complete graph the pass ends. Nodes that a reachable return or region depends
    on are as they were, projections are as they were, every other node is dead and has no
    arguments. No needed node refers to a dead one, use lists still match arguments. *)
Theorem C56_dead_code_partial (fuel fuel' : nat) (h : list op) (g : graph) :
  run fuel empty h = Some (Ok g) -> complete_graph g -> (count g < fuel')%nat ->
  exists g', optimize_remove_dead fuel' g = Some (Ok g') /\ count g' = count g /\
    (forall n, needed g n -> type (node_at g' n) = type (node_at g n) /\ size (node_at g' n) = size (node_at g n) /\ number (node_at g' n) = number (node_at g n) /\
       arguments (node_at g' n) = arguments (node_at g n) /\ projects (node_at g' n) = projects (node_at g n)) /\
    (forall n, (n < count g)%nat -> ~ needed g n -> type (node_at g n) <> IR_PROJECT -> type (node_at g' n) = IR_DEAD /\ forall i, argument g' n i = None) /\
    (forall n, ~ needed g n -> type (node_at g n) = IR_PROJECT -> type (node_at g' n) = IR_PROJECT /\ arguments (node_at g' n) = arguments (node_at g n)) /\
    (forall n i x, needed g n -> argument g' n i = Some x -> needed g x) /\
    (forall a b, count_occ Nat.eq_dec (uses g' a) b = count_occ onat_dec (arguments (node_at g' b)) (Some a)).
Proof.
  intros H W F. apply run_grows in H as [I _]; [|apply inv_empty]. destruct (remove_dead_spec g I W fuel' F) as (g' & E & I' & C & D & K).
  exists g'. split; [exact E|]. split; [exact C|]. split; [intros n N; apply K; auto|]. split; [exact D|]. split; [|split].
  - intros n _ T. destruct (K n (or_intror (or_introl T))) as (K1 & _ & _ & K4 & _). split; congruence.
  - intros n i x N A. destruct (K n (or_introl N)) as (_ & _ & _ & K4 & _). unfold argument in A. rewrite K4 in A.
    destruct N as (r & R & T & Dp). exists r. split; [auto|]. split; [auto|]. eapply depends_argument; eauto.
  - intros a b. apply (i_uses g' I').
Qed.
Print Assumptions C56_dead_code_partial.

(** int f(void) { for (;;) *p = 1; } as the parser builds it: a function, its first block and
    state, the loop region, the phi of its state, the address and the store. *)
Definition endless : list op := [
  New IR_FUNCTION 0 0; New IR_PROJECT 0 0; SetArgument 1 0 (Some 0%nat); New IR_PROJECT 0 3; SetArgument 2 0 (Some 0%nat); WriteState 1 2;
  New IR_REGION 0 0 (* 3 *); SetArgument 3 0 (Some 1%nat); New 0 8 0 (* 4 *); ReadState 3 (* 5 *);
  New IR_STORE 0 0 (* 6 *); SetArgument 6 0 (Some 4%nat); SetArgument 6 1 (Some 4%nat); SetArgument 6 2 (Some 5%nat); WriteState 3 6;
  SetArgument 3 1 (Some 3%nat)].
Definition endless_graph : graph := Eval vm_compute in match run 20 empty endless with Some (Ok g) => g | _ => empty end.
Definition endless_after : graph := Eval vm_compute in match optimize_remove_dead 20 endless_graph with Some (Ok g) => g | _ => empty end.
Lemma endless_complete : complete_graph endless_graph.
Proof.
  split; [|split; [|split; [|split]]].
  - intros n. do 7 (destruct n as [|n]; [cbn; solve [auto|discriminate]|]). discriminate.
  - intros n. do 7 (destruct n as [|n]; [cbn; solve [discriminate|split; [lia|discriminate]]|]). discriminate.
  - intros n. do 7 (destruct n as [|n]; [cbn; solve [discriminate|intros _; exists 1%nat; split; [reflexivity|lia]]|]). discriminate.
  - intros n i. do 7 (destruct n as [|n]; [discriminate|]). discriminate.
  - intros n. do 7 (destruct n as [|n]; [cbn; split; discriminate|]). cbn. split; discriminate.
Qed.
(** The store at the end of a reachable block is removed. *)
Theorem C56_effects_refuted : exists h g block s g',
  run 20 empty h = Some (Ok g) /\ complete_graph g /\ reachable g block /\ state (node_at g block) = Some s /\ type (node_at g s) = IR_STORE /\
  optimize_remove_dead 20 g = Some (Ok g') /\ type (node_at g' s) = IR_DEAD.
Proof.
  exists endless, endless_graph, 3%nat, 6%nat, endless_after. split; [vm_compute; reflexivity|]. split; [exact endless_complete|]. split.
  - apply reachable_flow with 1%nat.
    + apply reachable_entry with O; [cbn; lia|reflexivity|reflexivity].
    + apply flows_block; vm_compute; auto.
  - vm_compute. auto.
Qed.
Print Assumptions C56_effects_refuted.

(** int f(void) { if (c) ; } without the joining region: the branch is dead, its
    projections are not and still refer to it. *)
Definition branch : list op := [
  New IR_FUNCTION 0 0; New IR_PROJECT 0 0; SetArgument 1 0 (Some 0%nat); New IR_PROJECT 0 3; SetArgument 2 0 (Some 0%nat); WriteState 1 2;
  New 0 4 0 (* 3 *); New IR_IF 0 0 (* 4 *); SetArgument 4 0 (Some 1%nat); SetArgument 4 1 (Some 3%nat);
  New IR_PROJECT 0 1 (* 5 *); SetArgument 5 0 (Some 4%nat); New IR_PROJECT 0 0 (* 6 *); SetArgument 6 0 (Some 4%nat)].
Definition branch_graph : graph := Eval vm_compute in match run 20 empty branch with Some (Ok g) => g | _ => empty end.
Definition branch_after : graph := Eval vm_compute in match optimize_remove_dead 20 branch_graph with Some (Ok g) => g | _ => empty end.
Lemma branch_complete : complete_graph branch_graph.
Proof.
  split; [|split; [|split; [|split]]].
  - intros n. do 7 (destruct n as [|n]; [cbn; solve [auto|discriminate]|]). discriminate.
  - intros n. do 7 (destruct n as [|n]; [cbn; solve [discriminate|split; [lia|discriminate]]|]). discriminate.
  - intros n. do 7 (destruct n as [|n]; [cbn; solve [discriminate|intros _; exists 1%nat; split; [reflexivity|lia]]|]). discriminate.
  - intros n i T L. do 4 (destruct n as [|n]; [discriminate|]). destruct n as [|n].
    + destruct i as [|[|i]]; [exists 6%nat|exists 5%nat|lia]; cbn; auto.
    + do 2 (destruct n as [|n]; [discriminate|]). discriminate.
  - intros n. do 7 (destruct n as [|n]; [cbn; split; discriminate|]). cbn. split; discriminate.
Qed.
Theorem C56_dangling_projection_refuted : exists h g n i x g',
  run 20 empty h = Some (Ok g) /\ complete_graph g /\ optimize_remove_dead 20 g = Some (Ok g') /\
  type (node_at g' n) = IR_PROJECT /\ argument g' n i = Some x /\ type (node_at g' x) = IR_DEAD.
Proof.
  exists branch, branch_graph, 5%nat, O, 4%nat, branch_after. split; [vm_compute; reflexivity|]. split; [exact branch_complete|]. vm_compute. auto.
Qed.
Print Assumptions C56_dangling_projection_refuted.

(** With a return the store stays, the unused addition goes. *)
Definition returning : list op := [
  New IR_FUNCTION 0 0; New IR_PROJECT 0 0; SetArgument 1 0 (Some 0%nat); New IR_PROJECT 0 3; SetArgument 2 0 (Some 0%nat); WriteState 1 2;
  New 0 8 0 (* 3 *); New IR_STORE 0 0 (* 4 *); SetArgument 4 0 (Some 3%nat); SetArgument 4 1 (Some 3%nat); SetArgument 4 2 (Some 2%nat); WriteState 1 4;
  New 0 8 0 (* 5 *); SetArgument 5 0 (Some 3%nat); SetArgument 5 1 (Some 3%nat); New IR_RETURN 0 0 (* 6 *); SetArgument 6 0 (Some 1%nat); SetArgument 6 2 (Some 4%nat)].
Definition returning_graph : graph := Eval vm_compute in match run 20 empty returning with Some (Ok g) => g | _ => empty end.
Example returning_runs : run 20 empty returning = Some (Ok returning_graph).
Proof. vm_compute. reflexivity. Qed.
Example returning_complete : complete_graph returning_graph.
Proof.
  split; [|split; [|split; [|split]]].
  - intros n. do 7 (destruct n as [|n]; [cbn; solve [auto|discriminate]|]). discriminate.
  - intros n. do 7 (destruct n as [|n]; [cbn; solve [discriminate|split; [lia|discriminate]]|]). discriminate.
  - intros n. do 7 (destruct n as [|n]; [cbn; solve [discriminate|intros _; exists 1%nat; split; [reflexivity|lia]]|]). discriminate.
  - intros n i. do 7 (destruct n as [|n]; [discriminate|]). discriminate.
  - intros n. do 7 (destruct n as [|n]; [cbn; split; discriminate|]). cbn. split; discriminate.
Qed.
Example returning_after : match optimize_remove_dead 8 returning_graph with
  | Some (Ok g) => type (node_at g 4) = IR_STORE /\ type (node_at g 5) = IR_DEAD /\ uses g 3 = [4; 4]%nat /\ type (node_at g 6) = IR_RETURN
  | _ => False end.
Proof. vm_compute. auto. Qed.
