(** C72: instructions are placed and ordered so that values are computed before they are
    used. *)
From Verif Require Import Base Fuel IR IRProofs RemoveDead RemoveDeadProofs Dominator DominatorSpec DominatorProofs Mem2reg Schedule ScheduleSpec ScheduleProofs C27Props C28Props SchedulePlace ScheduleOrder ScheduleMain.

(** Scheduling ends for every graph of a function. Each instruction is put in the last block
    from which all its reachable users can be served, phis, branches and returns stay in
    their block, what nothing reachable needs is left out, and every reachable block gets
    one list. *)
Theorem C72_placement_partial (fuel : nat) (h : list op) (g : graph) (entry : nat) (order home : nat -> nat) :
  run fuel empty h = Some (Ok g) -> control_graph g entry -> well_formed g entry order home ->
  exists f0, forall fuel', (f0 <= fuel')%nat -> exists blk r, ir_local_schedule fuel' g entry = Some (Ok (blk, r)) /\ placed g entry blk /\
    NoDup (map fst r) /\ (forall b, In b (map fst r) <-> block_reachable g entry b).
Proof.
  intros H C wf. apply run_grows in H as [I _]; [|apply inv_empty]. destruct (schedule_all g entry order home I C wf) as (f0 & F). exists f0. intros f L.
  destruct (F f L) as (blk & r & E & Pl & N & R & _). exists blk, r. auto.
Qed.
Print Assumptions C72_placement_partial.

(** When the placement is [calm], every instruction that was placed is in exactly one list,
    the operands of an instruction are computed before it on every execution, those of a phi
    are computed in the predecessor they belong to, and an instruction that replaces a
    memory state made in its block comes after everything else that uses that state. *)
Theorem C72_order_partial (fuel : nat) (h : list op) (g : graph) (entry : nat) (order home : nat -> nat) :
  run fuel empty h = Some (Ok g) -> control_graph g entry -> well_formed g entry order home ->
  exists f0, forall fuel', (f0 <= fuel')%nat -> exists blk r, ir_local_schedule fuel' g entry = Some (Ok (blk, r)) /\
    (calm g entry blk ->
      (forall c m, In (c, m) r -> NoDup m) /\
      (forall c m c' m' x, In (c, m) r -> In (c', m') r -> In x m -> In x m' -> c = c') /\
      (forall x, (exists c m, In (c, m) r /\ In x m) <-> instruction g x /\ exists b, blk x = Some b /\ block_reachable g entry b) /\
      (forall y k a, ~ phi g y -> argument g y k = Some a -> instruction g a -> computed_before g entry r a y) /\
      (forall y b k a p, phi g y -> argument g y 0 = Some b -> block_reachable g entry b -> argument g y (S k) = Some a -> instruction g a -> argument g b k = Some p -> computed_in g entry r a p) /\
      (forall y q b u k, replaces_state g y q -> blk y = Some b -> blk q = Some b -> argument g u k = Some q -> instruction g u -> u <> y -> blk u <> None -> computed_before g entry r u y)).
Proof.
  intros H C wf. apply run_grows in H as [I _]; [|apply inv_empty]. destruct (schedule_all g entry order home I C wf) as (f0 & F). exists f0. intros f L.
  destruct (F f L) as (blk & r & E & _ & _ & _ & K). exists blk, r. auto.
Qed.
Print Assumptions C72_order_partial.

(** * Graphs that meet the hypotheses *)
Local Notation arg n i a := (SetArgument n i (Some a%nat)).
Lemma entry_dominates g entry b : dominates g entry entry b.
Proof. intros l P. induction P; [left; reflexivity|apply in_or_app; auto]. Qed.
Definition table (l : list nat) (n : nat) : nat := nth n l 0%nat.
Ltac up_to n k := let k' := eval compute in k in each_of n k'.
(* [E] : argument g n k = Some p, for one of the nodes *)
Ltac each_slot Sl E k n N := let L := fresh in assert (L := Sl _ _ _ E); let j := fresh in destruct k as [|[|[|[|j]]]]; [..|exfalso; clear - L; lia]; up_to n N; injection E as <-.
Ltac control h runs N :=
  match goal with |- control_graph ?g _ =>
    let I := fresh in let Sl := fresh in
    assert (I : Inv g) by (apply (run_grows 60 h empty); [apply inv_empty|exact runs]);
    assert (Sl : forall n k p, argument g n k = Some p -> (k < 4)%nat) by (intros n k p; now apply no_argument);
    split; [exists 0%nat; vm_compute; auto|]; split; [|split; [|split; [|split; [|split; [|split; [|split]]]]]];
    [ intros n; up_to n N
    | intros n i T E; up_to n N; injection E as <-; vm_compute; auto; discriminate
    | intros n k b T L E; destruct k as [|[|k]]; [| |exfalso; clear - L; lia]; up_to n N; injection E as <-; vm_compute; auto
    | intros n T; up_to n N
    | intros n k p T E B; each_slot Sl E k n N; first [reflexivity|discriminate B]
    | intros n k p T E B; each_slot Sl E k n N; discriminate B
    | intros n k p T E; each_slot Sl E k n N; reflexivity
    | intros n p T E; up_to n N; injection E as <-; reflexivity ]
  end.
Ltac no_instruction := match goal with H : instruction _ _ |- _ => exfalso; destruct H as (_ & F & B);
  first [apply F; reflexivity|apply B; left; reflexivity|apply B; right; split; [reflexivity|]; eexists; split; [reflexivity|]; first [left; reflexivity|right; split; reflexivity]] end.
Ltac no_tied := match goal with H : ~ tied _ _ |- _ => exfalso; apply H; first [left; reflexivity|right; left; reflexivity|right; right; reflexivity] end.
Ltac no_phi := match goal with H : ~ phi _ _ |- _ => exfalso; apply H; reflexivity end.
Ltac no_replaces := match goal with H : ~ replaces_state _ _ _ |- _ => exfalso; apply H; first [left; split; [vm_compute; tauto|reflexivity]|right; split; [vm_compute; tauto|reflexivity]] end.
Ltac is_replaces := match goal with H : replaces_state _ _ _ |- _ => destruct H as [[H X]|[H X]] end.
Ltac absurd_in := match goal with H : In _ _ |- _ => exfalso; cbn in H; repeat (destruct H as [H|H]; [discriminate H|]); destruct H end.
Lemma branch_dominates g entry n i p : n <> entry -> type (node_at g n) = IR_PROJECT -> argument g n 0 = Some i -> type (node_at g i) = IR_IF -> argument g i 0 = Some p -> dominates g entry p n.
Proof.
  intros N T A Ti Ap l P. destruct P as [|p' n l P E]; [contradiction|]. apply in_or_app. left. destruct E as [i' _ A' _ Ap'|k T' _]; [|rewrite T in T'; discriminate].
  rewrite A in A'. injection A' as <-. rewrite Ap in Ap'. injection Ap' as <-. exact (dom_self g entry p l P).
Qed.
Ltac above := first [apply entry_dominates|apply dom_self|eapply branch_dominates; [discriminate|reflexivity|reflexivity|reflexivity|reflexivity]].

(** int f(void) { int x = 1; int a = x; x = 1; return a + x ? a - 1 : a; }, where x lives in
    memory. *)
Definition diamond : list op := [
  New IR_FUNCTION 0 0; New IR_PROJECT 0 0; arg 1 0 0; New IR_PROJECT 0 3 (* 2: state *); arg 2 0 0; WriteState 1 2;
  New IR_ALLOC 8 4 (* 3: x *); New 41 4 0 (* 4 *); New IR_STORE 0 0 (* 5 *); arg 5 0 3; arg 5 1 4; arg 5 2 2;
  New IR_LOAD 4 0 (* 6: a *); arg 6 0 3; arg 6 1 5; New IR_STORE 0 0 (* 7 *); arg 7 0 3; arg 7 1 4; arg 7 2 5;
  New IR_LOAD 4 0 (* 8 *); arg 8 0 3; arg 8 1 7; New 0 4 0 (* 9 *); arg 9 0 6; arg 9 1 8;
  New IR_IF 0 0 (* 10 *); arg 10 0 1; arg 10 1 9; New IR_PROJECT 0 0 (* 11 *); arg 11 0 10; New IR_PROJECT 0 1 (* 12 *); arg 12 0 10;
  New 1 4 0 (* 13 *); arg 13 0 6; arg 13 1 4; New IR_REGION 0 0 (* 14 *); arg 14 0 11; arg 14 1 12;
  New IR_PHI 4 0 (* 15 *); arg 15 0 14; arg 15 1 13; arg 15 2 6; New IR_RETURN 0 0 (* 16 *); arg 16 0 14; arg 16 1 15; arg 16 2 7].
Definition diamond_graph : graph := Eval vm_compute in match run 60 empty diamond with Some (Ok g) => g | _ => empty end.
Example diamond_runs : run 60 empty diamond = Some (Ok diamond_graph).
Proof. vm_compute. reflexivity. Qed.
Example diamond_control : control_graph diamond_graph 1.
Proof. control diamond diamond_runs 18%nat. Qed.
(* the blocks [reach] can be reached *)
Ltac formed h runs N :=
  match goal with Re : _ |- well_formed ?g _ _ ?home =>
    let I := fresh in let Sl := fresh in
    assert (I : Inv g) by (apply (run_grows 60 h empty); [apply inv_empty|exact runs]);
    assert (Sl : forall n k p, argument g n k = Some p -> (k < 4)%nat) by (intros n k p; now apply no_argument);
    split;
    [ intros y k a E Iy Ia T; each_slot Sl E k y N; first [no_tied|no_instruction|cbn; lia]
    | intros y q u k R E N' T; each_slot Sl E k u N; first [no_tied|no_replaces|is_replaces; [up_to y N|up_to y N]; first [solve [absurd_in]|cbn; lia]]
    | intros y b T E; unfold home; destruct T as [T|[T|T]]; up_to y N; injection E as <-; reflexivity
    | intros y k a E Iy Ia N' _; each_slot Sl E k y N; first [no_phi|no_instruction|above]
    | intros y r k a p T E _ F Ia G; up_to y N; injection E as <-; (destruct k as [|[|k]]; cbn in F, G; [..|destruct k as [|[|k]]; discriminate]); injection F as <-; injection G as <-; above
    | intros y T; up_to y N; eexists; split; reflexivity
    | intros y T; up_to y N; reflexivity
    | intros y r k a T E _ F; up_to y N; injection E as <-; (destruct k as [|[|k]]; [..|destruct k as [|[|k]]; discriminate]); eexists; (split; [reflexivity|]); apply Re; vm_compute; tauto
    | intros y T; up_to y N
    | intros y k a E Iy; each_slot Sl E k y N; first [no_instruction|split; discriminate]
    | intros n q [T E]; up_to q N; injection E as <-; discriminate
    | intros q k a T E; each_slot Sl E k q N; reflexivity
    | intros n; assert (X : visited (node_at g n) = 0) by (do 20 (destruct n as [|n]; [reflexivity|]); reflexivity); rewrite X; split; discriminate ]
  end.
Definition diamond_home := table [0; 1; 1; 1; 1; 1; 1; 1; 1; 1; 1; 11; 12; 11; 14; 14; 14]%nat.
Example diamond_formed : well_formed diamond_graph 1 (fun n => n) diamond_home.
Proof.
  assert (Re : forall b, In b [11; 12]%nat -> block_reachable diamond_graph 1 b).
  { intros b [<-|[<-|[]]]; (eexists; eapply path_edge; [apply path_start|]; eapply edge_branch with (i := 10%nat); reflexivity). }
  formed diamond diamond_runs 18%nat.
Qed.
Example diamond_scheduled : match ir_local_schedule 3000 diamond_graph 1 with
  | Some (Ok (blk, r)) => map blk (seq 0 17) = [None; None; Some 1; Some 1; Some 1; Some 1; Some 1; Some 1; Some 1; Some 1; Some 1; None; None; Some 11; None; Some 14; Some 14]%nat /\
      r = [(1, [2; 3; 4; 5; 6; 7; 8; 9; 10]); (12, []); (11, [13]); (14, [15; 16])]%nat
  | _ => False end.
Proof. vm_compute. split; reflexivity. Qed.
Lemma table_at {A} (f : nat -> A) (n : nat) (l : list A) : map f (seq 0 n) = l -> forall k d, (k < n)%nat -> f k = nth k l d.
Proof. intros <- k d L. rewrite (nth_indep _ d (f 0%nat)) by (rewrite map_length, seq_length; exact L). rewrite map_nth, seq_nth by exact L. reflexivity. Qed.
Example diamond_calm : match ir_local_schedule 3000 diamond_graph 1 with Some (Ok (blk, r)) => calm diamond_graph 1 blk | _ => False end.
Proof.
  assert (H := diamond_scheduled). destruct (ir_local_schedule 3000 diamond_graph 1) as [[[blk r]| |]|]; try contradiction. destruct H as [H _].
  assert (B := fun k => table_at blk 17 _ H k None). clear H.
  assert (I : Inv diamond_graph) by (apply (run_grows 60 diamond empty); [apply inv_empty|exact diamond_runs]).
  assert (Sl : forall n k p, argument diamond_graph n k = Some p -> (k < 4)%nat) by (intros n k p; now apply no_argument).
  split.
  - intros y b k a T E F. up_to y 18%nat. injection E as <-. destruct k as [|[|k]]; [..|destruct k as [|[|k]]; discriminate]; injection F as <-; rewrite B by lia; discriminate.
  - intros y q b u k R By Bq E Iu Nu Bu. each_slot Sl E k u 18%nat; is_replaces; up_to y 18%nat; try solve [absurd_in]; try (exfalso; apply Nu; reflexivity);
      rewrite B in By by lia; injection By as <-; (split; [intros [[K _]|[K _]]; cbn in K; repeat (destruct K as [K|K]; [discriminate|]); exact K|]); (split; [intros [K|[K|K]]; discriminate|]); left; rewrite B by lia; reflexivity.
Qed.

(** * Where the order is wrong *)

(** while (x &= x - 1); return: the phi of the loop (12) takes the value of the AND (7)
    computed in its own block. *)
Definition loop : list op := [
  New IR_FUNCTION 0 0; New IR_PROJECT 0 0; arg 1 0 0; New IR_PROJECT 0 3 (* 2: state *); arg 2 0 0; WriteState 1 2;
  New 41 4 0 (* 3 *); New IR_REGION 0 0 (* 4 *); arg 4 0 1; New 41 4 0 (* 5 *);
  New 1 4 0 (* 6: x - 1 *); New 13 4 0 (* 7: x & 6 *); New IR_IF 0 0 (* 8 *); arg 8 0 4; arg 8 1 7;
  New IR_PROJECT 0 0 (* 9 *); arg 9 0 8; New IR_PROJECT 0 1 (* 10 *); arg 10 0 8; arg 4 1 9;
  New IR_RETURN 0 0 (* 11 *); arg 11 0 10; arg 11 2 2;
  New IR_PHI 4 0 (* 12: x *); arg 12 0 4; arg 12 1 3; arg 12 2 7; arg 6 0 12; arg 6 1 5; arg 7 0 12; arg 7 1 6].
Definition loop_graph : graph := Eval vm_compute in match run 60 empty loop with Some (Ok g) => g | _ => empty end.
Example loop_runs : run 60 empty loop = Some (Ok loop_graph).
Proof. vm_compute. reflexivity. Qed.
Example loop_control : control_graph loop_graph 1.
Proof. control loop loop_runs 14%nat. Qed.
Definition loop_order := table [0; 1; 2; 3; 4; 5; 7; 8; 9; 10; 11; 12; 6]%nat.
Definition loop_home := table [0; 1; 1; 1; 4; 4; 4; 4; 4; 9; 10; 10; 4]%nat.
Example loop_formed : well_formed loop_graph 1 loop_order loop_home.
Proof.
  assert (Re : forall b, In b [1; 9]%nat -> block_reachable loop_graph 1 b).
  { intros b [<-|[<-|[]]]; [exists [1%nat]; apply path_start|]. eexists. eapply path_edge; [eapply path_edge; [apply path_start|]|].
    - apply edge_jump with (b := 4%nat) (k := 0%nat); reflexivity.
    - apply edge_branch with (i := 8%nat); reflexivity. }
  formed loop loop_runs 14%nat.
Qed.
Example loop_scheduled : match ir_local_schedule 3000 loop_graph 1 with
  | Some (Ok (blk, r)) => r = [(1, [3]); (4, [5; 7; 12; 6; 8]); (10, [2; 11]); (9, [])]%nat
  | _ => False end.
Proof. vm_compute. reflexivity. Qed.
Fixpoint precedes (l : list nat) (a b : nat) : bool :=
  match l with [] => false | x :: l' => Nat.eqb x a && existsb (Nat.eqb b) l' || precedes l' a b end.
Lemma precedes_ok l a b : before l a b -> precedes l a b = true.
Proof.
  intros (x & u & z & ->). induction x as [|e x IH]; cbn [app precedes]; [|rewrite IH; apply orb_true_r].
  rewrite Nat.eqb_refl, existsb_app. cbn [existsb]. rewrite Nat.eqb_refl, orb_true_r. reflexivity.
Qed.
(** The AND comes before the subtraction whose result it takes. *)
Theorem C72_operands_refuted : exists h g entry order home blk r y k a,
  run 60 empty h = Some (Ok g) /\ control_graph g entry /\ well_formed g entry order home /\ ir_local_schedule 3000 g entry = Some (Ok (blk, r)) /\
  ~ phi g y /\ argument g y k = Some a /\ instruction g a /\ ~ computed_before g entry r a y.
Proof.
  assert (H := loop_scheduled). destruct (ir_local_schedule 3000 loop_graph 1) as [[[blk r]| |]|] eqn:E; try contradiction.
  exists loop, loop_graph, 1%nat, loop_order, loop_home, blk, r, 7%nat, 1%nat, 6%nat. split; [exact loop_runs|]. split; [exact loop_control|]. split; [exact loop_formed|]. split; [exact E|].
  split; [discriminate|]. split; [reflexivity|]. split; [split; [vm_compute; lia|split; [discriminate|]; intros [K|[K _]]; discriminate]|].
  subst r. intros K. destruct (K 4%nat _ (or_intror (or_introl eq_refl)) (or_intror (or_introl eq_refl))) as [(x & u & z & B)|(b & m & Hb & Hm & Nb & _)].
  - assert (X := precedes_ok _ 6%nat 7%nat (ex_intro _ x (ex_intro _ u (ex_intro _ z B)))). discriminate.
  - destruct Hb as [Hb|[Hb|[Hb|[Hb|[]]]]]; injection Hb as <- <-; cbn in Hm; try lia.
Qed.
Print Assumptions C72_operands_refuted.

(** int x = 1; int a = x; if (c) { x = c; if (c) return a; } return: the load of a (6) is
    only needed where a is returned (13). *)
Definition late_load : list op := [
  New IR_FUNCTION 0 0; New IR_PROJECT 0 0; arg 1 0 0; New IR_PROJECT 0 3 (* 2: state *); arg 2 0 0; WriteState 1 2;
  New IR_ALLOC 8 4 (* 3: x *); New 41 4 0 (* 4 *); New IR_STORE 0 0 (* 5 *); arg 5 0 3; arg 5 1 4; arg 5 2 2;
  New IR_LOAD 4 0 (* 6: a *); arg 6 0 3; arg 6 1 5; New 41 4 0 (* 7: c *); New IR_IF 0 0 (* 8 *); arg 8 0 1; arg 8 1 7;
  New IR_PROJECT 0 0 (* 9 *); arg 9 0 8; New IR_PROJECT 0 1 (* 10 *); arg 10 0 8;
  New IR_STORE 0 0 (* 11 *); arg 11 0 3; arg 11 1 7; arg 11 2 5; New IR_IF 0 0 (* 12 *); arg 12 0 9; arg 12 1 7;
  New IR_PROJECT 0 0 (* 13 *); arg 13 0 12; New IR_PROJECT 0 1 (* 14 *); arg 14 0 12;
  New IR_RETURN 0 0 (* 15 *); arg 15 0 13; arg 15 1 6; arg 15 2 11; New IR_REGION 0 0 (* 16 *); arg 16 0 14; arg 16 1 10;
  New IR_PHI 0 0 (* 17 *); arg 17 0 16; arg 17 1 11; arg 17 2 5; New IR_RETURN 0 0 (* 18 *); arg 18 0 16; arg 18 2 17].
Definition late_load_graph : graph := Eval vm_compute in match run 60 empty late_load with Some (Ok g) => g | _ => empty end.
Example late_load_runs : run 60 empty late_load = Some (Ok late_load_graph).
Proof. vm_compute. reflexivity. Qed.
Example late_load_control : control_graph late_load_graph 1.
Proof. control late_load late_load_runs 20%nat. Qed.
Definition late_load_home := table [0; 1; 1; 1; 1; 1; 1; 1; 1; 9; 10; 9; 9; 13; 14; 13; 16; 16; 16]%nat.
Example late_load_formed : well_formed late_load_graph 1 (fun n => n) late_load_home.
Proof.
  assert (Re : forall b, In b [14; 10]%nat -> block_reachable late_load_graph 1 b).
  { intros b [<-|[<-|[]]]; eexists; [eapply path_edge; [eapply path_edge; [apply path_start|]|]|eapply path_edge; [apply path_start|]].
    - apply edge_branch with (b := 9%nat) (i := 8%nat); reflexivity.
    - apply edge_branch with (i := 12%nat); reflexivity.
    - apply edge_branch with (i := 8%nat); reflexivity. }
  formed late_load late_load_runs 20%nat.
Qed.
Example late_load_scheduled : match ir_local_schedule 3000 late_load_graph 1 with
  | Some (Ok (blk, r)) => r = [(1, [2; 3; 4; 5; 7; 8]); (10, []); (9, [11; 12]); (14, []); (16, [17; 18]); (13, [6; 15])]%nat
  | _ => False end.
Proof. vm_compute. reflexivity. Qed.
(** A load [u] of the memory state [q] is computed where another state, made by the store
    [y] out of [q], has already taken its place on every execution. *)
Theorem C72_states_refuted : exists h g entry order home blk r y q u b m c m',
  run 60 empty h = Some (Ok g) /\ control_graph g entry /\ well_formed g entry order home /\ ir_local_schedule 3000 g entry = Some (Ok (blk, r)) /\
  replaces_state g y q /\ type (node_at g u) = IR_LOAD /\ argument g u 1 = Some q /\ argument g u 0 = argument g y 0 /\
  In (b, m) r /\ In y m /\ In (c, m') r /\ In u m' /\ b <> c /\ dominates g entry b c.
Proof.
  assert (H := late_load_scheduled). destruct (ir_local_schedule 3000 late_load_graph 1) as [[[blk r]| |]|] eqn:E; try contradiction. subst r.
  exists late_load, late_load_graph, 1%nat, (fun n => n), late_load_home, blk. eexists. exists 11%nat, 5%nat, 6%nat, 9%nat, [11; 12]%nat, 13%nat, [6; 15]%nat.
  split; [exact late_load_runs|]. split; [exact late_load_control|]. split; [exact late_load_formed|]. split; [exact E|].
  split; [right; split; [cbn; tauto|reflexivity]|]. split; [reflexivity|]. split; [reflexivity|]. split; [reflexivity|].
  split; [cbn; tauto|]. split; [cbn; tauto|]. split; [cbn; tauto|]. split; [cbn; tauto|]. split; [discriminate|]. above.
Qed.
Print Assumptions C72_states_refuted.

(** if (c) { return; p = &x; } x = c; return p: the phi of p (12) takes &x (3) from a
    block (9) that cannot be reached. *)
Definition dead_code : list op := [
  New IR_FUNCTION 0 0; New IR_PROJECT 0 0; arg 1 0 0; New IR_PROJECT 0 3 (* 2: state *); arg 2 0 0; WriteState 1 2;
  New IR_ALLOC 8 4 (* 3: x *); New 41 4 0 (* 4: c *); New IR_IF 0 0 (* 5 *); arg 5 0 1; arg 5 1 4;
  New IR_PROJECT 0 0 (* 6 *); arg 6 0 5; New IR_PROJECT 0 1 (* 7 *); arg 7 0 5; New IR_RETURN 0 0 (* 8 *); arg 8 0 6; arg 8 2 2;
  New IR_REGION 0 0 (* 9 *); New IR_REGION 0 0 (* 10 *); arg 10 0 9; arg 10 1 7;
  New IR_STORE 0 0 (* 11 *); arg 11 0 3; arg 11 1 4; arg 11 2 2; New IR_PHI 8 0 (* 12 *); arg 12 0 10; arg 12 1 3; arg 12 2 4;
  New IR_RETURN 0 0 (* 13 *); arg 13 0 10; arg 13 1 12; arg 13 2 11].
Definition dead_code_graph : graph := Eval vm_compute in match run 60 empty dead_code with Some (Ok g) => g | _ => empty end.
Example dead_code_runs : run 60 empty dead_code = Some (Ok dead_code_graph).
Proof. vm_compute. reflexivity. Qed.
Example dead_code_control : control_graph dead_code_graph 1.
Proof. control dead_code dead_code_runs 15%nat. Qed.
(** The compiler follows a null pointer. *)
Theorem C72_dead_code_refuted : exists h g entry y b k a p,
  run 60 empty h = Some (Ok g) /\ control_graph g entry /\ phi g y /\ argument g y 0 = Some b /\ argument g y (S k) = Some a /\ argument g b k = Some p /\ argument g p 0 = None /\
  ir_local_schedule 3000 g entry = Some Undef.
Proof.
  exists dead_code, dead_code_graph, 1%nat, 12%nat, 10%nat, 0%nat, 3%nat, 9%nat. split; [exact dead_code_runs|]. split; [exact dead_code_control|].
  repeat (split; [reflexivity|]). vm_compute. reflexivity.
Qed.
Print Assumptions C72_dead_code_refuted.
