(** C55: memory-to-register promotion. *)
From Verif Require Import Base Fuel IR IRProofs Mem2reg Mem2regSpec Mem2regProofs Mem2regMain C27Props.

(** A graph as the compiler builds it: of its use lists and its inputs each determines the other
    ([Inv], C27), every region is sealed and every projection has its node ([finished]). It stays one. *)
Theorem C55_built : forall fuel ops g, run fuel empty ops = Some (Ok g) -> Inv g.
Proof. intros fuel ops g H. apply run_grows in H as [I _]; [exact I|apply inv_empty]. Qed.
Print Assumptions C55_built.

(** C55, for one object. The states of the graph are the start of the function, phis in regions and what
    follows a state; the object is none of its own stored values: no store puts there what a load of the object
    gave. The object stays as it is, or every load of it gives way to a node [rep], every write to it to the
    state before it, and nothing else changes; nothing refers to its loads and writes any more. In every
    execution, at the moment that a load reads, its replacement has the value that was last written to the
    object; and the new nodes take part in every execution of the function. *)
Theorem C55_promotion_partial : forall fuel g alloc idx St rank g',
  Inv g -> finished g -> state_graph g alloc St rank -> (alloc < count g)%nat ->
  idx <> 0 -> (forall n, visited (node_at g n) <> idx) ->
  (forall s v, type (node_at g s) = IR_STORE -> argument g s 0 = Some alloc -> argument g s 1 = Some v ->
     ~ loads g alloc v /\ ~ writes g alloc v) ->
  try_remove_alloc fuel g alloc idx = Some (Ok g') ->
  g' = g \/
  exists rep : nat -> nat,
    Inv g' /\ finished g' /\ (count g <= count g')%nat /\
    (forall n, (n < count g)%nat -> type (node_at g' n) = type (node_at g n)) /\
    (forall n i, (n < count g)%nat ->
       match argument g n i with
       | None => argument g' n i = None
       | Some a => (loads g alloc a -> argument g' n i = Some (rep a)) /\
                   (~ loads g alloc a -> exists t, skips g alloc a t /\ argument g' n i = Some t)
       end) /\
    (forall n i a, argument g' n i = Some a -> ~ loads g alloc a /\ ~ writes g alloc a) /\
    (forall h later m earlier l x, runs_with g g' h -> h = later ++ m :: earlier ->
       loads g alloc l -> argument g l 1 = Some (at_ m) ->
       content g alloc (m :: earlier) = Some x -> value m (rep l) = Some x) /\
    (forall h, runs g h -> exists h', extends g h h' /\ runs_with g g' h').
Proof. intros fuel g alloc idx St rank g' I0 F0 SG AC IDX FRESH OWN H. exact (promotion g alloc idx St rank I0 F0 SG AC IDX FRESH OWN fuel g' H). Qed.
Print Assumptions C55_promotion_partial.

(** [int x = c; while (x < n) x = x + c; return x;] *)
Definition nodes : list op := [
  New IR_FUNCTION 0 0; New IR_REGION 0 0; SetArgument 1 0 (Some 0%nat);
  New IR_ALLOC 8 4 (* 2: x *); New 0 4 0 (* 3: c *);
  New IR_STORE 0 0 (* 4 *); SetArgument 4 0 (Some 2%nat); SetArgument 4 1 (Some 3%nat); SetArgument 4 2 (Some 0%nat);
  New IR_REGION 0 0 (* 5 *); SetArgument 5 0 (Some 1%nat); New IR_PHI 0 0 (* 6: the state *); SetArgument 6 0 (Some 5%nat); SetArgument 6 1 (Some 4%nat);
  New IR_LOAD 4 0 (* 7: x < n *); SetArgument 7 0 (Some 2%nat); SetArgument 7 1 (Some 6%nat);
  New IR_LOAD 4 0 (* 8 *); SetArgument 8 0 (Some 2%nat); SetArgument 8 1 (Some 6%nat)].
Definition counting : list op := nodes ++ [
  New 0 4 0 (* 9: x + c *); SetArgument 9 0 (Some 8%nat); SetArgument 9 1 (Some 3%nat);
  New IR_STORE 0 0 (* 10 *); SetArgument 10 0 (Some 2%nat); SetArgument 10 1 (Some 9%nat); SetArgument 10 2 (Some 6%nat);
  SetArgument 6 2 (Some 10%nat); New IR_RETURN 0 0 (* 11 *); SetArgument 11 1 (Some 7%nat); SetArgument 11 2 (Some 6%nat); SealBlock 1; SealBlock 5].
Definition g1 : graph := Eval vm_compute in match run 20 empty counting with Some (Ok g) => g | _ => empty end.
(** [int x = c; while (x < n) { x = x; f(x); }] *)
Definition keeping : list op := nodes ++ [
  New IR_STORE 0 0 (* 9 *); SetArgument 9 0 (Some 2%nat); SetArgument 9 1 (Some 8%nat); SetArgument 9 2 (Some 6%nat);
  New IR_LOAD 4 0 (* 10 *); SetArgument 10 0 (Some 2%nat); SetArgument 10 1 (Some 9%nat);
  New IR_CALL 0 0 (* 11: f(x) *); SetArgument 11 0 (Some 10%nat); SetArgument 11 1 (Some 9%nat);
  SetArgument 6 2 (Some 11%nat); SealBlock 1; SealBlock 5].
Definition g2 : graph := Eval vm_compute in match run 20 empty keeping with Some (Ok g) => g | _ => empty end.

Lemma runs_g1 : run 20 empty counting = Some (Ok g1). Proof. vm_compute. reflexivity. Qed.
Lemma runs_g2 : run 20 empty keeping = Some (Ok g2). Proof. vm_compute. reflexivity. Qed.

(** Facts about all nodes of these graphs, by cases. *)
Ltac each_node n tac := do 12 (destruct n as [|n]; [tac|]); try tac.
Definition states1 (s : nat) : Prop := In s [0; 4; 6; 10]%nat.
Definition states2 (s : nat) : Prop := In s [0; 4; 6; 9; 11]%nat.
Definition rank12 (s : nat) : nat := if (s =? 11)%nat then 2 else if (s =? 6)%nat then 0 else if (s =? 0)%nat then 0 else 1.
Example g1_finished : finished g1.
Proof. split; intros n H; each_node n ltac:(first [discriminate H|reflexivity]). Qed.
Example g2_finished : finished g2.
Proof. split; intros n H; each_node n ltac:(first [discriminate H|reflexivity]). Qed.
Ltac member := unfold states1, states2; cbn; auto 8.
Example g1_states : state_graph g1 2 states1 rank12.
Proof.
  constructor.
  - intros l (T & A). each_node l ltac:(first [discriminate T|discriminate A|eexists; split; [reflexivity|member]]).
  - intros s ([T|T] & A); each_node s ltac:(first [discriminate T|discriminate A|member]).
  - intros s [<-|[<-|[<-|[<-|[]]]]]; vm_compute; repeat constructor.
  - intros s [<-|[<-|[<-|[<-|[]]]]].
    + left. reflexivity.
    + right. right. split; [discriminate|]. exists 0%nat. split; [reflexivity|]. split; [member|]. vm_compute. repeat constructor.
    + right. left. split; [reflexivity|]. exists 5%nat. split; reflexivity.
    + right. right. split; [discriminate|]. exists 6%nat. split; [reflexivity|]. split; [member|]. vm_compute. repeat constructor.
  - intros s i a [<-|[<-|[<-|[<-|[]]]]] T [-> | ->] A; try discriminate T; injection A as <-; member.
  - reflexivity.
  - intros n i A [T|T]; each_node n ltac:(first [discriminate T|do 4 (destruct i as [|i]; [first [reflexivity|discriminate A]|]); destruct i; discriminate A]).
Qed.
Example g2_states : state_graph g2 2 states2 rank12.
Proof.
  constructor.
  - intros l (T & A). each_node l ltac:(first [discriminate T|discriminate A|eexists; split; [reflexivity|member]]).
  - intros s ([T|T] & A); each_node s ltac:(first [discriminate T|discriminate A|member]).
  - intros s [<-|[<-|[<-|[<-|[<-|[]]]]]]; vm_compute; repeat constructor.
  - intros s [<-|[<-|[<-|[<-|[<-|[]]]]]].
    + left. reflexivity.
    + right. right. split; [discriminate|]. exists 0%nat. split; [reflexivity|]. split; [member|]. vm_compute. repeat constructor.
    + right. left. split; [reflexivity|]. exists 5%nat. split; reflexivity.
    + right. right. split; [discriminate|]. exists 6%nat. split; [reflexivity|]. split; [member|]. vm_compute. repeat constructor.
    + right. right. split; [discriminate|]. exists 9%nat. split; [reflexivity|]. split; [member|]. vm_compute. repeat constructor.
  - intros s i a [<-|[<-|[<-|[<-|[<-|[]]]]]] T [-> | ->] A; try discriminate T; injection A as <-; member.
  - reflexivity.
  - intros n i A [T|T]; each_node n ltac:(first [discriminate T|do 4 (destruct i as [|i]; [first [reflexivity|discriminate A]|]); destruct i; discriminate A]).
Qed.
Example g1_own : forall s v, type (node_at g1 s) = IR_STORE -> argument g1 s 0 = Some 2%nat -> argument g1 s 1 = Some v -> ~ loads g1 2 v /\ ~ writes g1 2 v.
Proof.
  intros s v T A V. each_node s ltac:(first [discriminate T|discriminate A|injection V as <-; split; [intros (X & _); discriminate X|intros ([X|X] & _); discriminate X]]).
Qed.
Example g1_fresh : forall n, visited (node_at g1 n) <> 30.
Proof. intros n. each_node n ltac:(discriminate). Qed.
Example g2_fresh : forall n, visited (node_at g2 n) <> 30.
Proof. intros n. each_node n ltac:(discriminate). Qed.

(** The hypotheses are met and the object is promoted: the loads of the loop become a phi of [c] and [x + c]. *)
Example C55_counts : match try_remove_alloc 30 g1 2 30 with
  | Some (Ok g') => count g' = 13%nat /\ type (node_at g' 12) = IR_PHI /\ arguments (node_at g' 12) = [Some 5%nat; Some 3%nat; Some 9%nat; None] /\
      argument g' 9 0 = Some 12%nat /\ argument g' 11 1 = Some 12%nat /\ arguments (node_at g' 6) = [Some 5%nat; Some 0%nat; Some 6%nat; None]
  | _ => False end.
Proof. vm_compute. repeat (split; [reflexivity|]). reflexivity. Qed.
(** An execution: start, store, the state of the loop, the second store (latest first), with values. *)
Definition vals (l : list (nat * Z)) (n : nat) : option Z := match find (fun p => Nat.eqb (fst p) n) l with Some p => Some (snd p) | None => None end.
Definition run1 : list moment := [
  {| at_ := 6; value := vals [(3%nat, 5); (8%nat, 10)] |};
  {| at_ := 10; value := vals [(3%nat, 5); (8%nat, 5); (9%nat, 10)] |};
  {| at_ := 6; value := vals [(3%nat, 5); (8%nat, 5); (9%nat, 10)] |};
  {| at_ := 4; value := vals [(3%nat, 5)] |};
  {| at_ := 0; value := vals [(3%nat, 5)] |}].
Lemma zeros12 (g : graph) m : (forall n, type (node_at g n) <> IR_ZERO) -> zeros g m.
Proof. intros H n T. destruct (H n T). Qed.
Lemma g1_no_zero : forall n, type (node_at g1 n) <> IR_ZERO.
Proof. intros n. each_node n ltac:(discriminate). Qed.
Example C55_execution : runs g1 run1 /\ content g1 2 run1 = Some 10.
Proof.
  split; [|vm_compute; reflexivity]. unfold run1.
  assert (KEEP : forall (l l' : list (nat * Z)), forallb (fun p => match vals l' (fst p) with Some x => x =? snd p | None => false end) l = true ->
    forall n x, vals l n = Some x -> vals l' n = Some x).
  { intros l l' H n x X. unfold vals in X. destruct (find _ l) as [q|] eqn:F; [|discriminate]. injection X as <-. apply find_some in F as (F & E). apply Nat.eqb_eq in E. subst n.
    rewrite forallb_forall in H. specialize (H q F). destruct (vals l' (fst q)); [|discriminate]. apply Z.eqb_eq in H. subst. reflexivity. }
  assert (PHI : forall i m m', forall q a x, type (node_at g1 q) = IR_PHI -> argument g1 q 0 = Some 5%nat -> argument g1 q i = Some a -> (i = 1 \/ i = 2)%nat ->
    value m 4 = None -> value m 10 = None -> value m a = Some x -> value m' q = Some x).
  { intros i m m' q a x T A B Hi N4 N10 X. each_node q ltac:(first [discriminate T|destruct Hi as [-> | ->]; injection B as <-; congruence]). }
  apply H_next; [apply H_next; [apply H_next; [apply H_next; [apply H_start; [reflexivity|]|..]|..]|..]|..]; try (apply zeros12, g1_no_zero).
  - left. split; [discriminate|]. split; [reflexivity|]. apply KEEP. reflexivity.
  - right. split; [reflexivity|]. exists 1%nat, 5%nat. split; [auto|]. split; [reflexivity|]. split; [reflexivity|].
    intros q a x T A B X. apply (PHI 1%nat {| at_ := 4; value := vals [(3%nat, 5)] |} {| at_ := 6; value := vals [(3%nat, 5); (8%nat, 5); (9%nat, 10)] |} q a x T A B); auto.
  - left. split; [discriminate|]. split; [reflexivity|]. apply KEEP. reflexivity.
  - right. split; [reflexivity|]. exists 2%nat, 5%nat. split; [auto|]. split; [reflexivity|]. split; [reflexivity|].
    intros q a x T A B X. apply (PHI 2%nat {| at_ := 10; value := vals [(3%nat, 5); (8%nat, 5); (9%nat, 10)] |} {| at_ := 6; value := vals [(3%nat, 5); (8%nat, 10)] |} q a x T A B); auto.
Qed.

(** A store of the object's own value: the argument of the call becomes a load of the object (8, which had
    already been replaced), while all writes to the object are gone. *)
Theorem C55_own_value_refuted :
  (exists fuel ops, run fuel empty ops = Some (Ok g2)) /\ finished g2 /\ state_graph g2 2 states2 rank12 /\ (forall n, visited (node_at g2 n) <> 30) /\
  match try_remove_alloc 30 g2 2 30 with
  | Some (Ok g') =>
      loads g2 2 10 /\ argument g2 11 0 = Some 10%nat /\
      argument g' 11 0 = Some 8%nat /\ loads g' 2 8 /\ argument g' 8 1 = Some 6%nat /\ arguments (node_at g' 6) = [Some 5%nat; Some 0%nat; Some 11%nat; None] /\
      argument g' 11 1 = Some 6%nat /\ uses g' 4 = [] /\ uses g' 9 = []
  | _ => False end.
Proof.
  split; [exists 20%nat, keeping; apply runs_g2|]. split; [apply g2_finished|]. split; [apply g2_states|]. split; [apply g2_fresh|].
  vm_compute. repeat (split; [first [reflexivity|split; reflexivity]|]). reflexivity.
Qed.
Print Assumptions C55_own_value_refuted.
