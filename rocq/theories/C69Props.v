(** C69: statements transfer control as C says. *)
From Verif Require Import Base FlowSpec Flow FlowSim FlowProofs FlowMain FlowContinue FlowTotal.
Local Open Scope nat_scope.

(** The blocks [g] made for a function do what its statements do: for all
    meanings of the expressions, from every store, neither finds a jump without
    a target; statements and blocks return the same value from the same store,
    or fall off the end with the same store, or neither does; and every store
    the statements pass through the blocks pass through. *)
Definition does_what_it_says (body : stmt) (implicit : option nat) (g : st) : Prop :=
  forall (store : Type) (act : nat -> store -> store) (test : nat -> store -> store * bool) (sel : nat -> store -> store * Z) m control,
  let run n := steps act test sel body implicit n (Running body Kstop m) in
  let grun n := gsteps act test sel g n (At 0 0 m control) in
  (forall n, run n <> Wrong) /\
  (forall r m', (exists n, run n = Returned r m') <-> (exists n, grun n = GReturned r m')) /\
  (forall m', (exists n, run n = Fell m') <-> (exists n, grun n = GFell m')) /\
  (forall n s k m', run n = Running s k m' -> exists n' b i c, grun n' = At b i m' c).

(** C69, for functions without a case, default or continue that is inside a
    loop or switch that is not the one it belongs to: those that keep the
    constraints of C get a graph, and it does what they say. *)
Theorem C69_statements_partial : forall body implicit,
  placed false false false body -> distinct_cases body -> gotos_defined body -> NoDup (labels_of body) ->
  no_duff body -> no_switched_continue body ->
  exists g, parse_function body implicit = Ok g /\ does_what_it_says body implicit g.
Proof.
  intros body implicit PL DC GD NL ND NSC. destruct (function_total body implicit PL ND NSC NL) as (g & E). exists g. split; [exact E|].
  intros store act test sel m control. exact (function_follows act test sel body implicit g E ND DC GD m control).
Qed.
Print Assumptions C69_statements_partial.

(** With a continue inside a switch, the graph is right where there is one. *)
Theorem C69_compiled_partial : forall body implicit g, parse_function body implicit = Ok g ->
  distinct_cases body -> gotos_defined body -> no_duff body -> does_what_it_says body implicit g.
Proof. intros body implicit g E DC GD ND store act test sel m control. exact (function_follows act test sel body implicit g E ND DC GD m control). Qed.
Print Assumptions C69_compiled_partial.

(** [x0; while (c0) { if (c1) continue; switch (e0) { case 1: x1; case 2: x2; break; default: goto out; } x3; }
     for (x4; c2; x5) { do { if (c3) break; } while (c4); if (c5) return 6; } out: x6;] *)
Definition example : stmt :=
  SSeq (SDo_ 0) (SSeq (SWhile 0 (SSeq (SIf 1 SContinue SSkip) (SSeq (SSwitch 0
    (SSeq (SCase 1 (SDo_ 1)) (SSeq (SCase 2 (SDo_ 2)) (SSeq SBreak (SDefault (SGoto 9)))))) (SDo_ 3))))
  (SSeq (SFor (Some 4) (Some 2) (Some 5) (SSeq (SDoWhile (SIf 3 SBreak SSkip) 4) (SIf 5 (SReturn 6) SSkip))) (SLabel 9 (SDo_ 6)))).
Example example_meets : placed false false false example /\ distinct_cases example /\ gotos_defined example /\ NoDup (labels_of example) /\
  no_duff example /\ no_switched_continue example.
Proof.
  split; [cbn; tauto|]. split.
  { cbn. repeat split; auto. repeat constructor; cbn; intuition discriminate. }
  split; [intros l [<-|[]]; cbn; discriminate|]. split; [repeat constructor; cbn; tauto|]. cbn. tauto.
Qed.
(** The store is a list of what was done and a list of answers to come. *)
Definition act1 (a : nat) (m : list nat * list Z) := (fst m ++ [a], snd m).
Definition test1 (c : nat) (m : list nat * list Z) := match snd m with v :: t => ((fst m, t), negb (v =? 0)%Z) | [] => (m, false) end.
Definition sel1 (c : nat) (m : list nat * list Z) := match snd m with v :: t => ((fst m, t), v) | [] => (m, 0%Z) end.
Definition answers : list Z := [1; 1; 1; 0; 1; 1; 0; 2; 0; 1; 1; 1]%Z.
Example example_runs :
  steps act1 test1 sel1 example None 100 (Running example Kstop ([], answers)) = Returned 6 ([0; 1; 2; 3; 2; 3; 4], []).
Proof. vm_compute. reflexivity. Qed.
Example example_compiled :
  match parse_function example None with
  | Ok g => gsteps act1 test1 sel1 g 100 (At 0 0 ([], answers) (fun _ => 0%Z)) = GReturned 6 ([0; 1; 2; 3; 2; 3; 4], [])
  | _ => False
  end.
Proof. vm_compute. reflexivity. Qed.
(** The default goes to the label. *)
Example example_default :
  steps act1 test1 sel1 example None 100 (Running example Kstop ([], [1; 0; 7]%Z)) = Fell ([0; 6], []).
Proof. vm_compute. reflexivity. Qed.
(** [do { switch (e0) { case 1: continue; } x0; } while (c0);] compiles. *)
Definition switched : stmt := SDoWhile (SSeq (SSwitch 0 (SCase 1 SContinue)) (SDo_ 0)) 0.
Example switched_meets : distinct_cases switched /\ gotos_defined switched /\ no_duff switched.
Proof. split; [|split]; cbn; [|intros l []|tauto]. repeat split; auto. repeat constructor. intros []. Qed.
Example switched_compiled :
  match parse_function switched None with
  | Ok g => gsteps act1 test1 sel1 g 100 (At 0 0 ([], [1; 1; 2]%Z) (fun _ => 0%Z)) = GFell ([0], [])
  | _ => False
  end.
Proof. vm_compute. reflexivity. Qed.

(** A while loop with a continue inside a switch does not compile, wherever in a
    function it stands. *)
Theorem C69_continue_refuted : forall body implicit g, while_with_one body = true -> parse_function body implicit <> Ok g.
Proof.
  intros body implicit g H E. unfold parse_function in E. apply bind_ok in E as ([j1 g1] & E & _).
  rewrite (parse_no_while _ _ _ _ E) in H. discriminate.
Qed.
Print Assumptions C69_continue_refuted.
(** [while (c0) { switch (e0) { case 1: continue; } x0; }] *)
Definition while_switched : stmt := SWhile 0 (SSeq (SSwitch 0 (SCase 1 SContinue)) (SDo_ 0)).
Example while_switched_meets : placed false false false while_switched /\ distinct_cases while_switched /\ gotos_defined while_switched /\
  while_with_one while_switched = true /\ parse_function while_switched None = Fail.
Proof.
  split; [cbn; tauto|]. split; [cbn; repeat split; auto; repeat constructor; intros []|].
  split; [intros l []|]. split; reflexivity.
Qed.
(** Two switches do the same to a for or do. *)
Theorem C69_two_continues_refuted : forall i c v e1 e2 k1 k2 implicit,
  parse_function (SFor i (Some c) v (SSeq (SSwitch e1 (SCase k1 SContinue)) (SSwitch e2 (SCase k2 SContinue)))) implicit = Fail /\
  parse_function (SDoWhile (SSeq (SSwitch e1 (SCase k1 SContinue)) (SSwitch e2 (SCase k2 SContinue))) c) implicit = Fail.
Proof. intros i c v e1 e2 k1 k2 implicit. split; [destruct i, v|]; reflexivity. Qed.
Print Assumptions C69_two_continues_refuted.

(** A case in a loop inside its switch: a block gets two successors. *)
Theorem C69_duff_refuted : forall e k a c implicit, parse_function (SSwitch e (SDoWhile (SCase k (SDo_ a)) c)) implicit = Undef.
Proof. reflexivity. Qed.
Print Assumptions C69_duff_refuted.
(** A default there is forgotten: whatever is selected, the loop is not entered. *)
Theorem C69_default_refuted : forall (store : Type) (act : nat -> store -> store) (test : nat -> store -> store * bool)
    (sel : nat -> store -> store * Z) e c a r,
  match parse_function (SSwitch e (SWhile c (SDefault (SDo_ a)))) (Some r) with
  | Ok g => forall m control, exists n, gsteps act test sel g n (At 0 0 m control) = GReturned r (fst (sel e m))
  | _ => False
  end /\
  forall m, snd (test c (act a (fst (sel e m)))) = false ->
    exists n, steps act test sel (SSwitch e (SWhile c (SDefault (SDo_ a)))) (Some r) n (Running (SSwitch e (SWhile c (SDefault (SDo_ a)))) Kstop m) =
      Returned r (fst (test c (act a (fst (sel e m))))).
Proof.
  intros store act test sel e c a r. split.
  - match goal with |- match ?x with _ => _ end => remember x as p eqn:E end. vm_compute in E. subst p. intros m control. exists 5. cbn.
    destruct (sel e m) as [m' v]. reflexivity.
  - intros m T. exists 7. cbn. destruct (sel e m) as [m' v]. cbn in *. destruct (test c (act a m')) as [m2 b]. cbn in *. subst b. reflexivity.
Qed.
Print Assumptions C69_default_refuted.
