(** C27: use lists. *)
From Verif Require Import Base Fuel IR IRProofs.

(** What the compiler does to the graph. *)
Inductive op :=
| New (ty sz num : Z)                            (* ir_new, with project.index or alloc.size *)
| SetArgument (n i : nat) (a : option nat)       (* node_set_argument *)
| Replace (original replacement : nat)           (* ir_replace_node *)
| WriteState (block value : nat)                 (* write_state *)
| ReadState (block : nat)                        (* read_state *)
| SealBlock (block : nat)                        (* seal_block *)
| SetType (n : nat) (ty : Z).                    (* remove_dead.c:78 *)
(** Only nodes that exist can be named. *)
Definition ids (o : op) : list nat :=
  match o with
  | New _ _ _ => [] | SetArgument n _ None => [n] | SetArgument n _ (Some a) => [n; a] | Replace a b => [a; b] | WriteState b v => [b; v]
  | ReadState b => [b] | SealBlock b => [b] | SetType n _ => [n]
  end.
Definition step (fuel : nat) (g : graph) (o : op) : ex graph :=
  if forallb (fun n => Nat.ltb n (count g)) (ids o) then
    match o with
    | New ty sz num => let (g1, n) := ir_new g ty sz in ok (update g1 n (set_number num))
    | SetArgument n i a => node_set_argument fuel g n i a
    | Replace a b => ir_replace_node fuel g a (Some b)
    | WriteState b v => ok (update g b (set_state (Some v)))
    | ReadState b => let! (g1, _) := read_state fuel g b in ok g1
    | SealBlock b => seal_block fuel g b
    | SetType n ty => ok (update g n (set_type ty))
    end
  else Some Undef.
Fixpoint run (fuel : nat) (g : graph) (l : list op) : ex graph :=
  match l with [] => ok g | o :: l' => let! g1 := step fuel g o in run fuel g1 l' end.

Lemma step_grows fuel g o g' : Inv g -> step fuel g o = Some (Ok g') -> grows g g'.
Proof.
  intros I. unfold step. destruct (forallb _ _) eqn:B; [|discriminate].
  assert (L : forall n, In n (ids o) -> (n < count g)%nat) by (intros n In'; rewrite forallb_forall in B; apply B in In'; now apply Nat.ltb_lt in In').
  destruct o; cbn [ids In] in L; intros H.
  - destruct (inv_new g ty sz I) as (I1 & C1 & E1). destruct (ir_new g ty sz) as [g1 n]. cbn [fst snd] in *. injection H as <-.
    assert (G : grows g1 (update g1 n (set_number num))) by (apply grows_update; [intros m; auto|cbn; apply (i_ref g1 I1)|auto]).
    destruct G. split; [auto|lia].
  - eapply node_set_argument_grows; [exact I| | |exact H].
    + apply L. destruct a; cbn; auto.
    + intros q ->. apply L. cbn. auto.
  - eapply replace_uses_grows; [exact I| |exact H]. intros q Q. injection Q as <-. apply L. auto.
  - injection H as <-. apply set_state_grows; auto.
  - apply ex_ok in H as ((g1 & v) & H & E). injection E as <-. eapply (proj1 (states_grow fuel)) in H as [H _]; auto.
  - eapply seal_grows; eauto.
  - injection H as <-. apply grows_update; [intros m; auto|cbn; apply (i_ref g I)|auto].
Qed.
Lemma run_grows fuel : forall l g g', Inv g -> run fuel g l = Some (Ok g') -> grows g g'.
Proof.
  induction l as [|o l IH]; intros g g' I H; cbn [run] in H; [injection H as <-; now apply grows_refl|].
  apply ex_ok in H as (g1 & H1 & H). apply step_grows in H1 as G; auto. eapply grows_trans; [exact G|]. eapply IH; [apply G|exact H].
Qed.

(** How often [b] is in the use list of [a] is how many of its argument slots hold [a],
    after any history. *)
Theorem C27_use_lists (fuel : nat) (h : list op) (g : graph) : run fuel empty h = Some (Ok g) ->
  forall a b, count_occ Nat.eq_dec (uses g a) b = count_occ onat_dec (arguments (node_at g b)) (Some a).
Proof. intros H a b. apply run_grows in H as [I _]; [|apply inv_empty]. apply (i_uses g I). Qed.
Print Assumptions C27_use_lists.

(** After a replacement no argument refers to the replaced node, those that did refer to
    the other one instead and all else is as it was. The graph is complete: every region is
    sealed, every projection has its node. *)
Theorem C27_replacement (fuel : nat) (h : list op) (g : graph) (original replacement : nat) :
  run fuel empty h = Some (Ok g) -> finished g -> (replacement < count g)%nat -> original <> replacement ->
  exists g', ir_replace_node fuel g original (Some replacement) = Some (Ok g') /\
    (forall n i, argument g' n i <> Some original) /\
    (forall n i, argument g n i = Some original -> argument g' n i = Some replacement) /\
    (forall n i, argument g n i <> Some original -> argument g' n i = argument g n i) /\
    (forall n, type (node_at g' n) = type (node_at g n) /\ number (node_at g' n) = number (node_at g n)) /\
    uses g' original = [] /\ finished g'.
Proof.
  intros H F R N. apply run_grows in H as [I _]; [|apply inv_empty].
  destruct (replace_finished fuel g original replacement I F N R) as (g' & E & I' & S & F' & A). exists g'. split; [exact E|].
  assert (A1 : forall n i, argument g' n i <> Some original).
  { intros n i. rewrite A. destruct (onat_dec _ _) as [|X]; congruence. }
  split; [exact A1|]. split; [intros n i X; rewrite A, X; destruct (onat_dec _ _); congruence|].
  split; [intros n i X; rewrite A; destruct (onat_dec _ _); congruence|]. split; [intros n; destruct S as [_ S]; destruct (S n) as (S1 & _ & S3 & _); auto|].
  split; [|exact F']. destruct (uses g' original) as [|u l] eqn:U; [reflexivity|]. exfalso.
  assert (X := i_uses g' I' original u). rewrite U in X. unfold occ in X. cbn [count_occ] in X. destruct (Nat.eq_dec u u); [|congruence].
  assert (Y : (0 < slots g' u original)%nat) by lia. apply count_occ_In in Y. apply In_nth with (d := None) in Y as (k & _ & Y). exact (A1 u k Y).
Qed.
Print Assumptions C27_replacement.

(** A history with a loop: a function, its first block, a loop region with a phi of the
    state, a store and an addition that uses one node twice. *)
Definition history : list op := [
  New IR_FUNCTION 0 0; New IR_REGION 0 0; SetArgument 1 0 (Some 0%nat);
  New 0 4 0 (* 2 *); New 0 4 0 (* 3 *); SetArgument 3 0 (Some 2%nat); SetArgument 3 1 (Some 2%nat);
  WriteState 1 2; New IR_REGION 0 0 (* 4 *); SetArgument 4 0 (Some 1%nat);
  ReadState 4 (* 5: phi of 4 *); New IR_STORE 0 0 (* 6 *); SetArgument 6 0 (Some 2%nat); SetArgument 6 2 (Some 5%nat);
  WriteState 4 6; SetArgument 4 1 (Some 4%nat); SealBlock 1].
Definition result : graph := Eval vm_compute in match run 20 empty history with Some (Ok g) => g | _ => empty end.
Example history_runs : run 20 empty history = Some (Ok result) /\ count result = 7%nat.
Proof. split; vm_compute; reflexivity. Qed.
Example history_phi : arguments (node_at result 5) = [Some 4%nat; Some 2%nat; Some 6%nat; None] /\ uses result 2 = [3; 3; 6; 5]%nat.
Proof. split; vm_compute; reflexivity. Qed.
Example history_finished : finished result.
Proof.
  split; intros n H.
  - do 7 (destruct n as [|n]; [first [discriminate H|reflexivity]|]). discriminate H.
  - exfalso. do 7 (destruct n as [|n]; [discriminate H|]). discriminate H.
Qed.
Example history_replaced : match ir_replace_node 20 result 2 (Some 0%nat) with
  | Some (Ok g) => arguments (node_at g 3) = [Some 0%nat; Some 0%nat; None; None] /\ uses g 2 = [] /\ uses g 0 = [1; 5; 6; 3; 3]%nat
  | _ => False end.
Proof. vm_compute. auto. Qed.
