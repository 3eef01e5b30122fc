(** Proofs about the promotion of local variables (Mem2reg.v). *)
From Verif Require Import Base Fuel IR IRProofs Mem2reg Mem2regSpec.

(** ** Use lists that do not change *)

Definition links (m : node) : list nat * nat := (buf m, use_size m).
Lemma links_update g i f o : (forall m, links (f m) = links m) \/ o <> i -> links (node_at (update g i f) o) = links (node_at g o).
Proof. intros [H|H]; rewrite at_update; destruct (Nat.eqb_spec o i) as [->|N]; auto; contradiction. Qed.

Lemma set_argument_quiet g n i a g' o : set_argument g n i a = Ok g' -> argument g n i <> Some o -> a <> Some o ->
  links (node_at g' o) = links (node_at g o).
Proof.
  unfold set_argument. intros H P Q. destruct (i <? IR_MAX)%nat; [|discriminate].
  destruct (match argument g n i with Some p => _ | None => _ end); [injection H as <-; reflexivity|].
  assert (S1 : exists g1, match argument g n i with
                 | None => Ok g
                 | Some p =>
                     let m := node_at g p in
                     match find_use n (use_size m) (buf m) with
                     | None => Fail
                     | Some k =>
                         let* g' := (if type (node_at g n) =? IR_PROJECT then put_project g p (number (node_at g n)) None else Ok g) in
                         Ok (update g' p (fun m => set_uses (move_down (buf m) k (use_size m - 1 - k)) (use_size m - 1) m))
                     end
                 end = Ok g1 /\ links (node_at g1 o) = links (node_at g o)).
  { destruct (argument g n i) as [p|]; [|eauto]. cbv zeta in *. destruct (find_use _ _ _) as [k|]; [|discriminate].
    assert (o <> p) by congruence.
    destruct (type (node_at g n) =? IR_PROJECT).
    - destruct (put_project g p (number (node_at g n)) None) as [g2| |] eqn:E; cbn [bind] in *; try discriminate.
      eexists. split; [reflexivity|]. apply put_project_ok in E. destruct E as (-> & _). rewrite !links_update by auto. reflexivity.
    - cbn [bind] in *. eexists. split; [reflexivity|]. rewrite links_update by auto. reflexivity. }
  destruct S1 as (g1 & E1 & L1). cbv zeta in *. rewrite E1 in H. cbn [bind] in H.
  set (g2 := match a with None => g1 | Some q => update g1 q (fun m => set_uses (add_element (buf m) (use_size m) n) (S (use_size m)) m) end) in *.
  assert (L2 : links (node_at g2 o) = links (node_at g1 o)).
  { unfold g2. destruct a as [q|]; [|reflexivity]. apply links_update. right. congruence. }
  set (g3 := update g2 n (fun m => set_arguments (set_nth (arguments m) i a) m)) in *.
  assert (L3 : links (node_at g3 o) = links (node_at g2 o)) by (apply links_update; left; reflexivity).
  destruct (type (node_at g n) =? IR_PROJECT); [|injection H as <-; congruence].
  destruct a as [q|]; [|discriminate]. apply put_project_ok in H. destruct H as (-> & _). rewrite links_update by (left; reflexivity). congruence.
Qed.

(** With a node of the graph that is complete, and an input that is there. *)
Lemma node_set_argument_links fuel g n i p r g' o : Inv g -> finished g -> (i < IR_MAX)%nat -> argument g n i = Some p -> p <> r -> (r < count g)%nat ->
  node_set_argument fuel g n i (Some r) = Some (Ok g') -> o <> p -> o <> r -> links (node_at g' o) = links (node_at g o).
Proof.
  intros I F Li E N R H OP OR. unfold node_set_argument in H. rewrite E in H. destruct (Nat.eqb_spec p r); [contradiction|].
  apply ex_ok in H as (g1 & H1 & H). injection H1 as H1.
  assert (L : links (node_at g1 o) = links (node_at g o)) by (apply (set_argument_quiet g n i (Some r) g1 o H1); congruence).
  destruct (in_range g I n i p E) as (Ln & _ & _).
  destruct (set_argument_inv g n i (Some r) g1 I Ln ltac:(intros q Q; injection Q as <-; exact R) H1) as (I1 & (C1 & S1) & A1 & _).
  apply ex_ok in H as (c & HC & H). destruct c; [|injection H as <-; exact L].
  destruct (type (node_at g1 n) =? IR_PROJECT) eqn:T.
  - injection H as <-. rewrite links_update by (left; reflexivity). exact L.
  - destruct (Nat.eqb i 1); [|injection H as <-; exact L].
    injection HC as HC. unfold node_is_control in HC. rewrite T in HC.
    destruct (Z.eqb_spec (type (node_at g1 n)) IR_REGION) as [TR|]; [|discriminate].
    destruct (S1 n) as (T1 & _ & _ & _ & _ & _ & _ & SE).
    unfold seal_block in H. rewrite (SE (proj1 F n ltac:(congruence))) in H. injection H as <-. exact L.
Qed.

Lemma replace_slots_links fuel use p r o : p <> r -> o <> p -> o <> r -> forall k g j g', Inv g -> finished g -> (r < count g)%nat -> (j + k = IR_MAX)%nat ->
  replace_slots fuel g use p (Some r) j k = Some (Ok g') -> links (node_at g' o) = links (node_at g o).
Proof.
  intros N OP OR. induction k as [|k IH]; intros g j g' I F R L H; cbn [replace_slots] in H; [injection H as <-; reflexivity|].
  destruct (argument g use j) as [q|] eqn:E.
  - destruct (Nat.eqb_spec q p) as [->|NQ].
    + destruct (node_set_argument_finished fuel g use j p r I F ltac:(lia) E N R) as (g1 & E1 & I1 & (C1 & S1) & F1 & _).
      rewrite E1 in H. cbn [exbind] in H.
      rewrite (IH g1 (S j) g' I1 F1 ltac:(lia) ltac:(lia) H).
      apply (node_set_argument_links fuel g use j p r g1 o I F ltac:(lia) E N R E1 OP OR).
    + cbn [exbind ok] in H. apply (IH g (S j) g' I F R ltac:(lia) H).
  - cbn [exbind ok] in H. apply (IH g (S j) g' I F R ltac:(lia) H).
Qed.
Lemma replace_uses_links fuel p r o : p <> r -> o <> p -> o <> r -> forall i g g', Inv g -> finished g -> (r < count g)%nat ->
  replace_uses fuel g p (Some r) i = Some (Ok g') -> links (node_at g' o) = links (node_at g o).
Proof.
  intros N OP OR. induction i as [|i IH]; intros g g' I F R H; cbn [replace_uses] in H; [injection H as <-; reflexivity|].
  destruct (nth_error (buf (node_at g p)) i) as [use|]; [|discriminate].
  apply ex_ok in H as (g1 & H1 & H).
  pose proof (replace_slots_links fuel use p r o N OP OR IR_MAX g O g1 I F R eq_refl H1) as L1.
  destruct (replace_slots_finished fuel use p r N IR_MAX g O I F R eq_refl) as (g1' & E1 & (I1 & (C1 & _) & F1 & _) & _).
  rewrite E1 in H1. injection H1 as <-. rewrite <- L1. apply (IH g1' g' I1 F1 ltac:(lia) H).
Qed.

(** ir_replace_node, all that is known about it. *)
Lemma replace_all fuel g o r : Inv g -> finished g -> o <> r -> (r < count g)%nat ->
  exists g', ir_replace_node fuel g o (Some r) = Some (Ok g') /\ Inv g' /\ same_nodes g g' /\ finished g' /\
    (forall m j, argument g' m j = (if onat_dec (argument g m j) (Some o) then Some r else argument g m j)) /\
    (forall x, x <> o -> x <> r -> links (node_at g' x) = links (node_at g x)).
Proof.
  intros I F N R. destruct (replace_finished fuel g o r I F N R) as (g' & E & H1 & H2 & H3 & H4).
  exists g'. split; [exact E|]. split; [exact H1|]. split; [exact H2|]. split; [exact H3|]. split; [exact H4|].
  intros x X1 X2. apply (replace_uses_links fuel o r x N X1 X2 _ _ _ I F R E).
Qed.
Lemma uses_links g g' o : links (node_at g' o) = links (node_at g o) -> uses g' o = uses g o.
Proof. unfold uses, links. intros H. injection H as -> ->. reflexivity. Qed.

(** ** recursive_find *)

Section Find.
Variables (g : graph) (alloc : nat) (vsize idx : Z) (St : nat -> Prop) (rank : nat -> nat).
Hypothesis I0 : Inv g.
Hypothesis SG : state_graph g alloc St rank.
Hypothesis IDX : idx <> 0.
(** What is stored is no load of the object and no write to it, nor the object. *)
Hypothesis VAL : forall s, type (node_at g s) = IR_STORE -> argument g s 0 = Some alloc ->
  exists v, argument g s 1 = Some v /\ ~ loads g alloc v /\ ~ writes g alloc v /\ v <> alloc.

Definition memo (k : graph) (n : nat) : option nat := if visited (node_at k n) =? idx then scratch (node_at k n) else None.
Definition plain (n : nat) : Prop := ~ loads g alloc n /\ ~ writes g alloc n /\ n <> alloc.

Lemma state_count s : St s -> argument g s 0 <> None -> (s < count g)%nat.
Proof. intros _ H. destruct (argument g s 0) as [a|] eqn:E; [|congruence]. apply (in_range g I0 s 0 a E). Qed.
Lemma new_plain n : (count g <= n)%nat -> n <> alloc -> plain n.
Proof.
  intros C NA. destruct (i_new g I0 n C) as (_ & A).
  assert (H : argument g n 0 <> Some alloc) by (unfold argument; rewrite A; cbn; discriminate).
  split; [intros (_ & X); contradiction|]. split; [intros (_ & X); contradiction|exact NA].
Qed.

(** The graph while loads are being replaced: [done] are the loads that have been. *)
Record K (done : list nat) (k : graph) : Prop := {
  k_inv : Inv k; k_fin : finished k; k_count : (count g <= count k)%nat;
  k_alloc : (alloc < count g)%nat;
  k_links : links (node_at k alloc) = links (node_at g alloc);
  k_type : forall n, (n < count g)%nat -> type (node_at k n) = type (node_at g n);
  k_args : forall n i, (n < count g)%nat ->
    match argument g n i with
    | None => argument k n i = None
    | Some a => exists b, argument k n i = Some b /\
        ((In a done /\ loads g alloc a /\ exists s, argument g a 1 = Some s /\ memo k s = Some b) \/ (~ In a done /\ b = a))
    end;
  k_new : forall n i b, (count g <= n)%nat -> argument k n i = Some b -> plain b;
  k_memo : forall s r, memo k s = Some r -> St s /\ plain r /\ (r < count k)%nat /\ (s < count g)%nat;
  k_done : forall l, In l done -> loads g alloc l }.

(** The entry of [s] fits those of the states before it. *)
Definition fits_in (k : graph) (s r : nat) : Prop :=
  if type (node_at g s) =? IR_FUNCTION then True
  else if type (node_at g s) =? IR_PHI then
    (count g <= r)%nat /\ type (node_at k r) = IR_PHI /\ argument k r 0 = argument g s 0 /\
    forall i a, (i = 1 \/ i = 2)%nat -> argument g s i = Some a -> exists b, argument k r i = Some b /\ memo k a = Some b
  else if is (argument g s 0) alloc && (type (node_at g s) =? IR_STORE) then argument g s 1 = Some r
  else if is (argument g s 0) alloc && (type (node_at g s) =? IR_SET_ZERO_PTR) then (count g <= r)%nat /\ type (node_at k r) = IR_ZERO
  else exists p, follows g s = Some p /\ memo k p = Some r.
Definition consistent (open : list nat) (k : graph) : Prop :=
  forall s r, memo k s = Some r -> ~ In s open -> fits_in k s r.

(** What a call leaves as it is. *)
Record ext (k k' : graph) : Prop := {
  e_count : (count k <= count k')%nat;
  e_type : forall n, (n < count k)%nat -> type (node_at k' n) = type (node_at k n);
  e_args : forall n i, (n < count k)%nat -> argument k' n i = argument k n i;
  e_memo : forall n r, memo k n = Some r -> memo k' n = Some r }.
Lemma ext_refl k : ext k k. Proof. constructor; auto. Qed.
Lemma ext_trans a b c : ext a b -> ext b c -> ext a c.
Proof.
  intros [A1 A2 A3 A4] [B1 B2 B3 B4]. constructor; [lia| | |auto].
  - intros n L. rewrite B2, A2 by lia. reflexivity.
  - intros n i L. rewrite B3, A3 by lia. reflexivity.
Qed.
Lemma fits_ext done k k' s r : K done k -> ext k k' -> memo k s = Some r -> fits_in k s r -> fits_in k' s r.
Proof.
  intros KK E M F. destruct (k_memo _ _ KK s r M) as (_ & _ & RC & _). unfold fits_in in *.
  destruct (type (node_at g s) =? IR_FUNCTION); [exact I|].
  destruct (type (node_at g s) =? IR_PHI).
  { destruct F as (F1 & F2 & F3 & F4). split; [exact F1|]. split; [rewrite (e_type k k' E) by exact RC; exact F2|].
    split; [rewrite (e_args k k' E) by exact RC; exact F3|].
    intros i a Hi A. destruct (F4 i a Hi A) as (b & B1 & B2). exists b. rewrite (e_args k k' E) by exact RC. split; [exact B1|].
    apply (e_memo k k' E _ _ B2). }
  destruct (_ && _); [exact F|]. destruct (_ && _).
  { rewrite (e_type k k' E) by exact RC. exact F. }
  destruct F as (p & P1 & P2). exists p. split; [exact P1|apply (e_memo k k' E _ _ P2)].
Qed.

(** States and their inputs are the same in the graph being changed. *)
Lemma state_not_load s : St s -> ~ loads g alloc s.
Proof.
  intros S (T & _). destruct (st_kind g alloc St rank SG s S) as [H|[(H & _)|(_ & p & H & _)]]; try congruence.
  - rewrite T in H. discriminate.
  - rewrite T in H. discriminate.
  - unfold follows in H. rewrite T in H. cbn in H. unfold prev_state in H. rewrite T in H. discriminate.
Qed.
Lemma k_same done k n i a : K done k -> (n < count g)%nat -> argument g n i = Some a -> ~ loads g alloc a -> argument k n i = Some a.
Proof.
  intros KK L A N. pose proof (k_args _ _ KK n i L) as H. rewrite A in H. destruct H as (b & E & [(_ & X & _)|(_ & ->)]); [contradiction|exact E].
Qed.
Lemma k_none done k n i : K done k -> (n < count g)%nat -> argument g n i = None -> argument k n i = None.
Proof. intros KK L A. pose proof (k_args _ _ KK n i L) as H. rewrite A in H. exact H. Qed.
Lemma alloc_not_load : ~ loads g alloc alloc.
Proof. intros (T & _). rewrite (st_alloc g alloc St rank SG) in T. discriminate. Qed.
Lemma k_is done k n : K done k -> (n < count g)%nat -> is (argument k n 0) alloc = is (argument g n 0) alloc.
Proof.
  intros KK L. pose proof (k_args _ _ KK n O L) as H. destruct (argument g n 0) as [a|] eqn:A; [|rewrite H; reflexivity].
  destruct H as (b & E & [(_ & X & s & _ & M)|(_ & ->)]); rewrite E; [|reflexivity].
  destruct (k_memo _ _ KK s b M) as (_ & (_ & _ & PB) & _). cbn [is].
  destruct (Nat.eqb_spec b alloc); [contradiction|]. destruct (Nat.eqb_spec a alloc) as [->|]; [|reflexivity].
  destruct (alloc_not_load X).
Qed.
Lemma is_true a : is a alloc = true <-> a = Some alloc.
Proof.
  destruct a as [a|]; cbn; [|split; discriminate]. destruct (Nat.eqb_spec a alloc) as [->|N]; split; congruence.
Qed.

(** Changes that leave the argument lists, types and entries alone. *)
Lemma K_keep done k k' : K done k -> Inv k' -> finished k' -> ext k k' -> count k' = count k ->
  links (node_at k' alloc) = links (node_at k alloc) -> (forall n i, argument k' n i = argument k n i) -> (forall n, memo k' n = memo k n) -> K done k'.
Proof.
  intros KK I' F' E C L A M. destruct KK as [K1 K2 K3 KA KL K4 K5 K6 K7 K8]. constructor; auto; try lia.
  - congruence.
  - intros n Ln. rewrite (e_type k k' E) by lia. auto.
  - intros n i Ln. specialize (K5 n i Ln). destruct (argument g n i) as [a|]; rewrite A; [|exact K5].
    destruct K5 as (b & B1 & B2). exists b. split; [exact B1|]. destruct B2 as [(B2 & B3 & s & B4 & B5)|B2]; [left|right; exact B2].
    split; [exact B2|]. split; [exact B3|]. exists s. rewrite M. auto.
  - intros n i b Ln. rewrite A. eauto.
  - intros s r. rewrite M, C. auto.
Qed.

Lemma finished_keep k k' : finished k -> (forall n, type (node_at k' n) = type (node_at k n)) -> (forall n, is_sealed (node_at k' n) = is_sealed (node_at k n)) ->
  (forall n, number (node_at k' n) = number (node_at k n)) -> (forall n i, argument k' n i = argument k n i) -> finished k'.
Proof. intros (A & B) T S N R. split; intros n; rewrite T; [rewrite S; auto|rewrite N, R; auto]. Qed.

(** Marking a state visited, and entering a result. *)
Lemma visit_ok done open k s : K done k -> consistent open k -> memo k s = None ->
  let k' := update k s (fun m => set_scratch None (set_visited idx m)) in
  K done k' /\ consistent open k' /\ ext k k' /\ (forall n, memo k' n = memo k n) /\ (forall n i, argument k' n i = argument k n i) /\
  (forall n, type (node_at k' n) = type (node_at k n)).
Proof.
  intros KK CO M k'.
  assert (MM : forall n, memo k' n = memo k n).
  { intros n. unfold memo, k'. rewrite at_update. destruct (Nat.eqb_spec n s) as [->|]; [|reflexivity].
    cbn. rewrite Z.eqb_refl. symmetry. exact M. }
  assert (AA : forall n i, argument k' n i = argument k n i) by (intros n i; apply argument_update_keep; reflexivity).
  assert (TT : forall n, type (node_at k' n) = type (node_at k n)) by (intros n; unfold k'; rewrite at_update; destruct (Nat.eqb_spec n s) as [->|]; reflexivity).
  assert (E : ext k k') by (constructor; [apply le_n|auto|auto|intros n r; rewrite MM; auto]).
  assert (K' : K done k').
  { apply (K_keep done k); auto.
    - apply inv_keeps; [intros m; auto| |apply (k_inv _ _ KK)]. cbn. apply (i_ref k (k_inv _ _ KK)).
    - apply (finished_keep k); auto; try apply (k_fin _ _ KK); intros n; unfold k'; rewrite at_update; destruct (Nat.eqb_spec n s) as [->|]; reflexivity.
    - apply links_update. left. reflexivity. }
  split; [exact K'|]. split; [|auto]. intros n r. rewrite MM. intros X O. apply (fits_ext done k k' n r KK E X). apply CO; assumption.
Qed.
Lemma enter_ok done k s r : K done k -> visited (node_at k s) = idx -> St s -> (s < count g)%nat -> plain r -> (r < count k)%nat ->
  (forall r', memo k s = Some r' -> r' = r) ->
  let k' := update k s (set_scratch (Some r)) in
  K done k' /\ ext k k' /\ memo k' s = Some r /\ (forall n, n <> s -> memo k' n = memo k n) /\ (forall n i, argument k' n i = argument k n i).
Proof.
  intros KK V SS SC PR RC U k'.
  assert (MS : memo k' s = Some r). { unfold memo, k'. rewrite at_update, Nat.eqb_refl. cbn. rewrite V, Z.eqb_refl. reflexivity. }
  assert (MO : forall n, n <> s -> memo k' n = memo k n). { intros n N. unfold memo, k'. rewrite at_update. destruct (Nat.eqb_spec n s); [contradiction|reflexivity]. }
  assert (AA : forall n i, argument k' n i = argument k n i) by (intros n i; apply argument_update_keep; reflexivity).
  assert (MM : forall n x, memo k n = Some x -> memo k' n = Some x).
  { intros n x X. destruct (Nat.eq_dec n s) as [->|N]; [rewrite MS, (U x X); reflexivity|rewrite MO by exact N; exact X]. }
  assert (TT : forall n, type (node_at k' n) = type (node_at k n)) by (intros n; unfold k'; rewrite at_update; destruct (Nat.eqb_spec n s) as [->|]; reflexivity).
  assert (E : ext k k') by (constructor; [apply le_n|auto|auto|exact MM]).
  split; [|auto]. destruct KK as [K1 K2 K3 KA KL K4 K5 K6 K7 K8]. constructor; auto.
  - apply inv_keeps; [intros m; auto| |exact K1]. cbn. apply (i_ref k K1).
  - apply (finished_keep k); auto; intros n; unfold k'; rewrite at_update; destruct (Nat.eqb_spec n s) as [->|]; reflexivity.
  - unfold k'. rewrite links_update by (left; reflexivity). exact KL.
  - intros n Ln. rewrite TT. auto.
  - intros n i Ln. specialize (K5 n i Ln). destruct (argument g n i) as [a|]; rewrite AA; [|exact K5].
    destruct K5 as (b & B1 & B2). exists b. split; [exact B1|]. destruct B2 as [(B2 & B3 & t & B4 & B5)|B2]; [left|right; exact B2].
    split; [exact B2|]. split; [exact B3|]. exists t. auto.
  - intros n i b Ln. rewrite AA. eauto.
  - intros n x. destruct (Nat.eq_dec n s) as [->|N]; [rewrite MS; intros X; injection X as <-; auto|rewrite MO by exact N; apply K7].
Qed.

(** A new node. *)
Lemma new_ok done open k ty : K done k -> consistent open k -> ty <> IR_PROJECT -> ty <> IR_REGION ->
  let k' := fst (ir_new k ty vsize) in
  K done k' /\ consistent open k' /\ ext k k' /\ type (node_at k' (count k)) = ty /\ count k' = S (count k) /\ memo k' (count k) = None /\
  (forall n, n <> count k -> node_at k' n = node_at k n) /\ (forall i, argument k' (count k) i = None) /\ visited (node_at k' (count k)) = 0.
Proof.
  intros KK CO NP NR k'. destruct (inv_new k ty vsize (k_inv _ _ KK)) as (I1 & C1 & _). fold k' in I1, C1.
  assert (AO : forall n, n <> count k -> node_at k' n = node_at k n).
  { intros n N. unfold k', ir_new. cbn [fst]. rewrite at_update. destruct (Nat.eqb_spec n (count k)); [contradiction|reflexivity]. }
  assert (AN : node_at k' (count k) = fresh ty vsize). { unfold k', ir_new. cbn [fst]. rewrite at_update, Nat.eqb_refl. reflexivity. }
  assert (NA : forall i, argument k' (count k) i = None).
  { intros i. unfold argument. rewrite AN. cbn. repeat (destruct i as [|i]; [reflexivity|]). destruct i; reflexivity. }
  assert (MN : memo k' (count k) = None). { unfold memo. rewrite AN. cbn. destruct idx; reflexivity. }
  assert (MO : forall n, n <> count k -> memo k' n = memo k n) by (intros n N; unfold memo; rewrite AO by exact N; reflexivity).
  assert (E : ext k k').
  { constructor; [lia| | |].
    - intros n L. rewrite AO by lia. reflexivity.
    - intros n i L. unfold argument. rewrite AO by lia. reflexivity.
    - intros n r X. destruct (k_memo _ _ KK n r X) as (_ & _ & _ & L). pose proof (k_count _ _ KK). rewrite MO by lia. exact X. }
  assert (K' : K done k').
  { pose proof KK as KK0. destruct KK as [K1 K2 K3 KA KL K4 K5 K6 K7 K8]. constructor; auto; try lia.
    - destruct K2 as (F1 & F2). split; intros n; (destruct (Nat.eq_dec n (count k)) as [->|N]; [rewrite AN; cbn; congruence|rewrite (AO n N)]).
      + apply F1.
      + unfold argument. rewrite (AO n N). apply F2.
    - rewrite AO by lia. exact KL.
    - intros n L. rewrite AO by lia. auto.
    - intros n i L. specialize (K5 n i L). unfold argument in *. rewrite AO by lia. destruct (nth i (arguments (node_at g n)) None) as [a|]; [|exact K5].
      destruct K5 as (b & B1 & B2). exists b. split; [exact B1|]. destruct B2 as [(B2 & B3 & t & B4 & B5)|B2]; [left|right; exact B2].
      split; [exact B2|]. split; [exact B3|]. exists t. split; [exact B4|]. apply (e_memo k k' E _ _ B5).
    - intros n i b L. destruct (Nat.eq_dec n (count k)) as [->|N]; [rewrite NA; discriminate|].
      unfold argument. rewrite AO by exact N. apply (K6 n i b L).
    - intros s r. destruct (Nat.eq_dec s (count k)) as [->|N]; [rewrite MN; discriminate|]. rewrite MO by exact N. intros X.
      destruct (K7 s r X) as (X1 & X2 & X3 & X4). rewrite C1. split; [exact X1|]. split; [exact X2|]. split; [lia|exact X4]. }
  split; [exact K'|]. split.
  { intros s r X O. destruct (Nat.eq_dec s (count k)) as [->|N]; [rewrite MN in X; discriminate|]. rewrite MO in X by exact N.
    apply (fits_ext done k k' s r KK E X). apply CO; assumption. }
  split; [exact E|]. rewrite AN. split; [reflexivity|]. split; [exact C1|]. split; [exact MN|]. split; [exact AO|]. split; [exact NA|reflexivity].
Qed.

(** An input of one of the new phis. *)
Lemma input_ok done open k phi i v k' : K done k -> consistent open k -> (count g <= phi < count k)%nat -> type (node_at k phi) = IR_PHI ->
  argument k phi i = None -> plain v -> (v < count k)%nat -> set_argument k phi i (Some v) = Ok k' ->
  (forall s, type (node_at g s) = IR_PHI -> ~ In s open -> memo k s <> Some phi) ->
  K done k' /\ consistent open k' /\ count k' = count k /\ (forall n, type (node_at k' n) = type (node_at k n)) /\ (forall n, memo k' n = memo k n) /\
  (forall n j, argument k' n j = if Nat.eqb n phi && Nat.eqb j i then Some v else argument k n j) /\
  (forall n, visited (node_at k' n) = visited (node_at k n)).
Proof.
  intros KK CO PC TP AN PV VC E NM.
  destruct (set_argument_inv k phi i (Some v) k' (k_inv _ _ KK) ltac:(lia) ltac:(intros q Q; injection Q as <-; exact VC) E) as (I' & (C' & S') & A' & _).
  assert (TT : forall n, type (node_at k' n) = type (node_at k n)) by (intros n; apply (S' n)).
  assert (VV : forall n, visited (node_at k' n) = visited (node_at k n)) by (intros n; apply (S' n)).
  assert (MM : forall n, memo k' n = memo k n).
  { intros n. destruct (S' n) as (_ & _ & _ & V & SC & _). unfold memo. rewrite V, SC. reflexivity. }
  assert (AO : forall n j, n <> phi -> argument k' n j = argument k n j).
  { intros n j N. rewrite A'. destruct (Nat.eqb_spec n phi); [contradiction|reflexivity]. }
  assert (L : links (node_at k' alloc) = links (node_at k alloc)).
  { apply (set_argument_quiet k phi i (Some v) k' alloc E); [congruence|]. destruct PV as (_ & _ & PV). congruence. }
  assert (K' : K done k').
  { pose proof KK as KK0. destruct KK as [K1 K2 K3 KA KL K4 K5 K6 K7 K8]. constructor; auto; try lia.
    - apply (finished_same k k' (conj C' S')); [|exact K2]. intros n T. destruct (Nat.eq_dec n phi) as [->|N]; [rewrite TP in T; discriminate|].
      rewrite AO by exact N. apply K2. exact T.
    - congruence.
    - intros n Ln. rewrite TT. auto.
    - intros n j Ln. specialize (K5 n j Ln). destruct (argument g n j) as [a|]; rewrite AO by lia; [|exact K5].
      destruct K5 as (b & B1 & B2). exists b. split; [exact B1|]. destruct B2 as [(B2 & B3 & t & B4 & B5)|B2]; [left|right; exact B2].
      split; [exact B2|]. split; [exact B3|]. exists t. rewrite MM. auto.
    - intros n j b Ln. rewrite A'. destruct (_ && _); [intros X; injection X as <-; exact PV|]. apply K6. exact Ln.
    - intros s r. rewrite MM, C'. auto. }
  split; [exact K'|]. split; [|auto 6].
  intros s r. rewrite MM. intros X O. specialize (CO s r X O).
  unfold fits_in in *. destruct (type (node_at g s) =? IR_FUNCTION); [exact I|].
  destruct (Z.eqb_spec (type (node_at g s)) IR_PHI) as [TS|_].
  { assert (RP : r <> phi) by (intros ->; apply (NM s TS O X)). destruct CO as (F1 & F2 & F3 & F4). split; [exact F1|]. split; [rewrite TT; exact F2|]. split; [rewrite AO by exact RP; exact F3|].
    intros j a Hj Aj. destruct (F4 j a Hj Aj) as (b & B1 & B2). exists b. rewrite AO, MM by exact RP. auto. }
  destruct (_ && _); [exact CO|]. destruct (_ && _); [rewrite TT; exact CO|].
  destruct CO as (p & P1 & P2). exists p. rewrite MM. auto.
Qed.

Definition fresh_phis (k k' : graph) : Prop := forall t x, type (node_at g t) = IR_PHI -> memo k' t = Some x -> memo k t = Some x \/ (count k <= x)%nat.
Definition stays (k k' : graph) : Prop := forall n, (n < count g)%nat -> visited (node_at k n) = idx -> visited (node_at k' n) = idx.
Record post (done open : list nat) (k : graph) (s : nat) (k' : graph) (r : nat) : Prop := {
  p_K : K done k'; p_con : consistent open k'; p_ext : ext k k'; p_memo : memo k' s = Some r; p_fresh : fresh_phis k k'; p_stays : stays k k' }.
Lemma fresh_trans a b c : (count a <= count b)%nat -> fresh_phis a b -> fresh_phis b c -> fresh_phis a c.
Proof. intros L A B t x T X. destruct (B t x T X) as [Y|Y]; [apply (A t x T Y)|right; lia]. Qed.
Lemma fresh_same a b : (forall n, memo b n = memo a n) -> fresh_phis a b.
Proof. intros H t x _ X. left. rewrite <- H. exact X. Qed.
Lemma consistent_more open s k : consistent open k -> consistent (s :: open) k.
Proof. intros C t r M N. apply C; [exact M|]. intros O. apply N. right. exact O. Qed.

Lemma finish done open k k2 s r : K done k2 -> consistent (s :: open) k2 -> ext k k2 -> fresh_phis k k2 -> stays k k2 ->
  visited (node_at k2 s) = idx -> St s -> plain r -> (r < count k2)%nat -> (forall r', memo k2 s = Some r' -> r' = r) ->
  (forall k', ext k2 k' -> fits_in k' s r) -> (type (node_at g s) = IR_PHI -> (count k <= r)%nat) ->
  post done open k s (update k2 s (set_scratch (Some r))) r.
Proof.
  intros KK CO E FP SY V SS PR RC U FI PH.
  destruct (enter_ok done k2 s r KK V SS (st_count _ _ _ _ SG s SS) PR RC U) as (K' & E' & MS & MO & AA).
  constructor; auto.
  - intros t x X O. destruct (Nat.eq_dec t s) as [->|N]; [rewrite MS in X; injection X as <-; apply FI, E'|].
    rewrite MO in X by exact N. apply (fits_ext done k2 _ t x KK E' X). apply CO; [exact X|]. intros [Y|Y]; [congruence|contradiction].
  - apply (ext_trans _ _ _ E E').
  - intros t x T X. destruct (Nat.eq_dec t s) as [->|N]; [rewrite MS in X; injection X as <-; right; auto|].
    rewrite MO in X by exact N. apply (FP t x T X).
  - intros n L X. rewrite at_update. apply SY in X; [|exact L]. destruct (Nat.eqb_spec n s) as [->|]; [cbn|]; exact X.
Qed.

Lemma straight_fits k s p r : type (node_at g s) <> IR_FUNCTION -> type (node_at g s) <> IR_PHI -> ~ writes g alloc s -> follows g s = Some p ->
  fits_in k s r <-> memo k p = Some r.
Proof.
  intros NF NP NW FO. unfold fits_in. destruct (Z.eqb_spec (type (node_at g s)) IR_FUNCTION) as [|_]; [contradiction|].
  destruct (Z.eqb_spec (type (node_at g s)) IR_PHI); [contradiction|].
  assert (W : is (argument g s 0) alloc = true -> type (node_at g s) <> IR_STORE /\ type (node_at g s) <> IR_SET_ZERO_PTR).
  { rewrite is_true. intros X. split; intros Y; apply NW; split; auto. }
  destruct (is (argument g s 0) alloc); cbn [andb].
  - destruct (W eq_refl) as (W1 & W2). destruct (Z.eqb_spec (type (node_at g s)) IR_STORE); [contradiction|].
    destruct (Z.eqb_spec (type (node_at g s)) IR_SET_ZERO_PTR); [contradiction|].
    split; [intros (q & Q & X); rewrite FO in Q; injection Q as <-; exact X|intros X; exists p; auto].
  - split; [intros (q & Q & X); rewrite FO in Q; injection Q as <-; exact X|intros X; exists p; auto].
Qed.

(** A state with one state before it, after the call for that. *)
Lemma straight done open k k1 k2 s p r :
  ext k k1 -> (forall n, memo k1 n = memo k n) -> stays k k1 -> visited (node_at k1 s) = idx -> (forall t, In t open -> type (node_at g t) = IR_PHI) ->
  post done open k1 p k2 r -> St s -> type (node_at g s) <> IR_FUNCTION -> type (node_at g s) <> IR_PHI -> ~ writes g alloc s -> follows g s = Some p ->
  post done open k s (update k2 s (set_scratch (Some r))) r.
Proof.
  intros E1 M1 S1 V1 OP [PK PC PE PM PF PS] SS NF NP NW FO.
  destruct (k_memo _ _ PK p r PM) as (_ & PR & RC & _).
  apply finish; auto.
  - apply consistent_more, PC.
  - apply (ext_trans _ _ _ E1 PE).
  - apply (fresh_trans k k1 k2 (e_count _ _ E1) (fresh_same k k1 M1) PF).
  - intros n L X. apply (PS n L), (S1 n L), X.
  - apply (PS s (st_count _ _ _ _ SG s SS)), V1.
  - intros r' X. assert (NO : ~ In s open) by (intros O; apply NP, OP, O).
    specialize (PC s r' X NO). apply (straight_fits k2 s p r' NF NP NW FO) in PC. congruence.
  - intros k' E'. apply (straight_fits k' s p r NF NP NW FO). apply (e_memo _ _ E' _ _ PM).
  - intros T. contradiction.
Qed.

Definition find_ok (fuel : nat) : Prop := forall done open k s k' r, K done k -> consistent open k -> St s ->
  (forall t, In t open -> type (node_at g t) = IR_PHI) -> (forall t, In t open -> memo k t <> None) ->
  recursive_find fuel k s alloc vsize idx = Some (Ok (k', r)) -> post done open k s k' r.

(** While the inputs of the phi [phi] for the state [s] are found. *)
Record filling (done open : list nat) (s phi : nat) (k : graph) : Prop := {
  f_K : K done k; f_con : consistent (s :: open) k; f_range : (count g <= phi < count k)%nat; f_type : type (node_at k phi) = IR_PHI;
  f_only : forall t, type (node_at g t) = IR_PHI -> ~ In t (s :: open) -> memo k t <> Some phi;
  f_visited : visited (node_at k s) = idx; f_memo : memo k s = Some phi }.
Record fills (phi i : nat) (k k' : graph) : Prop := {
  l_count : (count k <= count k')%nat;
  l_type : forall n, (n < count k)%nat -> type (node_at k' n) = type (node_at k n);
  l_args : forall n j, (n < count k)%nat -> ~ (n = phi /\ j = i) -> argument k' n j = argument k n j;
  l_memo : forall n r, memo k n = Some r -> memo k' n = Some r;
  l_fresh : fresh_phis k k'; l_stays : stays k k' }.

Lemma phi_input fuel done open s phi i k k' : find_ok fuel -> filling done open s phi k -> St s -> type (node_at g s) = IR_PHI -> (i = 1 \/ i = 2)%nat ->
  (forall t, In t open -> type (node_at g t) = IR_PHI) -> (forall t, In t open -> memo k t <> None) -> argument k phi i = None ->
  match argument k s i with
  | None => ok k
  | Some a => let! (k, v) := recursive_find fuel k a alloc vsize idx in Some (set_argument k phi i (Some v))
  end = Some (Ok k') ->
  filling done open s phi k' /\ fills phi i k k' /\
  forall a, argument g s i = Some a -> exists b, argument k' phi i = Some b /\ memo k' a = Some b.
Proof.
  intros FO [FK FC FR FT FN FV FM] SS TS Hi OP OM AN H. pose proof (st_count _ _ _ _ SG s SS) as SC.
  destruct (argument g s i) as [a|] eqn:A.
  2: { rewrite (k_none _ _ _ _ FK SC A) in H. injection H as <-. split; [constructor; auto|]. split; [|discriminate].
       constructor; auto. - apply fresh_same. reflexivity. - intros n _ X; exact X. }
  pose proof (st_phi _ _ _ _ SG s i a SS TS Hi A) as SA.
  rewrite (k_same _ _ _ _ _ FK SC A (state_not_load a SA)) in H.
  apply ex_ok in H as ((k1 & v) & H1 & H). injection H as H.
  assert (OP' : forall t, In t (s :: open) -> type (node_at g t) = IR_PHI) by (intros t [<-|T]; auto).
  assert (OM' : forall t, In t (s :: open) -> memo k t <> None) by (intros t [<-|T]; [congruence|auto]).
  destruct (FO done (s :: open) k a k1 v FK FC SA OP' OM' H1) as [PK PC PE PM PF PS].
  destruct (k_memo _ _ PK a v PM) as (_ & PV & VC & _).
  assert (N1 : forall t, type (node_at g t) = IR_PHI -> ~ In t (s :: open) -> memo k1 t <> Some phi).
  { intros t T O X. destruct (PF t phi T X) as [Y|Y]; [apply (FN t T O Y)|lia]. }
  pose proof (e_count _ _ PE) as CE.
  assert (T1 : type (node_at k1 phi) = IR_PHI) by (rewrite (e_type _ _ PE) by lia; exact FT).
  destruct (input_ok done (s :: open) k1 phi i v k' PK PC ltac:(lia) T1 ltac:(rewrite (e_args _ _ PE) by lia; exact AN) PV VC H N1)
    as (K2 & C2 & CC & TT & MM & AA & VV).
  split.
  { constructor; auto; try lia.
    - rewrite TT. exact T1.
    - intros t. rewrite MM. apply N1.
    - rewrite VV. apply (PS s SC), FV.
    - rewrite MM. apply (e_memo _ _ PE _ _ FM). }
  split.
  { constructor; [lia| | | | |].
    - intros n L. rewrite TT. apply (e_type _ _ PE). exact L.
    - intros n j L N. rewrite AA. destruct (Nat.eqb_spec n phi), (Nat.eqb_spec j i); cbn [andb]; try (apply (e_args _ _ PE); exact L). destruct N; auto.
    - intros n r X. rewrite MM. apply (e_memo _ _ PE _ _ X).
    - intros t x T X. rewrite MM in X. apply (PF t x T X).
    - intros n L X. rewrite VV. apply (PS n L), X. }
  intros a' A'. injection A' as <-. exists v. rewrite AA, !Nat.eqb_refl. cbn [andb]. rewrite MM. auto.
Qed.

Lemma region_plain b : type (node_at g b) = IR_REGION -> plain b.
Proof.
  intros T. split; [intros (X & _); rewrite T in X; discriminate|]. split; [intros ([X|X] & _); rewrite T in X; discriminate|].
  intros ->. rewrite (st_alloc _ _ _ _ SG) in T. discriminate.
Qed.

(** The phi for the state [s], before its inputs. *)
Lemma phi_start done open k s block k2 phi : K done k -> consistent open k -> St s -> type (node_at g s) = IR_PHI -> memo k s = None ->
  visited (node_at k s) = idx -> (s < count k)%nat -> (forall t, In t open -> memo k t <> None) ->
  argument g s 0 = Some block -> type (node_at g block) = IR_REGION -> new_phi k block vsize = Ok (k2, phi) ->
  let k3 := update k2 s (set_scratch (Some phi)) in
  filling done open s phi k3 /\ ext k k3 /\ fresh_phis k k3 /\ stays k k3 /\ phi = count k /\
  argument k3 phi 0 = Some block /\ argument k3 phi 1 = None /\ argument k3 phi 2 = None /\ (forall t, In t open -> memo k3 t <> None).
Proof.
  intros KK CO SS TS MN VS SC OM A0 TB H k3. unfold new_phi in H.
  destruct (new_ok done open k IR_PHI KK CO ltac:(discriminate) ltac:(discriminate)) as (K1 & C1 & E1 & T1 & CC1 & M1 & O1 & N1 & V1).
  destruct (ir_new k IR_PHI vsize) as (g1, v) eqn:G. assert (v = count k) as -> by (unfold ir_new in G; congruence). cbn [fst] in *.
  destruct (set_argument g1 (count k) 0 (Some block)) as [g2| |] eqn:H2; cbn [bind] in H; try discriminate. injection H as <- <-. rename H2 into H.
  pose proof (k_count _ _ KK) as CG. destruct (in_range g I0 s 0 block A0) as (_ & BC & _).
  assert (NM : forall t, type (node_at g t) = IR_PHI -> ~ In t open -> memo g1 t <> Some (count k)).
  { intros t _ _ X. destruct (Nat.eq_dec t (count k)) as [->|N]; [congruence|].
    unfold memo in X. rewrite (O1 t N) in X. fold (memo k t) in X. destruct (k_memo _ _ KK t _ X) as (_ & _ & L & _). lia. }
  destruct (input_ok done open g1 (count k) 0 block g2 K1 C1 ltac:(lia) T1 (N1 O) (region_plain block TB) ltac:(lia) H NM) as (K2 & C2 & CC2 & T2 & M2 & A2 & V2).
  assert (SG1 : node_at g1 s = node_at k s) by (apply O1; lia).
  assert (MS : memo g2 s = None) by (rewrite M2; unfold memo; rewrite SG1; exact MN).
  assert (VS2 : visited (node_at g2 s) = idx) by (rewrite V2, SG1; exact VS).
  assert (PN : plain (count k)). { apply new_plain; [lia|]. pose proof (k_alloc _ _ KK). lia. }
  destruct (enter_ok done g2 s (count k) K2 VS2 SS (st_count _ _ _ _ SG s SS) PN ltac:(lia) ltac:(congruence)) as (K3 & E3 & M3 & MO3 & A3).
  fold k3 in K3, E3, M3, MO3, A3.
  assert (MM : forall n, n <> s -> n <> count k -> memo k3 n = memo k n).
  { intros n N N'. rewrite MO3, M2 by exact N. unfold memo. rewrite O1 by exact N'. reflexivity. }
  assert (E : ext k k3).
  { constructor.
    - pose proof (e_count _ _ E3). lia.
    - intros n L. rewrite (e_type _ _ E3), T2, O1 by lia. reflexivity.
    - intros n i L. rewrite A3, A2. destruct (Nat.eqb_spec n (count k)); [lia|]. cbn [andb]. unfold argument. rewrite O1 by lia. reflexivity.
    - intros n r X. destruct (k_memo _ _ KK n r X) as (_ & _ & _ & L). rewrite MM; [exact X|congruence|lia]. }
  split.
  { constructor; auto.
    - intros t r X O. assert (t <> s) by (intros ->; apply O; left; reflexivity). rewrite MO3 in X by assumption.
      apply (fits_ext done g2 k3 t r K2 E3 X). apply C2; [exact X|]. intros Y. apply O. right. exact Y.
    - pose proof (e_count _ _ E3). lia.
    - rewrite (e_type _ _ E3), T2 by lia. exact T1.
    - intros t T O X. assert (t <> s) by (intros ->; apply O; left; reflexivity). rewrite MO3, M2 in X by assumption.
      apply (NM t T); [|exact X]. intros Y. apply O. right. exact Y.
    - unfold k3. rewrite at_update, Nat.eqb_refl. cbn. exact VS2. }
  split; [exact E|]. split.
  { intros t x T X. destruct (Nat.eq_dec t s) as [->|N]; [rewrite M3 in X; injection X as <-; right; lia|].
    left. rewrite MO3, M2 in X by exact N. unfold memo in X. destruct (Nat.eq_dec t (count k)) as [->|N'].
    - fold (memo g1 (count k)) in X. congruence.
    - rewrite O1 in X by exact N'. exact X. }
  split.
  { intros n L X. unfold k3. rewrite at_update. destruct (Nat.eqb_spec n s) as [->|]; [cbn; exact VS2|]. rewrite V2, O1 by lia. exact X. }
  split; [reflexivity|]. rewrite !A3, !A2, !Nat.eqb_refl. cbn [andb Nat.eqb].
  split; [reflexivity|]. split; [apply N1|]. split; [apply N1|].
  intros t T. specialize (OM t T). destruct (memo k t) as [x|] eqn:X; [|congruence]. rewrite (e_memo _ _ E _ _ X). discriminate.
Qed.

Lemma prev_follows s : type (node_at g s) <> IR_PROJECT -> type (node_at g s) <> IR_PHI -> follows g s = prev_state g s.
Proof.
  intros A B. unfold follows. destruct (Z.eqb_spec (type (node_at g s)) IR_PROJECT); [contradiction|].
  destruct (Z.eqb_spec (type (node_at g s)) IR_PHI); [contradiction|reflexivity].
Qed.
Lemma prev_same done k s p : K done k -> (s < count g)%nat -> prev_state g s = Some p -> ~ loads g alloc p -> prev_state k s = Some p.
Proof.
  intros KK L. unfold prev_state. rewrite (k_type _ _ KK s L). cbv zeta.
  destruct (existsb _ _); [intros A N; apply (k_same _ _ _ _ _ KK L A N)|].
  destruct (existsb _ _); [intros A N; apply (k_same _ _ _ _ _ KK L A N)|discriminate].
Qed.

Lemma find_all : forall fuel, find_ok fuel.
Proof.
  induction fuel as [|fuel IH]; intros done open k s k' r KK CO SS OP OM H; [discriminate|].
  pose proof (st_count _ _ _ _ SG s SS) as SC. cbn [recursive_find] in H.
  change (if visited (node_at k s) =? idx then scratch (node_at k s) else None) with (memo k s) in H.
  destruct (memo k s) as [m|] eqn:M.
  { injection H as <- <-. constructor; auto; [apply ext_refl|apply fresh_same; reflexivity|intros n _ X; exact X]. }
  destruct (visit_ok done open k s KK CO M) as (K1 & C1 & E1 & M1 & A1 & T1).
  set (k1 := update k s (fun m => set_scratch None (set_visited idx m))) in *.
  assert (V1 : visited (node_at k1 s) = idx) by (unfold k1; rewrite at_update, Nat.eqb_refl; reflexivity).
  assert (S1 : stays k k1).
  { intros n _ X. unfold k1. rewrite at_update. destruct (Nat.eqb_spec n s) as [->|]; [reflexivity|exact X]. }
  assert (OM1 : forall t, In t open -> memo k1 t <> None) by (intros t T; rewrite M1; auto).
  assert (KC : (count g <= count k1)%nat) by apply (k_count _ _ K1).
  rewrite (k_type _ _ K1 s SC) in H.
  apply ex_ok in H as ((k2 & r') & H & E). injection E as <- ->.
  destruct (st_kind _ _ _ _ SG s SS) as [TF|[(TP & b & B0 & TB)|(NP & p & FO & SP & RK)]].
  - (* the start *)
    rewrite TF in H. cbn in H.
    destruct (new_ok done open k1 IR_UNDEFINED K1 C1 ltac:(discriminate) ltac:(discriminate)) as (K2 & C2 & E2 & T2 & CC2 & M2 & O2 & N2 & V2).
    assert (k2 = fst (ir_new k1 IR_UNDEFINED vsize) /\ r = count k1) as (-> & ->) by (unfold ir_new in *; cbn [fst]; injection H as <- <-; auto).
    assert (MM : forall n, (n < count g)%nat -> memo (fst (ir_new k1 IR_UNDEFINED vsize)) n = memo k n).
    { intros n L. rewrite <- M1. unfold memo. rewrite O2 by lia. reflexivity. }
    apply finish; auto.
    + apply consistent_more, C2.
    + apply (ext_trans _ _ _ E1 E2).
    + intros t x T X. left. destruct (Nat.eq_dec t (count k1)) as [->|N]; [congruence|]. rewrite <- M1. unfold memo in *. rewrite O2 in X by exact N. exact X.
    + intros n L X. rewrite O2 by lia. apply (S1 n L X).
    + rewrite O2 by lia. exact V1.
    + apply new_plain; [exact KC|]. pose proof (k_alloc _ _ K1). lia.
    + intros x X. rewrite MM in X by exact SC. congruence.
    + intros k3 _. unfold fits_in. rewrite TF. exact I.
  - (* a phi *)
    rewrite TP in H. cbn -[new_phi set_argument recursive_find] in H.
    rewrite (k_same _ _ _ _ _ K1 SC B0) in H by (intros (X & _); rewrite TB in X; discriminate).
    destruct (new_phi k1 b vsize) as [(g2 & phi)| |] eqn:H2; try discriminate.
    destruct (phi_start done open k1 s b g2 phi K1 C1 SS TP ltac:(rewrite M1; exact M) V1 ltac:(lia) OM1 B0 TB H2) as (FI & E3 & F3 & S3 & PH & B3 & N1 & N2 & OM3).
    set (k3 := update g2 s (set_scratch (Some phi))) in *. cbv zeta in FI, E3, F3, S3, B3, N1, N2, OM3.
    apply ex_ok in H as (k4 & H4 & H). apply ex_ok in H as (k5 & H5 & H). injection H as <- <-.
    destruct (phi_input fuel done open s phi 1 k3 k4 IH FI SS TP ltac:(auto) OP OM3 N1 H4) as (FI4 & L4 & I4).
    assert (OM4 : forall t, In t open -> memo k4 t <> None).
    { intros t T. specialize (OM3 t T). destruct (memo k3 t) as [x|] eqn:X; [|congruence]. rewrite (l_memo _ _ _ _ L4 _ _ X). discriminate. }
    pose proof (f_range _ _ _ _ _ FI) as R3. pose proof (l_count _ _ _ _ L4) as C4.
    destruct (phi_input fuel done open s phi 2 k4 k5 IH FI4 SS TP ltac:(auto) OP OM4 ltac:(rewrite (l_args _ _ _ _ L4) by lia; exact N2) H5) as (FI5 & L5 & I5).
    pose proof (l_count _ _ _ _ L5) as C5. pose proof (e_count _ _ E3) as C3. destruct FI5 as [FK FC FR FT FN FV FM].
    assert (CK : count k1 = count k) by reflexivity.
    apply finish; auto.
    + constructor.
      * lia.
      * intros n L. rewrite (l_type _ _ _ _ L5), (l_type _ _ _ _ L4), (e_type _ _ E3) by lia. apply T1.
      * intros n i L. rewrite (l_args _ _ _ _ L5), (l_args _ _ _ _ L4), (e_args _ _ E3) by lia. apply A1.
      * intros n x X. apply (l_memo _ _ _ _ L5), (l_memo _ _ _ _ L4), (e_memo _ _ E3). rewrite M1. exact X.
    + apply (fresh_trans k k1); [lia|apply fresh_same, M1|]. apply (fresh_trans k1 k3); [lia|exact F3|].
      apply (fresh_trans k3 k4); [lia|apply (l_fresh _ _ _ _ L4)|apply (l_fresh _ _ _ _ L5)].
    + intros n L X. apply (l_stays _ _ _ _ L5 n L), (l_stays _ _ _ _ L4 n L), (S3 n L), (S1 n L), X.
    + apply new_plain; [lia|]. pose proof (k_alloc _ _ FK). lia.
    + lia.
    + congruence.
    + intros k' E'. unfold fits_in. rewrite TP. cbn -[node_at argument memo IR_PHI]. 
      split; [lia|]. split; [rewrite (e_type _ _ E') by lia; exact FT|].
      split. { rewrite (e_args _ _ E'), (l_args _ _ _ _ L5), (l_args _ _ _ _ L4) by lia. congruence. }
      intros i a Hi A. destruct Hi as [-> | ->].
      * destruct (I4 a A) as (x & X1 & X2). exists x. rewrite (e_args _ _ E'), (l_args _ _ _ _ L5) by lia. split; [exact X1|].
        apply (e_memo _ _ E'), (l_memo _ _ _ _ L5), X2.
      * destruct (I5 a A) as (x & X1 & X2). exists x. rewrite (e_args _ _ E') by lia. split; [exact X1|]. apply (e_memo _ _ E'), X2.
    + intros _. lia.
  - (* a state after another *)
    assert (NF : type (node_at g s) <> IR_FUNCTION).
    { intros T. unfold follows in FO. rewrite T in FO. cbn in FO. unfold prev_state in FO. rewrite T in FO. discriminate. }
    pose proof (state_not_load p SP) as NL.
    assert (GO : ~ writes g alloc s -> recursive_find fuel k1 p alloc vsize idx = Some (Ok (k2, r)) -> post done open k s (update k2 s (set_scratch (Some r))) r).
    { intros NW HF. apply (straight done open k k1 k2 s p r E1 M1 S1 V1 OP); auto. }
    assert (WR : forall k3 r3, K done k3 -> consistent open k3 -> ext k1 k3 -> (forall n, (n < count g)%nat -> memo k3 n = memo k1 n /\ visited (node_at k3 n) = visited (node_at k1 n)) ->
               plain r3 -> (r3 < count k3)%nat -> (forall k', ext k3 k' -> fits_in k' s r3) -> post done open k s (update k3 s (set_scratch (Some r3))) r3).
    { intros k3 r3 K3 C3 E3 MV PR RC FI. apply finish; auto.
      - apply consistent_more, C3.
      - apply (ext_trans _ _ _ E1 E3).
      - intros t x T X. left. destruct (k_memo _ _ K3 t x X) as (_ & _ & _ & L). rewrite <- M1, <- (proj1 (MV t L)). exact X.
      - intros n L X. rewrite (proj2 (MV n L)). apply (S1 n L X).
      - rewrite (proj2 (MV s SC)). exact V1.
      - intros x X. rewrite (proj1 (MV s SC)), M1 in X. congruence.
      - intros T. contradiction. }
    destruct (Z.eqb_spec (type (node_at g s)) IR_PROJECT) as [TPR|NPR].
    { unfold follows in FO. rewrite TPR in FO. cbn in FO. rewrite (k_same _ _ _ _ _ K1 SC FO NL) in H. apply GO; [|exact H].
      intros ([X|X] & _); rewrite TPR in X; discriminate. }
    destruct (Z.eqb_spec (type (node_at g s)) IR_FUNCTION); [contradiction|].
    rewrite (prev_follows s NPR NP) in FO. rewrite (k_is _ _ _ K1 SC) in H.
    destruct (Z.eqb_spec (type (node_at g s)) IR_SET_ZERO_PTR) as [TZ|NZ].
    { destruct (is (argument g s 0) alloc) eqn:IA.
      - destruct (new_ok done open k1 IR_ZERO K1 C1 ltac:(discriminate) ltac:(discriminate)) as (K2 & C2 & E2 & T2 & CC2 & M2 & O2 & N2 & V2).
        assert (k2 = fst (ir_new k1 IR_ZERO vsize) /\ r = count k1) as (-> & ->) by (unfold ir_new in *; cbn [fst]; injection H as <- <-; auto).
        apply WR; auto.
        + intros q L. unfold memo. rewrite O2 by lia. auto.
        + apply new_plain; [exact KC|]. pose proof (k_alloc _ _ K1). lia.
        + intros k' E'. unfold fits_in. rewrite TZ, IA. cbn -[node_at IR_ZERO count]. split; [exact KC|]. rewrite (e_type _ _ E') by (rewrite CC2; apply le_n). exact T2.
      - assert (PS : argument g s 1 = Some p) by (unfold prev_state in FO; rewrite TZ in FO; exact FO).
        rewrite (k_same _ _ _ _ _ K1 SC PS NL) in H. apply GO; [|exact H]. intros (_ & X). apply is_true in X. congruence. }
    destruct (Z.eqb_spec (type (node_at g s)) IR_STORE) as [TST|NST].
    { destruct (is (argument g s 0) alloc) eqn:IA.
      - apply is_true in IA. destruct (VAL s TST IA) as (v & V & NVL & NVW & NVA).
        rewrite (k_same _ _ _ _ _ K1 SC V NVL) in H. injection H as <- <-.
        destruct (in_range g I0 s 1 v V) as (_ & VC & _).
        apply WR; auto.
        + apply ext_refl.
        + split; [exact NVL|]. split; [exact NVW|exact NVA].
        + lia.
        + intros k' E'. unfold fits_in. rewrite TST. apply is_true in IA. rewrite IA. cbn. exact V.
      - assert (PS : argument g s 2 = Some p) by (unfold prev_state in FO; rewrite TST in FO; exact FO).
        rewrite (k_same _ _ _ _ _ K1 SC PS NL) in H. apply GO; [|exact H]. intros (_ & X). apply is_true in X. congruence. }
    destruct (Z.eqb_spec (type (node_at g s)) IR_PHI) as [|_]; [contradiction|].
    rewrite (prev_same _ _ _ _ K1 SC FO NL) in H. apply GO; [|exact H]. intros ([X|X] & _); contradiction.
Qed.

(** ** The loads *)

Hypothesis FRESH : forall n, visited (node_at g n) <> idx.
Hypothesis F0 : finished g.
Hypothesis AC : (alloc < count g)%nat.

Lemma memo_start n : memo g n = None.
Proof. unfold memo. destruct (Z.eqb_spec (visited (node_at g n)) idx); [destruct (FRESH n); assumption|reflexivity]. Qed.
Lemma K_start : K [] g.
Proof.
  constructor; auto.
  - intros n i L. destruct (argument g n i) as [a|]; [|reflexivity]. exists a. split; [reflexivity|right; auto].
  - intros n i b L A. apply (in_range g I0) in A. lia.
  - intros s r M. rewrite memo_start in M. discriminate.
  - intros l [].
Qed.
Lemma consistent_start : consistent [] g.
Proof. intros s r M. rewrite memo_start in M. discriminate. Qed.

Definition found (done : list nat) (k : graph) : Prop := forall l, In l done -> exists s r, argument g l 1 = Some s /\ memo k s = Some r.
Record P (done : list nat) (k : graph) : Prop := { l_K : K done k; l_con : consistent [] k; l_found : found done k }.

Lemma same_memo k k' : same_nodes k k' -> forall n, memo k' n = memo k n.
Proof. intros (_ & S) n. destruct (S n) as (_ & _ & _ & V & SC & _). unfold memo. rewrite V, SC. reflexivity. Qed.
Lemma same_type k k' : same_nodes k k' -> forall n, type (node_at k' n) = type (node_at k n).
Proof. intros (_ & S) n. apply (S n). Qed.

(** One load replaced. *)
Lemma load_replaced fuel done k l s r k' : P done k -> loads g alloc l -> argument g l 1 = Some s -> memo k s = Some r ->
  ir_replace_node fuel k l (Some r) = Some (Ok k') -> P (l :: done) k'.
Proof.
  intros [KK CO FD] LD A1 M H.
  destruct (k_memo _ _ KK s r M) as (SS & PR & RC & SC).
  assert (NR : l <> r) by (intros <-; destruct PR as (X & _); contradiction).
  destruct (replace_all fuel k l r (k_inv _ _ KK) (k_fin _ _ KK) NR RC) as (k0 & E & I' & SN & F' & AR & LK).
  rewrite E in H. injection H as <-. rename k0 into k'.
  pose proof (same_memo _ _ SN) as MM. pose proof (same_type _ _ SN) as TT. destruct (SN) as (CC & _).
  assert (PL : forall n i b, argument k n i = Some b -> plain b -> argument k' n i = Some b).
  { intros n i b A PB. rewrite AR, A. destruct (onat_dec (Some b) (Some l)) as [X|]; [|reflexivity]. injection X as ->. destruct PB as (X & _). contradiction. }
  assert (NA : alloc <> l) by (intros X; subst l; apply alloc_not_load; exact LD).
  assert (K' : K (l :: done) k').
  { pose proof KK as KK0. destruct KK as [K1 K2 K3 KA KL K4 K5 K6 K7 K8]. constructor; auto.
    - lia.
    - rewrite LK; [exact KL|exact NA|]. intros <-. destruct PR as (_ & _ & X). contradiction.
    - intros n L. rewrite TT. auto.
    - intros n i L. specialize (K5 n i L). destruct (argument g n i) as [a|] eqn:A; [|rewrite AR, K5; reflexivity].
      destruct K5 as (b & B1 & [(D & LA & t & T1 & T2)|(ND & ->)]).
      + exists b. destruct (K7 t b T2) as (_ & PB & _). split; [apply (PL n i b B1 PB)|]. left. split; [right; exact D|]. split; [exact LA|].
        exists t. rewrite MM. auto.
      + rewrite AR, B1. destruct (onat_dec (Some a) (Some l)) as [X|X].
        * injection X as ->. exists r. split; [reflexivity|]. left. split; [left; reflexivity|]. split; [exact LD|]. exists s. rewrite MM. auto.
        * exists a. split; [reflexivity|]. right. split; [|reflexivity]. intros [Y|Y]; [subst; contradiction|contradiction].
    - intros n i b L. rewrite AR. destruct (onat_dec _ _); [intros X; injection X as <-; exact PR|]. apply (K6 n i b L).
    - intros t x. rewrite MM, CC. apply K7.
    - intros q [<-|Q]; auto. }
  constructor; [exact K'| |].
  - intros t x. rewrite MM. intros X O. specialize (CO t x X O). unfold fits_in in *.
    destruct (type (node_at g t) =? IR_FUNCTION); [exact I|]. destruct (type (node_at g t) =? IR_PHI).
    { destruct CO as (C1 & C2 & C3 & C4). split; [exact C1|]. split; [rewrite TT; exact C2|]. split.
      - rewrite AR. destruct (onat_dec (argument k x 0) (Some l)) as [Y|]; [|exact C3].
        destruct (k_new _ _ KK x 0%nat l C1 Y) as (Z1 & _). contradiction.
      - intros i a Hi A. destruct (C4 i a Hi A) as (b & B1 & B2). exists b. rewrite MM. split; [|exact B2]. apply (PL x i b B1), (k_new _ _ KK x i b C1 B1). }
    destruct (_ && _); [exact CO|]. destruct (_ && _); [rewrite TT; exact CO|].
    destruct CO as (p & P1 & P2). exists p. rewrite MM. auto.
  - intros q [<-|Q].
    + exists s, r. rewrite MM. auto.
    + destruct (FD q Q) as (t & x & T1 & T2). exists t, x. rewrite MM. auto.
Qed.

Lemma use_slot n : In n (uses g alloc) -> (n < count g)%nat /\ exists i, argument g n i = Some alloc.
Proof.
  intros H. assert (O : (0 < occ n (uses g alloc))%nat) by (apply count_occ_In; exact H).
  rewrite (i_uses g I0) in O. apply count_occ_In in O. apply In_nth with (d := None) in O as (i & _ & E).
  assert (A : argument g n i = Some alloc) by exact E. split; [apply (in_range g I0 n i alloc A)|exists i; exact A].
Qed.
Lemma slot_use n i : argument g n i = Some alloc -> In n (uses g alloc).
Proof. intros A. apply (in_range g I0) in A as (_ & _ & S). rewrite <- (i_uses g I0) in S. apply count_occ_In in S. exact S. Qed.

Lemma one_load fuel done k u k' : P done k -> In u (uses g alloc) -> replace_load fuel alloc vsize idx k u = Some (Ok k') ->
  exists done', P done' k' /\ incl done done' /\ (loads g alloc u -> In u done').
Proof.
  intros PP IU H. destruct (use_slot u IU) as (UC & i & A). pose proof PP as [KK CO FD]. unfold replace_load in H. rewrite (k_type _ _ KK u UC) in H.
  destruct (Z.eqb_spec (type (node_at g u)) IR_LOAD) as [T|T].
  - assert (LD : loads g alloc u). { split; [exact T|]. rewrite (st_slot _ _ _ _ SG u i A) in A by auto. exact A. }
    destruct (st_load _ _ _ _ SG u LD) as (s & A1 & SS).
    rewrite (k_same _ _ _ _ _ KK UC A1 (state_not_load s SS)) in H.
    apply ex_ok in H as ((k1 & r) & H1 & H).
    destruct (find_all fuel done [] k s k1 r KK CO SS ltac:(intros t []) ltac:(intros t []) H1) as [PK PC PE PM PF PS].
    exists (u :: done). split; [|split; [intros x X; right; exact X|intros _; left; reflexivity]].
    apply (load_replaced fuel done k1 u s r k'); auto. constructor; auto.
    intros q Q. destruct (FD q Q) as (t & x & T1 & T2). exists t, x. split; [exact T1|apply (e_memo _ _ PE _ _ T2)].
  - injection H as <-. exists done. split; [exact PP|]. split; [intros x X; exact X|]. intros (X & _). contradiction.
Qed.

(** The loop over the uses. *)
Lemma uses_at k i u : links (node_at k alloc) = links (node_at g alloc) -> (i < use_size (node_at k alloc))%nat ->
  nth_error (buf (node_at k alloc)) i = Some u -> In u (uses g alloc).
Proof.
  intros L LT N. rewrite <- (uses_links g k alloc L). unfold uses. apply nth_error_In with i.
  rewrite <- (firstn_skipn (use_size (node_at k alloc)) (buf (node_at k alloc))) in N. rewrite nth_error_app1 in N; [exact N|].
  rewrite firstn_length. assert (i < length (buf (node_at k alloc)))%nat; [|lia].
  rewrite <- (firstn_skipn (use_size (node_at k alloc)) (buf (node_at k alloc))). apply nth_error_Some. congruence.
Qed.
Lemma uses_nth k n : links (node_at k alloc) = links (node_at g alloc) -> In n (uses g alloc) ->
  exists j, (j < use_size (node_at k alloc))%nat /\ nth_error (buf (node_at k alloc)) j = Some n.
Proof.
  intros L H. rewrite <- (uses_links g k alloc L) in H. unfold uses in H. apply In_nth_error in H as (j & E).
  assert (LJ : (j < length (firstn (use_size (node_at k alloc)) (buf (node_at k alloc))))%nat) by (apply nth_error_Some; congruence).
  exists j. rewrite firstn_length in LJ. split; [lia|].
  rewrite <- (firstn_skipn (use_size (node_at k alloc)) (buf (node_at k alloc))), nth_error_app1; [exact E|]. rewrite firstn_length. lia.
Qed.

Lemma load_loop fuel : forall rounds i done k k', P done k ->
  over_uses (replace_load fuel alloc vsize idx) rounds k alloc i = Some (Ok k') ->
  exists done', P done' k' /\ incl done done' /\
    (forall j u, (i <= j < use_size (node_at g alloc))%nat -> nth_error (buf (node_at g alloc)) j = Some u -> loads g alloc u -> In u done').
Proof.
  induction rounds as [|rounds IH]; intros i done k k' PP H; [discriminate|]. cbn [over_uses] in H.
  pose proof (k_links _ _ (l_K _ _ PP)) as LK. assert (BU : buf (node_at k alloc) = buf (node_at g alloc) /\ use_size (node_at k alloc) = use_size (node_at g alloc)).
  { unfold links in LK. injection LK as -> ->. auto. } destruct BU as (B & U).
  destruct (Nat.ltb_spec i (use_size (node_at k alloc))) as [L|L].
  - destruct (nth_error (buf (node_at k alloc)) i) as [u|] eqn:N; [|discriminate].
    apply ex_ok in H as (k1 & H1 & H).
    destruct (one_load fuel done k u k1 PP (uses_at k i u LK L N) H1) as (d1 & P1 & I1 & L1).
    destruct (IH (S i) d1 k1 k' P1 H) as (d2 & P2 & I2 & L2).
    exists d2. split; [exact P2|]. split; [intros x X; apply I2, I1, X|].
    intros j v J NJ LV. destruct (Nat.eq_dec i j) as [<-|NE]; [|apply (L2 j v ltac:(lia) NJ LV)].
    rewrite B in N. rewrite N in NJ. injection NJ as <-. apply I2, L1, LV.
  - injection H as <-. exists done. split; [exact PP|]. split; [intros x X; exact X|]. intros j v J. lia.
Qed.

(** ** The writes *)

(** The writes [D] have been taken out of the chain of states. *)
Inductive skipD (D : list nat) : nat -> nat -> Prop :=
| D_not : forall s, ~ In s D -> skipD D s s
| D_in : forall s p t, In s D -> prev_state g s = Some p -> skipD D p t -> skipD D s t.

Lemma write_prev w : writes g alloc w -> exists p, prev_state g w = Some p /\ St p /\ (rank p < rank w)%nat.
Proof.
  intros W. pose proof (st_write _ _ _ _ SG w W) as SW. destruct W as (T & _).
  destruct (st_kind _ _ _ _ SG w SW) as [H|[(H & _)|(NP & p & H & X)]].
  - destruct T as [T|T]; rewrite T in H; discriminate.
  - destruct T as [T|T]; rewrite T in H; discriminate.
  - exists p. rewrite prev_follows in H; [auto| |exact NP]. destruct T as [T|T]; rewrite T; discriminate.
Qed.
Lemma skipD_rank D : (forall w, In w D -> writes g alloc w) -> forall a c, skipD D a c -> (rank c <= rank a)%nat /\ (a = c \/ writes g alloc a) /\ (St a -> St c) /\ ~ In c D.
Proof.
  intros DW a c H. induction H as [s N|s p t I E H (IH1 & IH2 & IH3 & IH4)]; [auto|].
  destruct (write_prev s (DW s I)) as (q & Q & SQ & R). rewrite Q in E. injection E as ->. split; [lia|]. auto.
Qed.
Lemma skipD_other D w : forall a c, skipD D a c -> c <> w -> skipD (w :: D) a c.
Proof.
  intros a c H. induction H as [s N|s p t I E H IH]; intros NC.
  - constructor. intros [X|X]; [congruence|contradiction].
  - apply (D_in _ s p t); [right; exact I|exact E|auto].
Qed.
Lemma skipD_through D w p c : prev_state g w = Some p -> skipD (w :: D) p c -> forall a, skipD D a w -> skipD (w :: D) a c.
Proof.
  intros E H a S. remember w as w0 eqn:W in S. induction S as [s N|s q t I Q S IH]; subst.
  - apply (D_in _ w p c); [left; reflexivity|exact E|exact H].
  - apply (D_in _ s q c); [right; exact I|exact Q|auto].
Qed.

Variables (k2 : graph) (done2 : list nat).
Hypothesis PP2 : P done2 k2.

Record J (D : list nat) (d : graph) : Prop := {
  j_inv : Inv d; j_fin : finished d; j_same : same_nodes k2 d; j_links : links (node_at d alloc) = links (node_at g alloc);
  j_D : forall w, In w D -> writes g alloc w;
  j_args : forall n i, match argument k2 n i with
                       | None => argument d n i = None
                       | Some b => exists c, argument d n i = Some c /\ skipD D b c
                       end }.
Lemma J_start : J [] k2.
Proof.
  destruct PP2 as [KK _ _]. constructor; try apply KK.
  - apply nodes_refl.
  - intros w [].
  - intros n i. destruct (argument k2 n i) as [b|]; [|reflexivity]. exists b. split; [reflexivity|]. constructor. intros [].
Qed.

Lemma write_gone fuel D d w d' : J D d -> writes g alloc w -> bypass fuel d w = Some (Ok d') -> J (w :: D) d'.
Proof.
  intros JJ WW H. destruct (write_prev w WW) as (p & PE & SP & RK). pose proof (st_count _ _ _ _ SG w (st_write _ _ _ _ SG w WW)) as WC.
  destruct PP2 as [KK CO FD]. pose proof (k_type _ _ KK w WC) as TW.
  pose proof (same_type _ _ (j_same _ _ JJ) w) as TD. rewrite TW in TD.
  assert (P2 : prev_state k2 w = Some p) by (apply (prev_same done2 k2 w p KK WC PE (state_not_load p SP))).
  assert (PD : exists c, prev_state d w = Some c /\ skipD D p c).
  { unfold prev_state in *. rewrite TD. rewrite TW in P2. cbv zeta in *. destruct (existsb _ _); [|destruct (existsb _ _); [|discriminate]];
      match type of P2 with argument _ _ ?i = _ => pose proof (j_args _ _ JJ w i) as A end; rewrite P2 in A; exact A. }
  destruct PD as (c & PC & SK). destruct (skipD_rank D (j_D _ _ JJ) p c SK) as (RC & _ & SC & NC). specialize (SC SP).
  assert (CW : w <> c). { intros <-. lia. }
  assert (CC : (c < count d)%nat). { destruct (j_same _ _ JJ) as (C & _). rewrite C. pose proof (st_count _ _ _ _ SG c SC). pose proof (k_count _ _ KK). lia. }
  destruct (replace_all fuel d w c (j_inv _ _ JJ) (j_fin _ _ JJ) CW CC) as (d0 & E & I' & SN & F' & AR & LK).
  unfold bypass in H. rewrite TD in H.
  assert (d' = d0) as ->. { destruct WW as ([T|T] & _); rewrite T in H; cbn -[prev_state ir_replace_node] in H; rewrite PC, E in H; injection H as <-; reflexivity. }
  constructor; auto.
  - apply (nodes_trans _ _ _ (j_same _ _ JJ) SN).
  - rewrite LK; [apply (j_links _ _ JJ)| |].
    + intros X; subst w. destruct WW as ([T|T] & _); rewrite (st_alloc _ _ _ _ SG) in T; discriminate.
    + intros X; subst c. destruct (st_kind _ _ _ _ SG alloc SC) as [T|[(T & _)|(_ & q & T & _)]]; [rewrite (st_alloc _ _ _ _ SG) in T; discriminate|rewrite (st_alloc _ _ _ _ SG) in T; discriminate|].
      unfold follows, prev_state in T. rewrite (st_alloc _ _ _ _ SG) in T. discriminate.
  - intros x [<-|X]; [exact WW|apply (j_D _ _ JJ x X)].
  - intros n i. pose proof (j_args _ _ JJ n i) as A. destruct (argument k2 n i) as [b|]; [|rewrite AR, A; reflexivity].
    destruct A as (t & A & S). rewrite AR, A. destruct (onat_dec (Some t) (Some w)) as [X|X].
    + injection X as ->. exists c. split; [reflexivity|]. apply (skipD_through D w p c PE); [|exact S]. apply skipD_other; [exact SK|congruence].
    + exists t. split; [reflexivity|]. apply skipD_other; [exact S|congruence].
Qed.

Hypothesis STORES : forall n i, argument g n i = Some alloc -> loads g alloc n \/ writes g alloc n.

Lemma write_loop fuel : forall rounds i D d d', J D d -> over_uses (bypass fuel) rounds d alloc i = Some (Ok d') ->
  exists D', J D' d' /\ incl D D' /\
    (forall j u, (i <= j < use_size (node_at g alloc))%nat -> nth_error (buf (node_at g alloc)) j = Some u -> writes g alloc u -> In u D').
Proof.
  induction rounds as [|rounds IH]; intros i D d d' JJ H; [discriminate|]. cbn [over_uses] in H.
  pose proof (j_links _ _ JJ) as LK. assert (BU : buf (node_at d alloc) = buf (node_at g alloc) /\ use_size (node_at d alloc) = use_size (node_at g alloc)).
  { unfold links in LK. injection LK as -> ->. auto. } destruct BU as (B & U).
  destruct (Nat.ltb_spec i (use_size (node_at d alloc))) as [L|L].
  - destruct (nth_error (buf (node_at d alloc)) i) as [u|] eqn:N; [|discriminate].
    apply ex_ok in H as (d1 & H1 & H). pose proof (uses_at d i u LK L N) as IU. destruct (use_slot u IU) as (UC & j & A).
    assert (X : exists D1, J D1 d1 /\ incl D D1 /\ (writes g alloc u -> In u D1)).
    { destruct (STORES u j A) as [LD|W].
      - exists D. pose proof LD as (T & _). unfold bypass in H1.
        rewrite (same_type _ _ (j_same _ _ JJ)), (k_type _ _ (l_K _ _ PP2) u UC), T in H1. injection H1 as <-.
        split; [exact JJ|]. split; [intros x X; exact X|]. intros ([X|X] & _); rewrite T in X; discriminate.
      - exists (u :: D). split; [apply (write_gone fuel D d u d1 JJ W H1)|]. split; [intros x X; right; exact X|intros _; left; reflexivity]. }
    destruct X as (D1 & J1 & I1 & W1). destruct (IH (S i) D1 d1 d' J1 H) as (D2 & J2 & I2 & W2).
    exists D2. split; [exact J2|]. split; [intros x X; apply I2, I1, X|].
    intros q v Q NQ WV. destruct (Nat.eq_dec i q) as [<-|NE]; [|apply (W2 q v ltac:(lia) NQ WV)].
    rewrite B in N. rewrite N in NQ. injection NQ as <-. apply I2, W1, WV.
  - injection H as <-. exists D. split; [exact JJ|]. split; [intros x X; exact X|]. intros q v Q. lia.
Qed.

Lemma skipD_all D : (forall w, writes g alloc w <-> In w D) -> forall a c, skipD D a c -> skips g alloc a c.
Proof.
  intros W a c H. induction H as [s N|s p t I E H IH]; [constructor; rewrite W; exact N|]. apply (Skip g alloc s p t); [apply W, I|exact E|exact IH].
Qed.
End Find.
