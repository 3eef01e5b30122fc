From Verif Require Import Base Fuel IR.

Definition occ (n : nat) (l : list nat) : nat := count_occ Nat.eq_dec l n.
Definition onat_dec (x y : option nat) : {x = y} + {x <> y}. Proof. decide equality. apply Nat.eq_dec. Defined.
Arguments onat_dec : simpl never.
Arguments occ : simpl never.
Definition slots (g : graph) (b a : nat) : nat := count_occ onat_dec (arguments (node_at g b)) (Some a).
Record Inv (g : graph) : Prop := {
  i_len : forall n, length (arguments (node_at g n)) = IR_MAX;
  i_buf : forall n, (use_size (node_at g n) <= length (buf (node_at g n)))%nat;
  i_uses : forall a b, occ b (uses g a) = slots g b a;
  i_new : forall n, (count g <= n)%nat -> use_size (node_at g n) = O /\ arguments (node_at g n) = repeat None IR_MAX;
  i_ref : forall n s, state (node_at g n) = Some s \/ incomplete_phi (node_at g n) = Some s -> (s < count g)%nat }.

Lemma at_update g i f j : node_at (update g i f) j = if Nat.eqb j i then f (node_at g i) else node_at g j.
Proof. reflexivity. Qed.
Lemma count_update g i f : count (update g i f) = count g. Proof. reflexivity. Qed.

(** * The use list *)
Lemma find_use_some n : forall k b i, find_use n k b = Some i -> (i < k)%nat /\ nth_error b i = Some n.
Proof.
  induction k as [|k IH]; intros [|x b] i H; try discriminate. cbn [find_use] in H. destruct (Nat.eqb_spec x n) as [->|N].
  - injection H as <-. split; [lia|reflexivity].
  - destruct (find_use n k b) as [j|] eqn:E; [|discriminate]. injection H as <-. apply IH in E as [A B]. split; [lia|exact B].
Qed.
Lemma find_use_none n : forall k b, find_use n k b = None -> occ n (firstn k b) = O.
Proof.
  induction k as [|k IH]; intros [|x b] H; try reflexivity. cbn [find_use] in H. cbn [firstn occ count_occ]. unfold occ in *. cbn [count_occ].
  destruct (Nat.eqb_spec x n); [discriminate|]. destruct (Nat.eq_dec x n); [congruence|]. apply IH. destruct (find_use n k b); [discriminate|reflexivity].
Qed.
Lemma move_down_length : forall k b i, length (move_down b i k) = length b.
Proof. induction k as [|k IH]; intros b i; [reflexivity|]. cbn [move_down]. rewrite IH. apply set_nth_length. Qed.
Lemma move_down_cons : forall k x b i, move_down (x :: b) (S i) k = x :: move_down b i k.
Proof. induction k as [|k IH]; intros x b i; [reflexivity|]. cbn [move_down set_nth nth]. apply IH. Qed.
Lemma move_down_0 : forall k b x, (k <= length b)%nat -> firstn k (move_down (x :: b) 0 k) = firstn k b.
Proof.
  induction k as [|k IH]; intros b x L; [reflexivity|]. destruct b as [|y b]; [cbn in L; lia|]. cbn [move_down set_nth nth].
  rewrite move_down_cons. cbn [firstn]. f_equal. apply IH. cbn in L. lia.
Qed.
Lemma remove_use n : forall k b i, find_use n k b = Some i -> (k <= length b)%nat ->
  forall x, (occ x (firstn (k - 1) (move_down b i (k - 1 - i))) + (if Nat.eq_dec x n then 1 else 0) = occ x (firstn k b))%nat.
Proof.
  induction k as [|k IH]; intros [|y b] i H L x; try discriminate. cbn [find_use] in H. destruct (Nat.eqb_spec y n) as [->|N].
  - injection H as <-. replace (S k - 1 - 0)%nat with k by lia. replace (S k - 1)%nat with k by lia. rewrite move_down_0 by (cbn in L; lia).
    cbn [firstn]. unfold occ. cbn [count_occ]. destruct (Nat.eq_dec x n), (Nat.eq_dec n x); subst; try congruence; lia.
  - destruct (find_use n k b) as [j|] eqn:E; [|discriminate]. injection H as <-. destruct (find_use_some _ _ _ _ E) as [Lj _].
    replace (S k - 1 - S j)%nat with (k - 1 - j)%nat by lia. rewrite move_down_cons. specialize (IH b j E ltac:(cbn in L; lia) x).
    replace (S k - 1)%nat with (S (k - 1)) by lia. cbn [firstn]. unfold occ in *. cbn [count_occ]. destruct (Nat.eq_dec y x); lia.
Qed.
Lemma add_use b k n x : (k <= length b)%nat -> occ x (firstn (S k) (add_element b k n)) = (occ x (firstn k b) + (if Nat.eq_dec n x then 1 else 0))%nat.
Proof.
  unfold add_element. intros L. destruct (Nat.ltb_spec k (length b)).
  - clear L. revert b H. induction k as [|k IH]; intros [|y b] H; cbn [length] in H; try lia.
    + cbn. unfold occ. cbn. destruct (Nat.eq_dec n x); reflexivity.
    + cbn [set_nth]. rewrite !firstn_cons. unfold occ in *. cbn [count_occ]. specialize (IH b ltac:(lia)). destruct (Nat.eq_dec y x); lia.
  - assert (k = length b) by lia. subst k. rewrite firstn_all. rewrite firstn_all2 by (rewrite app_length; cbn; lia).
    unfold occ. rewrite count_occ_app. cbn. destruct (Nat.eq_dec n x); reflexivity.
Qed.
Lemma add_length b k n : (k <= length b)%nat -> (S k <= length (add_element b k n))%nat.
Proof. unfold add_element. intros L. destruct (Nat.ltb_spec k (length b)); [rewrite set_nth_length; lia|rewrite app_length; cbn; lia]. Qed.
Lemma count_set l : forall i x y, (i < length l)%nat ->
  (count_occ onat_dec (set_nth l i x) y + (if onat_dec (nth i l None) y then 1 else 0) = count_occ onat_dec l y + (if onat_dec x y then 1 else 0))%nat.
Proof.
  induction l as [|z l IH]; intros [|i] x y H; cbn [length] in H; try lia.
  - cbn [set_nth nth count_occ]. destruct (onat_dec x y), (onat_dec z y); lia.
  - cbn [set_nth nth count_occ]. specialize (IH i x y ltac:(lia)). destruct (onat_dec z y); lia.
Qed.

(** * What a change of links does *)
Definition keeps (f : node -> node) : Prop := forall m, arguments (f m) = arguments m /\ buf (f m) = buf m /\ use_size (f m) = use_size m.
Lemma uses_update g i f a : uses (update g i f) a = if Nat.eqb a i then firstn (use_size (f (node_at g i))) (buf (f (node_at g i))) else uses g a.
Proof. unfold uses. rewrite at_update. destruct (Nat.eqb a i); reflexivity. Qed.
Lemma inv_keeps g i f : keeps f -> (forall s, state (f (node_at g i)) = Some s \/ incomplete_phi (f (node_at g i)) = Some s -> (s < count g)%nat) ->
  Inv g -> Inv (update g i f).
Proof.
  intros K S [A B C D E]. assert (K' := K (node_at g i)). destruct K' as (K1 & K2 & K3). constructor.
  - intros n. rewrite at_update. destruct (Nat.eqb_spec n i) as [->|]; [rewrite K1|]; apply A.
  - intros n. rewrite at_update. destruct (Nat.eqb_spec n i) as [->|]; [rewrite K2, K3|]; apply B.
  - intros a b. unfold uses, slots. rewrite !at_update. rewrite <- (C a b) || idtac. specialize (C a b). unfold uses, slots in C.
    destruct (Nat.eqb_spec a i) as [->|], (Nat.eqb_spec b i) as [->|]; rewrite ?K1, ?K2, ?K3; exact C.
  - intros n H. rewrite at_update. destruct (Nat.eqb_spec n i) as [->|]; [rewrite K1, K3|]; apply D; exact H.
  - intros n s. rewrite at_update, count_update. destruct (Nat.eqb_spec n i) as [->|]; [apply S|apply E].
Qed.
Lemma in_range g : Inv g -> forall b i a, argument g b i = Some a -> (b < count g)%nat /\ (a < count g)%nat /\ (0 < slots g b a)%nat.
Proof.
  intros [A B C D E] b i a H.
  assert (P : (0 < slots g b a)%nat). { apply count_occ_In. unfold argument in H. rewrite <- H. apply nth_In. destruct (Nat.lt_ge_cases i (length (arguments (node_at g b)))); [auto|]. rewrite nth_overflow in H by auto. discriminate. }
  split; [|split; auto].
  - destruct (Nat.lt_ge_cases b (count g)) as [|G]; auto. apply D in G as [_ G]. apply (count_occ_In onat_dec) in P. rewrite G in P. apply repeat_spec in P. discriminate.
  - destruct (Nat.lt_ge_cases a (count g)) as [|G]; auto. apply D in G as [G _]. specialize (C a b). unfold uses, occ in C. rewrite G in C. cbn in C. lia.
Qed.

Definition same_arguments (g g' : graph) (n i : nat) (a : option nat) : Prop :=
  forall m j, argument g' m j = (if Nat.eqb m n && Nat.eqb j i then a else argument g m j).
(** The node is the same apart from its links. *)
Definition same_node (m m' : node) : Prop :=
  type m' = type m /\ size m' = size m /\ number m' = number m /\ visited m' = visited m /\ scratch m' = scratch m /\
  state m' = state m /\ incomplete_phi m' = incomplete_phi m /\ (is_sealed m = true -> is_sealed m' = true).
Lemma same_refl m : same_node m m. Proof. unfold same_node. intuition. Qed.
Lemma same_trans a b c : same_node a b -> same_node b c -> same_node a c.
Proof. unfold same_node. intuition congruence. Qed.
Definition same_nodes (g g' : graph) : Prop := count g' = count g /\ forall n, same_node (node_at g n) (node_at g' n).
Lemma nodes_refl g : same_nodes g g. Proof. split; auto. intros. apply same_refl. Qed.
Lemma nodes_trans a b c : same_nodes a b -> same_nodes b c -> same_nodes a c.
Proof. intros [A B] [C D]. split; [congruence|]. intros n. eapply same_trans; eauto. Qed.
Lemma nodes_update g i f : (forall m, same_node m (f m)) -> same_nodes g (update g i f).
Proof. intros H. split; [reflexivity|]. intros n. rewrite at_update. destruct (Nat.eqb_spec n i) as [->|]; [apply H|apply same_refl]. Qed.
Lemma put_project_ok g p i x g' : put_project g p i x = Ok g' -> g' = update g p (fun m => set_projects (set_nth (projects m) (Z.to_nat i) x) m) /\ 0 <= i < 4.
Proof. unfold put_project. destruct (Z.leb_spec 0 i), (Z.ltb_spec i 4); cbn; intros H1; try discriminate. injection H1 as <-. auto. Qed.

(** Taking one entry [n] off the use list of [p]. *)
Definition drop (k : nat) (m : node) : node := set_uses (move_down (buf m) k (use_size m - 1 - k)) (use_size m - 1) m.
Definition push (n : nat) (m : node) : node := set_uses (add_element (buf m) (use_size m) n) (S (use_size m)) m.
Definition put_arg (i : nat) (a : option nat) (m : node) : node := set_arguments (set_nth (arguments m) i a) m.

Lemma argument_update_keep g i f m j : (forall x, arguments (f x) = arguments x) -> argument (update g i f) m j = argument g m j.
Proof. intros K. unfold argument. rewrite at_update. destruct (Nat.eqb_spec m i) as [->|]; [rewrite K|]; reflexivity. Qed.

Theorem set_argument_inv g n i a g' : Inv g -> (n < count g)%nat -> (forall q, a = Some q -> (q < count g)%nat) -> set_argument g n i a = Ok g' ->
  Inv g' /\ same_nodes g g' /\ same_arguments g g' n i a /\
  (forall o, Some o <> a -> (use_size (node_at g' o) <= use_size (node_at g o))%nat /\ length (buf (node_at g' o)) = length (buf (node_at g o)) /\
     (argument g n i = Some o -> (use_size (node_at g' o) < use_size (node_at g o))%nat)).
Proof.
  intros I Ln La. unfold set_argument. destruct (Nat.ltb_spec i IR_MAX) as [Li|]; [|discriminate].
  assert (Idec : forall (P : Prop), (argument g n i = a -> P) -> (argument g n i <> a -> P) -> P) by (intros P; destruct (onat_dec (argument g n i) a); auto).
  destruct (match argument g n i with Some p => match a with Some q => Nat.eqb p q | None => false end | None => match a with Some _ => false | None => true end end) eqn:T.
  { intros H. injection H as <-. split; [exact I|]. split; [apply nodes_refl|]. assert (Eq : argument g n i = a).
    { destruct (argument g n i), a; try discriminate; auto. apply Nat.eqb_eq in T. congruence. }
    split; [|intros o No; split; [lia|split; [reflexivity|congruence]]].
    intros m j. destruct (Nat.eqb_spec m n) as [->|], (Nat.eqb_spec j i) as [->|]; cbn; auto. }
  assert (Ne : argument g n i <> a). { intros E. rewrite E in T. destruct a; [rewrite Nat.eqb_refl in T|]; discriminate. }
  clear T Idec.
  (** First the old entry goes. *)
  set (isp := type (node_at g n) =? IR_PROJECT).
  intros H.
  assert (R : exists g1, (forall m, arguments (node_at g1 m) = arguments (node_at g m)) /\ count g1 = count g /\ same_nodes g g1 /\
     (forall m, (use_size (node_at g1 m) <= length (buf (node_at g1 m)))%nat) /\
     (forall m, length (buf (node_at g1 m)) = length (buf (node_at g m))) /\
     (forall x y, (occ y (uses g1 x) + (if onat_dec (argument g n i) (Some x) then if Nat.eq_dec y n then 1 else 0 else 0) = occ y (uses g x))%nat) /\
     (forall x, (use_size (node_at g1 x) + (if onat_dec (argument g n i) (Some x) then 1 else 0) = use_size (node_at g x))%nat) /\
     (let g2 := match a with None => g1 | Some q => update g1 q (push n) end in
      let g3 := update g2 n (put_arg i a) in
      if isp then match a with None => Undef | Some q => put_project g3 q (number (node_at g n)) (Some n) end else Ok g3) = Ok g').
  { destruct (argument g n i) as [p|] eqn:Ep.
    - destruct (find_use n (use_size (node_at g p)) (buf (node_at g p))) as [k|] eqn:F; [|discriminate].
      destruct (find_use_some _ _ _ _ F) as [Lk _].
      assert (B := i_buf g I p).
      destruct isp eqn:Ei.
      + destruct (put_project g p (number (node_at g n)) None) as [gp| |] eqn:Epp; try discriminate. cbn [bind] in H. apply put_project_ok in Epp as [-> _].
        eexists. split; [|split; [|split; [|split; [|split; [|split; [|split; [|exact H]]]]]]].
        * intros m. rewrite !at_update. destruct (Nat.eqb m p) eqn:X; [rewrite Nat.eqb_refl|]; cbn; auto. apply Nat.eqb_eq in X. now subst.
        * reflexivity.
        * eapply nodes_trans; [apply nodes_update|apply nodes_update]; intros; repeat split; auto.
        * intros m. rewrite !at_update. destruct (Nat.eqb_spec m p) as [->|]; [rewrite Nat.eqb_refl; cbn; rewrite move_down_length; lia|apply (i_buf g I)].
        * intros m. rewrite !at_update. destruct (Nat.eqb_spec m p) as [->|]; [rewrite Nat.eqb_refl; cbn; apply move_down_length|reflexivity].
        * intros x y. rewrite !uses_update, !at_update. destruct (Nat.eqb_spec x p) as [->|Nx].
          -- rewrite Nat.eqb_refl. cbn. destruct (onat_dec (Some p) (Some p)); [|congruence]. apply remove_use; auto.
          -- destruct (onat_dec (Some p) (Some x)); [congruence|]. lia.
        * intros x. rewrite !at_update. destruct (Nat.eqb_spec x p) as [->|Nx].
          -- rewrite Nat.eqb_refl. cbn. destruct (onat_dec (Some p) (Some p)); [|congruence]. lia.
          -- destruct (onat_dec (Some p) (Some x)); [congruence|]. lia.
      + cbn [bind] in H.
        eexists. split; [|split; [|split; [|split; [|split; [|split; [|split; [|exact H]]]]]]].
        * intros m. rewrite !at_update. destruct (Nat.eqb_spec m p) as [->|]; reflexivity.
        * reflexivity.
        * apply nodes_update; intros; repeat split; auto.
        * intros m. rewrite !at_update. destruct (Nat.eqb_spec m p) as [->|]; [cbn; rewrite move_down_length; lia|apply (i_buf g I)].
        * intros m. rewrite !at_update. destruct (Nat.eqb_spec m p) as [->|]; [cbn; apply move_down_length|reflexivity].
        * intros x y. rewrite !uses_update. destruct (Nat.eqb_spec x p) as [->|Nx].
          -- cbn. destruct (onat_dec (Some p) (Some p)); [|congruence]. apply remove_use; auto.
          -- destruct (onat_dec (Some p) (Some x)); [congruence|]. lia.
        * intros x. rewrite !at_update. destruct (Nat.eqb_spec x p) as [->|Nx].
          -- cbn. destruct (onat_dec (Some p) (Some p)); [|congruence]. lia.
          -- destruct (onat_dec (Some p) (Some x)); [congruence|]. lia.
    - exists g. split; [auto|]. split; [auto|]. split; [apply nodes_refl|]. split; [apply (i_buf g I)|]. split; [auto|].
      split; [intros; destruct (onat_dec None (Some x)); [congruence|lia]|]. split; [intros; destruct (onat_dec None (Some x)); [congruence|lia]|exact H]. }
  clear H. destruct R as (g1 & A1 & C1 & S1 & B1 & Bl1 & U1 & Z1 & H). cbv zeta in H.
  (** Then the new one comes. *)
  set (g2 := match a with None => g1 | Some q => update g1 q (push n) end) in *.
  assert (A2 : forall m, arguments (node_at g2 m) = arguments (node_at g1 m)).
  { intros m. unfold g2. destruct a as [q|]; [rewrite at_update; destruct (Nat.eqb_spec m q) as [->|]|]; reflexivity. }
  assert (S2 : same_nodes g1 g2). { unfold g2. destruct a; [apply nodes_update; intros; repeat split; auto|apply nodes_refl]. }
  assert (B2 : forall m, (use_size (node_at g2 m) <= length (buf (node_at g2 m)))%nat).
  { intros m. unfold g2. destruct a as [q|]; [rewrite at_update; destruct (Nat.eqb_spec m q) as [->|]|]; [cbn; apply add_length|..]; apply B1. }
  assert (U2 : forall x y, occ y (uses g2 x) = (occ y (uses g1 x) + (if onat_dec a (Some x) then if Nat.eq_dec n y then 1 else 0 else 0))%nat).
  { intros x y. unfold g2. destruct a as [q|].
    - rewrite uses_update. destruct (Nat.eqb_spec x q) as [->|]; [|destruct (onat_dec (Some q) (Some x)); [congruence|lia]].
      destruct (onat_dec (Some q) (Some q)); [|congruence]. cbn. apply add_use. apply B1.
    - destruct (onat_dec None (Some x)); [congruence|lia]. }
  assert (O2 : forall o, Some o <> a -> node_at g2 o = node_at g1 o).
  { intros o No. unfold g2. destruct a as [q|]; [rewrite at_update; destruct (Nat.eqb_spec o q); [congruence|]|]; reflexivity. }
  assert (C2 : count g2 = count g) by (destruct S2 as [S2 _]; congruence).
  assert (Fin' : exists f q, (forall m, node_at g' m = node_at (update (update g2 n (put_arg i a)) q f) m) /\ count g' = count g /\
    (forall m, arguments (f m) = arguments m /\ buf (f m) = buf m /\ use_size (f m) = use_size m /\ same_node m (f m))).
  { destruct isp.
    - destruct a as [q|]; [|discriminate]. apply put_project_ok in H as [-> _]. eexists _, q. split; [reflexivity|]. split; [exact C2|]. intros m. cbn. repeat split; auto.
    - injection H as <-. exists (fun m => m), n. split; [|split; [exact C2|intros; split; auto; split; auto; split; auto; apply same_refl]].
      intros m. rewrite (at_update _ n (fun m => m)). destruct (Nat.eqb_spec m n) as [->|]; reflexivity. }
  clear H. destruct Fin' as (f & q & Eg & Cg & K).
  assert (V : forall m, arguments (node_at g' m) = (if Nat.eqb m n then set_nth (arguments (node_at g m)) i a else arguments (node_at g m)) /\
      buf (node_at g' m) = buf (node_at g2 m) /\ use_size (node_at g' m) = use_size (node_at g2 m) /\ same_node (node_at g2 m) (node_at g' m)).
  { intros m. rewrite Eg, !at_update. destruct (Nat.eqb_spec m q) as [->|].
    - destruct (K (if Nat.eqb q n then put_arg i a (node_at g2 n) else node_at g2 q)) as (K1 & K2 & K3 & K4).
      split; [rewrite K1|split; [rewrite K2|split; [rewrite K3|eapply same_trans; [|exact K4]]]]; destruct (Nat.eqb_spec q n) as [->|]; cbn; rewrite ?A2, ?A1; auto; repeat split; auto.
    - destruct (Nat.eqb_spec m n) as [->|]; cbn; rewrite ?A2, ?A1; repeat split; auto. }
  clear Eg K f q.
  assert (Ag : forall m j, argument g' m j = (if Nat.eqb m n && Nat.eqb j i then a else argument g m j)).
  { intros m j. destruct (V m) as (V1 & _). unfold argument. rewrite V1. destruct (Nat.eqb_spec m n) as [->|]; [|reflexivity]. cbn [andb].
    assert (Ll := i_len g I n). assert (X : nth_error (set_nth (arguments (node_at g n)) i a) j = if Nat.eqb j i then Some a else nth_error (arguments (node_at g n)) j).
    { destruct (Nat.eqb_spec j i) as [->|]; [apply nth_error_set_nth_eq; lia|apply nth_error_set_nth_neq; auto]. }
    destruct (Nat.eqb_spec j i) as [->|].
    - apply nth_error_nth. exact X.
    - destruct (nth_error (arguments (node_at g n)) j) as [y|] eqn:Y.
      + erewrite (nth_error_nth _ _ _ X). erewrite (nth_error_nth _ _ _ Y). reflexivity.
      + apply nth_error_None in X, Y. rewrite !nth_overflow; auto. }
  split; [|split; [|split; [exact Ag|]]].
  - constructor.
    + intros m. destruct (V m) as (-> & _). destruct (Nat.eqb m n); [rewrite set_nth_length|]; apply (i_len g I).
    + intros m. destruct (V m) as (_ & -> & -> & _). apply B2.
    + intros x y. unfold uses. destruct (V x) as (_ & -> & -> & _). change (firstn (use_size (node_at g2 x)) (buf (node_at g2 x))) with (uses g2 x).
      rewrite U2. unfold slots. destruct (V y) as (-> & _). assert (C := i_uses g I x y). specialize (U1 x y). unfold slots in C.
      destruct (Nat.eqb_spec y n) as [->|Ny].
      * assert (X := count_set (arguments (node_at g n)) i a (Some x) ltac:(rewrite (i_len g I); auto)).
        change (nth i (arguments (node_at g n)) None) with (argument g n i) in X.
        destruct (Nat.eq_dec n n); [|congruence]. destruct (onat_dec (argument g n i) (Some x)), (onat_dec a (Some x)); lia.
      * destruct (Nat.eq_dec y n); [congruence|]. destruct (Nat.eq_dec n y); [congruence|]. destruct (onat_dec (argument g n i) (Some x)), (onat_dec a (Some x)); lia.
    + intros m Hm. rewrite Cg in Hm. destruct (V m) as (-> & _ & -> & _). destruct (i_new g I m Hm) as [N1 N2].
      destruct (Nat.eqb_spec m n); [lia|]. rewrite O2. { split; auto. specialize (Z1 m). lia. }
      intros E. specialize (La m (eq_sym E)). lia.
    + intros m s Hs. rewrite Cg. apply (i_ref g I m). destruct (V m) as (_ & _ & _ & V4). destruct S2 as [_ S2], S1 as [_ S1].
      specialize (S1 m). specialize (S2 m). unfold same_node in *. destruct Hs as [Hs|Hs]; [left|right]; intuition congruence.
  - split; [exact Cg|]. intros m. destruct S1 as [_ S1], S2 as [_ S2]. eapply same_trans; [apply S1|]. eapply same_trans; [apply S2|]. apply V.
  - intros o No. destruct (V o) as (_ & -> & -> & _). rewrite O2 by auto. specialize (Z1 o). split; [lia|]. split; [apply Bl1|]. intros E. destruct (onat_dec (argument g n i) (Some o)); [lia|congruence].
Qed.

(** * Graph building *)
Lemma inv_empty : Inv empty.
Proof.
  constructor; cbn; intros; auto; try lia.
  - destruct H; discriminate.
Qed.
Lemma inv_new g ty sz : Inv g -> Inv (fst (ir_new g ty sz)) /\ count (fst (ir_new g ty sz)) = S (count g) /\ snd (ir_new g ty sz) = count g.
Proof.
  intros I. split; [|auto]. destruct I as [A B C D E]. unfold ir_new. cbn [fst]. constructor.
  - intros n. rewrite at_update. destruct (Nat.eqb n (count g)); [reflexivity|apply A].
  - intros n. rewrite at_update. destruct (Nat.eqb n (count g)); [cbn; lia|apply B].
  - intros a b. unfold uses, slots. rewrite !at_update. specialize (C a b). unfold uses, slots in C. cbn [node_at].
    destruct (Nat.eqb_spec a (count g)) as [->|], (Nat.eqb_spec b (count g)) as [->|]; auto.
    + destruct (D (count g) ltac:(lia)) as [D1 _]. rewrite D1 in C. exact C.
    + destruct (D (count g) ltac:(lia)) as [_ D2]. rewrite D2 in C. exact C.
  - intros n H. rewrite at_update. cbn in H. destruct (Nat.eqb_spec n (count g)); [lia|]. apply D. cbn. lia.
  - intros n s. rewrite at_update. destruct (Nat.eqb_spec n (count g)); cbn; [intros [H|H]; discriminate|]. intros H. apply E in H. lia.
Qed.
Definition grows (g g' : graph) : Prop := Inv g' /\ (count g <= count g')%nat.
Lemma grows_refl g : Inv g -> grows g g. Proof. split; auto. Qed.
Lemma grows_trans a b c : grows a b -> grows b c -> grows a c.
Proof. intros [A B] [C D]. split; [auto|lia]. Qed.
Lemma set_argument_grows g n i a g' : Inv g -> (n < count g)%nat -> (forall q, a = Some q -> (q < count g)%nat) -> set_argument g n i a = Ok g' -> grows g g'.
Proof. intros I A B H. destruct (set_argument_inv _ _ _ _ _ I A B H) as (I' & [C _] & _). split; [auto|lia]. Qed.
Lemma new_phi_grows g b sz g' v : Inv g -> (b < count g)%nat -> new_phi g b sz = Ok (g', v) -> grows g g' /\ (v < count g')%nat.
Proof.
  intros I B H. unfold new_phi in H. destruct (inv_new g IR_PHI sz I) as (I1 & C1 & E1). destruct (ir_new g IR_PHI sz) as [g1 w]. cbn [fst snd] in *. subst w.
  destruct (set_argument g1 (count g) 0 (Some b)) as [g2| |] eqn:S; try discriminate. injection H as -> <-.
  apply set_argument_grows in S; auto; try lia; [|intros q Q; injection Q as <-; lia]. destruct S as [I2 C2]. split; [split; [auto|]|]; lia.
Qed.
Lemma grows_update g i f : keeps f -> (forall s, state (f (node_at g i)) = Some s \/ incomplete_phi (f (node_at g i)) = Some s -> (s < count g)%nat) -> Inv g -> grows g (update g i f).
Proof. intros. split; [now apply inv_keeps|cbn; lia]. Qed.
Lemma set_state_grows g i v : Inv g -> (v < count g)%nat -> grows g (update g i (set_state (Some v))).
Proof.
  intros I V. apply grows_update; [intros m; auto| |auto]. cbn. intros s [H|H]; [congruence|]. apply (i_ref g I i). auto.
Qed.
Lemma set_phi_grows g i v : Inv g -> (v < count g)%nat -> grows g (update g i (set_phi (Some v))).
Proof.
  intros I V. apply grows_update; [intros m; auto| |auto]. cbn. intros s [H|H]; [|congruence]. apply (i_ref g I i). auto.
Qed.
Lemma set_sealed_grows g i v : Inv g -> grows g (update g i (set_sealed v)).
Proof. intros I. apply grows_update; [intros m; auto| |auto]. cbn. apply (i_ref g I i). Qed.
Lemma ex_ok {A B} (x : ex A) (k : A -> ex B) r : exbind x k = Some (Ok r) -> exists a, x = Some (Ok a) /\ k a = Some (Ok r).
Proof. destruct x as [[a| |]|]; cbn; intros E; try discriminate. eauto. Qed.
Theorem states_grow fuel :
  (forall g b g' v, Inv g -> (b < count g)%nat -> read_state fuel g b = Some (Ok (g', v)) -> grows g g' /\ (v < count g')%nat) /\
  (forall g phi i g', Inv g -> (phi < count g)%nat -> add_phi_operands fuel g phi i = Some (Ok g') -> grows g g').
Proof.
  induction fuel as [|n [IH1 IH2]]; [split; intros; discriminate|]. split.
  - intros g b g' v I B H. cbn [read_state] in H. destruct (state (node_at g b)) as [s|] eqn:Es.
    { injection H as <- <-. split; [now apply grows_refl|]. apply (i_ref g I b). auto. }
    apply ex_ok in H as ((g1 & w) & H1 & H). injection H as <- <-.
    assert (G : grows g g1 /\ (w < count g1)%nat).
    { destruct (is_sealed (node_at g b)); cbn [negb] in H1.
      - destruct (_ =? IR_PROJECT).
        + destruct (argument g b 0) as [x|] eqn:Ex; [|discriminate]. destruct (argument g x 0) as [y|] eqn:Ey; [|discriminate].
          apply IH1 in H1; auto. eapply in_range; eauto.
        + apply ex_ok in H1 as ((g2 & p) & Hp & H1). injection Hp as Hp. apply new_phi_grows in Hp as [G2 V2]; auto. destruct G2 as [I2 C2].
          apply ex_ok in H1 as (g3 & H3 & H1). injection H1 as <- <-.
          assert (G3 := set_state_grows g2 b p I2 V2). assert (G4 : grows (update g2 b (set_state (Some p))) g3) by (eapply IH2; [apply G3|exact V2|exact H3]).
          assert (G5 := grows_trans _ _ _ G3 G4). split; [eapply grows_trans; [split; eauto|exact G5]|]. destruct G5. lia.
      - apply ex_ok in H1 as ((g2 & p) & Hp & H1). injection Hp as Hp. apply new_phi_grows in Hp as [G2 V2]; auto. injection H1 as <- <-.
        split; [|exact V2]. eapply grows_trans; [exact G2|]. apply set_phi_grows; [apply G2|exact V2]. }
    destruct G as [G W]. split; [|exact W]. eapply grows_trans; [exact G|]. apply set_state_grows; [apply G|exact W].
  - intros g phi i g' I P H. cbn [add_phi_operands] in H. destruct (argument g phi 0) as [b|] eqn:Eb; [|discriminate].
    destruct (negb _); [discriminate|]. destruct (Nat.ltb _ _); [|injection H as <-; now apply grows_refl].
    destruct (argument g b i) as [p|] eqn:Ep; [|discriminate]. apply ex_ok in H as ((g1 & v) & H1 & H). apply ex_ok in H as (g2 & H2 & H).
    injection H2 as H2. apply IH1 in H1 as [G1 V1]; [|auto|eapply in_range; eauto].
    assert (G2 : grows g1 g2). { eapply set_argument_grows; [apply G1| | |exact H2]; [destruct G1; lia|]. intros q Q. injection Q as <-. exact V1. }
    eapply grows_trans; [exact G1|]. eapply grows_trans; [exact G2|]. eapply IH2; [apply G2| |exact H]. destruct G1, G2. lia.
Qed.
Lemma seal_grows fuel g n g' : Inv g -> seal_block fuel g n = Some (Ok g') -> grows g g'.
Proof.
  unfold seal_block. intros I H. destruct (is_sealed (node_at g n)); [injection H as <-; now apply grows_refl|].
  apply ex_ok in H as (g1 & H1 & H). injection H as <-.
  assert (G : grows g g1). { destruct (incomplete_phi (node_at g n)) as [p|] eqn:E; [|injection H1 as <-; now apply grows_refl].
    eapply (proj2 (states_grow fuel)); [exact I| |exact H1]. apply (i_ref g I n). right. exact E. }
  eapply grows_trans; [exact G|]. apply set_sealed_grows. apply G.
Qed.
Lemma node_set_argument_grows fuel g n i a g' : Inv g -> (n < count g)%nat -> (forall q, a = Some q -> (q < count g)%nat) ->
  node_set_argument fuel g n i a = Some (Ok g') -> grows g g'.
Proof.
  intros I Ln La. unfold node_set_argument. destruct (match argument g n i with Some p => _ | None => _ end).
  { destruct (Nat.ltb i IR_MAX); [|discriminate]. intros H. injection H as <-. now apply grows_refl. }
  intros H. apply ex_ok in H as (g1 & H1 & H). injection H1 as H1. apply set_argument_grows in H1 as G; auto.
  apply ex_ok in H as (c & H2 & H). eapply grows_trans; [exact G|]. destruct G as [G _].
  destruct c; [|injection H as <-; now apply grows_refl]. destruct (_ =? IR_PROJECT); [injection H as <-; now apply set_sealed_grows|].
  destruct (Nat.eqb i 1); [eapply seal_grows; eauto|injection H as <-; now apply grows_refl].
Qed.
Lemma replace_slots_grows fuel use o r : forall k g j g', Inv g -> (forall q, r = Some q -> (q < count g)%nat) ->
  replace_slots fuel g use o r j k = Some (Ok g') -> grows g g'.
Proof.
  induction k as [|k IH]; intros g j g' I R H; cbn [replace_slots] in H; [injection H as <-; now apply grows_refl|].
  apply ex_ok in H as (g1 & H1 & H).
  assert (G : grows g g1). { destruct (argument g use j) as [p|] eqn:E; [|injection H1 as <-; now apply grows_refl].
    destruct (Nat.eqb p o); [|injection H1 as <-; now apply grows_refl]. eapply node_set_argument_grows; [exact I| |exact R|exact H1]. exact (proj1 (in_range g I _ _ _ E)). }
  eapply grows_trans; [exact G|]. destruct G as [G C]. eapply IH; [exact G| |exact H]. intros q Q. apply R in Q. lia.
Qed.
Lemma replace_uses_grows fuel o r : forall i g g', Inv g -> (forall q, r = Some q -> (q < count g)%nat) ->
  replace_uses fuel g o r i = Some (Ok g') -> grows g g'.
Proof.
  induction i as [|i IH]; intros g g' I R H; cbn [replace_uses] in H; [injection H as <-; now apply grows_refl|].
  destruct (nth_error _ _) as [u|]; [|discriminate]. apply ex_ok in H as (g1 & H1 & H). apply replace_slots_grows in H1 as G; auto.
  eapply grows_trans; [exact G|]. destruct G as [G C]. eapply IH; [exact G| |exact H]. intros q Q. apply R in Q. lia.
Qed.

(** * Replacement in a finished graph *)
Definition finished (g : graph) : Prop :=
  (forall n, type (node_at g n) = IR_REGION -> is_sealed (node_at g n) = true) /\
  (forall n, type (node_at g n) = IR_PROJECT -> 0 <= number (node_at g n) < 4 /\ argument g n 0 <> None).
Lemma finished_same g g' : same_nodes g g' -> (forall n, type (node_at g n) = IR_PROJECT -> argument g' n 0 <> None) -> finished g -> finished g'.
Proof.
  intros [C S] P [A B]. split; intros n T; destruct (S n) as (S1 & S2 & S3 & _ & _ & _ & _ & S4).
  - apply S4, A. congruence.
  - rewrite S3. rewrite S1 in T. split; [now apply B|auto].
Qed.
(** [Some o] is replaced by [Some r] in the slots [R] names. *)
Definition replaced (R : nat -> nat -> bool) (o r : nat) (g g' : graph) : Prop :=
  Inv g' /\ same_nodes g g' /\ finished g' /\
  (forall m j, argument g' m j = (if R m j && (if onat_dec (argument g m j) (Some o) then true else false) then Some r else argument g m j)) /\
  (use_size (node_at g' o) <= use_size (node_at g o))%nat /\ length (buf (node_at g' o)) = length (buf (node_at g o)).
Lemma set_argument_total g n i q : Inv g -> finished g -> (i < IR_MAX)%nat -> exists g', set_argument g n i (Some q) = Ok g'.
Proof.
  intros I [_ F] L. unfold set_argument. destruct (Nat.ltb_spec i IR_MAX); [|lia].
  assert (NP : type (node_at g n) =? IR_PROJECT = true -> 0 <= number (node_at g n) < 4). { intros T. apply Z.eqb_eq in T. apply F. exact T. }
  assert (PQ : forall g' p x, type (node_at g n) =? IR_PROJECT = true -> exists g'', put_project g' p (number (node_at g n)) x = Ok g'').
  { intros g0 p x T. specialize (NP T). unfold put_project. destruct (Z.leb_spec 0 (number (node_at g n))); [|lia]. destruct (Z.ltb_spec (number (node_at g n)) 4); [|lia]. cbn [andb]. eauto. }
  destruct (argument g n i) as [p|] eqn:Ep.
  - destruct (Nat.eqb p q); [eauto|]. destruct (find_use n (use_size (node_at g p)) (buf (node_at g p))) as [k|] eqn:Fu.
    + destruct (type (node_at g n) =? IR_PROJECT) eqn:T.
      * destruct (PQ g p None eq_refl) as [g1 ->]. cbn [bind]. apply PQ; reflexivity.
      * cbn [bind]. eauto.
    + apply find_use_none in Fu. destruct (in_range g I _ _ _ Ep) as (_ & _ & P). rewrite <- (i_uses g I) in P. unfold uses in P. lia.
  - cbn [bind]. destruct (type (node_at g n) =? IR_PROJECT) eqn:T; [apply PQ; reflexivity|eauto].
Qed.
Lemma same_update_sealed g n : same_nodes g (update g n (set_sealed true)).
Proof. apply nodes_update. intros m. repeat split; auto. Qed.
Lemma node_set_argument_finished fuel g n i o r : Inv g -> finished g -> (i < IR_MAX)%nat -> argument g n i = Some o -> o <> r -> (r < count g)%nat ->
  exists g', node_set_argument fuel g n i (Some r) = Some (Ok g') /\ Inv g' /\ same_nodes g g' /\ finished g' /\ same_arguments g g' n i (Some r) /\
    (use_size (node_at g' o) < use_size (node_at g o))%nat /\ length (buf (node_at g' o)) = length (buf (node_at g o)).
Proof.
  intros I F Li E N R. unfold node_set_argument. rewrite E. destruct (Nat.eqb_spec o r); [congruence|].
  destruct (set_argument_total g n i r I F Li) as [g1 H1]. rewrite H1. cbn [exbind].
  destruct (set_argument_inv g n i (Some r) g1 I (proj1 (in_range g I _ _ _ E)) ltac:(intros q Q; injection Q as <-; exact R) H1) as (I1 & S1 & A1 & O1).
  destruct (O1 o ltac:(congruence)) as (_ & O2 & O3).
  assert (Pj : forall m, type (node_at g m) = IR_PROJECT -> argument g1 m 0 <> None).
  { intros m T. rewrite A1. destruct (_ && _); [discriminate|]. now apply F. }
  assert (F1 := finished_same _ _ S1 Pj F).
  assert (C1 : exists c, node_is_control g1 n = Ok c).
  { unfold node_is_control. destruct (_ =? IR_REGION); [eauto|]. destruct (Z.eqb_spec (type (node_at g1 n)) IR_PROJECT) as [T|]; [|eauto].
    destruct (argument g1 n 0) eqn:Ea; [eauto|]. exfalso. apply (proj2 F1 n T). exact Ea. }
  destruct C1 as [c C1]. rewrite C1. cbn [exbind].
  assert (Done : exists g', Some (Ok g1) = Some (Ok g') /\ Inv g' /\ same_nodes g g' /\ finished g' /\ same_arguments g g' n i (Some r) /\
    (use_size (node_at g' o) < use_size (node_at g o))%nat /\ length (buf (node_at g' o)) = length (buf (node_at g o))) by (exists g1; auto 10).
  destruct c; [|exact Done]. destruct (Z.eqb_spec (type (node_at g1 n)) IR_PROJECT) as [T|].
  - exists (update g1 n (set_sealed true)). split; [reflexivity|]. split; [now apply set_sealed_grows|].
    assert (S2 := same_update_sealed g1 n). split; [eapply nodes_trans; eauto|].
    assert (A2 : forall m j, argument (update g1 n (set_sealed true)) m j = argument g1 m j) by (intros; apply argument_update_keep; reflexivity).
    split; [apply (finished_same g1); auto; intros m Tm; rewrite A2; now apply F1|].
    split; [intros m j; rewrite A2; apply A1|]. rewrite at_update. destruct (Nat.eqb_spec o n) as [->|]; cbn; auto.
  - destruct (Nat.eqb i 1); [|exact Done]. unfold seal_block.
    assert (is_sealed (node_at g1 n) = true) as ->; [|exact Done]. apply F1. unfold node_is_control in C1.
    destruct (Z.eqb_spec (type (node_at g1 n)) IR_REGION); auto. destruct (Z.eqb_spec (type (node_at g1 n)) IR_PROJECT); [contradiction|discriminate].
Qed.
Lemma replace_slots_finished fuel use o r : o <> r -> forall k g j, Inv g -> finished g -> (r < count g)%nat -> (j + k = IR_MAX)%nat ->
  exists g', replace_slots fuel g use o (Some r) j k = Some (Ok g') /\ replaced (fun m i => Nat.eqb m use && Nat.leb j i) o r g g' /\
    ((exists i, (j <= i)%nat /\ argument g use i = Some o) -> (use_size (node_at g' o) < use_size (node_at g o))%nat).
Proof.
  intros N. induction k as [|k IH]; intros g j I F R L; cbn [replace_slots].
  - exists g. split; [reflexivity|]. split.
    + split; [auto|]. split; [apply nodes_refl|]. split; [auto|]. split; [|auto]. intros m i. destruct (Nat.eqb_spec m use) as [->|]; cbn [andb]; auto.
      destruct (Nat.leb_spec j i); cbn [andb]; auto. destruct (onat_dec _ _) as [E|]; auto. unfold argument in E. rewrite nth_overflow in E; [discriminate|]. rewrite (i_len g I). lia.
    + intros (i & Li & E). unfold argument in E. rewrite nth_overflow in E; [discriminate|]. rewrite (i_len g I). lia.
  - destruct (onat_dec (argument g use j) (Some o)) as [E|E].
    + rewrite E, Nat.eqb_refl. destruct (node_set_argument_finished fuel g use j o r I F ltac:(lia) E N R) as (g1 & -> & I1 & S1 & F1 & A1 & U1 & L1). cbn [exbind].
      assert (C1 := proj1 S1). destruct (IH g1 (S j) I1 F1 ltac:(lia) ltac:(lia)) as (g' & H' & (I2 & S2 & F2 & A2 & U2 & L2) & _). exists g'. split; [exact H'|]. split.
      * split; [auto|]. split; [eapply nodes_trans; eauto|]. split; [auto|]. split; [|split; [lia|congruence]]. intros m i. rewrite A2, A1.
        destruct (Nat.eqb_spec m use) as [->|]; cbn [andb]; auto. destruct (Nat.eqb_spec i j) as [->|].
        -- destruct (onat_dec (Some r) (Some o)); [congruence|]. rewrite andb_false_r. rewrite Nat.leb_refl. rewrite E. destruct (onat_dec (Some o) (Some o)); [reflexivity|congruence].
        -- destruct (Nat.leb_spec (S j) i), (Nat.leb_spec j i); try lia; reflexivity.
      * intros _. lia.
    + assert (match argument g use j with Some p => if Nat.eqb p o then node_set_argument fuel g use j (Some r) else ok g | None => ok g end = Some (Ok g)) as ->.
      { destruct (argument g use j) as [p|]; [|reflexivity]. destruct (Nat.eqb_spec p o); [congruence|reflexivity]. }
      cbn [exbind]. destruct (IH g (S j) I F R ltac:(lia)) as (g' & H' & (I2 & S2 & F2 & A2 & U2 & L2) & P2). exists g'. split; [exact H'|]. split.
      * split; [auto|]. split; [auto|]. split; [auto|]. split; [|auto]. intros m i. rewrite A2.
        destruct (Nat.eqb_spec m use) as [->|]; cbn [andb]; auto.
        destruct (Nat.leb_spec (S j) i), (Nat.leb_spec j i); try lia; auto. assert (i = j) by lia. subst i. destruct (onat_dec (argument g use j) (Some o)); [contradiction|reflexivity].
      * intros (i & Li & Ei). apply P2. exists i. split; [|exact Ei]. destruct (Nat.eq_dec i j); [congruence|lia].
Qed.
Lemma replace_uses_finished fuel o r : o <> r -> forall i g, Inv g -> finished g -> (r < count g)%nat ->
  (use_size (node_at g o) <= i)%nat -> (i <= length (buf (node_at g o)))%nat ->
  exists g' R, replace_uses fuel g o (Some r) i = Some (Ok g') /\ replaced R o r g g' /\ use_size (node_at g' o) = O.
Proof.
  intros N. induction i as [|i IH]; intros g I F R U L; cbn [replace_uses].
  - exists g, (fun _ _ => false). split; [reflexivity|]. split; [|lia]. split; [auto|]. split; [apply nodes_refl|]. auto.
  - destruct (nth_error (buf (node_at g o)) i) as [u|] eqn:E; [|apply nth_error_None in E; lia].
    destruct (replace_slots_finished fuel u o r N IR_MAX g 0 I F R eq_refl) as (g1 & -> & (I1 & S1 & F1 & A1 & U1 & L1) & P1). cbn [exbind].
    assert (U2 : (use_size (node_at g1 o) <= i)%nat).
    { destruct (Nat.eq_dec (use_size (node_at g o)) (S i)) as [Eu|]; [|lia]. assert (use_size (node_at g1 o) < use_size (node_at g o))%nat; [|lia]. apply P1.
      assert (Iu : In u (uses g o)). { unfold uses. rewrite Eu. apply nth_error_In with i. clear - E. revert i E. induction (buf (node_at g o)) as [|y b IHb]; intros [|i] E; cbn in *; try discriminate; auto. }
      apply (count_occ_In Nat.eq_dec) in Iu. change (occ u (uses g o) > 0)%nat in Iu. rewrite (i_uses g I) in Iu. apply count_occ_In in Iu.
      apply In_nth with (d := None) in Iu as (k & Lk & Ek). exists k. split; [lia|exact Ek]. }
    destruct (IH g1 I1 F1 ltac:(destruct S1; lia) U2 ltac:(lia)) as (g' & R' & H' & (I2 & S2 & F2 & A2 & U3 & L2) & Z2).
    exists g', (fun m j => (Nat.eqb m u && Nat.leb 0 j) || R' m j). split; [exact H'|]. split; [|exact Z2].
    split; [auto|]. split; [eapply nodes_trans; eauto|]. split; [auto|]. split; [|split; [lia|congruence]]. intros m j. rewrite A2, A1.
    destruct (Nat.eqb m u && Nat.leb 0 j) eqn:T; cbn [andb orb].
    + destruct (onat_dec (argument g m j) (Some o)) as [Eo|No].
      * destruct (onat_dec (Some r) (Some o)); [congruence|]. rewrite andb_false_r. reflexivity.
      * destruct (onat_dec (argument g m j) (Some o)); [contradiction|]. now rewrite andb_false_r.
    + reflexivity.
Qed.
Theorem replace_finished fuel g o r : Inv g -> finished g -> o <> r -> (r < count g)%nat ->
  exists g', ir_replace_node fuel g o (Some r) = Some (Ok g') /\ Inv g' /\ same_nodes g g' /\ finished g' /\
    forall m j, argument g' m j = (if onat_dec (argument g m j) (Some o) then Some r else argument g m j).
Proof.
  intros I F N R. destruct (replace_uses_finished fuel o r N (use_size (node_at g o)) g I F R ltac:(lia) (i_buf g I o)) as (g' & Q & H & (I2 & S2 & F2 & A2 & _) & Z2).
  exists g'. split; [exact H|]. split; [auto|]. split; [auto|]. split; [auto|]. intros m j. rewrite A2.
  destruct (onat_dec (argument g m j) (Some o)) as [E|]; [|now rewrite andb_false_r].
  destruct (Q m j) eqn:T; [reflexivity|]. exfalso. assert (E' := A2 m j). rewrite T in E'. cbn [andb] in E'. rewrite E in E'.
  destruct (in_range g' I2 _ _ _ E') as (_ & _ & P). rewrite <- (i_uses g' I2) in P. unfold uses, occ in P. rewrite Z2 in P. cbn in P. lia.
Qed.
