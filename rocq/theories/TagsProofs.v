(** Proofs about tags. *)
From Verif Require Import Base Tags TagsSpec.
Local Open Scope list_scope.

Scheme denotes_mut := Induction for denotes Sort Prop with denote_mut := Induction for denote Sort Prop.
Combined Scheme denotes_ind2 from denotes_mut, denote_mut.

Lemma name_eqb_refl n : name_eqb n n = true.
Proof. unfold name_eqb. destruct (list_eq_dec Z.eq_dec n n); congruence. Qed.
Lemma name_eqb_eq a b : name_eqb a b = true -> a = b.
Proof. unfold name_eqb. destruct (list_eq_dec Z.eq_dec a b); congruence. Qed.
Lemma kind_eqb_refl k : kind_eqb k k = true.
Proof. destruct k; reflexivity. Qed.

(** What the rules leave alone. *)
Lemma frame strict :
  (forall w s d w', denotes strict w s d w' -> outer w' = outer w /\ (count w <= count w')%nat /\ (forall n e, inner w n = Some e -> inner w' n = Some e)) /\
  (forall w l ds w', denote strict w l ds w' -> outer w' = outer w /\ (count w <= count w')%nat /\ (forall n e, inner w n = Some e -> inner w' n = Some e)).
Proof.
  apply (denotes_ind2 strict (fun w s d w' _ => outer w' = outer w /\ (count w <= count w')%nat /\ (forall n e, inner w n = Some e -> inner w' n = Some e))
     (fun w s d w' _ => outer w' = outer w /\ (count w <= count w')%nat /\ (forall n e, inner w n = Some e -> inner w' n = Some e))).
  - intros w k n i V. auto.
  - intros w k n V K. cbn [declare outer count inner]. repeat split; [lia|]. intros m e E. unfold with_name. destruct (list_eq_dec Z.eq_dec n m) as [<-|]; auto.
    unfold visible in V. cbn [seen] in V. rewrite E in V. discriminate.
  - intros w k n b ms w1 N Q _ (A & B & C) _. cbn [fill outer count inner declare] in *. split; auto. split; [lia|]. intros m e E. apply C.
    unfold with_name. destruct (list_eq_dec Z.eq_dec n m) as [<-|]; auto. congruence.
  - intros w k n b i ms w1 N Q _ (A & B & C) _. cbn [fill outer count inner] in *. auto.
  - intros w k b ms w1 _ (A & B & C). cbn [fill outer count inner another] in *. split; auto. split; [lia|]. auto.
  - auto.
  - intros w s r d ds w1 w2 _ (A & B & C) _ (A' & B' & C'). split; [congruence|]. split; [lia|]. auto.
Qed.

(** Complete types stay complete. *)
Lemma kept strict :
  (forall w s d w', denotes strict w s d w' -> forall i cs, contents w i = Some cs -> exists cs', contents w' i = Some cs') /\
  (forall w l ds w', denote strict w l ds w' -> forall i cs, contents w i = Some cs -> exists cs', contents w' i = Some cs').
Proof.
  assert (FI : forall w j ms i cs, contents w i = Some cs -> exists cs', contents (fill j ms w) i = Some cs').
  { intros w j ms i cs E. cbn [fill contents]. unfold with_contents. destruct (Nat.eq_dec j i); eauto. }
  apply (denotes_ind2 strict (fun w s d w' _ => forall i cs, contents w i = Some cs -> exists cs', contents w' i = Some cs')
     (fun w l ds w' _ => forall i cs, contents w i = Some cs -> exists cs', contents w' i = Some cs')); eauto.
  - intros w k n b ms w1 _ _ _ IH _ i cs E. destruct (IH i cs E) as (x & X). eapply FI; eauto.
  - intros w k n b j ms w1 _ _ _ IH _ i cs E. destruct (IH i cs E) as (x & X). eapply FI; eauto.
  - intros w k b ms w1 _ IH i cs E. destruct (IH i cs E) as (x & X). eapply FI; eauto.
  - intros w s r d ds w1 w2 _ IH1 _ IH2 i cs E. destruct (IH1 i cs E) as (x & X). eauto.
Qed.

Definition pairs := list (kind * nat * nat).
Definition paired (F : pairs) (k : kind) (a b : nat) : Prop := In (k, a, b) F.
Definition ent (F : pairs) (x y : option (kind * nat)) : Prop :=
  match x, y with
  | None, None => True
  | Some (k, a), Some (k', b) => k = k' /\ paired F k a b
  | _, _ => False
  end.
Definition unpaired (F : pairs) (i : nat) : Prop := forall k a, ~ paired F k a i.
Definition wf_names (c : nat) (s : names) : Prop :=
  (forall n k i, s n = Some (k, i) -> (i < c)%nat) /\ (forall n n' k k' i, s n = Some (k, i) -> s n' = Some (k', i) -> n = n').

(** [P]: tags whose definitions have begun and that may not have an entry yet. [A]: types
    without a tag whose definitions have begun. *)
Record Rel (P : list name) (A : list nat) (F : pairs) (st : state) (w : world) : Prop := {
  r_scopes : exists s o, scopes st = s :: o /\
    Forall2 (fun sc nm => forall n, ent F (find_tag n sc) (nm n)) o (outer w) /\
    (forall n, ent F (find_tag n s) (inner w n) \/
       (In n P /\ find_tag n s = None /\ exists k i, inner w n = Some (k, i) /\ unpaired F i /\ contents w i = None));
  r_one : one_to_one (paired F);
  r_bound : forall k a b, paired F k a b -> (a < next st)%nat /\ (b < count w)%nat;
  r_mem : forall k a b, paired F k a b -> k <> KEnum -> same_members (paired F) (members st a) (contents w b);
  r_enum : forall a b, paired F KEnum a b -> members st a = None;
  r_new : (forall a, (next st <= a)%nat -> members st a = None) /\ (forall b, (count w <= b)%nat -> contents w b = None);
  r_names : Forall (wf_names (count w)) (inner w :: outer w);
  r_anon : forall i, In i A -> (i < count w)%nat /\ unpaired F i /\ contents w i = None /\ forall n k, inner w n <> Some (k, i)
}.
Arguments r_scopes {_ _ _ _ _}. Arguments r_one {_ _ _ _ _}. Arguments r_bound {_ _ _ _ _}. Arguments r_mem {_ _ _ _ _}.
Arguments r_enum {_ _ _ _ _}. Arguments r_new {_ _ _ _ _}. Arguments r_names {_ _ _ _ _}. Arguments r_anon {_ _ _ _ _}.

Lemma ent_mono F F' x y : incl F F' -> ent F x y -> ent F' x y.
Proof. intros I. destruct x as [[k a]|], y as [[k' b]|]; cbn; auto. intros [-> H]. split; auto. apply I. exact H. Qed.
Lemma same_den_mono F F' x y : incl F F' -> same_den (paired F) x y -> same_den (paired F') x y.
Proof. intros I H. inversion H; subst; constructor. apply I. auto. Qed.
Lemma same_dens_mono F F' x y : incl F F' -> Forall2 (same_den (paired F)) x y -> Forall2 (same_den (paired F')) x y.
Proof. intros I H. induction H; constructor; eauto using same_den_mono. Qed.
Lemma same_members_mono F F' x y : incl F F' -> same_members (paired F) x y -> same_members (paired F') x y.
Proof. intros I. destruct x, y; cbn; auto. apply same_dens_mono. exact I. Qed.
Lemma den_paired F k a b : paired F k a b -> same_den (paired F) (den_of k a) (den_of k b).
Proof. intros H. destruct k; constructor; exact H. Qed.
Lemma outer_get F o ns n : Forall2 (fun sc nm => forall n, ent F (find_tag n sc) (nm n)) o ns -> ent F (get_in n o) (seen n ns).
Proof.
  induction 1 as [|sc nm o ns H _ IH]; cbn [get_in seen]; [exact I|]. specialize (H n).
  destruct (find_tag n sc) as [[k a]|], (nm n) as [[k' b]|]; cbn in H; try contradiction; auto.
Qed.
Lemma incl_more (F : pairs) x : incl F (x :: F). Proof. intros y H. right. exact H. Qed.

(** A new pair. *)
Lemma one_more F k a b : one_to_one (paired F) -> (forall k' b', ~ paired F k' a b') -> unpaired F b -> one_to_one (paired ((k, a, b) :: F)).
Proof.
  intros [O1 O2] NA NB. split; intros k1 k2 x y z [E|H] [E'|H'].
  - split; congruence.
  - injection E as E1 E2 E3. subst. destruct (NA _ _ H').
  - injection E' as E1 E2 E3. subst. destruct (NA _ _ H).
  - eapply O1; eauto.
  - split; congruence.
  - injection E as E1 E2 E3. subst. destruct (NB _ _ H').
  - injection E' as E1 E2 E3. subst. destruct (NB _ _ H).
  - eapply O2; eauto.
Qed.
Lemma next_unpaired P A F st w k' b' : Rel P A F st w -> ~ paired F k' (next st) b'.
Proof. intros R H. apply (r_bound R) in H. lia. Qed.
Lemma count_unpaired P A F st w : Rel P A F st w -> unpaired F (count w).
Proof. intros R k a H. apply (r_bound R) in H. lia. Qed.
Lemma wf_more c c' s : (c <= c')%nat -> wf_names c s -> wf_names c' s.
Proof. intros L [H1 H2]. split; auto. intros n k i E. specialize (H1 n k i E). lia. Qed.
Lemma wf_with c s n k : wf_names c s -> wf_names (S c) (with_name n (k, c) s).
Proof.
  intros [H1 H2]. unfold with_name. split.
  - intros m k' i. destruct (list_eq_dec Z.eq_dec n m); [intros E; injection E as <- <-; lia|]. intros E. apply H1 in E. lia.
  - intros m m' k1 k2 i. destruct (list_eq_dec Z.eq_dec n m) as [<-|], (list_eq_dec Z.eq_dec n m') as [<-|]; auto; intros E E'.
    + injection E as <- <-. apply H1 in E'. lia.
    + injection E' as <- <-. apply H1 in E. lia.
    + eapply H2; eauto.
Qed.

(** Entering a tag that is pending, and completing a type. *)
Lemma materialise P A F st w n k i : Rel P A F st w -> inner w n = Some (k, i) -> unpaired F i -> contents w i = None -> get_here n st = None ->
  Rel P A ((k, next st, i) :: F) (snd (add n k st)) w.
Proof.
  intros R I U C G. destruct (r_scopes R) as (s & o & ES & HO & HI). unfold get_here in G. rewrite ES in G.
  pose proof (proj1 (Forall_inv (r_names R))) as WB.
  split; cbn [snd add scopes next members].
  - rewrite ES. exists ((n, (k, next st)) :: s), o. split; [reflexivity|]. split.
    + clear -HO. induction HO as [|sc nm o ns H _ IH]; constructor; auto. intros m. eapply ent_mono; [apply incl_more|apply H].
    + intros m. cbn [find_tag]. destruct (name_eqb n m) eqn:E.
      * apply name_eqb_eq in E. subst m. left. rewrite I. split; auto. left. reflexivity.
      * destruct (HI m) as [H|(HP & HN & k' & j & HJ & HU & HC)]; [left; eapply ent_mono; [apply incl_more|exact H]|].
        right. split; auto. split; auto. exists k', j. split; auto. split; auto. intros k2 a2 [X|X]; [|apply (HU _ _ X)].
        injection X as -> <- <-. pose proof (proj2 (Forall_inv (r_names R)) n m k2 k' i I HJ) as <-. rewrite name_eqb_refl in E. discriminate.
  - apply one_more; auto; [apply (r_one R)|intros k' b'; apply (next_unpaired _ _ _ _ _ _ _ R)].
  - intros k' a b [X|X]; [injection X as <- <- <-; split; [lia|eapply WB; eauto]|]. apply (r_bound R) in X. lia.
  - intros k' a b [X|X] K; [injection X as <- <- <-; rewrite C, (proj1 (r_new R)) by lia; exact Logic.I|].
    eapply same_members_mono; [apply incl_more|]. apply (r_mem R k'); auto.
  - intros a b [X|X]; [injection X as _ <- _; apply (proj1 (r_new R)); lia|]. apply (r_enum R a b X).
  - split; [intros a La; apply (proj1 (r_new R)); lia|apply (proj2 (r_new R))].
  - apply (r_names R).
  - intros j J. destruct (r_anon R j J) as (A1 & A2 & A3 & A4). split; auto. split; auto. intros k' a [X|X]; [|apply (A2 _ _ X)].
    injection X as -> <- <-. apply (A4 n k'). exact I.
Qed.
Lemma drop P A F st w n : Rel (n :: P) A F st w -> get_here n st <> None -> Rel P A F st w.
Proof.
  intros R G. destruct R as [RS R2 R3 R4 R5 R6 R7 R8]. split; auto. destruct RS as (s & o & ES & HO & HI). exists s, o. split; auto. split; auto.
  intros m. destruct (HI m) as [H|([<-|HP] & HN & H)]; auto. unfold get_here in G. rewrite ES in G. contradiction.
Qed.
Lemma weaken P A F st w n : Rel P A F st w -> Rel (n :: P) A F st w.
Proof.
  intros [RS R2 R3 R4 R5 R6 R7 R8]. split; auto. destruct RS as (s & o & ES & HO & HI). exists s, o. split; auto. split; auto.
  intros m. destruct (HI m) as [H|(HP & HN & H)]; auto. right. split; [right; auto|]. auto.
Qed.
Lemma filled P A F st w k a i ms ms' : Rel P A F st w -> paired F k a i -> Forall2 (same_den (paired F)) ms ms' ->
  Rel P A F (complete k a ms st) (fill i ms' w).
Proof.
  intros R PA FM.
  assert (CO : forall j, unpaired F j -> contents w j = None -> with_contents i ms' (contents w) j = None).
  { intros j U C. unfold with_contents. destruct (Nat.eq_dec i j) as [<-|]; auto. destruct (U _ _ PA). }
  destruct (r_scopes R) as (s & o & ES & HO & HI).
  assert (ME : forall x, members (complete k a ms st) x = if Nat.eqb x a then match k with KEnum => members st x | _ => Some ms end else members st x).
  { intros x. destruct k; cbn [complete set_members members]; destruct (Nat.eqb x a); reflexivity. }
  split.
  - exists s, o. split; [destruct k; exact ES|]. split; [exact HO|]. intros m. cbn [fill inner contents].
    destruct (HI m) as [H|(HP & HN & k' & j & HJ & HU & HC)]; auto. right. split; auto. split; auto. exists k', j. auto.
  - apply (r_one R).
  - intros k' x y X. apply (r_bound R) in X. destruct k; exact X.
  - intros k' x y X K. rewrite ME. cbn [fill contents]. unfold with_contents. destruct (Nat.eqb x a) eqn:E.
    + apply Nat.eqb_eq in E. subst x. destruct (proj1 (r_one R) _ _ _ _ _ PA X) as [<- <-]. destruct (Nat.eq_dec i i); [|congruence].
      destruct k; [exact FM|exact FM|congruence].
    + apply Nat.eqb_neq in E. destruct (Nat.eq_dec i y) as [<-|]; [|apply (r_mem R k'); auto].
      destruct (proj2 (r_one R) _ _ _ _ _ PA X) as [_ <-]. congruence.
  - intros x y X. rewrite ME. destruct (Nat.eqb x a) eqn:E; [|apply (r_enum R x y X)].
    apply Nat.eqb_eq in E. subst x. destruct (proj1 (r_one R) _ _ _ _ _ PA X) as [-> _]. apply (r_enum R a y X).
  - pose proof (r_bound R _ _ _ PA) as [B1 B2]. split.
    + intros x Lx. rewrite ME. assert (E : Nat.eqb x a = false) by (apply Nat.eqb_neq; destruct k; cbn in Lx; lia). rewrite E. apply (proj1 (r_new R)). destruct k; exact Lx.
    + intros y Ly. cbn [fill contents count] in *. unfold with_contents. destruct (Nat.eq_dec i y); [lia|]. apply (proj2 (r_new R)). exact Ly.
  - apply (r_names R).
  - intros j J. destruct (r_anon R j J) as (A1 & A2 & A3 & A4). cbn [fill count contents inner]. auto.
Qed.
(** A new tag in the rules only. *)
Lemma pending P A F st w n k : Rel P A F st w -> inner w n = None -> Rel (n :: P) A F st (declare n k w).
Proof.
  intros R N. destruct (r_scopes R) as (s & o & ES & HO & HI). split; cbn [declare outer inner count contents].
  - exists s, o. split; auto. split; auto. intros m. unfold with_name. destruct (list_eq_dec Z.eq_dec n m) as [<-|NE].
    + right. split; [left; reflexivity|]. split.
      * destruct (HI n) as [H|(_ & _ & k' & i & E & _)]; [|congruence]. rewrite N in H. destruct (find_tag n s) as [[? ?]|]; [contradiction|reflexivity].
      * exists k, (count w). split; auto. split; [apply (count_unpaired _ _ _ _ _ R)|apply (proj2 (r_new R)); lia].
    + destruct (HI m) as [H|(HP & H)]; auto. right. split; [right; auto|]. exact H.
  - apply (r_one R).
  - intros k' a b X. apply (r_bound R) in X. lia.
  - apply (r_mem R).
  - apply (r_enum R).
  - split; [apply (proj1 (r_new R))|]. intros b Lb. apply (proj2 (r_new R)). lia.
  - pose proof (r_names R) as W. inversion W as [|x l W1 W2]; subst. constructor; [apply wf_with; auto|].
    eapply Forall_impl; [|exact W2]. intros x. apply wf_more. lia.
  - intros j J. destruct (r_anon R j J) as (A1 & A2 & A3 & A4). split; [lia|]. split; auto. split; auto. intros m k'. unfold with_name.
    destruct (list_eq_dec Z.eq_dec n m); [|apply A4]. intros E. injection E as _ E. lia.
Qed.
Lemma reserve P A F st w : Rel P A F st w -> Rel P (count w :: A) F st (another w).
Proof.
  intros R. split; cbn [another outer inner count contents]; try apply R.
  - intros k a b X. apply (r_bound R) in X. lia.
  - split; [apply (proj1 (r_new R))|]. intros b Lb. apply (proj2 (r_new R)). lia.
  - eapply Forall_impl; [|apply (r_names R)]. intros x. apply wf_more. lia.
  - intros j [<-|J].
    + split; [lia|]. split; [apply (count_unpaired _ _ _ _ _ R)|]. split; [apply (proj2 (r_new R)); lia|].
      intros n k E. apply (proj1 (Forall_inv (r_names R))) in E. lia.
    + destruct (r_anon R j J) as (A1 & A2 & A3 & A4). split; [lia|]. auto.
Qed.
Lemma release P A F st w k i : Rel P (i :: A) F st w -> ~ In i A ->
  Rel P A ((k, next st, i) :: F) {| scopes := scopes st; next := S (next st); members := members st |} w.
Proof.
  intros R NI. destruct (r_scopes R) as (s & o & ES & HO & HI). destruct (r_anon R i (or_introl eq_refl)) as (A1 & A2 & A3 & A4).
  split; cbn [scopes next members].
  - exists s, o. split; auto. split.
    + clear -HO. induction HO as [|sc nm o ns H _ IH]; constructor; auto. intros m. eapply ent_mono; [apply incl_more|apply H].
    + intros m. destruct (HI m) as [H|(HP & HN & k' & j & HJ & HU & HC)]; [left; eapply ent_mono; [apply incl_more|exact H]|].
      right. split; auto. split; auto. exists k', j. split; auto. split; auto. intros k2 a2 [X|X]; [|apply (HU _ _ X)].
      injection X as -> <- <-. apply (A4 m k'). exact HJ.
  - apply one_more; auto; [apply (r_one R)|intros k' b'; apply (next_unpaired _ _ _ _ _ _ _ R)].
  - intros k' a b [X|X]; [injection X as <- <- <-; split; lia|]. apply (r_bound R) in X. lia.
  - intros k' a b [X|X] K; [injection X as <- <- <-; rewrite A3, (proj1 (r_new R)) by lia; exact Logic.I|].
    eapply same_members_mono; [apply incl_more|]. apply (r_mem R k'); auto.
  - intros a b [X|X]; [injection X as _ <- _; apply (proj1 (r_new R)); lia|]. apply (r_enum R a b X).
  - split; [intros a La; apply (proj1 (r_new R)); lia|apply (proj2 (r_new R))].
  - apply (r_names R).
  - intros j J. destruct (r_anon R j (or_intror J)) as (B1 & B2 & B3 & B4). split; auto. split; auto. intros k' a [X|X]; [|apply (B2 _ _ X)].
    injection X as -> <- <-. contradiction.
Qed.

(** Lookups. *)
Lemma here P A F st w n : Rel P A F st w -> ent F (get_here n st) (inner w n) \/
  (In n P /\ get_here n st = None /\ exists k i, inner w n = Some (k, i) /\ unpaired F i /\ contents w i = None).
Proof. intros R. destruct (r_scopes R) as (s & o & ES & _ & HI). unfold get_here. rewrite ES. apply HI. Qed.
Lemma anywhere P A F st w n : Rel P A F st w -> (In n P -> seen n (outer w) = None) ->
  ent F (get n st) (visible n w) \/
  (get n st = None /\ get_here n st = None /\ exists k i, inner w n = Some (k, i) /\ visible n w = Some (k, i) /\ unpaired F i /\ contents w i = None).
Proof.
  intros R Q. pose proof (here P A F st w n R) as H. destruct (r_scopes R) as (s & o & ES & HO & _). unfold get_here, get, visible in *. rewrite ES in *.
  pose proof (outer_get F o (outer w) n HO) as G. cbn [get_in seen].
  destruct H as [H|(HP & HN & k & i & HI & HU & HC)].
  - left. destruct (find_tag n s) as [[k a]|], (inner w n) as [[k' b]|]; cbn in H; try contradiction; auto.
  - right. rewrite HN. rewrite (Q HP) in G. rewrite HI. split; [destruct (get_in n o) as [[? ?]|]; [contradiction|reflexivity]|]. split; auto. exists k, i. auto.
Qed.
Lemma add_here n k st : scopes st <> [] -> get_here n (snd (add n k st)) = Some (k, next st).
Proof. unfold get_here, add. cbn [snd scopes]. destruct (scopes st); [congruence|]. intros _. cbn [find_tag]. rewrite name_eqb_refl. reflexivity. Qed.
Lemma Rel_scopes P A F st w : Rel P A F st w -> scopes st <> [].
Proof. intros R. destruct (r_scopes R) as (s & o & -> & _). discriminate. Qed.
Lemma complete_here n k a ms st : get_here n (complete k a ms st) = get_here n st.
Proof. destruct k; reflexivity. Qed.

Definition quiet (P : list name) (w : world) (s : spec) : Prop := forall n, In n P -> seen n (outer w) <> None -> ~ mentions n s.
Definition quiet_all (P : list name) (w : world) (l : specs) : Prop := forall n, In n P -> seen n (outer w) <> None -> ~ mentions_all n l.
Lemma seen_dec n l : seen n l = None \/ seen n l <> None.
Proof. destruct (seen n l); [right; discriminate|left; reflexivity]. Qed.

(** The end of a definition with a tag. *)
Lemma finish P A F st w n k i ms ms' : Rel (n :: P) A F st w -> inner w n = Some (k, i) -> contents w i = None -> Forall2 (same_den (paired F)) ms ms' ->
  exists F' a st', match get_here n st with
          | Some (k', id) => if negb (kind_eqb k' k) then Fail else match members st id with Some _ => Fail | None => Ok (den_of k id, complete k id ms st) end
          | None => let (id, st2) := add n k st in Ok (den_of k id, complete k id ms st2)
          end = Ok (den_of k a, st') /\ incl F F' /\ paired F' k a i /\ Rel P A F' st' (fill i ms' w).
Proof.
  intros R I C FM. destruct (here _ _ _ _ _ n R) as [H|(HP & HN & k' & j & HJ & HU & HC)].
  - rewrite I in H. destruct (get_here n st) as [[k' a]|] eqn:G; [|contradiction]. cbn in H. destruct H as [-> PA].
    assert (M : members st a = None).
    { destruct k; [| |apply (r_enum R a i PA)]; pose proof (r_mem R _ _ _ PA ltac:(discriminate)) as M; rewrite C in M; destruct (members st a); [contradiction|reflexivity|contradiction|reflexivity]. }
    exists F, a, (complete k a ms st). rewrite kind_eqb_refl, M. cbn [negb]. split; [reflexivity|]. split; [apply incl_refl|]. split; auto.
    apply filled; auto. apply (drop _ _ _ _ _ n R). rewrite G. discriminate.
  - rewrite I in HJ. injection HJ as <- <-. rewrite HN. pose proof (materialise _ _ _ _ _ n k i R I HU HC HN) as R'.
    exists ((k, next st, i) :: F), (next st), (complete k (next st) ms (snd (add n k st))). split; [reflexivity|]. split; [apply incl_more|]. split; [left; reflexivity|].
    apply filled; [|left; reflexivity|eapply same_dens_mono; [apply incl_more|exact FM]]. apply (drop _ _ _ _ _ n R'). rewrite add_here; [discriminate|]. eapply Rel_scopes; eauto.
Qed.

Lemma follows :
  (forall w s d' w', denotes True w s d' w' -> forall P A F st, Rel P A F st w -> quiet P w s ->
     exists F' d st', spec_type s st = Ok (d, st') /\ incl F F' /\ same_den (paired F') d d' /\ Rel P A F' st' w') /\
  (forall w l ds' w', denote True w l ds' w' -> forall P A F st, Rel P A F st w -> quiet_all P w l ->
     exists F' ds st', specs_types l st = Ok (ds, st') /\ incl F F' /\ Forall2 (same_den (paired F')) ds ds' /\ Rel P A F' st' w').
Proof.
  apply (denotes_ind2 True (fun w s d' w' _ => forall P A F st, Rel P A F st w -> quiet P w s ->
     exists F' d st', spec_type s st = Ok (d, st') /\ incl F F' /\ same_den (paired F') d d' /\ Rel P A F' st' w')
    (fun w l ds' w' _ => forall P A F st, Rel P A F st w -> quiet_all P w l ->
     exists F' ds st', specs_types l st = Ok (ds, st') /\ incl F F' /\ Forall2 (same_den (paired F')) ds ds' /\ Rel P A F' st' w')).
  - intros w k n i V P A F st R Q. cbn [spec_type].
    assert (QO : In n P -> seen n (outer w) = None). { intros HP. destruct (seen_dec n (outer w)) as [E|E]; auto. destruct (Q n HP E). reflexivity. }
    destruct (anywhere _ _ _ _ _ n R QO) as [H|(G & GH & k' & j & HI & HV & HU & HC)].
    + rewrite V in H. destruct (get n st) as [[k' a]|]; [|contradiction]. cbn in H. destruct H as [-> PA].
      exists F, (den_of k a), st. rewrite kind_eqb_refl. split; [reflexivity|]. split; [apply incl_refl|]. split; [apply den_paired; auto|exact R].
    + rewrite V in HV. injection HV as <- <-. rewrite G. exists ((k, next st, i) :: F), (den_of k (next st)), (snd (add n k st)).
      split; [reflexivity|]. split; [apply incl_more|]. split; [apply den_paired; left; reflexivity|]. apply materialise; auto.
  - intros w k n V K P A F st R Q. cbn [spec_type].
    assert (QO : In n P -> seen n (outer w) = None). { intros HP. destruct (seen_dec n (outer w)) as [E|E]; auto. destruct (Q n HP E). reflexivity. }
    destruct (anywhere _ _ _ _ _ n R QO) as [H|(G & GH & k' & j & HI & HV & HU & HC)]; [|congruence].
    rewrite V in H. destruct (get n st) as [[k' a]|]; [contradiction|].
    assert (IN : inner w n = None). { unfold visible in V. cbn [seen] in V. destruct (inner w n); [discriminate|reflexivity]. }
    pose proof (pending _ _ _ _ _ n k R IN) as R1.
    assert (I1 : inner (declare n k w) n = Some (k, count w)). { cbn [declare inner]. unfold with_name. destruct (list_eq_dec Z.eq_dec n n); congruence. }
    assert (GH : get_here n st = None). { destruct (here _ _ _ _ _ n R) as [X|(_ & X & _)]; auto. rewrite IN in X. destruct (get_here n st) as [[? ?]|]; [contradiction|reflexivity]. }
    pose proof (materialise _ _ _ _ _ n k (count w) R1 I1 (count_unpaired _ _ _ _ _ R) (proj2 (r_new R) _ (le_n _)) GH) as R2.
    exists ((k, next st, count w) :: F), (den_of k (next st)), (snd (add n k st)).
    split; [reflexivity|]. split; [apply incl_more|]. split; [apply den_paired; left; reflexivity|].
    apply (drop _ _ _ _ _ n R2). rewrite add_here; [discriminate|]. eapply Rel_scopes; eauto.
  - intros w k n b ms w1 IN ST D IH C P A F st R Q. cbn [spec_type].
    pose proof (pending _ _ _ _ _ n k R IN) as R1.
    destruct (IH (n :: P) A F st R1) as (F1 & ds & st1 & E & I1 & S1 & R2).
    { intros m [<-|HP] SE; [apply (ST Logic.I); exact SE|]. cbn [declare outer] in SE. intros M. apply (Q m HP SE). cbn [mentions]. right. exact M. }
    rewrite E. cbn [bind].
    assert (I2 : inner w1 n = Some (k, count w)).
    { apply (proj2 (frame True) _ _ _ _ D). cbn [declare inner]. unfold with_name. destruct (list_eq_dec Z.eq_dec n n); congruence. }
    destruct (finish _ _ _ _ _ n k (count w) ds ms R2 I2 C S1) as (F2 & a & st2 & -> & I3 & PA & R3).
    exists F2, (den_of k a), st2. split; [reflexivity|]. split; [eapply incl_tran; eauto|]. split; [apply den_paired; auto|exact R3].
  - intros w k n b i ms w1 IN C0 D IH C P A F st R Q. cbn [spec_type].
    destruct (IH P A F st R) as (F1 & ds & st1 & E & I1 & S1 & R2).
    { intros m HP SE M. apply (Q m HP SE). cbn [mentions]. right. exact M. }
    rewrite E. cbn [bind].
    assert (I2 : inner w1 n = Some (k, i)) by (apply (proj2 (frame True) _ _ _ _ D); exact IN).
    destruct (finish _ _ _ _ _ n k i ds ms (weaken _ _ _ _ _ n R2) I2 C S1) as (F2 & a & st2 & -> & I3 & PA & R3).
    exists F2, (den_of k a), st2. split; [reflexivity|]. split; [eapply incl_tran; eauto|]. split; [apply den_paired; auto|exact R3].
  - intros w k b ms w1 D IH P A F st R Q. cbn [spec_type].
    destruct (IH P (count w :: A) F st (reserve _ _ _ _ _ R)) as (F1 & ds & st1 & E & I1 & S1 & R2).
    { intros m HP SE M. apply (Q m HP SE). cbn [mentions]. right. exact M. }
    rewrite E. cbn [bind].
    assert (NI : ~ In (count w) A) by (intros X; apply (r_anon R) in X; lia).
    pose proof (release _ _ _ _ _ k (count w) R2 NI) as R3.
    exists ((k, next st1, count w) :: F1), (den_of k (next st1)), (complete k (next st1) ds {| scopes := scopes st1; next := S (next st1); members := members st1 |}).
    split; [reflexivity|]. split; [eapply incl_tran; [exact I1|apply incl_more]|]. split; [apply den_paired; left; reflexivity|].
    apply filled; auto; [left; reflexivity|]. eapply same_dens_mono; [apply incl_more|exact S1].
  - intros w P A F st R Q. exists F, [], st. split; [reflexivity|]. split; [apply incl_refl|]. split; [constructor|exact R].
  - intros w s r d ds w1 w2 D IH1 D2 IH2 P A F st R Q. cbn [specs_types].
    destruct (IH1 P A F st R) as (F1 & d1 & st1 & E1 & I1 & S1 & R1).
    { intros m HP SE M. apply (Q m HP SE). cbn [mentions_all]. left. exact M. }
    destruct (IH2 P A F1 st1 R1) as (F2 & ds2 & st2 & E2 & I2 & S2 & R2).
    { intros m HP SE M. rewrite (proj1 (proj1 (frame True) _ _ _ _ D)) in SE. apply (Q m HP SE). cbn [mentions_all]. right. exact M. }
    exists F2, (d1 :: ds2), st2. rewrite E1. cbn [bind]. rewrite E2. split; [reflexivity|]. split; [eapply incl_tran; eauto|]. split; auto.
    constructor; auto. eapply same_den_mono; eauto.
Qed.

(** Programs. *)
Lemma opened F st w : Rel [] [] F st w ->
  Rel [] [] F {| scopes := [] :: scopes st; next := next st; members := members st |} {| inner := fun _ => None; outer := inner w :: outer w; count := count w; contents := contents w |}.
Proof.
  intros R. destruct (r_scopes R) as (s & o & ES & HO & HI). split; cbn [scopes next members inner outer count contents]; try apply R.
  - exists [], (s :: o). rewrite ES. split; auto. split; [|intros n; left; exact Logic.I]. constructor; auto. intros n. destruct (HI n) as [H|[[] _]]; auto.
  - constructor; [|apply (r_names R)]. split; discriminate.
  - intros i [].
Qed.
Lemma closed F st w s o : Rel [] [] F st w -> outer w = s :: o ->
  exists a b r, scopes st = a :: b :: r /\
  Rel [] [] F {| scopes := b :: r; next := next st; members := members st |} {| inner := s; outer := o; count := count w; contents := contents w |}.
Proof.
  intros R E. destruct (r_scopes R) as (a & l & ES & HO & HI). rewrite E in HO. inversion HO as [|b nm r ns H1 H2]; subst.
  exists a, b, r. split; auto. split; cbn [scopes next members inner outer count contents]; try apply R.
  - exists b, r. split; auto.
  - pose proof (r_names R) as W. rewrite E in W. inversion W; auto.
  - intros i [].
Qed.
Lemma quiet_nil w s : quiet [] w s. Proof. intros n []. Qed.
Lemma visible_inner n w e : inner w n = Some e -> visible n w = Some e.
Proof. intros E. unfold visible. cbn [seen]. rewrite E. reflexivity. Qed.
Lemma visible_none n w : inner w n = None -> seen n (outer w) = None -> visible n w = None.
Proof. intros E E'. unfold visible. cbn [seen]. rewrite E. exact E'. Qed.

Lemma programs w items ds' w' : means True w items ds' w' -> forall F st, Rel [] [] F st w ->
  exists F' ds st', items_run items st = Ok (ds, st') /\ incl F F' /\ Forall2 (same_den (paired F')) ds ds' /\ Rel [] [] F' st' w'.
Proof.
  induction 1 as [w|w r ds w' _ IH|w s o r ds w' E _ IH|w s r d ds w1 w' D _ IH|w k n i r ds w' K E _ IH|w k n r ds w' K E ST _ IH]; intros F st R; cbn [items_run item_run].
  - exists F, [], st. split; auto. split; [apply incl_refl|]. split; auto.
  - cbn [bind]. destruct (IH F _ (opened _ _ _ R)) as (F' & ds1 & st' & -> & I & S1 & R'). cbn [bind]. exists F', ds1, st'. auto.
  - destruct (closed _ _ _ _ _ R E) as (a & b & q & -> & R1). cbn [bind tl]. destruct (IH F _ R1) as (F' & ds1 & st' & -> & I & S1 & R'). cbn [bind]. exists F', ds1, st'. auto.
  - destruct (proj1 follows _ _ _ _ D _ _ _ _ R (quiet_nil _ _)) as (F1 & d1 & st1 & -> & I1 & S1 & R1). cbn [bind].
    destruct (IH F1 _ R1) as (F2 & ds2 & st2 & -> & I2 & S2 & R2). cbn [bind app]. exists F2, (d1 :: ds2), st2. split; auto. split; [eapply incl_tran; eauto|]. split; auto.
    constructor; auto. eapply same_den_mono; eauto.
  - destruct (proj1 follows _ _ _ _ (d_visible True w k n i (visible_inner _ _ _ E)) _ _ _ _ R (quiet_nil _ _)) as (F1 & d1 & st1 & -> & I1 & S1 & R1). cbn [bind].
    destruct (IH F1 _ R1) as (F2 & ds2 & st2 & -> & I2 & S2 & R2). cbn [bind app]. exists F2, (d1 :: ds2), st2. split; auto. split; [eapply incl_tran; eauto|]. split; auto.
    constructor; auto. eapply same_den_mono; eauto.
  - destruct (proj1 follows _ _ _ _ (d_new True w k n (visible_none _ _ E (ST Logic.I)) K) _ _ _ _ R (quiet_nil _ _)) as (F1 & d1 & st1 & -> & I1 & S1 & R1). cbn [bind].
    destruct (IH F1 _ R1) as (F2 & ds2 & st2 & -> & I2 & S2 & R2). cbn [bind app]. exists F2, (d1 :: ds2), st2. split; auto. split; [eapply incl_tran; eauto|]. split; auto.
    constructor; auto. eapply same_den_mono; eauto.
Qed.
Lemma at_start : Rel [] [] [] start nothing.
Proof.
  split; cbn [start nothing scopes next members inner outer count contents].
  - exists [], []. split; auto. split; auto. intros n. left. exact Logic.I.
  - split; intros k k' a b b' [].
  - intros k a b [].
  - intros k a b [].
  - intros a b [].
  - auto.
  - constructor; auto. split; discriminate.
  - intros i [].
Qed.
Lemma items_app a b st : items_run (a ++ b) st = let* (x, st1) := items_run a st in let* (y, st2) := items_run b st1 in Ok (x ++ y, st2).
Proof.
  revert st. induction a as [|i a IH]; intros st; cbn [app items_run].
  - cbn [bind]. destruct (items_run b st) as [[y s]| |]; reflexivity.
  - destruct (item_run i st) as [[x s]| |]; cbn [bind]; auto. rewrite IH. destruct (items_run a s) as [[y s1]| |]; cbn [bind]; auto.
    destruct (items_run b s1) as [[z s2]| |]; cbn [bind]; auto. rewrite app_assoc. reflexivity.
Qed.
Lemma kind_neq a b : a <> b -> kind_eqb a b = false.
Proof. destruct a, b; intros H; try reflexivity; congruence. Qed.

Lemma relaxed : (forall w s d w', denotes True w s d w' -> denotes False w s d w') /\ (forall w l ds w', denote True w l ds w' -> denote False w l ds w').
Proof.
  apply (denotes_ind2 True (fun w s d w' _ => denotes False w s d w') (fun w l ds w' _ => denote False w l ds w')); intros; try (econstructor; eauto; fail).
Qed.
Lemma relaxed_means w items ds w' : means True w items ds w' -> means False w items ds w'.
Proof.
  induction 1; try (econstructor; eauto; fail).
  eapply m_declare; eauto. apply (proj1 relaxed). auto.
Qed.
