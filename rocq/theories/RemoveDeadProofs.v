From Verif Require Import Base Fuel IR IRProofs RemoveDead RemoveDeadSpec.

(** Graphs that differ in their marks at most. *)
Definition sbv (g g' : graph) : Prop := count g' = count g /\ forall n, set_visited 0 (node_at g' n) = set_visited 0 (node_at g n).
Lemma sbv_refl g : sbv g g. Proof. split; auto. Qed.
Lemma sbv_trans a b c : sbv a b -> sbv b c -> sbv a c.
Proof. intros [A B] [C D]. split; [congruence|]. intros n. rewrite D. apply B. Qed.
Lemma sbv_sym a b : sbv a b -> sbv b a. Proof. intros [A B]. split; auto. Qed.
Lemma sbv_mark g n v : sbv g (update g n (set_visited v)).
Proof. split; [reflexivity|]. intros m. rewrite at_update. destruct (Nat.eqb_spec m n) as [->|]; reflexivity. Qed.
Ltac sbv_field H n := let E := fresh in assert (E := proj2 H n); injection E; auto.
Lemma sbv_type g g' n : sbv g g' -> type (node_at g' n) = type (node_at g n). Proof. intros H. sbv_field H n. Qed.
Lemma sbv_arguments g g' n : sbv g g' -> arguments (node_at g' n) = arguments (node_at g n). Proof. intros H. sbv_field H n. Qed.
Lemma sbv_projects g g' n : sbv g g' -> projects (node_at g' n) = projects (node_at g n). Proof. intros H. sbv_field H n. Qed.
Lemma sbv_number g g' n : sbv g g' -> number (node_at g' n) = number (node_at g n). Proof. intros H. sbv_field H n. Qed.
Lemma sbv_sealed g g' n : sbv g g' -> is_sealed (node_at g' n) = is_sealed (node_at g n). Proof. intros H. sbv_field H n. Qed.
Lemma sbv_state g g' n : sbv g g' -> state (node_at g' n) = state (node_at g n). Proof. intros H. sbv_field H n. Qed.
Lemma sbv_phi g g' n : sbv g g' -> incomplete_phi (node_at g' n) = incomplete_phi (node_at g n). Proof. intros H. sbv_field H n. Qed.
Lemma sbv_buf g g' n : sbv g g' -> buf (node_at g' n) = buf (node_at g n). Proof. intros H. sbv_field H n. Qed.
Lemma sbv_use_size g g' n : sbv g g' -> use_size (node_at g' n) = use_size (node_at g n). Proof. intros H. sbv_field H n. Qed.
Lemma sbv_uses g g' n : sbv g g' -> uses g' n = uses g n. Proof. intros H. unfold uses. now rewrite (sbv_buf _ _ _ H), (sbv_use_size _ _ _ H). Qed.
Lemma sbv_argument g g' n i : sbv g g' -> argument g' n i = argument g n i. Proof. intros H. unfold argument. now rewrite (sbv_arguments _ _ _ H). Qed.
Lemma sbv_project g g' n i : sbv g g' -> project g' n i = project g n i. Proof. intros H. unfold project. now rewrite (sbv_projects _ _ _ H). Qed.
Lemma sbv_control g g' n : sbv g g' -> node_is_control g' n = node_is_control g n.
Proof. intros H. unfold node_is_control. rewrite (sbv_type _ _ _ H), (sbv_number _ _ _ H), (sbv_argument _ _ _ _ H). destruct (argument g n 0); [|auto]. now rewrite (sbv_type _ _ _ H). Qed.
Lemma sbv_next_uses g g' l : sbv g g' -> next_of_uses g' l = next_of_uses g l.
Proof. intros H. induction l as [|u l IH]; [auto|]. cbn [next_of_uses]. now rewrite (sbv_type _ _ _ H), (sbv_control _ _ _ H), !(sbv_project _ _ _ _ H), IH. Qed.
Lemma sbv_next_control g g' n : sbv g g' -> next_control g' n = next_control g n.
Proof. intros H. unfold next_control. rewrite (sbv_uses _ _ _ H). now apply sbv_next_uses. Qed.
Lemma sbv_next_argument g g' n : sbv g g' -> next_argument g' n = next_argument g n.
Proof. intros H. unfold next_argument, some_arguments. now rewrite (sbv_arguments _ _ _ H). Qed.
Lemma sbv_inv g g' : sbv g g' -> Inv g -> Inv g'.
Proof.
  intros H [A B C D E]. constructor; intros.
  - rewrite (sbv_arguments _ _ _ H). auto.
  - rewrite (sbv_buf _ _ _ H), (sbv_use_size _ _ _ H). auto.
  - rewrite (sbv_uses _ _ _ H). unfold slots. rewrite (sbv_arguments _ _ _ H). apply C.
  - rewrite (sbv_use_size _ _ _ H), (sbv_arguments _ _ _ H). apply D. destruct H. lia.
  - rewrite (proj1 H). apply (E n). rewrite (sbv_state _ _ _ H), (sbv_phi _ _ _ H) in H0. auto.
Qed.

(** * The walk *)
Section Walk.
Variable v : Z.
Variable next : graph -> nat -> res (list nat).
Hypothesis next_same : forall g g' n, sbv g g' -> next g' n = next g n.
Definition M (g : graph) (n : nat) : Prop := visited (node_at g n) = v.
Definition rel (g : graph) (n m : nat) : Prop := exists l, next g n = Ok l /\ In m l.
Inductive star (g : graph) (n : nat) : nat -> Prop :=
| star_self : star g n n
| star_next m x : star g n m -> rel g m x -> star g n x.
Lemma star_trans g a b c : star g a b -> star g b c -> star g a c.
Proof. intros H K. induction K; auto. eapply star_next; eauto. Qed.
Lemma M_dec g n : M g n \/ ~ M g n. Proof. unfold M. destruct (Z.eq_dec (visited (node_at g n)) v); auto. Qed.

Definition walked (g0 g g' : graph) (from : list nat) : Prop :=
  sbv g0 g' /\ (forall m, M g m -> M g' m) /\ (forall m, In m from -> M g' m) /\
  (forall m, M g' m -> M g m \/ exists n, In n from /\ star g0 n m) /\
  (forall m, M g' m -> ~ M g m -> exists l, next g0 m = Ok l /\ forall x, In x l -> M g' x) /\
  (forall m, M g' m \/ visited (node_at g' m) = visited (node_at g m)).
Lemma walk_list (f : graph -> nat -> ex graph) g0 : (forall g n g', sbv g0 g -> f g n = Some (Ok g') -> walked g0 g g' [n]) ->
  forall l g g', sbv g0 g -> each f g l = Some (Ok g') -> walked g0 g g' l.
Proof.
  intros F. induction l as [|x l IH]; intros g g' S H; cbn [each] in H.
  - injection H as <-. split; [auto|]. split; [auto|]. split; [intros m []|]. split; [auto|]. split; [contradiction|auto].
  - apply ex_ok in H as (g1 & H1 & H). destruct (F _ _ _ S H1) as (S1 & A1 & B1 & C1 & D1 & E1). destruct (IH _ _ S1 H) as (S2 & A2 & B2 & C2 & D2 & E2).
    split; [auto|]. split; [auto|]. split; [|split; [|split]].
    + intros m [->|I]; [apply A2, B1; cbn; auto|auto].
    + intros m Hm. destruct (C2 m Hm) as [Hm1|(y & I & St)].
      * destruct (C1 m Hm1) as [Hm0|(y & [->|[]] & St)]; [auto|]. right. exists y. cbn. auto.
      * right. exists y. cbn. auto.
    + intros m Hm N. destruct (M_dec g1 m) as [Hm1|N1].
      * destruct (D1 m Hm1 N) as (l' & E & K). exists l'. auto.
      * auto.
    + intros m. destruct (E2 m) as [|Em]; [auto|]. destruct (E1 m) as [Hm|]; [left; auto|right; congruence].
Qed.
Lemma walk fuel g0 : forall g n g', sbv g0 g -> mark v next fuel g n = Some (Ok g') -> walked g0 g g' [n].
Proof.
  induction fuel as [|fuel IH]; intros g n g' S H; [discriminate|]. cbn [mark] in H. destruct (Z.eqb_spec (visited (node_at g n)) v) as [E|N].
  - injection H as <-. split; [auto|]. split; [auto|]. split; [intros m [<-|[]]; exact E|]. split; [auto|]. split; [contradiction|auto].
  - apply ex_ok in H as (l & Hl & H). injection Hl as Hl. rewrite (next_same g0 g n S) in Hl.
    destruct (walk_list _ g0 IH l _ _ (sbv_trans _ _ _ S (sbv_mark g n v)) H) as (S1 & A1 & B1 & C1 & D1 & E1).
    assert (Mu : forall m, M (update g n (set_visited v)) m <-> m = n \/ M g m).
    { intros m. unfold M. rewrite at_update. destruct (Nat.eqb_spec m n) as [->|]; cbn; intuition. }
    split; [auto|]. split; [intros m Hm; apply A1, Mu; auto|]. split; [intros m [<-|[]]; apply A1, Mu; auto|]. split; [|split].
    + intros m Hm. destruct (C1 m Hm) as [Hm1|(y & I & St)].
      * apply Mu in Hm1 as [->|]; [|auto]. right. exists n. split; [cbn; auto|apply star_self].
      * right. exists n. split; [cbn; auto|]. eapply star_trans; [|exact St]. eapply star_next; [apply star_self|]. exists l. auto.
    + intros m Hm Nm. destruct (Nat.eq_dec m n) as [->|Nn].
      * exists l. auto.
      * apply D1; [auto|]. rewrite Mu. intuition.
    + intros m. destruct (E1 m) as [|Em]; [auto|]. destruct (Nat.eq_dec m n) as [->|Nn]; [left; apply A1, Mu; auto|].
      right. rewrite Em, at_update. destruct (Nat.eqb_spec m n); [contradiction|reflexivity].
Qed.

(** Enough fuel. *)
Definition unmarked (g : graph) : nat := length (filter (fun n => negb (visited (node_at g n) =? v)) (seq 0 (count g))).
Lemma filter_mono {A} (p q : A -> bool) l : (forall x, In x l -> p x = true -> q x = true) -> (length (filter p l) <= length (filter q l))%nat.
Proof.
  induction l as [|x l IH]; intros H; cbn; [lia|]. assert (length (filter p l) <= length (filter q l))%nat by (apply IH; intros; apply H; cbn; auto).
  assert (K := H x (or_introl eq_refl)). destruct (p x) eqn:Ep, (q x) eqn:Eq; cbn; solve [lia | specialize (K eq_refl); discriminate].
Qed.
Lemma filter_strict {A} (p q : A -> bool) l x : (forall x, In x l -> p x = true -> q x = true) -> In x l -> p x = false -> q x = true ->
  (length (filter p l) < length (filter q l))%nat.
Proof.
  induction l as [|y l IH]; intros H I P Q; [destruct I|]. assert (K := H y (or_introl eq_refl)). cbn [filter].
  assert (L : (length (filter p l) <= length (filter q l))%nat) by (apply filter_mono; intros; apply H; cbn; auto). destruct I as [->|I].
  - rewrite P, Q. cbn. lia.
  - assert (length (filter p l) < length (filter q l))%nat by (apply IH; auto; intros; apply H; cbn; auto).
    destruct (p y) eqn:Ep, (q y) eqn:Eq; cbn; solve [lia | specialize (K eq_refl); discriminate].
Qed.
Lemma unmarked_le g g' : count g' = count g -> (forall m, M g m -> M g' m) -> (unmarked g' <= unmarked g)%nat.
Proof.
  intros C H. unfold unmarked. rewrite C. apply filter_mono. intros m _ E. unfold M in H. specialize (H m).
  destruct (Z.eqb_spec (visited (node_at g m)) v) as [X|]; [|auto]. apply H in X. rewrite X, Z.eqb_refl in E. discriminate.
Qed.
Lemma unmarked_lt g n : (n < count g)%nat -> ~ M g n -> (unmarked (update g n (set_visited v)) < unmarked g)%nat.
Proof.
  intros L N. unfold unmarked. rewrite count_update. apply filter_strict with n.
  - intros m _. rewrite at_update. destruct (Nat.eqb_spec m n) as [->|]; [|auto]. cbn. rewrite Z.eqb_refl. discriminate.
  - apply in_seq. lia.
  - rewrite at_update, Nat.eqb_refl. cbn. now rewrite Z.eqb_refl.
  - unfold M in N. destruct (Z.eqb_spec (visited (node_at g n)) v); [contradiction|reflexivity].
Qed.
Lemma walk_ends g0 : (forall n, (n < count g0)%nat -> exists l, next g0 n = Ok l /\ forall x, In x l -> (x < count g0)%nat) ->
  forall fuel g n, sbv g0 g -> (n < count g0)%nat -> (unmarked g < fuel)%nat -> exists g', mark v next fuel g n = Some (Ok g').
Proof.
  intros W. induction fuel as [|fuel IH]; intros g n S L U; [lia|]. cbn [mark]. destruct (Z.eqb_spec (visited (node_at g n)) v) as [E|N]; [eexists; reflexivity|].
  destruct (W n L) as (l & Hl & Rl). rewrite (next_same g0 g n S), Hl. cbn [exbind].
  assert (U1 : (unmarked (update g n (set_visited v)) < fuel)%nat).
  { assert (X := unmarked_lt g n ltac:(destruct S; lia) N). lia. }
  assert (S1 := sbv_trans _ _ _ S (sbv_mark g n v)). clear Hl. generalize dependent (update g n (set_visited v)). clear N U S.
  induction l as [|x l IHl]; intros g1 U1 S1; cbn [each]; [eexists; reflexivity|].
  destruct (IH g1 x S1 (Rl x (or_introl eq_refl)) U1) as (g2 & H2). rewrite H2. cbn [exbind].
  destruct (walk fuel g0 g1 x g2 S1 H2) as (S2 & A2 & _). apply IHl; auto; [intros y Iy; apply Rl; cbn; auto|].
  assert (X := unmarked_le g1 g2 ltac:(destruct S1, S2; congruence) A2). lia.
Qed.
End Walk.

(** * Next nodes *)
Lemma next_uses_spec g l r : next_of_uses g l = Ok r -> forall m, In m r <->
  exists u, In u l /\ (type (node_at g u) = IR_RETURN /\ m = u \/ node_is_control g u = Ok true /\ m = u \/
    type (node_at g u) = IR_IF /\ exists i, (i < 2)%nat /\ project g u i = Some m).
Proof.
  revert r. induction l as [|u l IH]; intros r H m; cbn [next_of_uses] in H.
  - injection H as <-. cbn. split; [intros []|intros (u & [] & _)].
  - destruct (if type (node_at g u) =? IR_RETURN then _ else _) as [here| |] eqn:E; try discriminate. cbn [bind] in H.
    destruct (next_of_uses g l) as [rest| |] eqn:R; try discriminate. injection H as <-. rewrite in_app_iff, (IH rest eq_refl m).
    assert (K : In m here <-> (type (node_at g u) = IR_RETURN /\ m = u \/ node_is_control g u = Ok true /\ m = u \/
       type (node_at g u) = IR_IF /\ exists i, (i < 2)%nat /\ project g u i = Some m)).
    { destruct (Z.eqb_spec (type (node_at g u)) IR_RETURN) as [T|T].
      - injection E as <-. cbn. split; [intros [<-|[]]; auto|]. intros [[_ ->]|[[_ ->]|[T' _]]]; auto. rewrite T in T'. discriminate.
      - destruct (node_is_control g u) as [c| |] eqn:C; try discriminate. cbn [bind] in E. destruct c.
        + injection E as <-. cbn. split; [intros [<-|[]]; auto|]. intros [[T' _]|[[_ ->]|[T' _]]]; auto.
          unfold node_is_control in C. rewrite T' in C. discriminate C.
        + destruct (Z.eqb_spec (type (node_at g u)) IR_IF) as [Ti|Ti].
          * destruct (project g u 0) as [p|] eqn:P; [|discriminate]. destruct (project g u 1) as [q|] eqn:Q; [|discriminate]. injection E as <-. cbn. split.
            -- intros [<-|[<-|[]]]; right; right; split; auto; [exists O|exists 1%nat]; auto.
            -- intros [[T' _]|[[C' _]|(_ & i & Li & X)]]; [contradiction|discriminate|]. destruct i as [|[|i]]; [| |lia].
               ++ rewrite P in X. injection X as ->. auto.
               ++ rewrite Q in X. injection X as ->. auto.
          * injection E as <-. cbn. split; [intros []|]. intros [[T' _]|[[C' _]|[T' _]]]; try contradiction. discriminate. }
    rewrite K. split.
    + intros [H|(x & I & H)]; [exists u; cbn; auto|exists x; cbn; auto].
    + intros (x & [->|I] & H); [auto|right; exists x; auto].
Qed.
Lemma rel_flows g n m : rel next_control g n m -> flows g n m.
Proof.
  intros (l & E & I). apply (next_uses_spec g _ _ E) in I as (u & Iu & [[T ->]|[[C ->]|(T & i & Li & P)]]).
  - now apply flows_return.
  - now apply flows_block.
  - eapply flows_branch; eauto.
Qed.
Lemma flows_rel g n l : next_control g n = Ok l -> forall m, flows g n m -> In m l.
Proof.
  intros E m F. apply (next_uses_spec g _ _ E). destruct F as [m I T|m I C|b m i I T Li P].
  - exists m. auto.
  - exists m. auto 6.
  - exists b. split; [auto|]. right. right. split; [auto|]. exists i. auto.
Qed.
Lemma some_arguments_spec g n x : Inv g -> In x (some_arguments g n) <-> exists i, argument g n i = Some x.
Proof.
  intros I. unfold some_arguments. rewrite in_flat_map. split.
  - intros ([y|] & Iy & Ix); [|destruct Ix]. destruct Ix as [->|[]]. apply In_nth with (d := None) in Iy as (k & _ & E). exists k. exact E.
  - intros (i & E). exists (Some x). split; [|cbn; auto]. unfold argument in E. rewrite <- E. apply nth_In. destruct (Nat.lt_ge_cases i (length (arguments (node_at g n)))); [auto|]. rewrite nth_overflow in E by auto. discriminate.
Qed.
Lemma star_depends g n m : Inv g -> star next_argument g n m <-> depends g n m.
Proof.
  intros I. split; intros H.
  - induction H as [|m' x H IH R]; [constructor|]. destruct R as (l & E & Ix). injection E as <-. apply some_arguments_spec in Ix as (i & Ei); [|auto]. eapply depends_argument; eauto.
  - induction H as [|m' i x H IH R]; [constructor|]. eapply star_next; [exact IH|]. exists (some_arguments g m'). split; [reflexivity|]. apply some_arguments_spec; eauto.
Qed.

(** * Marking *)
Lemma each_inv {G A} (f : G -> A -> ex G) (P : list A -> G -> Prop) : (forall g x done g', P done g -> f g x = Some (Ok g') -> P (done ++ [x]) g') ->
  forall l done g g', P done g -> each f g l = Some (Ok g') -> P (done ++ l) g'.
Proof.
  intros F. induction l as [|x l IH]; intros done g g' H E; cbn [each] in E.
  - injection E as <-. now rewrite app_nil_r.
  - apply ex_ok in E as (g1 & H1 & E). replace (done ++ x :: l) with ((done ++ [x]) ++ l) by (rewrite <- app_assoc; reflexivity). eapply IH; [|exact E]. eapply F; eauto.
Qed.
(** A set of marks that is closed under [next]. *)
Definition closed (v : Z) (next : graph -> nat -> res (list nat)) (g0 g : graph) : Prop :=
  forall m, M v g m -> exists l, next g0 m = Ok l /\ forall x, In x l -> M v g x.
Lemma walked_closed v next g0 g g' l : walked v next g0 g g' l -> closed v next g0 g -> closed v next g0 g'.
Proof.
  intros (S & A & B & C & D & E) Cl m Hm. destruct (M_dec v g m) as [H|H]; [|auto]. destruct (Cl m H) as (l' & El & K). exists l'. auto.
Qed.
Lemma closed_star v next g0 g n m : closed v next g0 g -> M v g n -> star next g0 n m -> M v g m.
Proof.
  intros C H St. induction St as [|m x St IH (l & E & I)]; [auto|]. destruct (C m IH) as (l' & E' & K). rewrite E in E'. injection E' as <-. auto.
Qed.
Section Dead.
Variable g0 : graph.
Hypothesis I0 : Inv g0.
Hypothesis W0 : complete_graph g0.
Lemma fresh_marks v n : v = -1 \/ v = -2 -> ~ M v g0 n.
Proof. unfold M. destruct W0 as (_ & _ & _ & _ & V). destruct (V n). intuition congruence. Qed.
Definition P1 (done : list nat) (g : graph) : Prop :=
  sbv g0 g /\ closed (-1) next_control g0 g /\ (forall m, M (-1) g m -> reachable g0 m) /\
  (forall f p, In f done -> type (node_at g0 f) = IR_FUNCTION -> project g0 f 0 = Some p -> M (-1) g p) /\
  (forall m, M (-1) g m \/ visited (node_at g m) = visited (node_at g0 m)).
Lemma star_reachable n m : reachable g0 n -> star next_control g0 n m -> reachable g0 m.
Proof. intros R St. induction St as [|m x St IH Rl]; [auto|]. eapply reachable_flow; [exact IH|]. now apply rel_flows. Qed.
Lemma first_loop fuel g : each (mark_function fuel) g0 (seq 0 (count g0)) = Some (Ok g) ->
  sbv g0 g /\ (forall m, M (-1) g m <-> reachable g0 m) /\ (forall m, ~ M (-2) g m).
Proof.
  intros H. assert (X : P1 ([] ++ seq 0 (count g0)) g).
  { revert H. set (L := seq 0 (count g0)). assert (Lr : forall f, In f L -> (f < count g0)%nat) by (intros f I; apply in_seq in I; lia).
    assert (K : forall l done g1 g2, (forall f, In f l -> (f < count g0)%nat) -> P1 done g1 -> each (mark_function fuel) g1 l = Some (Ok g2) -> P1 (done ++ l) g2).
    { induction l as [|f l IH]; intros done g1 g2 Lf H1 E; cbn [each] in E; [injection E as <-; now rewrite app_nil_r|].
      apply ex_ok in E as (g' & Ef & E). replace (done ++ f :: l) with ((done ++ [f]) ++ l) by (rewrite <- app_assoc; reflexivity).
      apply (IH (done ++ [f]) g' g2); auto; [intros; apply Lf; cbn; auto|]. clear E IH.
      destruct H1 as (S & Cl & R & D & V). unfold mark_function in Ef. rewrite (sbv_type _ _ _ S), (sbv_project _ _ _ _ S) in Ef.
      destruct (Z.eqb_spec (type (node_at g0 f)) IR_FUNCTION) as [T|T].
      - destruct (project g0 f 0) as [p|] eqn:Ep; [|discriminate]. assert (Wk := walk (-1) next_control sbv_next_control fuel g0 g1 p g' S Ef).
        assert (Cl' := walked_closed _ _ _ _ _ _ Wk Cl). destruct Wk as (S' & A & B & C & D' & V'). split; [auto|]. split; [exact Cl'|]. split; [|split].
        + intros m Hm. destruct (C m Hm) as [|(n & [<-|[]] & St)]; [auto|]. eapply star_reachable; [|exact St]. eapply reachable_entry; [|exact T|exact Ep]. apply Lf. cbn. auto.
        + intros f' p' If T' Ep'. apply in_app_or in If as [If|[<-|[]]]; [apply A; eapply D; eauto|]. rewrite Ep in Ep'. injection Ep' as <-. apply B. cbn. auto.
        + intros m. destruct (V' m) as [|Em]; [auto|]. destruct (V m) as [Hm|]; [left; auto|right; congruence].
      - injection Ef as <-. split; [auto|]. split; [auto|]. split; [auto|]. split; [|auto].
        intros f' p' If T' Ep'. apply in_app_or in If as [If|[<-|[]]]; [eapply D; eauto|contradiction]. }
    intros H. apply (K L [] g0 g Lr); auto. split; [apply sbv_refl|]. split; [intros m Hm; exfalso; apply (fresh_marks (-1) m); auto|].
    split; [intros m Hm; exfalso; apply (fresh_marks (-1) m); auto|]. split; [intros f p []|auto]. }
  cbn [app] in X. destruct X as (S & Cl & R & D & V). split; [auto|]. split.
  - intros m. split; [apply R|]. induction 1 as [f n Lf T E|n m Rn IH F].
    + apply (D f n); auto. apply in_seq. lia.
    + destruct (Cl n IH) as (l & El & K). apply K. eapply flows_rel; eauto.
  - intros m Hm. unfold M in Hm. destruct (V m) as [E|E]; unfold M in *; [congruence|]. apply (fresh_marks (-2) m); [auto|]. unfold M. congruence.
Qed.
Definition root (n : nat) : Prop := reachable g0 n /\ (type (node_at g0 n) = IR_RETURN \/ type (node_at g0 n) = IR_REGION).
Definition P2 (done : list nat) (g : graph) : Prop :=
  sbv g0 g /\ closed (-2) next_argument g0 g /\ (forall m, M (-2) g m -> needed g0 m) /\ (forall n, In n done -> root n -> M (-2) g n) /\
  (forall m, M (-2) g m \/ (M (-1) g m <-> reachable g0 m)).
Lemma second_loop fuel g1 g : sbv g0 g1 -> (forall m, M (-1) g1 m <-> reachable g0 m) -> (forall m, ~ M (-2) g1 m) ->
  (forall m, reachable g0 m -> (m < count g0)%nat) ->
  each (mark_root fuel) g1 (seq 0 (count g0)) = Some (Ok g) -> sbv g0 g /\ forall m, M (-2) g m <-> needed g0 m.
Proof.
  intros S1 R1 N1 Rg H. assert (X : P2 ([] ++ seq 0 (count g0)) g).
  { apply (each_inv (mark_root fuel) P2) with (g := g1) (done := []); auto.
    - intros g2 x done g' (S & Cl & Nd & D & V) E. unfold mark_root in E. rewrite (sbv_type _ _ _ S) in E.
      assert (Skip : (root x -> M (-2) g2 x) -> Some (Ok g2) = Some (Ok g') -> P2 (done ++ [x]) g').
      { intros K E'. injection E' as <-. split; [auto|]. split; [auto|]. split; [auto|]. split; [|auto]. intros n I Rn. apply in_app_or in I as [I|[<-|[]]]; auto. }
      destruct (Z.eqb_spec (visited (node_at g2 x)) (-1)) as [Ev|Ev]; cbn [negb] in E.
      + destruct ((type (node_at g0 x) =? IR_RETURN) || (type (node_at g0 x) =? IR_REGION)) eqn:T.
        * assert (Rx : reachable g0 x). { destruct (V x) as [Mx|Mx]; [unfold M in Mx; congruence|]. apply Mx. exact Ev. }
          apply orb_prop in T. rewrite !Z.eqb_eq in T.
          assert (Wk := walk (-2) next_argument sbv_next_argument fuel g0 g2 x g' S E). assert (Cl' := walked_closed _ _ _ _ _ _ Wk Cl).
          destruct Wk as (S' & A & B & C & D' & V'). split; [auto|]. split; [exact Cl'|]. split; [|split].
          -- intros m Hm. destruct (C m Hm) as [|(n & [<-|[]] & St)]; [auto|]. exists x. split; [auto|]. split; [auto|]. now apply star_depends.
          -- intros n I Rn. apply in_app_or in I as [I|[<-|[]]]; [apply A; auto|apply B; cbn; auto].
          -- intros m. destruct (V' m) as [|Em]; [auto|]. destruct (V m) as [Hm|Hm]; [left; auto|right]. unfold M in *. rewrite Em. exact Hm.
        * apply Skip; auto. intros (_ & Tx). exfalso. apply orb_false_elim in T as [T1 T2]. rewrite !Z.eqb_neq in *. intuition.
      + apply Skip; auto. intros (Rx & _). destruct (V x) as [|K]; [auto|]. exfalso. apply Ev. apply K. exact Rx.
    - split; [auto|]. split; [intros m Hm; exfalso; eapply N1; eauto|]. split; [intros m Hm; exfalso; eapply N1; eauto|]. split; [intros n []|]. intros m. right. apply R1. }
  cbn [app] in X. destruct X as (S & Cl & Nd & D & V). split; [auto|]. intros m. split; [apply Nd|]. intros (r & Rr & T & Dp).
  apply (closed_star _ _ _ _ r m Cl); [|now apply star_depends]. apply D; [apply in_seq; specialize (Rg r Rr); lia|]. split; auto.
Qed.
End Dead.

(** * Pruning *)
Lemma set_argument_projects g n i a g' : type (node_at g n) <> IR_PROJECT -> set_argument g n i a = Ok g' -> forall m, projects (node_at g' m) = projects (node_at g m).
Proof.
  intros T H m. assert (K : forall g f p, (forall x, projects (f x) = projects x) -> projects (node_at (update g p f) m) = projects (node_at g m)).
  { intros h f p Hf. rewrite at_update. destruct (Nat.eqb_spec m p) as [->|]; auto. }
  unfold set_argument in H. destruct (i <? IR_MAX)%nat; [|discriminate]. destruct (match argument g n i with Some p => _ | None => _ end); [now injection H as <-|].
  destruct (Z.eqb_spec (type (node_at g n)) IR_PROJECT); [contradiction|]. destruct (argument g n i) as [p|].
  - destruct (find_use _ _ _); [|discriminate]. cbn [bind] in H. injection H as <-. destruct a; rewrite !K; auto.
  - cbn [bind] in H. injection H as <-. destruct a; rewrite !K; auto.
Qed.
Lemma clear_slot_ok fuel g n i : Inv g -> (i < IR_MAX)%nat -> type (node_at g n) <> IR_PROJECT -> (type (node_at g n) = IR_REGION -> is_sealed (node_at g n) = true) ->
  exists g', clear_slot fuel n g i = Some (Ok g') /\ Inv g' /\ same_nodes g g' /\ same_arguments g g' n i None /\ (forall m, projects (node_at g' m) = projects (node_at g m)).
Proof.
  intros I L T R. unfold clear_slot. destruct (argument g n i) as [p|] eqn:E.
  - unfold node_set_argument. rewrite E. assert (X : exists g1, set_argument g n i None = Ok g1).
    { unfold set_argument. destruct (Nat.ltb_spec i IR_MAX); [|lia]. rewrite E. destruct (Z.eqb_spec (type (node_at g n)) IR_PROJECT); [contradiction|].
      destruct (find_use n (use_size (node_at g p)) (buf (node_at g p))) as [k|] eqn:Fu; [cbn [bind]; eauto|].
      apply find_use_none in Fu. destruct (in_range g I _ _ _ E) as (_ & _ & P). rewrite <- (i_uses g I) in P. unfold uses in P. lia. }
    destruct X as (g1 & H1). rewrite H1. cbn [exbind].
    destruct (set_argument_inv g n i None g1 I (proj1 (in_range g I _ _ _ E)) ltac:(discriminate) H1) as (I1 & S1 & A1 & _).
    assert (Pr := set_argument_projects g n i None g1 T H1). assert (T1 : type (node_at g1 n) = type (node_at g n)) by apply (proj2 S1 n).
    assert (Done : exists g', Some (Ok g1) = Some (Ok g') /\ Inv g' /\ same_nodes g g' /\ same_arguments g g' n i None /\ (forall m, projects (node_at g' m) = projects (node_at g m))) by (exists g1; auto 6).
    unfold node_is_control. rewrite T1. destruct (Z.eqb_spec (type (node_at g n)) IR_REGION) as [Tr|Tr].
    + cbn [exbind]. destruct (Z.eqb_spec (type (node_at g n)) IR_PROJECT); [contradiction|]. destruct (Nat.eqb i 1); [|exact Done].
      unfold seal_block. assert (is_sealed (node_at g1 n) = true) as -> by (apply (proj2 S1 n); auto). exact Done.
    + destruct (Z.eqb_spec (type (node_at g n)) IR_PROJECT); [contradiction|]. cbn [exbind]. exact Done.
  - exists g. split; [reflexivity|]. split; [auto|]. split; [apply nodes_refl|]. split; [|auto]. intros m j.
    destruct (Nat.eqb_spec m n) as [->|], (Nat.eqb_spec j i) as [->|]; cbn; auto.
Qed.
Lemma clear_slots_ok fuel n : forall l g, (forall i, In i l -> (i < IR_MAX)%nat) -> Inv g -> type (node_at g n) <> IR_PROJECT -> (type (node_at g n) = IR_REGION -> is_sealed (node_at g n) = true) ->
  exists g', each (clear_slot fuel n) g l = Some (Ok g') /\ Inv g' /\ same_nodes g g' /\ (forall m, projects (node_at g' m) = projects (node_at g m)) /\
    (forall m j, m <> n -> argument g' m j = argument g m j) /\ (forall j, In j l -> argument g' n j = None) /\ (forall j, argument g n j = None -> argument g' n j = None).
Proof.
  induction l as [|i l IH]; intros g L I T R.
  - exists g. split; [reflexivity|]. split; [auto|]. split; [apply nodes_refl|]. split; [auto|]. split; [auto|]. split; [intros j []|auto].
  - cbn [each]. destruct (clear_slot_ok fuel g n i I (L i (or_introl eq_refl)) T R) as (g1 & E1 & I1 & S1 & A1 & P1'). rewrite E1. cbn [exbind].
    destruct (proj2 S1 n) as (T1 & _ & _ & _ & _ & _ & _ & R1).
    destruct (IH g1) as (g2 & E2 & I2 & S2 & P2' & A2 & B2 & C2); auto; [intros; apply L; cbn; auto|congruence|rewrite T1; auto|].
    exists g2. split; [exact E2|]. split; [auto|]. split; [eapply nodes_trans; eauto|]. split; [intros; rewrite P2'; auto|].
    assert (N1 : argument g1 n i = None) by (rewrite A1, !Nat.eqb_refl; reflexivity).
    split; [|split].
    + intros m j N. rewrite A2 by auto. rewrite A1. destruct (Nat.eqb_spec m n); [contradiction|reflexivity].
    + intros j [<-|Ij]; auto.
    + intros j N. apply C2. rewrite A1. destruct (_ && _); auto.
Qed.
(** What pruning leaves of a node. *)
Definition prunable (m : node) : bool := negb (visited m =? -2) && negb (type m =? IR_PROJECT).
Definition kept (m m' : node) : Prop :=
  type m' = type m /\ size m' = size m /\ number m' = number m /\ arguments m' = arguments m /\ projects m' = projects m /\ visited m' = visited m.
Definition gone (m' : node) : Prop := type m' = IR_DEAD /\ forall j, nth j (arguments m') None = None.
Definition P3 (ga : graph) (done : list nat) (g : graph) : Prop :=
  Inv g /\ count g = count ga /\ (forall n, visited (node_at g n) = visited (node_at ga n)) /\
  (forall n, type (node_at ga n) = IR_REGION -> is_sealed (node_at g n) = true) /\
  (forall n, In n done -> prunable (node_at ga n) = true -> gone (node_at g n)) /\
  (forall n, ~ (In n done /\ prunable (node_at ga n) = true) -> kept (node_at ga n) (node_at g n)).
Lemma arguments_ext g g' n : Inv g -> Inv g' -> (forall j, argument g' n j = argument g n j) -> arguments (node_at g' n) = arguments (node_at g n).
Proof. intros I I' H. apply nth_ext with (d := None) (d' := None); [rewrite (i_len g I), (i_len g' I'); reflexivity|]. intros j _. apply H. Qed.
Lemma prune_ok fuel ga done g n : P3 ga done g -> ~ In n done -> exists g', prune fuel g n = Some (Ok g') /\ P3 ga (done ++ [n]) g'.
Proof.
  intros (I & C & V & Rs & D & K) N. assert (Kn : kept (node_at ga n) (node_at g n)) by (apply K; intros [X _]; auto). destruct Kn as (Tn & _ & _ & An & _ & Vn).
  unfold prune. assert (Eb : negb (visited (node_at g n) =? -2) && negb (type (node_at g n) =? IR_PROJECT) = prunable (node_at ga n)) by (unfold prunable; now rewrite Tn, Vn).
  rewrite Eb. destruct (prunable (node_at ga n)) eqn:Pn.
  - assert (T : type (node_at g n) <> IR_PROJECT) by (apply andb_prop in Eb as [_ X]; apply negb_true_iff in X; now apply Z.eqb_neq in X).
    destruct (clear_slots_ok fuel n (seq 0 IR_MAX) g) as (g1 & E1 & I1 & S1 & Pr1 & A1 & B1 & C1); auto; [intros i Ii; apply in_seq in Ii; lia|rewrite Tn; auto|].
    rewrite E1. cbn [exbind]. exists (update g1 n (set_type IR_DEAD)). split; [reflexivity|].
    assert (I2 : Inv (update g1 n (set_type IR_DEAD))) by (apply grows_update; [intros m; auto|cbn; apply (i_ref g1 I1)|auto]).
    split; [exact I2|]. split; [cbn; destruct S1; congruence|]. split; [|split; [|split]].
    + intros m. rewrite at_update. destruct (Nat.eqb_spec m n) as [->|]; cbn; rewrite <- V; apply (proj2 S1).
    + intros m Tm. rewrite at_update. destruct (Nat.eqb_spec m n) as [->|]; cbn; apply (proj2 S1); auto.
    + intros m Im Pm. rewrite at_update. destruct (Nat.eqb_spec m n) as [->|Nm].
      * split; [reflexivity|]. intros j. cbn. change (argument g1 n j = None). destruct (Nat.lt_ge_cases j IR_MAX) as [L|L]; [apply B1, in_seq; lia|].
        unfold argument. apply nth_overflow. rewrite (i_len g1 I1). exact L.
      * apply in_app_or in Im as [Im|[<-|[]]]; [|contradiction]. destruct (D m Im Pm) as [Dt Da]. destruct (proj2 S1 m) as (Tm & _). split; [congruence|].
        intros j. change (argument g1 m j = None). rewrite A1 by auto. apply Da.
    + intros m Hm. assert (Nm : m <> n) by (intros ->; apply Hm; split; [apply in_or_app; cbn; auto|auto]).
      rewrite at_update. destruct (Nat.eqb_spec m n); [contradiction|].
      destruct (K m) as (K1 & K2 & K3 & K4 & K5 & K6); [intros [X Y]; apply Hm; split; [apply in_or_app; auto|auto]|].
      destruct (proj2 S1 m) as (S2 & S3 & S4 & S5 & _).
      rewrite <- Pr1 in K5. repeat split; try congruence. rewrite <- K4. apply arguments_ext; auto.
  - exists g. split; [reflexivity|]. split; [auto|]. split; [auto|]. split; [auto|]. split; [auto|]. split.
    + intros m Im Pm. apply in_app_or in Im as [Im|[<-|[]]]; [auto|congruence].
    + intros m Hm. apply K. intros [X Y]. apply Hm. split; [apply in_or_app; auto|auto].
Qed.
Lemma prune_all fuel ga : forall l done g, P3 ga done g -> NoDup (done ++ l) -> exists g', each (prune fuel) g l = Some (Ok g') /\ P3 ga (done ++ l) g'.
Proof.
  induction l as [|n l IH]; intros done g H N.
  - exists g. rewrite app_nil_r. auto.
  - cbn [each]. destruct (prune_ok fuel ga done g n H) as (g1 & E1 & H1).
    { apply NoDup_remove_2 in N. intros X. apply N. apply in_or_app. auto. }
    rewrite E1. cbn [exbind]. replace (done ++ n :: l) with ((done ++ [n]) ++ l) in * by (rewrite <- app_assoc; reflexivity). now apply IH.
Qed.
Lemma prune_first ga : Inv ga -> (forall n, type (node_at ga n) = IR_REGION -> is_sealed (node_at ga n) = true) -> P3 ga [] ga.
Proof. intros I R. split; [auto|]. split; [auto|]. split; [auto|]. split; [auto|]. split; [intros n []|]. intros n _. repeat split. Qed.

(** * All of it *)
Section All.
Variable g0 : graph.
Hypothesis I0 : Inv g0.
Hypothesis W0 : complete_graph g0.
Lemma project_range n i : type (node_at g0 n) = IR_FUNCTION /\ i = O \/ type (node_at g0 n) = IR_IF /\ (i < 2)%nat -> exists p, project g0 n i = Some p /\ (p < count g0)%nat.
Proof. destruct W0 as (_ & _ & F & B & _). intros [[T ->]|[T L]]; [apply F|apply B]; auto. Qed.
Lemma uses_range n u : In u (uses g0 n) -> (u < count g0)%nat.
Proof.
  intros H. apply (count_occ_In Nat.eq_dec) in H. fold (occ u (uses g0 n)) in H. rewrite (i_uses g0 I0) in H. apply (count_occ_In onat_dec) in H. apply In_nth with (d := None) in H as (k & _ & E).
  exact (proj1 (in_range g0 I0 u k n E)).
Qed.
Lemma control_total u : exists c, node_is_control g0 u = Ok c.
Proof.
  unfold node_is_control. destruct (_ =? IR_REGION); [eauto|]. destruct (Z.eqb_spec (type (node_at g0 u)) IR_PROJECT) as [T|]; [|eauto].
  destruct (argument g0 u 0) eqn:E; [eauto|]. destruct W0 as (_ & P & _). exfalso. now apply (P u T).
Qed.
Lemma next_uses_total l : (forall u, In u l -> (u < count g0)%nat) -> exists r, next_of_uses g0 l = Ok r /\ forall x, In x r -> (x < count g0)%nat.
Proof.
  induction l as [|u l IH]; intros L; [exists []; split; [reflexivity|intros x []]|]. cbn [next_of_uses].
  destruct IH as (r & Er & Rr); [intros; apply L; cbn; auto|]. rewrite Er. assert (Lu := L u (or_introl eq_refl)).
  assert (K : forall here, (forall x, In x here -> (x < count g0)%nat) -> exists r', (let* h := Ok here in let* rest := Ok r in Ok (h ++ rest)) = Ok r' /\ forall x, In x r' -> (x < count g0)%nat).
  { intros here Hh. exists (here ++ r). split; [reflexivity|]. intros x Ix. apply in_app_or in Ix as [?|?]; auto. }
  destruct (Z.eqb_spec (type (node_at g0 u)) IR_RETURN); [apply K; intros x [<-|[]]; auto|].
  destruct (control_total u) as [c ->]. cbn [bind]. destruct c; [apply K; intros x [<-|[]]; auto|].
  destruct (Z.eqb_spec (type (node_at g0 u)) IR_IF) as [T|]; [|apply (K []); intros x []].
  destruct (project_range u 0) as (p & -> & Lp); [right; auto|]. destruct (project_range u 1) as (q & -> & Lq); [right; auto|].
  apply (K [p; q]). intros x [<-|[<-|[]]]; auto.
Qed.
Lemma control_steps n : (n < count g0)%nat -> exists l, next_control g0 n = Ok l /\ forall x, In x l -> (x < count g0)%nat.
Proof. intros _. apply next_uses_total. intros u. apply uses_range. Qed.
Lemma argument_steps n : (n < count g0)%nat -> exists l, next_argument g0 n = Ok l /\ forall x, In x l -> (x < count g0)%nat.
Proof. intros _. eexists. split; [reflexivity|]. intros x H. apply some_arguments_spec in H as (i & E); auto. exact (proj1 (proj2 (in_range g0 I0 _ _ _ E))). Qed.
Lemma reachable_range m : reachable g0 m -> (m < count g0)%nat.
Proof.
  induction 1 as [f n L T E|n m R IH F].
  - destruct (project_range f 0) as (p & Ep & Lp); auto. unfold project in Ep. congruence.
  - destruct F as [m H _|m H _|b m i H T L E]; try (eapply uses_range; eassumption).
    destruct (project_range b i) as (p & Ep & Lp); auto. unfold project in Ep. congruence.
Qed.
Lemma filter_len {A} (p : A -> bool) l : (length (filter p l) <= length l)%nat.
Proof. induction l as [|x l IH]; cbn; [lia|]. destruct (p x); cbn; lia. Qed.
Lemma unmarked_bound v g : (unmarked v g <= count g)%nat.
Proof. unfold unmarked. etransitivity; [apply filter_len|]. now rewrite seq_length. Qed.
Lemma each_total (f : graph -> nat -> ex graph) (P : graph -> Prop) : (forall g x, P g -> (x < count g0)%nat -> exists g', f g x = Some (Ok g') /\ P g') ->
  forall l g, (forall x, In x l -> (x < count g0)%nat) -> P g -> exists g', each f g l = Some (Ok g') /\ P g'.
Proof.
  intros F. induction l as [|x l IH]; intros g L H; [exists g; split; [reflexivity|auto]|]. cbn [each].
  destruct (F g x H (L x (or_introl eq_refl))) as (g1 & -> & H1). cbn [exbind]. apply IH; auto. intros; apply L; cbn; auto.
Qed.
Theorem remove_dead_spec fuel : (count g0 < fuel)%nat -> exists g', optimize_remove_dead fuel g0 = Some (Ok g') /\ Inv g' /\ count g' = count g0 /\
  (forall n, (n < count g0)%nat -> ~ needed g0 n -> type (node_at g0 n) <> IR_PROJECT -> gone (node_at g' n)) /\
  (forall n, needed g0 n \/ type (node_at g0 n) = IR_PROJECT \/ (count g0 <= n)%nat -> type (node_at g' n) = type (node_at g0 n) /\ size (node_at g' n) = size (node_at g0 n) /\
     number (node_at g' n) = number (node_at g0 n) /\ arguments (node_at g' n) = arguments (node_at g0 n) /\ projects (node_at g' n) = projects (node_at g0 n)).
Proof.
  intros Fu. unfold optimize_remove_dead.
  destruct (each_total (mark_function fuel) (sbv g0)) with (l := seq 0 (count g0)) (g := g0) as (g1 & E1 & _).
  { intros g x S L. unfold mark_function. rewrite (sbv_type _ _ _ S), (sbv_project _ _ _ _ S).
    destruct (Z.eqb_spec (type (node_at g0 x)) IR_FUNCTION) as [T|]; [|exists g; auto]. destruct (project_range x 0) as (p & -> & Lp); auto.
    destruct (walk_ends (-1) next_control sbv_next_control g0 control_steps fuel g p S Lp) as (g' & E).
    { assert (X := unmarked_bound (-1) g). destruct S. lia. }
    exists g'. split; [exact E|]. apply (walk (-1) next_control sbv_next_control fuel g0 g p g' S E). }
  { intros x I. apply in_seq in I. lia. } { apply sbv_refl. }
  rewrite E1. cbn [exbind]. destruct (first_loop g0 W0 fuel g1 E1) as (S1 & R1 & N1).
  destruct (each_total (mark_root fuel) (sbv g0)) with (l := seq 0 (count g0)) (g := g1) as (g2 & E2 & _).
  { intros g x S L. unfold mark_root. destruct (negb _); [exists g; auto|]. destruct (_ || _); [|exists g; auto].
    destruct (walk_ends (-2) next_argument sbv_next_argument g0 argument_steps fuel g x S L) as (g' & E).
    { assert (X := unmarked_bound (-2) g). destruct S. lia. }
    exists g'. split; [exact E|]. apply (walk (-2) next_argument sbv_next_argument fuel g0 g x g' S E). }
  { intros x I. apply in_seq in I. lia. } { exact S1. }
  rewrite E2. cbn [exbind]. destruct (second_loop g0 I0 fuel g1 g2 S1 R1 N1 reachable_range E2) as (S2 & Nd).
  assert (I2 := sbv_inv _ _ S2 I0).
  destruct (prune_all fuel g2 (seq 0 (count g0)) [] g2) as (g3 & E3 & (I3 & C3 & _ & _ & D & K)).
  { apply prune_first; [auto|]. intros n. rewrite (sbv_type _ _ _ S2), (sbv_sealed _ _ _ S2). apply W0. }
  { apply seq_NoDup. }
  exists g3. split; [exact E3|]. split; [exact I3|]. split; [destruct S2; congruence|]. cbn [app] in D, K.
  assert (Pb : forall n, prunable (node_at g2 n) = true <-> ~ needed g0 n /\ type (node_at g0 n) <> IR_PROJECT).
  { intros n. unfold prunable. rewrite (sbv_type _ _ _ S2). rewrite andb_true_iff, !negb_true_iff, !Z.eqb_neq. rewrite <- Nd. reflexivity. }
  split.
  - intros n L N T. apply D; [apply in_seq; lia|]. now apply Pb.
  - intros n H. destruct (K n) as (K1 & K2 & K3 & K4 & K5 & _).
    { intros [X Y]. apply Pb in Y as [Y1 Y2]. apply in_seq in X. destruct H as [H|[H|H]]; [auto|auto|lia]. }
    rewrite K1, K2, K3, K4, K5, (sbv_type _ _ _ S2), (sbv_number _ _ _ S2), (sbv_arguments _ _ _ S2), (sbv_projects _ _ _ S2).
    repeat split. sbv_field S2 n.
Qed.
End All.
