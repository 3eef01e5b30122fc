(** C17: hide sets. *)
From Verif Require Import Base StringSet StringSetSpec.

Lemma strcmp_eq a : forall b, strcmp a b = Eq <-> a = b.
Proof.
  induction a as [|x a IH]; intros [|y b]; cbn; split; intros H; auto; try discriminate.
  - destruct (Z.compare_spec x y); try discriminate. apply IH in H. congruence.
  - inversion H; subst. rewrite Z.compare_refl. apply IH. auto.
Qed.
Lemma sv_string_cmp_spec a : forall b, sv_string_cmp a b = true <-> a = b.
Proof.
  induction a as [|x a IH]; intros [|y b]; cbn; split; intros H; auto; try discriminate.
  - apply andb_prop in H. destruct H as [H1 H2]. apply Z.eqb_eq in H1. apply IH in H2. congruence.
  - inversion H; subst. rewrite Z.eqb_refl. cbn. apply IH. auto.
Qed.
Lemma contains_in a x : string_set_contains a x = true <-> In x a.
Proof.
  unfold string_set_contains. rewrite existsb_exists. split.
  - intros (s & H & E). apply sv_string_cmp_spec in E. subst. auto.
  - intros H. exists x. split; auto. apply sv_string_cmp_spec. auto.
Qed.
Lemma insert_in a s x : In x (string_set_insert a s) <-> In x a \/ x = s.
Proof.
  induction a as [|y t IH]; cbn [string_set_insert].
  - cbn. intuition.
  - destruct (strcmp y s) eqn:E; cbn.
    + apply strcmp_eq in E. subst. intuition.
    + intuition.
    + rewrite IH. intuition.
Qed.
Lemma union_cons x a y b : string_set_union (x :: a) (y :: b) =
  match strcmp x y with
  | Eq => x :: string_set_union a b
  | Lt => x :: string_set_union a (y :: b)
  | Gt => y :: string_set_union (x :: a) b
  end.
Proof. reflexivity. Qed.
Lemma union_nil_l b : string_set_union [] b = b.
Proof. destruct b; reflexivity. Qed.
Lemma union_nil_r a : string_set_union a [] = a.
Proof. destruct a; reflexivity. Qed.
Lemma union_in a : forall b x, In x (string_set_union a b) <-> In x a \/ In x b.
Proof.
  induction a as [|u a IHa]; intros b x.
  - rewrite union_nil_l. cbn. intuition.
  - induction b as [|v b IHb].
    + rewrite union_nil_r. cbn. intuition.
    + rewrite union_cons. destruct (strcmp u v) eqn:E.
      * apply strcmp_eq in E. subst v. cbn [In]. rewrite IHa. intuition.
      * cbn [In]. rewrite IHa. cbn. intuition.
      * cbn [In]. rewrite IHb. cbn. intuition.
Qed.
Lemma inter_cons x a y b : string_set_intersection (x :: a) (y :: b) =
  match strcmp x y with
  | Eq => x :: string_set_intersection a b
  | Lt => string_set_intersection a (y :: b)
  | Gt => string_set_intersection (x :: a) b
  end.
Proof. reflexivity. Qed.
Lemma inter_nil_l b : string_set_intersection [] b = [].
Proof. destruct b; reflexivity. Qed.
Lemma inter_nil_r a : string_set_intersection a [] = [].
Proof. destruct a; reflexivity. Qed.
Lemma inter_sound a : forall b x, In x (string_set_intersection a b) -> In x a /\ In x b.
Proof.
  induction a as [|u a IHa]; intros b x.
  - rewrite inter_nil_l. cbn. intuition.
  - induction b as [|v b IHb].
    + rewrite inter_nil_r. cbn. intuition.
    + rewrite inter_cons. destruct (strcmp u v) eqn:E.
      * apply strcmp_eq in E. subst v. cbn [In]. intros [H|H]; [auto|]. apply IHa in H. intuition.
      * intros H. apply IHa in H. cbn. intuition.
      * intros H. apply IHb in H. cbn in *. intuition.
Qed.
Lemma strcmp_antisym a : forall b, strcmp b a = CompOpp (strcmp a b).
Proof.
  induction a as [|x a IH]; intros [|y b]; cbn; auto. rewrite (Z.compare_antisym x y).
  destruct (x ?= y); cbn; auto.
Qed.
Lemma strcmp_trans a : forall b c, strcmp a b = Lt -> strcmp b c = Lt -> strcmp a c = Lt.
Proof.
  induction a as [|x a IH]; intros [|y b] [|z c]; cbn; auto; try discriminate.
  destruct (Z.compare_spec x y), (Z.compare_spec y z); try discriminate; intros H1 H2; subst.
  - rewrite Z.compare_refl. eauto.
  - rewrite (proj2 (Z.compare_lt_iff _ _)) by lia. auto.
  - rewrite (proj2 (Z.compare_lt_iff _ _)) by lia. auto.
  - rewrite (proj2 (Z.compare_lt_iff _ _)) by lia. auto.
Qed.
Lemma lt_not_in u b : ascending b -> forall v t, b = v :: t -> strcmp u v = Lt -> ~ In u b.
Proof.
  intros HA v t -> HL [H|H].
  - subst. rewrite (proj2 (strcmp_eq u u) eq_refl) in HL. discriminate.
  - destruct HA as [HA _]. specialize (HA u H). pose proof (strcmp_trans u v u HL HA) as T.
    rewrite (proj2 (strcmp_eq u u) eq_refl) in T. discriminate.
Qed.
Lemma inter_complete a : forall b x, ascending a -> ascending b -> In x a -> In x b -> In x (string_set_intersection a b).
Proof.
  induction a as [|u a IHa]; intros b x Ha Hb HA HB; [contradiction|].
  induction b as [|v b IHb]; [contradiction|].
  rewrite inter_cons. destruct (strcmp u v) eqn:E.
  - apply strcmp_eq in E. subst v. destruct Ha as [Hu Ha], Hb as [Hv Hb].
    cbn [In]. destruct HA as [HA|HA]; [auto|]. destruct HB as [HB|HB]; [auto|]. right. apply IHa; auto.
  - assert (x <> u). { intros ->. apply (lt_not_in u (v :: b) Hb v b eq_refl E). auto. }
    destruct HA as [HA|HA]; [congruence|]. apply IHa; auto. apply Ha.
  - assert (E' : strcmp v u = Lt) by (rewrite strcmp_antisym, E; auto).
    assert (x <> v). { intros ->. apply (lt_not_in v (u :: a) Ha u a eq_refl E'). auto. }
    destruct HB as [HB|HB]; [congruence|]. apply IHb; auto. apply Hb.
Qed.

(** Sets built by insertion and union, in any history, have exactly the members
    of the mathematical set. *)
Theorem C17_insert_union_membership :
  forall e x, without_intersection e ->
  (string_set_contains (computed e) x = true <-> denotes e x).
Proof.
  intros e x. rewrite contains_in. induction e as [|e IH s|a IHa b IHb|a IHa b IHb]; cbn; intros W.
  - intuition.
  - rewrite insert_in. rewrite IH by auto. intuition.
  - rewrite union_in. rewrite IHa, IHb by intuition. intuition.
  - contradiction.
Qed.
Print Assumptions C17_insert_union_membership.

(** With intersections no member is ever invented. *)
Theorem C17_no_false_member :
  forall e x, string_set_contains (computed e) x = true -> denotes e x.
Proof.
  intros e x. rewrite contains_in. induction e as [|e IH s|a IHa b IHb|a IHa b IHb]; cbn; intros H; auto.
  - apply insert_in in H. intuition.
  - apply union_in in H. intuition.
  - apply inter_sound in H. intuition.
Qed.
Print Assumptions C17_no_false_member.

(** Intersection is exact when both arrays are in the increasing order the merge
    loop expects. *)
Theorem C17_intersection_partial :
  forall a b x, ascending a -> ascending b ->
  (string_set_contains (string_set_intersection a b) x = true <-> 
   string_set_contains a x = true /\ string_set_contains b x = true).
Proof.
  intros a b x Ha Hb. rewrite !contains_in. split; [apply inter_sound|]. intros [HA HB]. apply inter_complete; auto.
Qed.
Print Assumptions C17_intersection_partial.

(** Intersecting a set with itself is exact whatever the order: the case of a
    macro call whose name and closing parenthesis come from the same expansion. *)
Theorem C17_self_intersection : forall a, string_set_intersection a a = a.
Proof.
  induction a as [|u a IH]; auto. rewrite inter_cons, (proj2 (strcmp_eq u u) eq_refl), IH. auto.
Qed.
Print Assumptions C17_self_intersection.

(** Missing: insertion keeps the arrays in decreasing order, so an intersection
    of sets built by insertion can lose a common member: {z,a} and {a}. *)
Theorem C17_intersection_refuted :
  exists e x, denotes e x /\ string_set_contains (computed e) x = false.
Proof.
  exists (SInter (SInsert (SInsert SEmpty [97]) [122]) (SInsert SEmpty [97])), [97].
  split; [cbn; auto|reflexivity].
Qed.
Print Assumptions C17_intersection_refuted.

Example C17_nontrivial :
  let e := SUnion (SInsert (SInsert SEmpty [97]) [122]) (SInsert (SInsert SEmpty [98]) [97]) in
  without_intersection e /\ computed e = [[98]; [97]; [122]; [97]] /\ denotes e [98].
Proof. cbn. repeat split; auto. Qed.
Example C17_ascending : ascending [[97]; [97; 98]; [122]] /\
  string_set_intersection [[97]; [97; 98]; [122]] [[97; 98]; [98]; [122]] = [[97; 98]; [122]].
Proof. cbn. repeat split; auto; intros y H; cbn in H; intuition; subst; reflexivity. Qed.
