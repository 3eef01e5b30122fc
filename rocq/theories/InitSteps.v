(** Facts about places, writes and the state they leave, for the proof that
    initializers are parsed as C says. *)
From Coq Require Import String.
From Verif Require Import Base Fuel InitParse InitSpec.
Local Open Scope Z_scope.
Local Open Scope list_scope.

(** * Prefixes *)
Lemma prefix_refl p : prefix p p = true.
Proof. induction p; cbn; [reflexivity|]. rewrite Nat.eqb_refl. exact IHp. Qed.
Lemma prefix_app p q : prefix p (p ++ q) = true.
Proof. induction p; cbn; [reflexivity|]. rewrite Nat.eqb_refl. exact IHp. Qed.
Lemma prefix_split p q : prefix p q = true -> exists r, q = p ++ r.
Proof.
  revert q. induction p as [|a p IH]; intros q H; [exists q; reflexivity|].
  destruct q as [|b q]; [discriminate|]. cbn in H. apply andb_true_iff in H as [E H]. apply Nat.eqb_eq in E.
  destruct (IH _ H) as (r & ->). exists r. subst. reflexivity.
Qed.
Lemma prefix_trans p q r : prefix p q = true -> prefix q r = true -> prefix p r = true.
Proof. intros A B. destruct (prefix_split _ _ A) as (x & ->). destruct (prefix_split _ _ B) as (y & ->). rewrite <- app_assoc. apply prefix_app. Qed.
Lemma prefix_longer p k : prefix (p ++ [k]) p = false.
Proof. induction p; cbn; [reflexivity|]. rewrite Nat.eqb_refl. exact IHp. Qed.
Lemma prefix_longer' p k q : prefix (p ++ k :: q) p = false.
Proof. induction p; cbn; [reflexivity|]. rewrite Nat.eqb_refl. exact IHp. Qed.
Lemma prefix_cancel p q r : prefix (p ++ q) (p ++ r) = prefix q r.
Proof. induction p; cbn; [reflexivity|]. rewrite Nat.eqb_refl. exact IHp. Qed.
Lemma prefix_other p k j r : k <> j -> prefix (p ++ [k]) (p ++ j :: r) = false.
Proof. intros N. rewrite prefix_cancel. cbn. apply Nat.eqb_neq in N. rewrite N. reflexivity. Qed.
Lemma prefix_both p q : prefix p q = true -> prefix q p = true -> p = q.
Proof.
  intros A B. destruct (prefix_split _ _ A) as (x & ->). destruct x as [|k x]; [rewrite app_nil_r; reflexivity|].
  rewrite prefix_longer' in B. discriminate.
Qed.

(** * States *)
Definition state := path -> option value.
Definition effect (m : state) (w : write) : state :=
  match snd w with
  | None => m
  | Some v => fun q => if prefix (fst w) q then if prefix q (fst w) then Some v else None else m q
  end.
Definition effects (m : state) (ws : list write) : state := fold_left effect ws m.
(** Nothing is put into, and no braced list over, what has a value. *)
Fixpoint fine (m : state) (ws : list write) : Prop :=
  match ws with
  | [] => True
  | w :: ws =>
      (forall p, prefix p (fst w) = true -> snd w = None \/ prefix (fst w) p = false -> m p = None) /\
      fine (effect m w) ws
  end.
Definition below (q : path) (ws : list write) : Prop := Forall (fun w => prefix q (fst w) = true) ws.

Lemma effects_app m a b : effects m (a ++ b) = effects (effects m a) b.
Proof. apply fold_left_app. Qed.
Lemma fine_app a : forall m b, fine m (a ++ b) <-> fine m a /\ fine (effects m a) b.
Proof.
  induction a as [|w a IH]; intros m b; cbn [fine app effects fold_left]; [tauto|].
  fold (effects (effect m w) a). rewrite IH. tauto.
Qed.
Lemma effect_outside q w m r : prefix q (fst w) = true -> prefix q r = false -> effect m w r = m r.
Proof.
  intros A B. unfold effect. destruct (snd w); [|reflexivity].
  destruct (prefix (fst w) r) eqn:E; [|reflexivity]. rewrite (prefix_trans _ _ _ A E) in B. discriminate.
Qed.
Lemma effects_outside q ws : forall m r, below q ws -> prefix q r = false -> effects m ws r = m r.
Proof.
  induction ws as [|w ws IH]; intros m r B N; cbn [effects fold_left]; [reflexivity|].
  inversion_clear B as [|? ? B1 B2]. fold (effects (effect m w) ws). rewrite (IH _ _ B2 N). apply (effect_outside q); assumption.
Qed.
Lemma below_app q a b : below q (a ++ b) <-> below q a /\ below q b.
Proof. apply Forall_app. Qed.
Lemma below_shorter p q ws : prefix p q = true -> below q ws -> below p ws.
Proof. intros P. apply Forall_impl. intros w. apply prefix_trans. exact P. Qed.
Lemma below_under q ws : below q (map (under q) ws).
Proof. apply Forall_forall. intros w H. apply in_map_iff in H as (w' & <- & _). apply prefix_app. Qed.
(** The first write shows that what is around it has no value. *)
Lemma fine_around m w ws q k : fine m (w :: ws) -> prefix (q ++ [k]) (fst w) = true -> m q = None.
Proof.
  intros [F _] P. apply F.
  - apply (prefix_trans _ (q ++ [k])); [apply prefix_app|exact P].
  - right. destruct (prefix_split _ _ P) as (r & ->). rewrite <- app_assoc. apply prefix_longer'.
Qed.

(** Shifting a state and its writes into a subobject. *)
Lemma effect_under m q w r : effect m (under q w) (q ++ r) = effect (fun r => m (q ++ r)) w r.
Proof. unfold effect, under. cbn [fst snd]. destruct (snd w); [|reflexivity]. rewrite !prefix_cancel. reflexivity. Qed.
Lemma effects_ext ws : forall m m', (forall q, m q = m' q) -> forall q, effects m ws q = effects m' ws q.
Proof.
  induction ws as [|w ws IH]; intros m m' E q; cbn [effects fold_left]; [apply E|]. apply IH. intros r.
  unfold effect. destruct (snd w); [|apply E]. rewrite E. reflexivity.
Qed.
Lemma effects_under ws : forall m q r, effects m (map (under q) ws) (q ++ r) = effects (fun r => m (q ++ r)) ws r.
Proof.
  induction ws as [|w ws IH]; intros m q r; cbn [effects fold_left map]; [reflexivity|].
  fold (effects (effect m (under q w)) (map (under q) ws)). rewrite IH. apply effects_ext. intros r'. apply effect_under.
Qed.
Lemma fine_ext ws : forall m m', (forall q, m q = m' q) -> fine m ws -> fine m' ws.
Proof.
  induction ws as [|w ws IH]; intros m m' E F; [exact I|]. destruct F as [F1 F2]. split.
  - intros p A B. rewrite <- E. apply F1; assumption.
  - apply (IH (effect m w)); [|exact F2]. intros r. unfold effect. destruct (snd w); [|apply E]. rewrite E. reflexivity.
Qed.
Lemma fine_under ws : forall m q, fine m (map (under q) ws) -> fine (fun r => m (q ++ r)) ws.
Proof.
  induction ws as [|w ws IH]; intros m q F; cbn [map fine] in *; [exact I|]. destruct F as [F1 F2]. split.
  - intros p A B. apply F1; cbn [under fst snd]; rewrite prefix_cancel; assumption.
  - apply (fine_ext _ (fun r => effect m (under q w) (q ++ r))); [intros r; apply effect_under|apply IH; exact F2].
Qed.

(** * Places *)
Fixpoint tsize (t : ty) : nat :=
  match t with
  | Scalar _ => 1
  | Array _ e | Open e => S (tsize e)
  | Record _ _ _ fs => S ((fix all (l : list (list Z * ty)) := match l with [] => 0%nat | (_, ft) :: l => (tsize ft + all l)%nat end) fs)
  end.
Lemma sub_size t k u : sub t k = Some u -> (tsize u < tsize t)%nat.
Proof.
  destruct t as [kd|n e|e|un tag cn fs]; intros H; cbn [sub] in H; try discriminate.
  - destruct (_ <? _)%nat; [|discriminate]. injection H as <-. cbn. lia.
  - injection H as <-. cbn. lia.
  - cbn [tsize]. revert k H. induction fs as [|(nm, ft) fs IH]; intros [|k] H; cbn in H; try discriminate.
    + injection H as <-. lia.
    + specialize (IH _ H). lia.
Qed.
Lemma regular_sub t k u : initializable t -> sub t k = Some u -> regular u.
Proof.
  destruct t as [kd|n e|e|un tag cn fs]; intros R H; cbn [sub] in H; try discriminate.
  - destruct (_ <? _)%nat; [|discriminate]. injection H as <-. apply R.
  - injection H as <-. exact R.
  - destruct R as (_ & _ & R). revert k H. induction fs as [|(nm, ft) fs IH]; intros [|k] H; cbn in H; try discriminate.
    + injection H as <-. apply R.
    + apply (IH (proj2 R) _ H).
Qed.
Lemma regular_initializable t : regular t -> initializable t.
Proof. destruct t; cbn; auto. contradiction. Qed.
Lemma regular_type_at p : forall t u, regular t -> type_at t p = Some u -> regular u.
Proof.
  induction p as [|k p IH]; intros t u R H; cbn in H; [injection H as <-; exact R|].
  destruct (sub t k) as [v|] eqn:E; [|discriminate]. apply (IH v u); [|exact H]. exact (regular_sub _ _ _ (regular_initializable _ R) E).
Qed.
Lemma initializable_type_at p k : forall t u, initializable t -> type_at t (k :: p) = Some u -> regular u.
Proof.
  intros t u R H. cbn in H. destruct (sub t k) as [v|] eqn:E; [|discriminate].
  exact (regular_type_at _ _ _ (regular_sub _ _ _ R E) H).
Qed.
Lemma select_sub t k u : sub t k = Some u -> select t k = Ok u.
Proof.
  destruct t as [kd|n e|e|un tag cn fs]; intros H; cbn [sub] in H; cbn [select]; try discriminate.
  - destruct (_ <? _)%nat; [|discriminate]. congruence.
  - congruence.
  - destruct (nth_error fs k); [|discriminate]. cbn in H. congruence.
Qed.
Lemma type_at_app p q : forall t, type_at t (p ++ q) = match type_at t p with Some u => type_at u q | None => None end.
Proof. induction p as [|k p IH]; intros t; cbn; [reflexivity|]. destruct (sub t k); [apply IH|reflexivity]. Qed.
Lemma selects_at p : forall t u, type_at t p = Some u -> selects t p = Ok u.
Proof.
  induction p as [|k p IH]; intros t u H; cbn in *; [congruence|].
  destruct (sub t k) as [v|] eqn:E; [|discriminate]. rewrite (select_sub _ _ _ E). cbn. apply IH. exact H.
Qed.
(** The successor of a member: the next one of the same object, or that of the
    object. *)
Lemma next_app q k : forall t u, type_at t q = Some u -> sub u k <> None ->
  next t (q ++ [k]) = if followed u k then Some (q ++ [S k]) else next t q.
Proof.
  induction q as [|a q IH]; intros t u H N; cbn in *.
  - injection H as ->. destruct (sub u k) as [v|]; [|congruence]. reflexivity.
  - destruct (sub t a) as [v|]; [|discriminate]. rewrite (IH _ _ H N). destruct (followed u k); reflexivity.
Qed.
Lemma next_not_under q : forall t cur, next t q = Some cur -> prefix q cur = false.
Proof.
  induction q as [|a q IH]; intros t cur H; cbn in *; [discriminate|].
  destruct (match sub t a with Some u => next u q | None => None end) as [r|] eqn:E.
  - injection H as <-. rewrite Nat.eqb_refl. destruct (sub t a) as [u|]; [|discriminate]. exact (IH _ _ E).
  - destruct (followed t a); [|discriminate]. injection H as <-.
    assert (F : (a =? S a)%nat = false) by (apply Nat.eqb_neq; lia). rewrite F. reflexivity.
Qed.

(** * Members by name *)
Lemma name_eqb_eq a : forall b, name_eqb a b = true <-> a = b.
Proof.
  induction a as [|x a IH]; intros [|y b]; cbn; split; intros H; try discriminate; try reflexivity.
  - apply andb_true_iff in H as [E H]. apply Z.eqb_eq in E. apply IH in H. congruence.
  - injection H as -> ->. rewrite Z.eqb_refl. cbn. apply IH. reflexivity.
Qed.
Definition search_fields (name : list Z) : list (list Z * ty) -> nat -> option (list nat) :=
  fix go (l : list (list Z * ty)) (i : nat) : option (list nat) :=
    match l with
    | [] => None
    | (n, ft) :: l =>
        if name_eqb n name then Some [i]
        else match n with
             | [] => match search ft name with Some p => Some (i :: p) | None => go l (S i) end
             | _ => go l (S i)
             end
    end.
Lemma search_record un tag cn fs name : search (Record un tag cn fs) name = search_fields name fs O.
Proof. reflexivity. Qed.
Lemma member_name t name p : member t name p -> name <> [].
Proof. induction 1; assumption. Qed.
Lemma search_member t name p : name <> [] -> search t name = Some p -> member t name p.
Proof.
  intros N. remember (tsize t) as n eqn:En. assert (L : (tsize t <= n)%nat) by lia. clear En. revert t p L.
  induction n as [|n IH]; intros t p L H; [destruct t; cbn in L; lia|].
  destruct t as [kd|m e|e|un tag cn fs]; try discriminate. rewrite search_record in H.
  assert (G : forall l i p, search_fields name l i = Some p -> (forall j f, nth_error l j = Some f -> nth_error fs (i + j) = Some f) ->
    member (Record un tag cn fs) name p).
  { induction l as [|(nm, ft) l IHl]; intros i p' S W; cbn in S; [discriminate|].
    assert (W' : forall j f, nth_error l j = Some f -> nth_error fs (Datatypes.S i + j) = Some f).
    { intros j f E. replace (Datatypes.S i + j)%nat with (i + Datatypes.S j)%nat by lia. apply W. exact E. }
    pose proof (W 0%nat _ eq_refl) as W0. rewrite Nat.add_0_r in W0.
    destruct (name_eqb nm name) eqn:E.
    - injection S as <-. apply name_eqb_eq in E. subst nm. apply (member_here _ _ _ _ _ _ ft); assumption.
    - destruct nm as [|z nm]; [|exact (IHl _ _ S W')].
      destruct (search ft name) as [p''|] eqn:E2; [|exact (IHl _ _ S W')].
      injection S as <-. apply (member_inner _ _ _ _ _ _ ft); [exact W0|]. apply IH; [|exact E2].
      assert (B : sub (Record un tag cn fs) i = Some ft) by (cbn; rewrite W0; reflexivity).
      apply sub_size in B. lia. }
  apply (G fs O p H). intros j f E. exact E.
Qed.
Lemma member_search t name p : member t name p -> search t name <> None.
Proof.
  induction 1 as [un tag cn fs k name ft N E|un tag cn fs k name ft p E M IH]; rewrite search_record.
  - generalize O as i. revert k E. induction fs as [|(nm, f) fs IHf]; intros [|k] E i; try discriminate; cbn in E |- *.
    + injection E as -> ->. rewrite (proj2 (name_eqb_eq name name) eq_refl). discriminate.
    + destruct (name_eqb nm name); [discriminate|]. destruct nm; [|apply (IHf k E)].
      destruct (search f name); [discriminate|]. apply (IHf k E).
  - generalize O as i. revert k E. induction fs as [|(nm, f) fs IHf]; intros [|k] E i; try discriminate; cbn in E |- *.
    + injection E as -> ->. destruct (name_eqb [] name); [discriminate|]. destruct (search ft name); [discriminate|contradiction].
    + destruct (name_eqb nm name); [discriminate|]. destruct nm; [|apply (IHf k E)].
      destruct (search f name); [discriminate|]. apply (IHf k E).
Qed.
Lemma search_exact t name p : unambiguous t -> member t name p -> search t name = Some p.
Proof.
  intros U M. pose proof (member_search _ _ _ M) as N. destruct (search t name) as [q|] eqn:E; [|contradiction].
  f_equal. apply (U name); [|exact M]. exact (search_member _ _ _ (member_name _ _ _ M) E).
Qed.
Lemma member_path t name p : member t name p -> exists k q, p = k :: q.
Proof. destruct 1; eauto. Qed.

(** * Designators *)
Lemma designates_at t ds p : designates t ds p -> exists u, type_at t p = Some u.
Proof.
  intros H0. induction H0 as [t|t e k u ds p A E Sb D IH|t name q u ds p M A D IH]; [exists t; reflexivity| |].
  - destruct IH as (v & V). exists v. cbn. rewrite Sb. exact V.
  - destruct IH as (v & V). exists v. rewrite type_at_app, A. exact V.
Qed.
Lemma designators_ok t ds p : designates t ds p -> forall l, initializable t ->
  designators t (print_designators ds ++ TAssign :: l) = Ok (p, TAssign :: l).
Proof.
  intros H0. induction H0 as [t|t e k u ds p A E Sb D IH|t name q u ds p M A D IH]; intros l R; [reflexivity| |]; cbn [print_designators app designators].
  - rewrite E, (select_sub _ _ _ Sb). cbn [bind]. rewrite IH; [reflexivity|]. apply regular_initializable. exact (regular_sub _ _ _ R Sb).
  - assert (U : unambiguous t) by (destruct M; apply R).
    rewrite (search_exact _ _ _ U M), (selects_at _ _ _ A). cbn [bind]. rewrite IH; [reflexivity|].
    destruct (member_path _ _ _ M) as (k & q' & ->). apply regular_initializable. exact (initializable_type_at _ _ _ _ R A).
Qed.
Lemma designates_nonempty t ds p : designates t ds p -> ds <> [] -> exists k q, p = k :: q.
Proof.
  destruct 1 as [t|t e k u ds p A E S D|t name q u ds p M A D]; intros N; [congruence|eauto|].
  destruct (member_path _ _ _ M) as (k & q' & ->). exists k, (q' ++ p). reflexivity.
Qed.
