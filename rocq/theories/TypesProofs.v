From Verif Require Import Base Arch Types.

Lemma params_eqb_spec a b : params_eqb a b = true <-> a = b.
Proof.
  unfold params_eqb. split.
  - intros H. apply andb_prop in H. destruct H as [H1 H2]. apply Z.eqb_eq in H1.
    destruct a, b; cbn in H1; try discriminate; auto;
      [|match type of H2 with st_eqb ?x ?y = _ => destruct (st_eqb_spec x y); congruence end| | |]; apply Z.eqb_eq in H2; congruence.
  - intros ->. rewrite Z.eqb_refl. destruct b; auto; cbn [andb]; try apply Z.eqb_refl.
Qed.
Lemma params_eqb_tag a b : params_eqb a b = true -> (params_tag a =? params_tag b) = true.
Proof. intros H. apply andb_prop in H. apply H. Qed.

Definition key (h : list tnode) (p : nat) (a : request) : Prop :=
  exists n, nth_error h p = Some n /\ t_req n = a.

Inductive reach (h : list tnode) : option nat -> nat -> Prop :=
| reach_here p : reach h (Some p) p
| reach_next q n p : nth_error h q = Some n -> reach h (t_next n) p -> reach h (Some q) p.

Definition below (n : nat) (l : list nat) : Prop := Forall (fun x => (x < n)%nat) l.

Record TInv (st : tstate) : Prop := {
  ti_children : forall p n, nth_error (heap st) p = Some n -> below p (r_children (t_req n));
  ti_next : forall p n q, nth_error (heap st) p = Some n -> t_next n = Some q -> (q < p)%nat;
  ti_unique : forall p q a, key (heap st) p a -> key (heap st) q a -> p = q;
  ti_len : length (buckets st) = 1024%nat;
  ti_heads : forall i q, nth_error (buckets st) i = Some (Some q) -> (q < length (heap st))%nat;
  ti_bucket : forall p n hv, nth_error (heap st) p = Some n -> type_hash (S (length (heap st))) (heap st) (t_req n) = Ok hv ->
     exists first, nth_error (buckets st) (Z.to_nat (hv mod 1024)) = Some first /\ reach (heap st) first p
}.

Lemma request_at_key h p : (p < length h)%nat -> exists a, request_at h p = Ok a /\ key h p a.
Proof.
  intros H. unfold request_at, key. destruct (nth_error h p) eqn:E.
  - eexists; split; eauto.
  - apply nth_error_None in E. lia.
Qed.
Lemma key_fun h p a b : key h p a -> key h p b -> a = b.
Proof. intros (n & E & <-) (n' & E' & <-). congruence. Qed.
Lemma key_at h p a : key h p a -> request_at h p = Ok a /\ (p < length h)%nat.
Proof. intros (n & E & <-). unfold request_at. rewrite E. split; auto. apply nth_error_Some. congruence. Qed.

(** ** Comparison decides equality of requests *)
Lemma compare_list_spec (cmp : nat -> nat -> res bool) a : forall b, length a = length b ->
  (forall x y, In x a -> In y b -> cmp x y = Ok (Nat.eqb x y)) ->
  compare_list cmp a b = Ok (if list_eq_dec Nat.eq_dec a b then true else false).
Proof.
  induction a as [|x a IH]; intros [|y b] HL HC; try discriminate; cbn [compare_list].
  - destruct (list_eq_dec Nat.eq_dec [] []); congruence.
  - rewrite HC by (left; auto). cbn [bind]. destruct (Nat.eqb_spec x y) as [->|N].
    + rewrite IH by (cbn in HL; try lia; intros; apply HC; right; auto).
      destruct (list_eq_dec Nat.eq_dec a b), (list_eq_dec Nat.eq_dec (y :: a) (y :: b)); congruence.
    + destruct (list_eq_dec Nat.eq_dec (x :: a) (y :: b)); congruence.
Qed.

Definition req_dec (a b : request) : {a = b} + {a <> b}.
Proof.
  destruct a as [pa ca la], b as [pb cb lb].
  destruct (bool_dec (params_eqb pa pb) true) as [E|E];
    [apply params_eqb_spec in E|right; intros F; inversion F; subst; apply E, params_eqb_spec; auto].
  destruct (Z.eq_dec ca cb); [|right; congruence].
  destruct (list_eq_dec Nat.eq_dec la lb); [|right; congruence].
  left; congruence.
Defined.

Lemma compare_types_spec st : TInv st -> forall fuel a q b,
  key (heap st) q b -> below (length (heap st)) (r_children a) -> (q < fuel)%nat ->
  compare_types fuel (heap st) a q = Ok (if req_dec a b then true else false).
Proof.
  intros HI. induction fuel as [|fuel IH]; intros a q b HK HB HF; [lia|].
  cbn [compare_types]. destruct (key_at _ _ _ HK) as (-> & HQ). cbn [bind].
  assert (NE : forall X : Prop, a = b -> (a <> b) -> X) by (intros; contradiction).
  destruct (Z.eqb_spec (params_tag (r_params a)) (params_tag (r_params b))) as [E1|N1]; cbn [negb];
    [|destruct (req_dec a b); congruence].
  destruct (Nat.eqb_spec (length (r_children a)) (length (r_children b))) as [E2|N2]; cbn [negb];
    [|destruct (req_dec a b); congruence].
  destruct (Z.eqb_spec (r_const a) (r_const b)) as [E3|N3]; cbn [negb];
    [|destruct (req_dec a b); congruence].
  destruct (params_eqb (r_params a) (r_params b)) eqn:E4; cbn [negb].
  2:{ destruct (req_dec a b); auto. subst. rewrite (proj2 (params_eqb_spec _ _)) in E4 by auto. discriminate. }
  apply params_eqb_spec in E4. destruct HK as (nq & EQ & <-).
  pose proof (ti_children st HI q nq EQ) as CB.
  rewrite compare_list_spec; auto.
  - destruct (list_eq_dec Nat.eq_dec (r_children a) (r_children (t_req nq))) as [El|Nl], (req_dec a (t_req nq)); auto; try congruence.
    exfalso. apply n. destruct a, (t_req nq). cbn in *. congruence.
  - intros x y Hx Hy. apply (proj1 (Forall_forall _ _) HB) in Hx. apply (proj1 (Forall_forall _ _) CB) in Hy.
    destruct (request_at_key (heap st) x Hx) as (rx & -> & KX). cbn [bind].
    destruct (request_at_key (heap st) y ltac:(lia)) as (ry & _ & KY).
    assert (BX : below (length (heap st)) (r_children rx)).
    { destruct KX as (nx & EX & <-). pose proof (ti_children st HI x nx EX) as B.
      eapply Forall_impl; [|exact B]. cbn. intros. lia. }
    rewrite (IH rx y ry KY BX ltac:(lia)). destruct (req_dec rx ry) as [->|N], (Nat.eqb_spec x y) as [->|N']; auto.
    + exfalso. apply N'. apply (ti_unique st HI x y ry); auto.
    + exfalso. apply N. eapply key_fun; eauto.
Qed.

(** ** Hashing is stable under heap extension *)
Definition wfh (h : list tnode) : Prop :=
  forall p n, nth_error h p = Some n -> below p (r_children (t_req n)).

Lemma hash_list_ext (f g : nat -> res Z) l : (forall x, In x l -> f x = g x) -> forall acc, hash_list f acc l = hash_list g acc l.
Proof.
  intros H. induction l as [|x l IH]; intros acc; cbn; auto. rewrite H by (left; auto).
  destruct (g x); cbn; auto. apply IH. intros. apply H. right; auto.
Qed.

Lemma type_hash_stable h e : wfh h -> forall k a f f', below k (r_children a) -> (k <= length h)%nat ->
  (k < f)%nat -> (k < f')%nat -> type_hash f h a = type_hash f' (h ++ e) a.
Proof.
  intros HW. induction k as [k IH] using lt_wf_ind; intros a f f' HB HK H1 H2.
  destruct f as [|f]; [lia|]. destruct f' as [|f']; [lia|]. cbn [type_hash].
  apply hash_list_ext. intros x Hx. apply (proj1 (Forall_forall _ _) HB) in Hx.
  unfold request_at. rewrite nth_error_app1 by lia.
  destruct (nth_error h x) as [n|] eqn:E; [|reflexivity]. cbn [bind].
  apply (IH x); try lia. apply (HW x n E).
Qed.

Lemma hash_list_ok (f : nat -> res Z) l : (forall x, In x l -> exists v, f x = Ok v) -> forall acc, exists v, hash_list f acc l = Ok v.
Proof.
  intros H. induction l as [|x l IH]; intros acc; cbn; eauto.
  destruct (H x (or_introl eq_refl)) as (v & ->). cbn. apply IH. intros. apply H. right; auto.
Qed.
Lemma type_hash_ok h : wfh h -> forall k a f, below k (r_children a) -> (k <= length h)%nat -> (k < f)%nat ->
  exists v, type_hash f h a = Ok v.
Proof.
  intros HW. induction k as [k IH] using lt_wf_ind; intros a f HB HK H1.
  destruct f as [|f]; [lia|]. cbn [type_hash].
  apply hash_list_ok. intros x Hx. apply (proj1 (Forall_forall _ _) HB) in Hx.
  destruct (request_at_key h x ltac:(lia)) as (rx & -> & n & E & <-). cbn [bind].
  apply (IH x); try lia. apply (HW x n E).
Qed.

(** ** The chain walk *)
Lemma walk_found st a p : TInv st -> key (heap st) p a -> below (length (heap st)) (r_children a) ->
  forall fuel first, reach (heap st) first p ->
  (forall q, first = Some q -> (q < fuel)%nat /\ (q < length (heap st))%nat) -> (0 < fuel)%nat ->
  walk fuel (heap st) a first = Ok (Some p).
Proof.
  intros HI HK HB. induction fuel as [|fuel IH]; intros first HR HQ HF; [lia|].
  destruct first as [q|]; [|inversion HR]. cbn [walk].
  destruct (HQ q eq_refl) as (Q1 & Q2).
  destruct (request_at_key (heap st) q Q2) as (b & _ & KB).
  rewrite (compare_types_spec st HI _ a q b KB HB) by lia. cbn [bind].
  destruct (req_dec a b) as [->|N].
  - rewrite (ti_unique st HI q p b KB HK). auto.
  - inversion HR as [p' E1 E2|q' n p' E HR' E1]; subst.
    + exfalso. apply N. eapply key_fun; eauto.
    + rewrite E. apply IH; auto.
      * intros r Er. pose proof (ti_next st HI q n r E Er). lia.
      * destruct (t_next n) as [r|] eqn:Er; [|inversion HR']. pose proof (ti_next st HI q n r E Er). lia.
Qed.

Lemma walk_none st a : TInv st -> (forall p, ~ key (heap st) p a) -> below (length (heap st)) (r_children a) ->
  forall fuel first, (forall q, first = Some q -> (S q < fuel)%nat /\ (q < length (heap st))%nat) -> (0 < fuel)%nat ->
  walk fuel (heap st) a first = Ok None.
Proof.
  intros HI HN HB. induction fuel as [|fuel IH]; intros first HQ HF; [lia|].
  destruct first as [q|]; cbn [walk]; auto. destruct (HQ q eq_refl) as (Q1 & Q2).
  destruct (request_at_key (heap st) q Q2) as (b & _ & KB).
  rewrite (compare_types_spec st HI _ a q b KB HB) by lia. cbn [bind].
  destruct (req_dec a b) as [->|N]; [exfalso; apply (HN q); auto|].
  destruct KB as (n & E & _). rewrite E. apply IH; [|lia].
  intros r Er. pose proof (ti_next st HI q n r E Er). lia.
Qed.

Lemma key_dec h a : (exists p, key h p a) \/ (forall p, ~ key h p a).
Proof.
  induction h as [|n h IH].
  - right. intros p (n & E & _). destruct p; discriminate.
  - destruct (req_dec (t_req n) a) as [E|N].
    + left. exists O, n. auto.
    + destruct IH as [(p & n' & E & K)|IH].
      * left. exists (S p), n'. auto.
      * right. intros [|p] (n' & E & K); cbn in E; [congruence|]. apply (IH p). exists n'; auto.
Qed.

Lemma reach_ext h e first p : reach h first p -> reach (h ++ e) first p.
Proof.
  induction 1 as [p|q n p E R IH]; [constructor|].
  econstructor; [|exact IH]. rewrite nth_error_app1; auto. apply nth_error_Some. congruence.
Qed.

Lemma key_ext h e p a : key h p a -> key (h ++ e) p a.
Proof. intros (n & E & K). exists n. split; auto. rewrite nth_error_app1; auto. apply nth_error_Some. congruence. Qed.

Lemma nth_snoc {A} (l : list A) x i y : nth_error (l ++ [x]) i = Some y ->
  nth_error l i = Some y \/ (i = length l /\ y = x).
Proof.
  intros H. destruct (Nat.lt_ge_cases i (length l)).
  - rewrite nth_error_app1 in H by auto. auto.
  - rewrite nth_error_app2 in H by auto. right. destruct (i - length l)%nat eqn:E; cbn in H.
    + split; [lia|congruence].
    + destruct n; discriminate.
Qed.

Lemma mod_bucket v : (Z.to_nat (v mod 1024) < 1024)%nat.
Proof. pose proof (Z.mod_pos_bound v 1024 ltac:(lia)). lia. Qed.

Lemma create_spec st a : TInv st -> below (length (heap st)) (r_children a) ->
  exists st' p, type_create st a = Ok (st', p) /\ TInv st' /\ key (heap st') p a /\
    exists e, heap st' = heap st ++ e.
Proof.
  intros HI HB. pose proof (ti_children st HI) as HW.
  destruct (type_hash_ok (heap st) HW _ a (S (length (heap st))) HB ltac:(lia) ltac:(lia)) as (hv & EH).
  unfold type_create. rewrite EH. cbn [bind].
  pose proof (mod_bucket hv) as MB. set (idx := Z.to_nat (hv mod 1024)) in *.
  destruct (nth_error (buckets st) idx) as [first|] eqn:EB.
  2:{ apply nth_error_None in EB. rewrite (ti_len st HI) in EB. lia. }
  destruct (key_dec (heap st) a) as [(p & HK)|HN].
  - (* already there *)
    destruct HK as (n & E & <-). destruct (ti_bucket st HI p n hv E EH) as (first' & EB' & HR).
    assert (first' = first) by (fold idx in EB'; congruence). subst first'.
    rewrite (walk_found st (t_req n) p HI) with (first := first); auto; try lia.
    + cbn [bind]. exists st, p. split; auto. split; auto. split; [exists n; auto|]. exists []. rewrite app_nil_r; auto.
    + exists n; auto.
    + intros q ->. pose proof (ti_heads st HI idx q EB). lia.
  - (* new *)
    rewrite (walk_none st a HI HN HB) with (first := first); [|intros q -> ; pose proof (ti_heads st HI idx q EB); lia|lia].
    cbn [bind]. set (node := {| t_req := a; t_next := first |}).
    eexists; eexists; split; [reflexivity|]. cbn [heap]. split; [|split; [exists node; split; [|reflexivity]; rewrite nth_error_app2, Nat.sub_diag by lia; auto|exists [node]; auto]].
    assert (HL : length (heap st ++ [node]) = S (length (heap st))) by (rewrite app_length; cbn; lia).
    split; cbn [heap buckets].
    + intros p n E. apply nth_snoc in E. destruct E as [E|(-> & ->)]; [apply (HW p n E)|exact HB].
    + intros p n q E Q. apply nth_snoc in E. destruct E as [E|(-> & ->)]; [apply (ti_next st HI p n q E Q)|].
      cbn in Q. subst first. apply (ti_heads st HI idx q EB).
    + intros p q b (n & E & Kn) (n' & E' & Kn').
      apply nth_snoc in E. apply nth_snoc in E'.
      destruct E as [E|(-> & ->)], E' as [E'|(-> & ->)]; auto.
      * apply (ti_unique st HI p q b); [exists n|exists n']; auto.
      * exfalso. cbn in Kn'. subst b. apply (HN p). exists n; auto.
      * exfalso. cbn in Kn. subst b. apply (HN q). exists n'; auto.
    + rewrite set_nth_length. apply (ti_len st HI).
    + intros i q E. rewrite HL. destruct (Nat.eq_dec i idx) as [->|N].
      * rewrite nth_error_set_nth_eq in E by (rewrite (ti_len st HI); auto). inversion E. lia.
      * rewrite nth_error_set_nth_neq in E by auto. pose proof (ti_heads st HI i q E). lia.
    + intros p n v E EV. rewrite HL in EV.
      assert (HWF : forall b, below (length (heap st)) (r_children b) -> forall v, 
         type_hash (S (S (length (heap st)))) (heap st ++ [node]) b = Ok v ->
         type_hash (S (length (heap st))) (heap st) b = Ok v).
      { intros b HBb w Hw. rewrite <- Hw. apply (type_hash_stable (heap st) [node] HW (length (heap st))); auto; lia. }
      assert (R0 : reach (heap st ++ [node]) (Some (length (heap st))) (length (heap st))) by constructor.
      assert (RN : forall p0, reach (heap st) first p0 -> reach (heap st ++ [node]) (Some (length (heap st))) p0).
      { intros p0 HR. apply reach_next with (n := node).
        - rewrite nth_error_app2, Nat.sub_diag by lia. reflexivity.
        - apply reach_ext. exact HR. }
      apply nth_snoc in E. destruct E as [E|(-> & ->)].
      * assert (HBn : below (length (heap st)) (r_children (t_req n))).
        { assert (p < length (heap st))%nat by (apply nth_error_Some; congruence).
          eapply Forall_impl; [|exact (HW p n E)]. cbn. intros. lia. }
        apply (HWF _ HBn) in EV. destruct (ti_bucket st HI p n v E EV) as (f' & EB' & HR).
        destruct (Nat.eq_dec (Z.to_nat (v mod 1024)) idx) as [EI|NI].
        -- rewrite EI in *. assert (f' = first) by congruence. subst f'.
           exists (Some (length (heap st))). split; auto.
           apply nth_error_set_nth_eq. rewrite (ti_len st HI). auto.
        -- exists f'. split; [rewrite nth_error_set_nth_neq; auto|]. apply reach_ext; auto.
      * cbn [t_req node] in EV. apply (HWF a HB) in EV. assert (v = hv) by congruence. subst v.
        exists (Some (length (heap st))). split; auto.
        apply nth_error_set_nth_eq. rewrite (ti_len st HI). auto.
Qed.

Lemma tinit_inv : TInv tinit.
Proof.
  split; cbn [tinit heap buckets].
  - intros [|p] n E; discriminate.
  - intros [|p] n q E; discriminate.
  - intros p q a (n & E & _). destruct p; discriminate.
  - apply repeat_length.
  - intros i q E. apply nth_error_In in E. apply repeat_spec in E. discriminate.
  - intros [|p] n hv E; discriminate.
Qed.

(** Children are pointers returned earlier ([seen]). *)
Fixpoint well_founded_history (st : tstate) (seen : list nat) (l : list request) : Prop :=
  match l with
  | [] => True
  | a :: t => incl (r_children a) seen /\
      forall st' p, type_create st a = Ok (st', p) -> well_founded_history st' (p :: seen) t
  end.

Lemma run_spec l : forall st seen, TInv st -> below (length (heap st)) seen -> well_founded_history st seen l ->
  exists st' ps, type_run st l = Ok (st', ps) /\ TInv st' /\ (exists e, heap st' = heap st ++ e) /\
    Forall2 (fun p a => key (heap st') p a) ps l.
Proof.
  induction l as [|a l IH]; intros st seen HI HS HW; cbn [type_run].
  - exists st, []. split; auto. split; auto. split; [exists []; rewrite app_nil_r; auto|constructor].
  - destruct HW as [HC HW].
    assert (HB : below (length (heap st)) (r_children a)).
    { apply Forall_forall. intros x Hx. apply (proj1 (Forall_forall _ _) HS). auto. }
    destruct (create_spec st a HI HB) as (st1 & p & EC & HI1 & HK & e1 & E1). rewrite EC. cbn [bind].
    assert (HS1 : below (length (heap st1)) (p :: seen)).
    { constructor; [apply (key_at _ _ _ HK)|]. rewrite E1, app_length. eapply Forall_impl; [|exact HS]. cbn. intros. lia. }
    destruct (IH st1 (p :: seen) HI1 HS1 (HW _ _ EC)) as (st2 & ps & -> & HI2 & (e2 & E2) & HF). cbn [bind].
    exists st2, (p :: ps). split; auto. split; auto. split.
    + exists (e1 ++ e2). rewrite E2, E1, app_assoc. auto.
    + constructor; auto. rewrite E2. apply key_ext. auto.
Qed.
