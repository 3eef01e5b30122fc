From Verif Require Import Base Types MacroTable MacroTableProofs Symbols SymbolsSpec.

(** * The last entry before [k] with a property *)
Fixpoint last_idx (p : entry -> bool) (es : list entry) (k : nat) : option nat :=
  match k with
  | O => None
  | S j => match nth_error es j with Some e => if p e then Some j else last_idx p es j | None => last_idx p es j end
  end.
Lemma last_idx_S p es j : last_idx p es (S j) = match nth_error es j with Some e => if p e then Some j else last_idx p es j | None => last_idx p es j end.
Proof. reflexivity. Qed.
Definition inb (h : nat) (e : entry) : bool := Nat.eqb (bucket (id e)) h.

Lemma last_idx_some p es k j : last_idx p es k = Some j ->
  (j < k)%nat /\ exists e, nth_error es j = Some e /\ p e = true /\ forall j' e', (j < j' < k)%nat -> nth_error es j' = Some e' -> p e' = false.
Proof.
  induction k as [|k IH]; cbn; [discriminate|]. destruct (nth_error es k) as [e|] eqn:E.
  - destruct (p e) eqn:P.
    + intros H. injection H as <-. split; [lia|]. exists e. repeat (split; auto). intros. lia.
    + intros H. destruct (IH H) as (L & e0 & E0 & P0 & N). split; [lia|]. exists e0. repeat (split; auto).
      intros j' e' B E'. destruct (Nat.eq_dec j' k) as [->|]; [congruence|]. apply (N j'); auto. lia.
  - intros H. destruct (IH H) as (L & e0 & E0 & P0 & N). split; [lia|]. exists e0. repeat (split; auto).
    intros j' e' B E'. destruct (Nat.eq_dec j' k) as [->|]; [congruence|]. apply (N j'); auto. lia.
Qed.
Lemma last_idx_none p es k : last_idx p es k = None <-> forall j e, (j < k)%nat -> nth_error es j = Some e -> p e = false.
Proof.
  induction k as [|k IH]; cbn; [split; auto; intros; lia|]. destruct (nth_error es k) as [e|] eqn:E.
  - destruct (p e) eqn:P.
    + split; [discriminate|]. intros H. rewrite (H k e) in P; auto; discriminate.
    + rewrite IH. split; intros H j e' L E'; [|apply (H j); auto]. destruct (Nat.eq_dec j k) as [->|]; [congruence|]. apply (H j); auto. lia.
  - rewrite IH. split; intros H j e' L E'; [|apply (H j); auto]. destruct (Nat.eq_dec j k) as [->|]; [congruence|]. apply (H j); auto. lia.
Qed.
Lemma last_idx_skip p es j k : (j <= k)%nat -> (forall j' e', (j <= j' < k)%nat -> nth_error es j' = Some e' -> p e' = false) -> last_idx p es k = last_idx p es j.
Proof.
  intros L H. induction k as [|k IH]; [now replace j with O by lia|].
  destruct (Nat.eq_dec j (S k)) as [->|]; [reflexivity|]. cbn. destruct (nth_error es k) as [e|] eqn:E.
  - rewrite (H k e) by (auto; lia). apply IH; [lia|]. intros j' e' B. apply H. lia.
  - apply IH; [lia|]. intros j' e' B. apply H. lia.
Qed.
Lemma last_idx_at p es k j e : (j < k)%nat -> nth_error es j = Some e -> p e = true ->
  (forall j' e', (j < j' < k)%nat -> nth_error es j' = Some e' -> p e' = false) -> last_idx p es k = Some j.
Proof.
  intros L E P H. rewrite (last_idx_skip p es (S j) k) by (auto; intros; apply (H j'); auto; lia). cbn. now rewrite E, P.
Qed.
Lemma last_idx_ext p es es' k : (forall j, (j < k)%nat -> nth_error es j = nth_error es' j) -> last_idx p es k = last_idx p es' k.
Proof.
  induction k as [|k IH]; cbn; auto. intros H. rewrite <- (H k) by lia. rewrite IH by auto. reflexivity.
Qed.
(** Only the identities and blocks of entries matter. *)
Definition core (e : entry) := (block e, (id e, data e)).
Lemma last_idx_map {A} (f : entry -> A) (q : A -> bool) es es' k : (forall j, (j < k)%nat -> option_map f (nth_error es j) = option_map f (nth_error es' j)) ->
  last_idx (fun e => q (f e)) es k = last_idx (fun e => q (f e)) es' k.
Proof.
  induction k as [|k IH]; cbn; auto. intros H. rewrite IH by auto. specialize (H k (Nat.lt_succ_diag_r k)).
  destruct (nth_error es k), (nth_error es' k); cbn in H; try discriminate; auto. injection H as ->. reflexivity.
Qed.

(** * The invariant *)
Record inv (st : symtab) : Prop := {
  inv_heads : forall h, (h < 1024)%nat -> nth_error (heads st) h = Some (last_idx (inb h) (entries st) (length (entries st)));
  inv_links : forall j e, nth_error (entries st) j = Some e -> link e = last_idx (inb (bucket (id e))) (entries st) j;
  inv_len : length (heads st) = 1024%nat }.

Lemma bucket_lt i : (bucket i < 1024)%nat.
Proof. unfold bucket. set (x := Z.lxor _ _). assert (H := Z.mod_pos_bound x 1024 ltac:(lia)). lia. Qed.
Lemma nth_lt {A} (l : list A) i x : nth_error l i = Some x -> (i < length l)%nat.
Proof. intros H. apply nth_error_Some. congruence. Qed.
Lemma nth_ex {A} (l : list A) i : (i < length l)%nat -> exists x, nth_error l i = Some x.
Proof. intros H. destruct (nth_error l i) as [x|] eqn:E; eauto. apply nth_error_None in E. lia. Qed.
Lemma compare_eq a b : compare_entry a b = true <-> a = b.
Proof.
  destruct a as [k n], b as [k' n']. unfold compare_entry. cbn [fst snd]. rewrite andb_true_iff, Z.eqb_eq, sv_cmp_spec.
  split; [intros [H ->]; destruct k, k'; cbn in H; (reflexivity || discriminate)|intros H; injection H as -> ->; auto].
Qed.

Definition hit (i : entry_id) (global : bool) (e : entry) : bool := compare_entry (id e) i && negb (global && negb (Nat.eqb (block e) 0)).
Lemma hit_inb i g e : hit i g e = true -> inb (bucket i) e = true.
Proof. unfold hit, inb. rewrite andb_true_iff, compare_eq. intros [-> _]. apply Nat.eqb_refl. Qed.
Lemma walk_spec i g es : (forall j e, nth_error es j = Some e -> link e = last_idx (inb (bucket (id e))) es j) ->
  forall k fuel, (k <= fuel)%nat -> walk fuel i g es (last_idx (inb (bucket i)) es k) = Ok (last_idx (hit i g) es k).
Proof.
  intros L k. induction k as [k IH] using lt_wf_ind. intros fuel F.
  destruct (last_idx (inb (bucket i)) es k) as [j|] eqn:E.
  - destruct (last_idx_some _ _ _ _ E) as (Lt & e & Ee & P & N).
    destruct fuel as [|f]; [lia|]. cbn [walk]. rewrite Ee. fold (hit i g e).
    assert (N' : forall j' e', (j < j' < k)%nat -> nth_error es j' = Some e' -> hit i g e' = false).
    { intros j' e' B E'. specialize (N j' e' B E'). destruct (hit i g e') eqn:H; auto. apply hit_inb in H. congruence. }
    destruct (hit i g e) eqn:H.
    + symmetry. f_equal. eapply last_idx_at; eauto.
    + rewrite (L j e Ee). unfold inb in P. apply Nat.eqb_eq in P. rewrite P. rewrite (IH j) by lia. f_equal.
      symmetry. apply last_idx_skip; [lia|]. intros j' e' B E'. destruct (Nat.eq_dec j' j) as [->|]; [congruence|]. apply (N' j'); auto. lia.
  - assert (K : last_idx (hit i g) es k = None).
    { apply last_idx_none. rewrite last_idx_none in E. intros j e B Ee. specialize (E j e B Ee).
      destruct (hit i g e) eqn:H; auto. apply hit_inb in H. congruence. }
    rewrite K. destruct fuel; reflexivity.
Qed.
Lemma get_entry_spec st i g : inv st ->
  get_entry st i g = Ok (match last_idx (hit i g) (entries st) (length (entries st)) with
                         | Some q => match nth_error (entries st) q with Some e => Some (q, e) | None => None end | None => None end).
Proof.
  intros I. unfold get_entry. rewrite (inv_heads _ I _ (bucket_lt i)). rewrite (walk_spec i g _ (inv_links _ I)) by lia. cbn [bind].
  destruct (last_idx (hit i g) (entries st) (length (entries st))) as [q|] eqn:E; auto.
  destruct (last_idx_some _ _ _ _ E) as (_ & e & Ee & _). now rewrite Ee.
Qed.

(** * Adding at the end, and truncation *)
Lemma last_idx_app p es x k : (k <= length es)%nat -> last_idx p (es ++ x) k = last_idx p es k.
Proof. intros H. apply last_idx_ext. intros j L. apply nth_error_app1. lia. Qed.
Lemma add_entry_inv st i d : inv st -> exists e, id e = i /\ data e = d /\ block e = current_block st /\
  exists st', add_entry st i d = Ok st' /\ entries st' = entries st ++ [e] /\ current_block st' = current_block st /\ inv st'.
Proof.
  intros I. unfold add_entry. rewrite (inv_heads _ I _ (bucket_lt i)). eexists {| id := i; data := d; block := _; link := _ |}.
  cbn [id data block]. split; [reflexivity|]. split; [reflexivity|]. split; [reflexivity|].
  eexists. split; [reflexivity|]. cbn [entries current_block]. split; [reflexivity|]. split; [reflexivity|].
  split; cbn [heads entries].
  - intros h H. rewrite app_length. cbn [length]. rewrite Nat.add_1_r. cbn [last_idx]. rewrite nth_error_app2, Nat.sub_diag by lia. cbn [nth_error].
    unfold inb at 1. cbn [id]. destruct (Nat.eqb_spec (bucket i) h) as [<-|N].
    + rewrite nth_error_set_nth_eq; auto. rewrite (inv_len _ I). apply bucket_lt.
    + rewrite nth_error_set_nth_neq by auto. rewrite (inv_heads _ I) by auto. now rewrite last_idx_app by lia.
  - intros j e E. destruct (Nat.lt_ge_cases j (length (entries st))) as [L|L].
    + rewrite nth_error_app1 in E by lia. rewrite (inv_links _ I _ _ E). symmetry. apply last_idx_app. lia.
    + assert (J := nth_lt _ _ _ E). rewrite app_length in J. cbn in J. assert (j = length (entries st)) as -> by lia.
      rewrite nth_error_app2, Nat.sub_diag in E by lia. injection E as <-. cbn [link id]. symmetry. apply last_idx_app. lia.
  - rewrite set_nth_length. apply (inv_len _ I).
Qed.
Lemma last_idx_firstn p es n k : (k <= n)%nat -> last_idx p (firstn n es) k = last_idx p es k.
Proof.
  intros H. apply last_idx_ext. intros j L. revert n k H j L.
  induction es as [|e es IH]; intros n k H j L; [now rewrite firstn_nil|]. destruct n; [lia|]. destruct j; cbn; auto.
  apply (IH n (k - 1)%nat); lia.
Qed.
Lemma pop_loop_spec es cb : (forall j e, nth_error es j = Some e -> link e = last_idx (inb (bucket (id e))) es j) ->
  forall n hd m, (n <= length es)%nat -> (m <= n)%nat -> length hd = 1024%nat ->
  (forall j e, (j < m)%nat -> nth_error es j = Some e -> (block e <= cb)%nat) ->
  (forall j e, (m <= j < n)%nat -> nth_error es j = Some e -> (cb < block e)%nat) ->
  (forall h, (h < 1024)%nat -> nth_error hd h = Some (last_idx (inb h) es n)) ->
  exists hd', pop_loop n es hd cb = Ok (m, hd') /\ length hd' = 1024%nat /\ forall h, (h < 1024)%nat -> nth_error hd' h = Some (last_idx (inb h) es m).
Proof.
  intros L n. induction n as [|n IH]; intros hd m Hn Hm Hl Lo Hi Hh.
  - assert (m = 0)%nat as -> by lia. exists hd. cbn. auto.
  - cbn [pop_loop]. destruct (nth_ex es n ltac:(lia)) as [e E]. rewrite E. destruct (Nat.leb_spec (block e) cb) as [B|B].
    + assert (m = S n) as -> by (destruct (Nat.eq_dec m (S n)); auto; exfalso; specialize (Hi n e ltac:(lia) E); lia). exists hd. auto.
    + assert (m <> S n) by (intros ->; specialize (Lo n e ltac:(lia) E); lia).
      apply IH; try lia; auto.
      * rewrite set_nth_length. auto.
      * intros j e' R E'. apply (Hi j); auto. lia.
      * intros h H'. destruct (Nat.eq_dec (bucket (id e)) h) as [<-|N].
        -- rewrite nth_error_set_nth_eq by (rewrite Hl; apply bucket_lt). now rewrite (L _ _ E).
        -- rewrite nth_error_set_nth_neq by auto. rewrite (Hh h H'). cbn [last_idx]. rewrite E. unfold inb at 1.
           destruct (Nat.eqb_spec (bucket (id e)) h); [contradiction|reflexivity].
Qed.
Lemma nth_firstn {A} (l : list A) n j : (j < n)%nat -> nth_error (firstn n l) j = nth_error l j.
Proof. revert n j. induction l as [|x l IH]; intros n j H; [now rewrite firstn_nil|]. destruct n; [lia|]. destruct j; cbn; auto. apply IH. lia. Qed.
Lemma pop_scope_inv st cb m : inv st -> current_block st = S cb -> (m <= length (entries st))%nat ->
  (forall j e, (j < m)%nat -> nth_error (entries st) j = Some e -> (block e <= cb)%nat) ->
  (forall j e, (m <= j)%nat -> nth_error (entries st) j = Some e -> (cb < block e)%nat) ->
  exists st', pop_scope st = Ok st' /\ entries st' = firstn m (entries st) /\ current_block st' = cb /\ inv st'.
Proof.
  intros I C M Lo Hi. unfold pop_scope. rewrite C.
  destruct (pop_loop_spec (entries st) cb (inv_links _ I) (length (entries st)) (heads st) m) as (hd & E & Ln & H); auto using inv_len.
  { intros j e R E. apply (Hi j); auto. lia. }
  { apply (inv_heads _ I). }
  rewrite E. cbn [bind]. eexists. split; [reflexivity|]. cbn. split; [reflexivity|]. split; [reflexivity|]. split; cbn [heads entries].
  - intros h H'. rewrite (H h H'), firstn_length_le by auto. now rewrite last_idx_firstn by lia.
  - intros j e Ej. assert (J := nth_lt _ _ _ Ej). rewrite firstn_length_le in J by auto. rewrite nth_firstn in Ej by auto.
    rewrite (inv_links _ I _ _ Ej). symmetry. apply last_idx_firstn. lia.
  - exact Ln.
Qed.

(** * Insertion into the file scope *)
Definition bump (p : nat) (l : option nat) : option nat := match l with Some j => Some (if (j <? p)%nat then j else S j) | None => None end.
Definition moved (p : nat) (e : entry) : entry := with_link e (bump p (link e)).
Section Insert.
Variable st : symtab.
Hypothesis I : inv st.
Let es := entries st.
Let N := length es.
Variable p : nat.
Hypothesis Pn : (p <= N)%nat.
Hypothesis Lo : forall j e, (j < p)%nat -> nth_error es j = Some e -> block e = O.
Hypothesis Hi : forall j e, (p <= j)%nat -> nth_error es j = Some e -> (0 < block e)%nat.

Lemma shift_loop_spec : forall n A hd, (p <= n <= N)%nat -> length A = S N -> length hd = 1024%nat ->
  (forall k, (k < n)%nat -> nth_error A k = nth_error es k) ->
  (forall k e, (n <= k)%nat -> nth_error es k = Some e -> nth_error A (S k) = Some (moved p e)) ->
  (forall h, (h < 1024)%nat -> nth_error hd h = Some (bump n (last_idx (inb h) es N))) ->
  exists A' hd', shift_loop n 0 A hd = Ok (p, A', hd') /\ length A' = S N /\ length hd' = 1024%nat /\
  (forall k, (k < p)%nat -> nth_error A' k = nth_error es k) /\
  (forall k e, (p <= k)%nat -> nth_error es k = Some e -> nth_error A' (S k) = Some (moved p e)) /\
  (forall h, (h < 1024)%nat -> nth_error hd' h = Some (bump p (last_idx (inb h) es N))).
Proof.
  induction n as [|i IH]; intros A hd Hn LA Lh H1 H2 H3.
  - assert (p = O) as -> by lia. exists A, hd. cbn. auto 10.
  - cbn [shift_loop]. destruct (nth_ex es i ltac:(fold N; lia)) as [e E]. rewrite (H1 i) by lia. rewrite E.
    destruct (Nat.ltb_spec 0 (block e)) as [B|B].
    2:{ assert (p = S i) as -> by (destruct (Nat.eq_dec p (S i)); auto; exfalso; specialize (Hi i e ltac:(lia) E); lia). exists A, hd. auto 10. }
    assert (Hp : (p <= i)%nat) by (destruct (Nat.le_gt_cases p i); auto; rewrite (Lo i e) in B; auto; lia).
    rewrite (H3 _ (bucket_lt (id e))).
    assert (EL : match link e with
                  | None => Ok None
                  | Some j => match nth_error A j with None => Undef | Some t => Ok (Some (if (0 <? block t)%nat then S j else j)) end
                  end = Ok (bump p (link e))).
    { rewrite (inv_links _ I _ _ E). destruct (last_idx _ _ i) as [j|] eqn:EJ; auto.
      destruct (last_idx_some _ _ _ _ EJ) as (Lj & t & Et & _). fold es in Et. rewrite (H1 j) by lia. rewrite Et. cbn [bump]. f_equal. f_equal.
      destruct (Nat.ltb_spec j p) as [J|J].
      - rewrite (Lo j t J Et). reflexivity.
      - specialize (Hi j t J Et). destruct (Nat.ltb_spec 0 (block t)); [reflexivity|lia]. }
    rewrite EL. cbn [bind]. fold (moved p e).
    apply IH; [lia| | | | |].
    + now rewrite !set_nth_length.
    + destruct (bump (S i) (last_idx (inb (bucket (id e))) es N)) as [j|]; [destruct (Nat.eqb j i)|]; rewrite ?set_nth_length; auto.
    + intros k K. rewrite !nth_error_set_nth_neq by lia. apply H1. lia.
    + intros k e' K E'. destruct (Nat.eq_dec k i) as [->|].
      * rewrite nth_error_set_nth_eq by (rewrite set_nth_length, LA; lia). rewrite E in E'. now injection E' as <-.
      * rewrite !nth_error_set_nth_neq by lia. apply H2; auto. lia.
    + intros h H'. destruct (Nat.eq_dec (bucket (id e)) h) as [<-|Nh].
      * assert (Q : exists j, last_idx (inb (bucket (id e))) es N = Some j /\ (i <= j)%nat).
        { destruct (last_idx (inb (bucket (id e))) es N) as [j|] eqn:EJ.
          - exists j. split; auto. destruct (Nat.le_gt_cases i j); auto. exfalso.
            destruct (last_idx_some _ _ _ _ EJ) as (_ & _ & _ & _ & Nj). specialize (Nj i e ltac:(lia) E). unfold inb in Nj. rewrite Nat.eqb_refl in Nj. discriminate.
          - exfalso. rewrite last_idx_none in EJ. specialize (EJ i e ltac:(lia) E). unfold inb in EJ. rewrite Nat.eqb_refl in EJ. discriminate. }
        destruct Q as (j & Ej & Lj). rewrite Ej. cbn [bump]. destruct (Nat.ltb_spec j (S i)) as [J|J].
        -- assert (j = i) as -> by lia. rewrite Nat.eqb_refl. rewrite nth_error_set_nth_eq by (rewrite Lh; apply bucket_lt).
           destruct (Nat.ltb_spec i i); [lia|reflexivity].
        -- destruct (Nat.eqb_spec (S j) i); [lia|]. rewrite (H3 _ H'), Ej. cbn [bump].
           destruct (Nat.ltb_spec j (S i)), (Nat.ltb_spec j i); try lia. reflexivity.
      * assert (Q : bump i (last_idx (inb h) es N) = bump (S i) (last_idx (inb h) es N)).
        { destruct (last_idx (inb h) es N) as [j|] eqn:EJ; auto. cbn [bump]. f_equal.
          destruct (last_idx_some _ _ _ _ EJ) as (_ & t & Et & Pt & _). assert (j <> i).
          { intros ->. rewrite E in Et. injection Et as <-. unfold inb in Pt. apply Nat.eqb_eq in Pt. contradiction. }
          destruct (Nat.ltb_spec j (S i)), (Nat.ltb_spec j i); try lia; reflexivity. }
        rewrite Q, <- (H3 h H'). destruct (bump (S i) (last_idx (inb (bucket (id e))) es N)) as [j|]; [destruct (Nat.eqb j i)|]; auto.
        now rewrite nth_error_set_nth_neq by auto.
Qed.

(** The walk to the link that is changed. *)
Variable i : entry_id.
Let h := bucket i.
Lemma find_link_spec A : length A = S N ->
  (forall k e, (p <= k)%nat -> nth_error es k = Some e -> nth_error A (S k) = Some (moved p e)) ->
  forall k fuel at_, (k <= fuel)%nat -> (p <= k)%nat ->
  exists at', find_link fuel p A at_ (bump p (last_idx (inb h) es k)) = Ok (at', last_idx (inb h) es p) /\
  ((at' = at_ /\ forall j e, (p <= j < k)%nat -> nth_error es j = Some e -> inb h e = false) \/
   exists j e, at' = InEntry (S j) /\ (p <= j < k)%nat /\ nth_error es j = Some e /\ inb h e = true /\
     forall j' e', (p <= j' < j)%nat -> nth_error es j' = Some e' -> inb h e' = false).
Proof.
  intros LA HA k. induction k as [k IH] using lt_wf_ind. intros fuel at_ F Pk.
  destruct (last_idx (inb h) es k) as [j|] eqn:E.
  - destruct (last_idx_some _ _ _ _ E) as (Lt & e & Ee & P & Nj). cbn [bump]. destruct (Nat.ltb_spec j p) as [J|J].
    + exists at_. assert (FL : find_link fuel p A at_ (Some j) = Ok (at_, Some j)).
      { destruct fuel; cbn [find_link]; destruct (Nat.ltb_spec p j); try lia; reflexivity. }
      rewrite FL. split.
      * rewrite <- E. f_equal. f_equal. apply last_idx_skip; auto. intros j' e' B E'. apply (Nj j'); auto. lia.
      * left. split; auto. intros j' e' B E'. apply (Nj j'); auto. lia.
    + destruct fuel as [|f]; [lia|]. cbn [find_link]. destruct (Nat.ltb_spec p (S j)); [|lia]. rewrite (HA j e J Ee).
      unfold moved, with_link. cbn [link]. unfold inb in P. apply Nat.eqb_eq in P.
      rewrite (inv_links _ I _ _ Ee), P. destruct (IH j Lt f (InEntry (S j)) ltac:(lia) J) as (at' & FL & C).
      exists at'. split; [exact FL|]. right. destruct C as [(-> & C)|(j2 & e2 & -> & B2 & E2 & P2 & N2)].
      * exists j, e. split; auto. split; [lia|]. split; auto. split; [unfold inb; now apply Nat.eqb_eq|auto].
      * exists j2, e2. split; auto. split; [lia|]. auto.
  - exists at_. cbn [bump]. rewrite last_idx_none in E. assert (FL : find_link fuel p A at_ None = Ok (at_, None)) by (destruct fuel; reflexivity).
    rewrite FL. split; [|left; split; auto; intros j e B; apply E; lia].
    f_equal. f_equal. symmetry. apply last_idx_none. intros j e B. apply E. lia.
Qed.

(** Entries before the insertion, the new one, and the moved ones. *)
Definition inserted (new : entry) (es' : list entry) : Prop :=
  length es' = S N /\ (forall k, (k < p)%nat -> nth_error es' k = nth_error es k) /\
  (exists l, nth_error es' p = Some (with_link new l)) /\
  (forall k e, (p <= k)%nat -> nth_error es k = Some e -> exists l, nth_error es' (S k) = Some (with_link e l)).
Lemma last_inserted new es' hh : inserted new es' -> forall k, (p < k)%nat -> (k <= S N)%nat ->
  last_idx (inb hh) es' k =
    match last_idx (inb hh) es (k - 1) with
    | Some j => if (j <? p)%nat then (if inb hh new then Some p else Some j) else Some (S j)
    | None => if inb hh new then Some p else None
    end.
Proof.
  intros (Ln & H1 & (l & H2) & H3). induction k as [|k IH]; intros K1 K2; [lia|].
  destruct (Nat.eq_dec k p) as [->|Nk].
  - replace (S p - 1)%nat with p by lia. cbn [last_idx]. rewrite H2. change (inb hh (with_link new l)) with (inb hh new).
    rewrite (last_idx_ext _ es' es p) by auto.
    destruct (last_idx (inb hh) es p) as [j|] eqn:E; [|reflexivity]. destruct (last_idx_some _ _ _ _ E) as (L & _).
    destruct (Nat.ltb_spec j p); [reflexivity|lia].
  - destruct k as [|k]; [lia|]. rewrite last_idx_S. destruct (nth_ex es k ltac:(fold N; lia)) as [e E].
    destruct (H3 k e ltac:(lia) E) as [l' E']. rewrite E'. change (inb hh (with_link e l')) with (inb hh e).
    replace (S (S k) - 1)%nat with (S k) by lia. rewrite IH by lia. rewrite last_idx_S, E. replace (S k - 1)%nat with k by lia.
    destruct (inb hh e); [|reflexivity]. destruct (Nat.ltb_spec k p); [lia|reflexivity].
Qed.

Lemma insert_spec d : exists st', add_entry_with_block st i d 0 = Ok st' /\ current_block st' = current_block st /\ inv st' /\
  inserted {| id := i; data := d; block := 0; link := None |} (entries st').
Proof.
  unfold add_entry_with_block. fold es. fold N.
  destruct (shift_loop_spec N (es ++ [blank_entry]) (heads st)) as (A & hd & -> & LA & Lh & A1 & A2 & A3).
  { lia. }
  { rewrite app_length. cbn. fold N. lia. }
  { apply (inv_len _ I). }
  { intros k K. apply nth_error_app1. exact K. }
  { intros k e K E. apply nth_lt in E. fold N in E. lia. }
  { intros h' H'. rewrite (inv_heads _ I _ H'). fold es N. f_equal. destruct (last_idx (inb h') es N) as [j|] eqn:E; auto.
    destruct (last_idx_some _ _ _ _ E) as (L & _). cbn [bump]. destruct (Nat.ltb_spec j N); [reflexivity|lia]. }
  cbn [bind]. fold h. assert (Hh : (h < 1024)%nat) by apply bucket_lt. rewrite (A3 h Hh).
  destruct (find_link_spec A LA A2 N (length A) InHead) as (at' & -> & C); [lia|lia|]. cbn [bind].
  set (new := {| id := i; data := d; block := 0; link := last_idx (inb h) es p |}).
  set (new0 := {| id := i; data := d; block := 0; link := None |}).
  assert (En : new = with_link new0 (last_idx (inb h) es p)) by reflexivity.
  assert (B1 : nth_error (set_nth A p new) p = Some new) by (apply nth_error_set_nth_eq; lia).
  assert (B2 : forall k, (k < p)%nat -> nth_error (set_nth A p new) k = nth_error es k) by (intros k K; rewrite nth_error_set_nth_neq by lia; auto).
  assert (B3 : forall k e, (p <= k)%nat -> nth_error es k = Some e -> nth_error (set_nth A p new) (S k) = Some (moved p e))
    by (intros k e K E; rewrite nth_error_set_nth_neq by lia; auto).
  assert (B4 : length (set_nth A p new) = S N) by now rewrite set_nth_length.
  assert (Ih : forall hh, inb hh new0 = Nat.eqb h hh) by reflexivity.
  destruct C as [(-> & C)|(j & e & -> & J & Ej & Pj & C)].
  - (* the head is changed *)
    assert (Ins : inserted new0 (set_nth A p new)).
    { split; [exact B4|]. split; [exact B2|]. split; [eexists; rewrite B1, En; reflexivity|]. intros k e K E. eexists. rewrite (B3 k e K E). reflexivity. }
    eexists. split; [reflexivity|]. cbn [current_block entries]. split; [reflexivity|]. split; [|exact Ins].
    split; cbn [heads entries].
    + intros h' H'. rewrite B4. rewrite (last_inserted _ _ _ Ins) by lia. replace (S N - 1)%nat with N by lia. rewrite Ih.
      destruct (Nat.eqb_spec h h') as [<-|Nh].
      * rewrite nth_error_set_nth_eq by lia. f_equal. rewrite (last_idx_skip _ es p N) by (auto; lia).
        destruct (last_idx (inb h) es p) as [j|] eqn:E; auto. destruct (last_idx_some _ _ _ _ E) as (L & _). destruct (Nat.ltb_spec j p); [reflexivity|lia].
      * rewrite nth_error_set_nth_neq by auto. rewrite (A3 _ H'). destruct (last_idx (inb h') es N); auto.
        cbn [bump]. destruct (n <? p)%nat; reflexivity.
    + intros k x E. destruct (Nat.lt_trichotomy k p) as [K|[->|K]].
      * rewrite B2 in E by auto. rewrite (inv_links _ I _ _ E). symmetry. apply last_idx_ext. intros j J. apply B2. lia.
      * rewrite B1 in E. injection E as <-. cbn [link id]. fold h. symmetry. apply last_idx_ext. intros j J. apply B2. lia.
      * destruct k as [|k]; [lia|]. assert (Lk := nth_lt _ _ _ E). rewrite B4 in Lk. destruct (nth_ex es k ltac:(fold N; lia)) as [e Ek].
        rewrite (B3 k e ltac:(lia) Ek) in E. injection E as <-. unfold moved, with_link. cbn [link id].
        rewrite (last_inserted _ _ _ Ins) by lia. replace (S k - 1)%nat with k by lia. rewrite (inv_links _ I _ _ Ek). fold es. rewrite Ih.
        assert (Nh : h <> bucket (id e)).
        { intros Q. assert (inb h e = false) by (apply (C k e); [lia|exact Ek]). unfold inb in H. rewrite <- Q, Nat.eqb_refl in H. discriminate. }
        destruct (Nat.eqb_spec h (bucket (id e))); [contradiction|].
        destruct (last_idx (inb (bucket (id e))) es k) as [j|]; auto. cbn [bump]. destruct (j <? p)%nat; reflexivity.
    + now rewrite set_nth_length.
  - (* a link is changed *)
    rewrite (B3 j e ltac:(lia) Ej).
    assert (Ins : inserted new0 (set_nth (set_nth A p new) (S j) (with_link (moved p e) (Some p)))).
    { split; [now rewrite set_nth_length|]. split; [intros k K; rewrite nth_error_set_nth_neq by lia; auto|].
      split; [eexists; rewrite nth_error_set_nth_neq by lia; rewrite B1, En; reflexivity|].
      intros k x K E. destruct (Nat.eq_dec k j) as [->|].
      - rewrite nth_error_set_nth_eq by lia. rewrite Ej in E. injection E as <-. eexists. reflexivity.
      - rewrite nth_error_set_nth_neq by lia. eexists. rewrite (B3 k x K E). reflexivity. }
    eexists. split; [reflexivity|]. cbn [current_block entries]. split; [reflexivity|]. split; [|exact Ins].
    assert (Pj' : bucket (id e) = h) by now apply Nat.eqb_eq.
    split; cbn [heads entries].
    + intros h' H'. rewrite set_nth_length, B4. rewrite (last_inserted _ _ _ Ins) by lia. replace (S N - 1)%nat with N by lia. rewrite Ih.
      rewrite (A3 _ H'). destruct (Nat.eqb_spec h h') as [<-|Nh].
      * destruct (last_idx (inb h) es N) as [j'|] eqn:E.
        -- cbn [bump]. destruct (Nat.ltb_spec j' p); [|reflexivity]. exfalso. destruct (last_idx_some _ _ _ _ E) as (_ & _ & _ & _ & Q).
           rewrite (Q j e) in Pj; [discriminate|lia|exact Ej].
        -- exfalso. rewrite last_idx_none in E. rewrite (E j e) in Pj; [discriminate|lia|exact Ej].
      * destruct (last_idx (inb h') es N); auto. cbn [bump]. destruct (n <? p)%nat; reflexivity.
    + intros k x E. destruct (Nat.lt_trichotomy k p) as [K|[->|K]].
      * rewrite nth_error_set_nth_neq in E by lia. rewrite B2 in E by auto. rewrite (inv_links _ I _ _ E). symmetry. apply last_idx_ext.
        intros j' J'. rewrite nth_error_set_nth_neq by lia. apply B2. lia.
      * rewrite nth_error_set_nth_neq in E by lia. rewrite B1 in E. injection E as <-. cbn [link id]. fold h. symmetry. apply last_idx_ext.
        intros j' J'. rewrite nth_error_set_nth_neq by lia. apply B2. lia.
      * destruct k as [|k]; [lia|]. assert (Lk := nth_lt _ _ _ E). rewrite set_nth_length, B4 in Lk.
        destruct (Nat.eq_dec k j) as [->|Nj].
        -- rewrite nth_error_set_nth_eq in E by lia. injection E as <-. unfold moved, with_link. cbn [link id].
           rewrite (last_inserted _ _ _ Ins) by lia. replace (S j - 1)%nat with j by lia. rewrite Pj', Ih, Nat.eqb_refl.
           destruct (last_idx (inb h) es j) as [j'|] eqn:E; auto. destruct (last_idx_some _ _ _ _ E) as (L & t & Et & Pt & _).
           destruct (Nat.ltb_spec j' p); auto. exfalso. rewrite (C j' t) in Pt; [discriminate|lia|exact Et].
        -- rewrite nth_error_set_nth_neq in E by lia. destruct (nth_ex es k ltac:(fold N; lia)) as [e' Ek].
           rewrite (B3 k e' ltac:(lia) Ek) in E. injection E as <-. unfold moved, with_link. cbn [link id].
           rewrite (last_inserted _ _ _ Ins) by lia. replace (S k - 1)%nat with k by lia. rewrite (inv_links _ I _ _ Ek). fold es. rewrite Ih.
           destruct (Nat.eqb_spec h (bucket (id e'))) as [Q|Q].
           ++ rewrite <- Q. destruct (last_idx (inb h) es k) as [j'|] eqn:E.
              ** cbn [bump]. destruct (Nat.ltb_spec j' p); [|reflexivity]. exfalso. destruct (last_idx_some _ _ _ _ E) as (_ & _ & _ & _ & R).
                 destruct (Nat.lt_trichotomy k j) as [T|[T|T]]; [|lia|].
                 --- assert (F : inb h e' = false) by (apply (C k e'); [lia|exact Ek]). unfold inb in F. rewrite <- Q, Nat.eqb_refl in F. discriminate.
                 --- rewrite (R j e) in Pj; [discriminate|lia|exact Ej].
              ** exfalso. rewrite last_idx_none in E. destruct (Nat.lt_trichotomy k j) as [T|[T|T]]; [|lia|].
                 --- assert (F : inb h e' = false) by (apply (C k e'); [lia|exact Ek]). unfold inb in F. rewrite <- Q, Nat.eqb_refl in F. discriminate.
                 --- rewrite (E j e) in Pj; [discriminate|lia|exact Ej].
           ++ destruct (last_idx (inb (bucket (id e'))) es k) as [j'|]; auto. cbn [bump]. destruct (j' <? p)%nat; reflexivity.
    + exact Lh.
Qed.
End Insert.
