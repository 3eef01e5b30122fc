From Verif Require Import Base Common MacroTable MacroTableSpec.

Lemma sv_cmp_spec a : forall b, sv_cmp a b = true <-> a = b.
Proof.
  induction a as [|x a IH]; intros [|y b]; cbn; split; intros H; auto; try discriminate.
  - apply andb_prop in H. destruct H as [H1 H2]. apply Z.eqb_eq in H1. apply IH in H2. congruence.
  - inversion H; subst. rewrite Z.eqb_refl. cbn. apply IH. auto.
Qed.
Lemma sv_cmp_refl a : sv_cmp a a = true.
Proof. apply sv_cmp_spec. auto. Qed.
Lemma sv_cmp_false a b : a <> b -> sv_cmp a b = false.
Proof. intros N. destruct (sv_cmp a b) eqn:E; auto. apply sv_cmp_spec in E. contradiction. Qed.
Lemma sv_cmp_dec a b : sv_cmp a b = if name_dec a b then true else false.
Proof. destruct (name_dec a b) as [->|N]; [apply sv_cmp_refl|apply sv_cmp_false; auto]. Qed.

Lemma bucket_lt n : (bucket_of n < 1024)%nat.
Proof. unfold bucket_of. pose proof (Z.mod_pos_bound (sv_hash n) 1024 ltac:(lia)). lia. Qed.

Definition TabInv (t : table) : Prop :=
  length t = 1024%nat /\
  forall i c, nth_error t i = Some c ->
    NoDup (map d_name c) /\ Forall (fun d => bucket_of (d_name d) = i) c.

(** Abstraction: the definition found under a name. *)
Definition found (t : table) (n : list Z) : option define :=
  match nth_error t (bucket_of n) with Some c => chain_find n c | None => None end.
Lemma get_found t n : TabInv t -> define_map_get t n = Ok (found t n).
Proof.
  intros [HL _]. unfold define_map_get, found. pose proof (bucket_lt n).
  destruct (nth_error t (bucket_of n)) eqn:E; auto. apply nth_error_None in E. lia.
Qed.

Lemma chain_find_none n l : ~ In n (map d_name l) -> chain_find n l = None.
Proof.
  induction l as [|d l IH]; cbn; auto. intros H. rewrite sv_cmp_false by auto. apply IH. auto.
Qed.
Lemma chain_find_name n l d : chain_find n l = Some d -> d_name d = n /\ In d l.
Proof.
  induction l as [|x l IH]; cbn; [discriminate|]. destruct (sv_cmp (d_name x) n) eqn:E.
  - intros H. inversion H; subst. apply sv_cmp_spec in E. auto.
  - intros H. apply IH in H. intuition.
Qed.

Lemma chain_add_find d l n : chain_find n (chain_add d l) =
  if name_dec (d_name d) n then Some d else chain_find n l.
Proof.
  induction l as [|x l IH]; cbn [chain_add].
  - cbn. rewrite sv_cmp_dec. destruct (name_dec (d_name d) n); auto.
  - rewrite sv_cmp_dec. destruct (name_dec (d_name x) (d_name d)) as [E|N]; cbn [chain_find]; rewrite !sv_cmp_dec.
    + destruct (name_dec (d_name d) n) as [E1|N']; auto. destruct (name_dec (d_name x) n); auto. congruence.
    + destruct (name_dec (d_name x) n) as [E'|N']; [|auto].
      destruct (name_dec (d_name d) n); auto. congruence.
Qed.
Lemma chain_add_names d l x : In x (map d_name (chain_add d l)) -> x = d_name d \/ In x (map d_name l).
Proof.
  induction l as [|y l IH]; cbn [chain_add]; cbn; [intuition|].
  destruct (sv_cmp (d_name y) (d_name d)) eqn:E; cbn; intuition.
Qed.
Lemma chain_add_nodup d l : NoDup (map d_name l) -> NoDup (map d_name (chain_add d l)).
Proof.
  induction l as [|y l IH]; cbn [chain_add]; intros H.
  - cbn. constructor; auto.
  - cbn in H. inversion H; subst. destruct (sv_cmp (d_name y) (d_name d)) eqn:E.
    + apply sv_cmp_spec in E. cbn. rewrite <- E. constructor; auto.
    + cbn. constructor; auto. intros HI. apply chain_add_names in HI. destruct HI as [HI|HI]; auto.
      rewrite HI, sv_cmp_refl in E. discriminate.
Qed.
Lemma chain_add_forall (P : define -> Prop) d l : P d -> Forall P l -> Forall P (chain_add d l).
Proof. intros Hd H. induction H; cbn; auto. destruct (sv_cmp _ _); auto. Qed.

Lemma chain_remove_in n l d : In d (chain_remove n l) -> In d l.
Proof. induction l as [|y l IH]; cbn; auto. destruct (sv_cmp _ _); cbn; intuition. Qed.
Lemma chain_remove_find n l x : NoDup (map d_name l) ->
  chain_find x (chain_remove n l) = if name_dec n x then None else chain_find x l.
Proof.
  induction l as [|y l IH]; cbn [chain_remove]; intros H.
  - cbn. destruct (name_dec n x); auto.
  - cbn in H. inversion H as [|? ? H1 H2]; subst. rewrite sv_cmp_dec. destruct (name_dec (d_name y) n) as [E|N]; cbn [chain_find]; rewrite ?sv_cmp_dec.
    + destruct (name_dec n x) as [->|N'].
      * apply chain_find_none. congruence.
      * destruct (name_dec (d_name y) x); auto. congruence.
    + rewrite (IH H2). destruct (name_dec (d_name y) x) as [E'|N']; auto. destruct (name_dec n x); auto. congruence.
Qed.
Lemma chain_remove_nodup n l : NoDup (map d_name l) -> NoDup (map d_name (chain_remove n l)).
Proof.
  induction l as [|y l IH]; cbn [chain_remove]; intros H; auto. cbn in H. inversion H; subst.
  destruct (sv_cmp _ _); auto. cbn. constructor; auto. intros HI. apply in_map_iff in HI. destruct HI as (d & E & HI).
  apply chain_remove_in in HI. apply H2. rewrite <- E. apply in_map. auto.
Qed.

Lemma found_set t n n' c : TabInv t -> found (set_nth t (bucket_of n') c) n =
  if Nat.eq_dec (bucket_of n) (bucket_of n') then chain_find n c else found t n.
Proof.
  intros [HL _]. unfold found. destruct (Nat.eq_dec (bucket_of n) (bucket_of n')) as [E|N].
  - rewrite E, nth_error_set_nth_eq; auto. rewrite HL. apply bucket_lt.
  - rewrite nth_error_set_nth_neq by auto. auto.
Qed.

Lemma add_spec t d : TabInv t -> exists t', define_map_add t d = Ok t' /\ TabInv t' /\
  forall n, found t' n = if name_dec (d_name d) n then Some (clean d) else found t n.
Proof.
  intros HI. pose proof HI as [HL HB]. unfold define_map_add. pose proof (bucket_lt (d_name d)) as BL.
  destruct (nth_error t (bucket_of (d_name d))) as [c|] eqn:E; [|apply nth_error_None in E; lia].
  eexists; split; [reflexivity|]. split.
  - split; [rewrite set_nth_length; auto|]. intros i c' E'.
    destruct (Nat.eq_dec (bucket_of (d_name d)) i) as [<-|N].
    + rewrite nth_error_set_nth_eq in E' by lia. inversion E'; subst. destruct (HB _ _ E) as [H1 H2]. split.
      * apply chain_add_nodup; auto.
      * apply chain_add_forall; auto.
    + rewrite nth_error_set_nth_neq in E' by auto. eauto.
  - intros n. rewrite found_set by auto.
    rewrite chain_add_find. cbn [d_name clean].
    destruct (Nat.eq_dec (bucket_of n) (bucket_of (d_name d))) as [Eb|Nb].
    + destruct (name_dec (d_name d) n); auto. unfold found. rewrite Eb, E. auto.
    + destruct (name_dec (d_name d) n); auto. congruence.
Qed.

Lemma remove_spec t m : TabInv t -> exists t', define_map_remove t m = Ok t' /\ TabInv t' /\
  forall n, found t' n = if name_dec m n then None else found t n.
Proof.
  intros HI. pose proof HI as [HL HB]. unfold define_map_remove. pose proof (bucket_lt m) as BL.
  destruct (nth_error t (bucket_of m)) as [c|] eqn:E; [|apply nth_error_None in E; lia].
  destruct (HB _ _ E) as [H1 H2].
  eexists; split; [reflexivity|]. split.
  - split; [rewrite set_nth_length; auto|]. intros i c' E'.
    destruct (Nat.eq_dec (bucket_of m) i) as [<-|N].
    + rewrite nth_error_set_nth_eq in E' by lia. inversion E'; subst. split.
      * apply chain_remove_nodup; auto.
      * apply Forall_forall. intros d Hd. apply chain_remove_in in Hd. apply (proj1 (Forall_forall _ _) H2). auto.
    + rewrite nth_error_set_nth_neq in E' by auto. eauto.
  - intros n. rewrite found_set by auto.
    rewrite chain_remove_find by auto.
    destruct (Nat.eq_dec (bucket_of n) (bucket_of m)) as [Eb|Nb].
    + destruct (name_dec m n); auto. unfold found. rewrite Eb, E. auto.
    + destruct (name_dec m n); auto. congruence.
Qed.

Lemma init_tab : TabInv table_init.
Proof.
  split; [apply repeat_length|]. intros i c E. apply nth_error_In, repeat_spec in E. subst. cbn. split; constructor.
Qed.
Lemma found_init n : found table_init n = None.
Proof.
  unfold found. destruct (nth_error table_init (bucket_of n)) eqn:E; auto.
  apply nth_error_In, repeat_spec in E. subst. reflexivity.
Qed.

(** ** Cleaning *)
Lemma clean_trimmed l : trimmed l (clean_def l).
Proof.
  destruct l as [|x t]; [split; auto; intros [|i] a b E; discriminate|].
  unfold clean_def. set (l1 := clear_ws x :: t).
  assert (HL : length l1 = S (length t)) by reflexivity.
  rewrite HL, Nat.sub_succ, Nat.sub_0_r.
  destruct (nth_error l1 (length t)) as [y|] eqn:EY; [|apply nth_error_None in EY; lia].
  split; [rewrite set_nth_length; auto|]. intros i a b Ea Eb. cbn [length].
  assert (Hi : (i < S (length t))%nat) by (change (S (length t)) with (length (x :: t)); apply nth_error_Some; congruence).
  destruct (Nat.eq_dec (length t) i) as [<-|N].
  - rewrite nth_error_set_nth_eq in Ea by lia. inversion Ea; subst. unfold same_token. cbn [clear_ws_after k_type k_str k_ws k_ws_after].
    rewrite Nat.eqb_refl. destruct t as [|z t]; cbn in EY, Eb.
    + inversion EY; inversion Eb; subst. cbn. auto.
    + assert (y = b) by congruence. subst. cbn. auto.
  - rewrite nth_error_set_nth_neq in Ea by auto. unfold same_token. replace (Nat.eqb (S i) (S (length t))) with false by (symmetry; apply Nat.eqb_neq; lia). destruct i as [|i]; cbn in Ea, Eb.
    + inversion Ea; inversion Eb; subst. repeat split.
    + assert (a = b) by congruence. subst. repeat split.
Qed.
Lemma clean_stored d : stored d (clean d).
Proof. unfold stored. do 4 (split; [reflexivity|]). apply clean_trimmed. Qed.

Lemma trimmed_unique l l1 l2 : trimmed l l1 -> trimmed l l2 -> l1 = l2.
Proof.
  intros [L1 H1] [L2 H2]. apply nth_error_ext. intros i.
  destruct (nth_error l i) as [b|] eqn:E.
  - assert (i < length l)%nat by (apply nth_error_Some; congruence).
    destruct (nth_error l1 i) as [a1|] eqn:E1; [|apply nth_error_None in E1; lia].
    destruct (nth_error l2 i) as [a2|] eqn:E2; [|apply nth_error_None in E2; lia].
    destruct (H1 i a1 b E1 E) as (A1 & A2 & A3 & A4), (H2 i a2 b E2 E) as (B1 & B2 & B3 & B4).
    f_equal. destruct a1, a2; cbn in *. congruence.
  - apply nth_error_None in E. rewrite (proj2 (nth_error_None l1 i)), (proj2 (nth_error_None l2 i)); auto; lia.
Qed.
Lemma trimmed_idem l l' : trimmed l l' -> trimmed l' l'.
Proof.
  intros [L H]. split; auto. intros i a b Ea Eb. assert (a = b) by congruence. subst.
  assert (i < length l')%nat by (apply nth_error_Some; congruence).
  destruct (nth_error l i) as [c|] eqn:E; [|apply nth_error_None in E; lia].
  destruct (H i b c Ea E) as (A1 & A2 & A3 & A4). rewrite L. repeat split.
  - destruct (Nat.eqb i 0); auto.
  - destruct (Nat.eqb (S i) (length l)); auto.
Qed.
Lemma clean_idem d : clean (clean d) = clean d.
Proof.
  unfold clean at 1. cbn [d_name d_func d_vararg d_def d_par]. unfold clean. f_equal.
  apply (trimmed_unique (clean_def (d_def d))); [apply clean_trimmed|].
  apply (trimmed_idem (d_def d)). apply clean_trimmed.
Qed.

(** ** C16 *)
Lemma run_in_force l : no_pragmas l -> forall st (f : list Z -> option define), TabInv (tab st) ->
  (forall n, found (tab st) n = option_map clean (f n)) ->
  exists st', macro_run st l = Ok st' /\ TabInv (tab st') /\
    forall n, found (tab st') n = option_map clean (in_force n l (f n)).
Proof.
  induction 1 as [|op l HO HN IH]; intros st f HI HF; cbn [macro_run].
  - exists st. auto.
  - destruct op as [d|m|m|m]; try contradiction; cbn [macro_step].
    + destruct (add_spec (tab st) d HI) as (t' & -> & HI' & HF'). cbn [bind].
      destruct (IH {| tab := t'; stacks := stacks st |} (fun n => if name_dec (d_name d) n then Some d else f n) HI') as (st' & E & HI'' & HF'').
      { cbn [tab]. intros n. rewrite HF'. destruct (name_dec (d_name d) n); auto. }
      exists st'. auto.
    + destruct (remove_spec (tab st) m HI) as (t' & -> & HI' & HF'). cbn [bind].
      destruct (IH {| tab := t'; stacks := stacks st |} (fun n => if name_dec m n then None else f n) HI') as (st' & E & HI'' & HF'').
      { cbn [tab]. intros n. rewrite HF'. destruct (name_dec m n); auto. }
      exists st'. auto.
Qed.

(** ** C18: the stacks *)
Lemma find_stack_app n l : forall i acc, find_stack n i l acc =
  match find_stack n i l None with Some x => Some x | None => acc end.
Proof.
  induction l as [|s l IH]; intros i acc; cbn; auto.
  rewrite (IH _ (if stack_matches n s then Some i else acc)), (IH _ (if stack_matches n s then Some i else None)).
  destruct (find_stack n (S i) l None); auto. destruct (stack_matches n s); auto.
Qed.

Lemma find_stack_some n l : forall i x, find_stack n i l None = Some x ->
  exists j s, x = (i + j)%nat /\ nth_error l j = Some s /\ stack_matches n s = true.
Proof.
  induction l as [|s l IH]; intros i x; cbn; [discriminate|]. rewrite find_stack_app.
  destruct (find_stack n (S i) l None) as [y|] eqn:E.
  - intros H. inversion H; subst. destruct (IH _ _ E) as (j & s' & -> & H1 & H2). exists (S j), s'. split; [lia|auto].
  - destruct (stack_matches n s) eqn:M; [|discriminate]. intros H. inversion H; subst. exists O, s. split; [lia|auto].
Qed.
Lemma find_stack_none n l : forall i, find_stack n i l None = None -> Forall (fun s => stack_matches n s = false) l.
Proof.
  induction l as [|s l IH]; intros i; cbn; auto. rewrite find_stack_app.
  destruct (find_stack n (S i) l None) eqn:E; [discriminate|].
  destruct (stack_matches n s) eqn:M; [discriminate|]. intros _. constructor; eauto.
Qed.

(** The saved definitions of [n] in the model: the stack with that name. *)
Record StInv (st : mstate) (sv : list Z -> list (option define)) : Prop := {
  si_names : forall i s d, nth_error (stacks st) i = Some s -> In d s ->
     (exists d0 r, s = d0 :: r /\ d_name d = d_name d0) /\ clean d = d;
  si_nonempty : forall i s, nth_error (stacks st) i = Some s -> s <> [];
  si_unique : forall i j s1 s2 n, nth_error (stacks st) i = Some s1 -> nth_error (stacks st) j = Some s2 ->
     stack_matches n s1 = true -> stack_matches n s2 = true -> i = j;
  si_saved : forall n, 
     (exists i s, nth_error (stacks st) i = Some s /\ stack_matches n s = true /\ 
        map (option_map clean) (sv n) = rev (map Some s)) \/
     (sv n = [] /\ Forall (fun s => stack_matches n s = false) (stacks st))
}.

Lemma matches_head n s : stack_matches n s = true -> exists d r, s = d :: r /\ d_name d = n.
Proof. destruct s as [|d r]; cbn; [discriminate|]. intros H. apply sv_cmp_spec in H. eauto. Qed.

Lemma nth_remove {A} (l : list A) i j : nth_error (remove_nth l i) j = nth_error l (if Nat.ltb j i then j else S j).
Proof.
  revert i j; induction l as [|x l IH]; intros i j.
  - destruct i; cbn [remove_nth]; rewrite !(proj2 (nth_error_None [] _)) by (cbn; lia); auto.
  - destruct i as [|i]; cbn [remove_nth]; [reflexivity|].
    destruct j as [|j]; cbn [nth_error]; auto. rewrite IH.
    change (Nat.ltb (S j) (S i)) with (Nat.ltb j i). destruct (Nat.ltb j i); auto.
Qed.

Lemma firstn_snoc {A} (l : list A) d : nth_error l (length l - 1) = Some d -> l = firstn (length l - 1) l ++ [d].
Proof.
  destruct l as [|x l] using rev_ind; cbn; [discriminate|]. clear IHl.
  rewrite app_length. cbn [length]. rewrite Nat.add_sub, nth_error_app2, Nat.sub_diag by lia. cbn. intros H. inversion H; subst.
  rewrite firstn_app, Nat.sub_diag, firstn_all, app_nil_r. auto.
Qed.

Lemma push_spec st sv n d : TabInv (tab st) -> StInv st sv -> found (tab st) n = Some (clean d) -> d_name d = n ->
  exists st', push_macro st n = Ok st' /\ tab st' = tab st /\ StInv st' (upd sv n (Some d :: sv n)).
Proof.
  intros HT [S1 S2 S3 S4] HF HN. unfold push_macro. rewrite (get_found _ _ HT), HF.
  destruct (find_stack n 0 (stacks st) None) as [x|] eqn:EF.
  - apply find_stack_some in EF. destruct EF as (j & s & -> & Ej & Mj). cbn [Nat.add bind]. rewrite Ej.
    eexists; split; [reflexivity|]. split; auto.
    assert (Lj : (j < length (stacks st))%nat) by (apply nth_error_Some; congruence).
    destruct (matches_head _ _ Mj) as (d0 & r & -> & N0).
    assert (MA : forall m, stack_matches m ((d0 :: r) ++ [clean d]) = stack_matches m (d0 :: r)) by reflexivity.
    split; cbn [stacks].
    + intros i s' d' E HI. destruct (Nat.eq_dec j i) as [<-|N].
      * rewrite nth_error_set_nth_eq in E by auto. inversion E; subst s'. apply (in_app_or (d0 :: r) [clean d]) in HI. destruct HI as [HI|[<-|[]]].
        -- destruct (S1 _ _ _ Ej HI) as ((d1 & r1 & E1 & N1) & C1). inversion E1; subst d1 r1.
           split; auto. exists d0, (r ++ [clean d]). auto.
        -- split; [|apply clean_idem]. exists d0, (r ++ [clean d]). split; auto. cbn. congruence.
      * rewrite nth_error_set_nth_neq in E by auto. eauto.
    + intros i s' E. destruct (Nat.eq_dec j i) as [<-|N].
      * rewrite nth_error_set_nth_eq in E by auto. inversion E. discriminate.
      * rewrite nth_error_set_nth_neq in E by auto. eauto.
    + intros i k s1 s2 m E1 E2 M1 M2.
      assert (G : forall i s, nth_error (set_nth (stacks st) j ((d0 :: r) ++ [clean d])) i = Some s -> stack_matches m s = true ->
         exists s', nth_error (stacks st) i = Some s' /\ stack_matches m s' = true).
      { intros i' s' E' M'. destruct (Nat.eq_dec j i') as [<-|N].
        - rewrite nth_error_set_nth_eq in E' by auto. inversion E'; subst s'. eexists; split; eauto.
        - rewrite nth_error_set_nth_neq in E' by auto. eauto. }
      destruct (G _ _ E1 M1) as (s1' & F1 & G1), (G _ _ E2 M2) as (s2' & F2 & G2). apply (S3 i k s1' s2' m); auto.
    + intros m. unfold upd. destruct (name_dec n m) as [<-|Nm].
      * left. exists j, ((d0 :: r) ++ [clean d]). split; [apply nth_error_set_nth_eq; auto|]. split; auto.
        destruct (S4 n) as [(i & s & Ei & Mi & Es)|(_ & HFa)].
        -- assert (i = j) by (apply (S3 i j s (d0 :: r) n); auto). subst i. assert (s = d0 :: r) by congruence. subst s.
           cbn [map option_map]. rewrite Es, map_app, rev_app_distr. reflexivity.
        -- apply nth_error_In in Ej. apply (proj1 (Forall_forall _ _) HFa) in Ej. congruence.
      * destruct (S4 m) as [(i & s & Ei & Mi & Es)|(Es & HFa)].
        -- left. exists i, s. split; auto. rewrite nth_error_set_nth_neq; auto. intros ->.
           assert (s = d0 :: r) by congruence. subst s. cbn in Mi. apply sv_cmp_spec in Mi. congruence.
        -- right. split; auto. apply Forall_set_nth; auto. rewrite MA.
           apply (proj1 (Forall_forall _ _) HFa). eapply nth_error_In; eauto.
  - apply find_stack_none in EF. cbn [bind]. rewrite nth_error_app2, Nat.sub_diag by lia. cbn [nth_error].
    eexists; split; [reflexivity|]. split; auto.
    assert (ES : set_nth (stacks st ++ [[]]) (length (stacks st)) ([] ++ [clean d]) = stacks st ++ [[clean d]]).
    { cbn [app]. clear. induction (stacks st); cbn; congruence. }
    rewrite ES.
    assert (G : forall i s, nth_error (stacks st ++ [[clean d]]) i = Some s ->
       nth_error (stacks st) i = Some s \/ (i = length (stacks st) /\ s = [clean d])).
    { intros i s E. destruct (Nat.lt_ge_cases i (length (stacks st))).
      - rewrite nth_error_app1 in E by auto. auto.
      - rewrite nth_error_app2 in E by auto. destruct (i - length (stacks st))%nat eqn:X; cbn in E.
        + right. split; [lia|congruence].
        + destruct n0; discriminate. }
    assert (GN : forall i s m, nth_error (stacks st) i = Some s -> stack_matches m s = true -> m <> n).
    { intros i s m E M ->. apply nth_error_In in E. apply (proj1 (Forall_forall _ _) EF) in E. congruence. }
    assert (MD : forall m, stack_matches m [clean d] = true -> m = n).
    { intros m M. cbn in M. apply sv_cmp_spec in M. congruence. }
    split; cbn [stacks].
    + intros i s d' E HI. apply G in E. destruct E as [E|(-> & ->)]; [eauto|].
      destruct HI as [<-|[]]. split; [|apply clean_idem]. exists (clean d), []. auto.
    + intros i s E. apply G in E. destruct E as [E|(-> & ->)]; [eauto|discriminate].
    + intros i k s1 s2 m E1 E2 M1 M2. apply G in E1. apply G in E2.
      destruct E1 as [E1|(-> & ->)], E2 as [E2|(-> & ->)]; auto.
      * apply (S3 i k s1 s2 m); auto.
      * exfalso. apply (GN _ _ _ E1 M1). auto.
      * exfalso. apply (GN _ _ _ E2 M2). auto.
    + intros m. unfold upd. destruct (name_dec n m) as [<-|Nm].
      * left. exists (length (stacks st)), [clean d]. split; [rewrite nth_error_app2, Nat.sub_diag by lia; auto|].
        split; [cbn; apply sv_cmp_spec; auto|].
        destruct (S4 n) as [(i & s & Ei & Mi & Es)|(Es & _)].
        -- exfalso. apply (GN _ _ _ Ei Mi). auto.
        -- rewrite Es. reflexivity.
      * destruct (S4 m) as [(i & s & Ei & Mi & Es)|(Es & HFa)].
        -- left. exists i, s. split; auto. rewrite nth_error_app1; auto. apply nth_error_Some. congruence.
        -- right. split; auto. apply Forall_app. split; auto. constructor; auto.
           destruct (stack_matches m [clean d]) eqn:X; auto. apply MD in X. congruence.
Qed.

Lemma pop_spec st sv n : TabInv (tab st) -> StInv st sv ->
  match sv n with
  | [] => pop_macro st n = Ok st
  | None :: r => False
  | Some d :: r => exists st', pop_macro st n = Ok st' /\ TabInv (tab st') /\ StInv st' (upd sv n r) /\
      forall m, found (tab st') m = if name_dec n m then Some (clean d) else found (tab st) m
  end.
Proof.
  intros HT [S1 S2 S3 S4]. destruct (S4 n) as [(i & s & Ei & Mi & Es)|(Es & HFa)].
  2:{ rewrite Es. unfold pop_macro. destruct (find_stack n 0 (stacks st) None) as [x|] eqn:EF; auto.
      apply find_stack_some in EF. destruct EF as (j & s & _ & Ej & Mj). apply nth_error_In in Ej.
      apply (proj1 (Forall_forall _ _) HFa) in Ej. congruence. }
  assert (EF : find_stack n 0 (stacks st) None = Some i).
  { destruct (find_stack n 0 (stacks st) None) as [x|] eqn:EF.
    - apply find_stack_some in EF. destruct EF as (j & s' & -> & Ej & Mj). f_equal. cbn. apply (S3 j i s' s n); auto.
    - apply find_stack_none in EF. apply nth_error_In in Ei. apply (proj1 (Forall_forall _ _) EF) in Ei. congruence. }
  assert (NE : s <> []) by eauto.
  destruct (nth_error s (length s - 1)) as [d'|] eqn:EL.
  2:{ apply nth_error_None in EL. destruct s; [congruence|cbn in EL; lia]. }
  pose proof (firstn_snoc s d' EL) as ESn. set (s' := firstn (length s - 1) s) in *.
  rewrite ESn, map_app, rev_app_distr in Es. cbn in Es.
  destruct (sv n) as [|[d|] r] eqn:EV; cbn in Es; try discriminate.
  inversion Es as [[Ed Er]]. rename Er into Er0.
  unfold pop_macro. rewrite EF, Ei, EL.
  destruct (add_spec (tab st) d' HT) as (t' & EA & HT' & HFd). rewrite EA. cbn [bind]. fold s'.
  assert (Nd' : d_name d' = n /\ clean d' = d').
  { destruct (S1 i s d' Ei) as ((d0 & r0 & E0 & N0) & C0).
    - eapply nth_error_In; eauto.
    - split; auto. rewrite N0. rewrite E0 in Mi. cbn in Mi. apply sv_cmp_spec in Mi. auto. }
  destruct Nd' as [Nd Cd].
  assert (Li : (i < length (stacks st))%nat) by (apply nth_error_Some; congruence).
  eexists; split; [reflexivity|]. cbn [tab stacks]. split; auto. split.
  2:{ intros m. rewrite HFd, Nd, Cd. destruct (name_dec n m); auto. congruence. }
  destruct s' as [|d0 r0] eqn:Es'.
  - (* the stack becomes empty and is removed *)
    assert (G : forall k s1, nth_error (remove_nth (stacks st) i) k = Some s1 ->
       exists k', k' <> i /\ nth_error (stacks st) k' = Some s1 /\ k' = if Nat.ltb k i then k else S k).
    { intros k s1 E. rewrite nth_remove in E. eexists; split; [|split; [exact E|reflexivity]].
      destruct (Nat.ltb_spec k i); lia. }
    split; cbn [stacks].
    + intros k s1 d1 E HI. destruct (G _ _ E) as (k' & _ & E' & _). eauto.
    + intros k s1 E. destruct (G _ _ E) as (k' & _ & E' & _). eauto.
    + intros k1 k2 s1 s2 m E1 E2 M1 M2. destruct (G _ _ E1) as (k1' & _ & E1' & Q1), (G _ _ E2) as (k2' & _ & E2' & Q2).
      assert (k1' = k2') by (apply (S3 k1' k2' s1 s2 m); auto). subst k2'.
      destruct (Nat.ltb_spec k1 i), (Nat.ltb_spec k2 i); lia.
    + intros m. unfold upd. destruct (name_dec n m) as [<-|Nm].
      * right. cbn in Er0. destruct r; [|discriminate]. split; auto.
        apply Forall_forall. intros s1 HI. apply In_nth_error in HI. destruct HI as (k & E).
        destruct (G _ _ E) as (k' & NK & E' & _). destruct (stack_matches n s1) eqn:M; auto.
        exfalso. apply NK. apply (S3 k' i s1 s n); auto.
      * destruct (S4 m) as [(k & s1 & Ek & Mk & Ek')|(Ek & HFa)].
        -- left. assert (NK : k <> i).
           { intros ->. assert (s1 = s) by congruence. subst s1.
             destruct (matches_head _ _ Mi) as (a & b & -> & Na). cbn in Mk. apply sv_cmp_spec in Mk. congruence. }
           destruct (Nat.lt_ge_cases k i).
           ++ exists k, s1. split; auto. rewrite nth_remove. rewrite (proj2 (Nat.ltb_lt _ _)) by auto. auto.
           ++ exists (k - 1)%nat, s1. split; auto. rewrite nth_remove.
              rewrite (proj2 (Nat.ltb_ge _ _)) by lia. replace (S (k - 1)) with k by lia. auto.
        -- right. split; auto. apply Forall_forall. intros s1 HI. apply In_nth_error in HI. destruct HI as (k & E).
           destruct (G _ _ E) as (k' & NK & E' & _). apply nth_error_In in E'. apply (proj1 (Forall_forall _ _) HFa). auto.
  - assert (MA : forall m, stack_matches m (d0 :: r0) = stack_matches m s) by (intros m; rewrite ESn; reflexivity).
    split; cbn [stacks].
    + intros k s1 d1 E HI. destruct (Nat.eq_dec i k) as [<-|N].
      * rewrite nth_error_set_nth_eq in E by auto. inversion E; subst s1.
        destruct (S1 i s d1 Ei) as ((a & b & E0 & N0) & C0).
        { rewrite ESn. apply in_or_app. auto. }
        split; auto. exists d0, r0. split; auto. rewrite N0. rewrite ESn in E0. cbn in E0. inversion E0. auto.
      * rewrite nth_error_set_nth_neq in E by auto. eauto.
    + intros k s1 E. destruct (Nat.eq_dec i k) as [<-|N].
      * rewrite nth_error_set_nth_eq in E by auto. inversion E. discriminate.
      * rewrite nth_error_set_nth_neq in E by auto. eauto.
    + intros k1 k2 s1 s2 m E1 E2 M1 M2.
      assert (G : forall i' s1, nth_error (set_nth (stacks st) i (d0 :: r0)) i' = Some s1 -> stack_matches m s1 = true ->
         exists s', nth_error (stacks st) i' = Some s' /\ stack_matches m s' = true).
      { intros i' s3 E' M'. destruct (Nat.eq_dec i i') as [<-|N].
        - rewrite nth_error_set_nth_eq in E' by auto. inversion E'; subst s3. exists s. rewrite <- MA. auto.
        - rewrite nth_error_set_nth_neq in E' by auto. eauto. }
      destruct (G _ _ E1 M1) as (s1' & F1 & G1), (G _ _ E2 M2) as (s2' & F2 & G2). apply (S3 k1 k2 s1' s2' m); auto.
    + intros m. unfold upd. destruct (name_dec n m) as [<-|Nm].
      * left. exists i, (d0 :: r0). split; [apply nth_error_set_nth_eq; auto|]. split; [rewrite MA; auto|auto].
      * destruct (S4 m) as [(k & s1 & Ek & Mk & Ek')|(Ek & HFa)].
        -- left. exists k, s1. split; auto. rewrite nth_error_set_nth_neq; auto. intros ->.
           assert (s1 = s) by congruence. subst s1.
           destruct (matches_head _ _ Mi) as (a & b & -> & Na). cbn in Mk. apply sv_cmp_spec in Mk. congruence.
        -- right. split; auto. apply Forall_set_nth; auto. rewrite MA.
           apply (proj1 (Forall_forall _ _) HFa). eapply nth_error_In; eauto.
Qed.

Record Rel (st : mstate) (s : sstate) : Prop := {
  r_tab : TabInv (tab st);
  r_found : forall n, found (tab st) n = option_map clean (defs s n);
  r_names : forall n d, defs s n = Some d -> d_name d = n;
  r_saved_names : forall n d, In (Some d) (saved s n) -> d_name d = n;
  r_saved_some : forall n, ~ In None (saved s n);
  r_stacks : StInv st (saved s)
}.

Lemma StInv_ext st st' sv : stacks st = stacks st' -> StInv st sv -> StInv st' sv.
Proof. intros E [A B C D]. rewrite E in *. split; auto. Qed.

Lemma rel_step st s op : Rel st s -> (match op with OpPush n => defs s n <> None | _ => True end) ->
  exists st', macro_step st op = Ok st' /\ Rel st' (spec_step s op).
Proof.
  intros [R1 R2 R3 R4 R5 R6] HP. destruct op as [d|n|n|n]; cbn [macro_step spec_step].
  - destruct (add_spec (tab st) d R1) as (t' & -> & HT & HF). cbn [bind]. eexists; split; [reflexivity|].
    split; cbn [tab defs saved]; auto.
    + intros m. rewrite HF. unfold upd. destruct (name_dec (d_name d) m); auto.
    + intros m d'. unfold upd. destruct (name_dec (d_name d) m); [intros H; inversion H; subst; auto|apply R3].
    + eapply StInv_ext; [|exact R6]. reflexivity.
  - destruct (remove_spec (tab st) n R1) as (t' & -> & HT & HF). cbn [bind]. eexists; split; [reflexivity|].
    split; cbn [tab defs saved]; auto.
    + intros m. rewrite HF. unfold upd. destruct (name_dec n m); auto.
    + intros m d'. unfold upd. destruct (name_dec n m); [discriminate|apply R3].
    + eapply StInv_ext; [|exact R6]. reflexivity.
  - destruct (defs s n) as [d|] eqn:ED; [|congruence].
    assert (HF : found (tab st) n = Some (clean d)) by (rewrite R2, ED; auto).
    destruct (push_spec st (saved s) n d R1 R6 HF (R3 _ _ ED)) as (st' & -> & ET & HS). eexists; split; [reflexivity|].
    split; cbn [defs saved]; rewrite ?ET; auto.
    + intros m d'. unfold upd. destruct (name_dec n m) as [<-|]; [|apply R4].
      intros [H|H]; [inversion H; subst; apply R3; auto|apply R4; auto].
    + intros m. unfold upd. destruct (name_dec n m) as [<-|]; [|apply R5].
      intros [H|H]; [discriminate|apply (R5 n); auto].
  - pose proof (pop_spec st (saved s) n R1 R6) as P. destruct (saved s n) as [|[d|] r] eqn:ES.
    + rewrite P. eexists; split; [reflexivity|]. split; auto.
    + destruct P as (st' & -> & HT & HS & HF). eexists; split; [reflexivity|].
      split; cbn [defs saved]; auto.
      * intros m. rewrite HF. unfold upd. destruct (name_dec n m); auto.
      * intros m d'. unfold upd. destruct (name_dec n m) as [<-|]; [|apply R3].
        intros H. inversion H; subst. apply R4. rewrite ES. left; auto.
      * intros m d'. unfold upd. destruct (name_dec n m) as [<-|]; [|apply R4].
        intros H. apply R4. rewrite ES. right; auto.
      * intros m. unfold upd. destruct (name_dec n m) as [<-|]; [|apply R5].
        intros H. apply (R5 n). rewrite ES. right; auto.
    + contradiction.
Qed.

Lemma rel_run l : forall st s, Rel st s -> pushes_defined s l ->
  exists st', macro_run st l = Ok st' /\ Rel st' (fold_left spec_step l s).
Proof.
  induction l as [|op l IH]; intros st s HR HP; cbn [macro_run fold_left].
  - eauto.
  - destruct HP as [HP1 HP2]. destruct (rel_step st s op HR HP1) as (st1 & -> & HR1). cbn [bind]. eauto.
Qed.

Lemma rel_init : Rel minit sinit.
Proof.
  split; cbn; auto; try discriminate; try contradiction.
  - apply init_tab.
  - apply found_init.
  - split; cbn; auto.
    + intros [|i] s d E; discriminate.
    + intros [|i] s E; discriminate.
    + intros [|i] j s1 s2 n E; discriminate.
Qed.
