From Verif Require Import Base Types MacroTable MacroTableProofs Symbols SymbolsSpec SymbolsProofs.

(** * Chunks of entries of one scope, outermost first *)
Notation chunk := (list (nat * decl)).
Definition scopes_of (cs : list chunk) : scopes := rev (map (fun c => rev (map snd c)) cs).
Record rep (st : symtab) (cs : list chunk) : Prop := {
  rep_inv : inv st;
  rep_cores : map core (entries st) = concat cs;
  rep_len : length cs = S (current_block st);
  rep_blocks : forall b c, nth_error cs b = Some c -> Forall (fun x => fst x = b) c }.

Definition hitc (i : entry_id) (g : bool) (x : nat * decl) : bool := compare_entry (fst (snd x)) i && negb (g && negb (Nat.eqb (fst x) 0)).
Lemma last_find (q : nat * decl -> bool) es :
  match last_idx (fun e => q (core e)) es (length es) with
  | Some j => exists e, nth_error es j = Some e /\ find q (rev (map core es)) = Some (core e)
  | None => find q (rev (map core es)) = None
  end.
Proof.
  induction es as [|x es IH] using rev_ind; [reflexivity|].
  rewrite app_length. cbn [length]. rewrite Nat.add_1_r, last_idx_S, nth_error_app2, Nat.sub_diag by lia. cbn [nth_error].
  rewrite map_app, rev_app_distr. cbn [map rev app find]. destruct (q (core x)) eqn:E.
  - exists x. rewrite nth_error_app2, Nat.sub_diag by lia. auto.
  - rewrite last_idx_app by lia. destruct (last_idx _ es (length es)) as [j|] eqn:L; auto.
    destruct IH as (e & E1 & E2). exists e. split; auto. rewrite nth_error_app1; auto. eapply nth_lt; eauto.
Qed.
Fixpoint replace1 (q : nat * decl -> bool) (d : Z) (l : chunk) : chunk :=
  match l with [] => [] | x :: r => if q x then (fst x, (fst (snd x), d)) :: r else x :: replace1 q d r end.
Lemma set_nth_app1 {A} (l m : list A) i x : (i < length l)%nat -> set_nth (l ++ m) i x = set_nth l i x ++ m.
Proof. revert i. induction l as [|y l IH]; intros i H; cbn in *; [lia|]. destruct i; cbn; auto. rewrite IH by lia. reflexivity. Qed.
Lemma set_nth_end {A} (l : list A) y x : set_nth (l ++ [y]) (length l) x = l ++ [x].
Proof. induction l; cbn; congruence. Qed.
Lemma last_replace (q : nat * decl -> bool) es d j e :
  last_idx (fun e => q (core e)) es (length es) = Some j -> nth_error es j = Some e ->
  map core (set_nth es j (with_data e d)) = rev (replace1 q d (rev (map core es))).
Proof.
  revert j e. induction es as [|x es IH] using rev_ind; intros j e; [discriminate|].
  rewrite app_length. cbn [length]. rewrite Nat.add_1_r, last_idx_S, nth_error_app2, Nat.sub_diag by lia. cbn [nth_error].
  rewrite !map_app, rev_app_distr. cbn [map rev app replace1]. destruct (q (core x)) eqn:E.
  - intros H. injection H as <-. rewrite nth_error_app2, Nat.sub_diag by lia. cbn. intros H. injection H as ->.
    rewrite set_nth_end, map_app. cbn. rewrite rev_involutive. reflexivity.
  - rewrite last_idx_app by lia. intros L. destruct (last_idx_some _ _ _ _ L) as (J & _). rewrite nth_error_app1 by auto. intros N.
    rewrite set_nth_app1 by auto. rewrite map_app. cbn. now rewrite (IH j e L N).
Qed.

Lemma declared_find i c : declared i (rev (map snd c)) = option_map (fun x => snd (snd x)) (find (hitc i false) (rev c)).
Proof.
  rewrite <- map_rev. induction (rev c) as [|x l IH]; [reflexivity|]. cbn [map declared find]. unfold hitc at 1. cbn [andb negb]. rewrite andb_true_r.
  destruct x as (b & j & d). cbn [fst snd]. destruct (id_dec j i) as [->|N].
  - assert (compare_entry i i = true) as -> by now apply compare_eq. reflexivity.
  - destruct (compare_entry j i) eqn:E; [apply compare_eq in E; contradiction|]. exact IH.
Qed.
Lemma redeclare_replace i d c : map snd (replace1 (hitc i false) d c) = redeclare i d (map snd c).
Proof.
  induction c as [|(b & j & x) l IH]; [reflexivity|]. cbn [map replace1 redeclare snd fst]. unfold hitc at 1. cbn [andb negb fst snd]. rewrite andb_true_r.
  destruct (id_dec j i) as [->|N].
  - assert (compare_entry i i = true) as -> by now apply compare_eq. reflexivity.
  - destruct (compare_entry j i) eqn:E; [apply compare_eq in E; contradiction|]. cbn [map snd]. now rewrite IH.
Qed.
Lemma find_app {A} (q : A -> bool) l m : find q (l ++ m) = match find q l with Some x => Some x | None => find q m end.
Proof. induction l as [|x l IH]; cbn; auto. destruct (q x); auto. Qed.
Lemma replace_app q d l m : replace1 q d (l ++ m) = match find q l with Some _ => replace1 q d l ++ m | None => l ++ replace1 q d m end.
Proof. induction l as [|x l IH]; cbn; auto. destruct (q x); auto. rewrite IH. destruct (find q l); reflexivity. Qed.
Lemma replace_blocks q d b l : Forall (fun x => fst x = b) l -> Forall (fun x => fst x = b) (replace1 q d l).
Proof. induction 1 as [|x l H F IH]; cbn; auto. destruct (q x); constructor; auto. Qed.
Lemma visible_find i cs : visible i (scopes_of cs) = option_map (fun x => snd (snd x)) (find (hitc i false) (rev (concat cs))).
Proof.
  induction cs as [|c cs IH] using rev_ind; [reflexivity|]. unfold scopes_of. rewrite map_app, rev_app_distr. cbn [map rev app visible].
  rewrite concat_app, rev_app_distr. cbn [concat]. rewrite app_nil_r, find_app, declared_find. fold (scopes_of cs).
  destruct (find (hitc i false) (rev c)); auto.
Qed.
Lemma file_scope_of c cs : file_scope (scopes_of (c :: cs)) = rev (map snd c).
Proof. unfold file_scope, scopes_of. cbn [map rev]. apply last_last. Qed.
Lemma with_file_of c cs f : with_file_scope (scopes_of (c :: cs)) f = scopes_of cs ++ [f].
Proof. unfold with_file_scope, scopes_of. cbn [map rev]. now rewrite removelast_last. Qed.

(** * What the table looks up *)
Lemma found st cs i g : rep st cs -> get_entry st i g = Ok None /\ find (hitc i g) (rev (concat cs)) = None \/
  exists q e, get_entry st i g = Ok (Some (q, e)) /\ find (hitc i g) (rev (concat cs)) = Some (core e) /\
    forall d, map core (set_nth (entries st) q (with_data e d)) = rev (replace1 (hitc i g) d (rev (concat cs))) /\ nth_error (entries st) q = Some e.
Proof.
  intros R. rewrite (get_entry_spec st i g (rep_inv _ _ R)). assert (F := last_find (hitc i g) (entries st)).
  change (fun e => hitc i g (core e)) with (hit i g) in F. rewrite (rep_cores _ _ R) in F.
  destruct (last_idx (hit i g) (entries st) (length (entries st))) as [q|] eqn:L.
  - destruct F as (e & E & F). right. exists q, e. rewrite E. split; auto. split; auto. intros d. split; auto.
    rewrite <- (rep_cores _ _ R). apply last_replace; auto.
  - left. auto.
Qed.
Lemma inv_same st es' : inv st -> length es' = length (entries st) -> (forall j, option_map (fun e => (id e, link e)) (nth_error es' j) = option_map (fun e => (id e, link e)) (nth_error (entries st) j)) ->
  inv {| heads := heads st; entries := es'; current_block := current_block st |}.
Proof.
  intros I L H.
  assert (K : forall h k, last_idx (inb h) es' k = last_idx (inb h) (entries st) k).
  { intros h k. apply (last_idx_map id (fun i => Nat.eqb (bucket i) h)). intros j _. specialize (H j).
    destruct (nth_error es' j), (nth_error (entries st) j); cbn in *; congruence. }
  split; cbn [heads entries].
  - intros h Hh. rewrite K, L. now apply (inv_heads _ I).
  - intros j e E. specialize (H j). rewrite E in H. destruct (nth_error (entries st) j) as [e'|] eqn:E'; [|discriminate].
    cbn in H. injection H as -> ->. rewrite K. apply (inv_links _ I _ _ E').
  - apply (inv_len _ I).
Qed.
Lemma set_data_inv st q e d : inv st -> nth_error (entries st) q = Some e -> inv (set_data st q e d).
Proof.
  intros I E. apply inv_same; auto; [apply set_nth_length|]. intros j. destruct (Nat.eq_dec q j) as [<-|N].
  - rewrite nth_error_set_nth_eq by (eapply nth_lt; eauto). now rewrite E.
  - now rewrite nth_error_set_nth_neq by auto.
Qed.

Lemma chunks_snoc st cs : rep st cs -> exists cs0 c, cs = cs0 ++ [c] /\ length cs0 = current_block st /\
  Forall (fun x => fst x = current_block st) c /\ Forall (fun x => (fst x < current_block st)%nat) (concat cs0).
Proof.
  intros R. destruct (exists_last (l := cs)) as (cs0 & c & ->). { intros ->. assert (H := rep_len _ _ R). discriminate. }
  assert (L := rep_len _ _ R). rewrite app_length in L. cbn in L. exists cs0, c. split; auto. split; [lia|]. split.
  - apply (rep_blocks _ _ R). rewrite nth_error_app2 by lia. now replace (current_block st - length cs0)%nat with O by lia.
  - apply Forall_concat, Forall_forall. intros x I. destruct (In_nth_error _ _ I) as [b Eb]. assert (Lb := nth_lt _ _ _ Eb).
    assert (F : Forall (fun x => fst x = b) x) by (apply (rep_blocks _ _ R); rewrite nth_error_app1; auto).
    eapply Forall_impl; [|exact F]. intros a Ea. cbn in *. lia.
Qed.
Lemma scopes_snoc cs0 c : scopes_of (cs0 ++ [c]) = rev (map snd c) :: scopes_of cs0.
Proof. unfold scopes_of. rewrite map_app, rev_app_distr. reflexivity. Qed.
Lemma find_none_blocks i (l : chunk) : Forall (fun x => (0 < fst x)%nat) l -> find (hitc i true) l = None.
Proof.
  induction 1 as [|x l H F IH]; cbn; auto. unfold hitc at 1. destruct (Nat.eqb_spec (fst x) 0); [lia|]. cbn. rewrite andb_false_r. exact IH.
Qed.
Lemma find_block0 i (l : chunk) : Forall (fun x => fst x = O) l -> find (hitc i true) l = find (hitc i false) l.
Proof. induction 1 as [|x l H F IH]; cbn; auto. unfold hitc at 1 3. rewrite H. cbn. rewrite !andb_true_r. now rewrite IH. Qed.
Lemma replace_block0 i d (l : chunk) : Forall (fun x => fst x = O) l -> replace1 (hitc i true) d l = replace1 (hitc i false) d l.
Proof. induction 1 as [|x l H F IH]; cbn; auto. unfold hitc at 1 3. rewrite H. cbn. rewrite !andb_true_r. now rewrite IH. Qed.
Lemma Forall_rev' {A} (P : A -> Prop) l : Forall P l -> Forall P (rev l).
Proof. rewrite !Forall_forall. intros H x I. apply H. now apply in_rev. Qed.
(** The innermost match is in the current block just when the current scope has one. *)
Lemma current_found st cs0 c i : Forall (fun x => fst x = current_block st) c -> Forall (fun x => (fst x < current_block st)%nat) (concat cs0) ->
  match find (hitc i false) (rev (concat (cs0 ++ [c]))) with
  | Some x => (fst x = current_block st /\ find (hitc i false) (rev c) = Some x) \/ (fst x <> current_block st /\ find (hitc i false) (rev c) = None)
  | None => find (hitc i false) (rev c) = None
  end.
Proof.
  intros Fc F0. rewrite concat_app, rev_app_distr. cbn [concat]. rewrite app_nil_r, find_app.
  destruct (find (hitc i false) (rev c)) as [x|] eqn:E.
  - left. split; auto. apply find_some in E as [E _]. apply in_rev in E. rewrite Forall_forall in Fc. auto.
  - destruct (find (hitc i false) (rev (concat cs0))) as [x|] eqn:E0; auto. right. split; auto. apply find_some in E0 as [E0 _]. apply in_rev in E0.
    rewrite Forall_forall in F0. specialize (F0 _ E0). lia.
Qed.

Lemma add_rep st cs0 c i d : rep st (cs0 ++ [c]) -> length cs0 = current_block st ->
  exists st', add_entry st i d = Ok st' /\ current_block st' = current_block st /\ rep st' (cs0 ++ [c ++ [(current_block st, (i, d))]]).
Proof.
  intros R L. destruct (add_entry_inv st i d (rep_inv _ _ R)) as (e & E1 & E2 & E3 & st' & Ea & Ee & Ec & Iv).
  exists st'. split; auto. split; auto. split; auto.
  - rewrite Ee, map_app, (rep_cores _ _ R). unfold core at 1. cbn [map]. rewrite E1, E2, E3, !concat_app. cbn [concat]. rewrite !app_nil_r, app_assoc. reflexivity.
  - rewrite Ec, app_length. cbn. lia.
  - intros b x H. destruct (Nat.lt_ge_cases b (length cs0)) as [Lb|Lb].
    + apply (rep_blocks _ _ R b). rewrite nth_error_app1 in * by auto. exact H.
    + assert (Lx := nth_lt _ _ _ H). rewrite app_length in Lx. cbn in Lx. assert (b = length cs0) as -> by lia.
      rewrite nth_error_app2, Nat.sub_diag in H by lia. injection H as <-. apply Forall_app. split; [|constructor; auto].
      apply (rep_blocks _ _ R (length cs0)). rewrite nth_error_app2, Nat.sub_diag by lia. reflexivity.
Qed.
Lemma set_rep st cs cs' q e d : rep st cs -> nth_error (entries st) q = Some e -> map core (set_nth (entries st) q (with_data e d)) = concat cs' ->
  length cs' = length cs -> (forall b c, nth_error cs' b = Some c -> Forall (fun x => fst x = b) c) -> rep (set_data st q e d) cs'.
Proof.
  intros R E M L B. split; [| | |exact B].
  - apply set_data_inv; auto. apply (rep_inv _ _ R).
  - exact M.
  - etransitivity; [exact L|]. exact (rep_len _ _ R).
Qed.

(** * One call *)
Definition follows (st : symtab) (ss : scopes) (r : res (symtab * option Z)) (m : option (scopes * option Z)) (n : nat) : Prop :=
  match m with
  | None => r = Fail
  | Some (ss', o) => exists st' cs', r = Ok (st', o) /\ ss' = scopes_of cs' /\ rep st' cs' /\ current_block st' = n
  end.
Lemma symbols_add_rep st cs i d : rep st cs ->
  match scopes_of cs with
  | sc :: r => match declared i sc with
               | Some _ => symbols_add st i d = Fail
               | None => exists st' cs', symbols_add st i d = Ok st' /\ ((i, d) :: sc) :: r = scopes_of cs' /\ rep st' cs' /\ current_block st' = current_block st
               end
  | [] => False
  end.
Proof.
  intros R. destruct (chunks_snoc st cs R) as (cs0 & c & -> & L & Fc & F0). rewrite scopes_snoc, declared_find.
  assert (C := current_found st cs0 c i Fc F0). unfold symbols_add.
  assert (A : exists st' cs', add_entry st i d = Ok st' /\ ((i, d) :: rev (map snd c)) :: scopes_of cs0 = scopes_of cs' /\ rep st' cs' /\ current_block st' = current_block st).
  { destruct (add_rep st cs0 c i d R L) as (st' & E & Ec & R'). exists st'. eexists. split; [exact E|]. split; [|split; [exact R'|exact Ec]].
    rewrite scopes_snoc, map_app, rev_app_distr. reflexivity. }
  destruct (found st _ i false R) as [[-> F]|(q & e & -> & F & _)]; rewrite F in C; cbn [bind].
  - rewrite C. cbn [option_map]. exact A.
  - change (fst (core e)) with (block e) in C. destruct C as [[B ->]|[B ->]]; cbn [option_map].
    + rewrite B, Nat.eqb_refl. reflexivity.
    + destruct (Nat.eqb_spec (block e) (current_block st)); [contradiction|exact A].
Qed.

Lemma replace_last_rep st cs0 c q e d i : rep st (cs0 ++ [c]) -> length cs0 = current_block st ->
  find (hitc i false) (rev c) <> None ->
  map core (set_nth (entries st) q (with_data e d)) = rev (replace1 (hitc i false) d (rev (concat (cs0 ++ [c])))) -> nth_error (entries st) q = Some e ->
  rep (set_data st q e d) (cs0 ++ [rev (replace1 (hitc i false) d (rev c))]).
Proof.
  intros R L Fn M E. apply (set_rep _ (cs0 ++ [c])); auto.
  - rewrite M, !concat_app, rev_app_distr. cbn [concat]. rewrite !app_nil_r, replace_app. destruct (find _ (rev c)); [|congruence].
    now rewrite rev_app_distr, rev_involutive.
  - now rewrite !app_length.
  - intros b x H. destruct (Nat.lt_ge_cases b (length cs0)) as [Lb|Lb].
    + apply (rep_blocks _ _ R b). rewrite nth_error_app1 in * by auto. exact H.
    + assert (Lx := nth_lt _ _ _ H). rewrite app_length in Lx. cbn in Lx. assert (b = length cs0) as -> by lia.
      rewrite nth_error_app2, Nat.sub_diag in H by lia. injection H as <-. apply Forall_rev', replace_blocks, Forall_rev'.
      apply (rep_blocks _ _ R (length cs0)). rewrite nth_error_app2, Nat.sub_diag by lia. reflexivity.
Qed.
Lemma typedef_rep st cs n d : rep st cs ->
  match scopes_of cs with
  | sc :: r => exists st' cs', symbols_add_typedef st n d = Ok st' /\
      match declared (ENTRY_TYPEDEF, n) sc with Some _ => redeclare (ENTRY_TYPEDEF, n) d sc | None => ((ENTRY_TYPEDEF, n), d) :: sc end :: r = scopes_of cs' /\
      rep st' cs' /\ current_block st' = current_block st
  | [] => False
  end.
Proof.
  intros R. destruct (chunks_snoc st cs R) as (cs0 & c & -> & L & Fc & F0). rewrite scopes_snoc, declared_find.
  assert (C := current_found st cs0 c (ENTRY_TYPEDEF, n) Fc F0). unfold symbols_add_typedef.
  assert (A : exists st' cs', add_entry st (ENTRY_TYPEDEF, n) d = Ok st' /\ ((ENTRY_TYPEDEF, n, d) :: rev (map snd c)) :: scopes_of cs0 = scopes_of cs' /\ rep st' cs' /\ current_block st' = current_block st).
  { destruct (add_rep st cs0 c (ENTRY_TYPEDEF, n) d R L) as (st' & E & Ec & R'). exists st'. eexists. split; [exact E|]. split; [|split; [exact R'|exact Ec]].
    rewrite scopes_snoc, map_app, rev_app_distr. reflexivity. }
  destruct (found st _ (ENTRY_TYPEDEF, n) false R) as [[-> F]|(q & e & -> & F & Sd)]; rewrite F in C; cbn [bind].
  - rewrite C. cbn [option_map]. exact A.
  - change (fst (core e)) with (block e) in C. destruct C as [[B Fi]|[B Fi]]; rewrite Fi; cbn [option_map].
    + rewrite B, Nat.eqb_refl. destruct (Sd d) as [M E]. eexists _, _. split; [reflexivity|].
      split; [|split; [eapply (replace_last_rep st cs0 c q e d (ENTRY_TYPEDEF, n)); eauto; congruence|reflexivity]].
      rewrite scopes_snoc. f_equal. rewrite map_rev, rev_involutive, redeclare_replace. now rewrite map_rev.
    + destruct (Nat.eqb_spec (block e) (current_block st)); [contradiction|exact A].
Qed.

Lemma chunks_cons st cs : rep st cs -> exists c cs1, cs = c :: cs1 /\ Forall (fun x => fst x = O) c /\ Forall (fun x => (0 < fst x)%nat) (concat cs1).
Proof.
  intros R. destruct cs as [|c cs1]. { assert (H := rep_len _ _ R). discriminate. }
  exists c, cs1. split; auto. split; [apply (rep_blocks _ _ R O); reflexivity|].
  apply Forall_concat, Forall_forall. intros x I. destruct (In_nth_error _ _ I) as [b Eb].
  assert (F : Forall (fun x => fst x = S b) x) by (apply (rep_blocks _ _ R); exact Eb).
  eapply Forall_impl; [|exact F]. cbn. intros a ->. lia.
Qed.
Lemma nth_skip {A} (l : list A) : forall k p, nth_error (skipn p l) k = nth_error l (p + k).
Proof. induction l as [|x l IH]; intros k p; [rewrite skipn_nil; destruct k, p; reflexivity|]. destruct p; cbn; auto. Qed.
Lemma function_rep st cs n d : rep st cs ->
  exists st' cs', define_function st n d = Ok st' /\
    with_file_scope (scopes_of cs) (match declared (ENTRY_IDENTIFIER, n) (file_scope (scopes_of cs)) with
      | Some _ => redeclare (ENTRY_IDENTIFIER, n) d (file_scope (scopes_of cs)) | None => ((ENTRY_IDENTIFIER, n), d) :: file_scope (scopes_of cs) end) = scopes_of cs' /\
    rep st' cs' /\ current_block st' = current_block st.
Proof.
  intros R. destruct (chunks_cons st cs R) as (c & cs1 & -> & F0 & F1). rewrite file_scope_of, with_file_of, declared_find. unfold define_function.
  assert (G : forall i, find (hitc i true) (rev (concat (c :: cs1))) = find (hitc i false) (rev c)).
  { intros i. cbn [concat]. rewrite rev_app_distr, find_app, find_none_blocks by now apply Forall_rev'. apply find_block0. now apply Forall_rev'. }
  destruct (found st _ (ENTRY_IDENTIFIER, n) true R) as [[E F]|(q & e & -> & F & Sd)]; rewrite G in F.
  - rewrite E. cbn [bind]. rewrite F. cbn [option_map]. unfold symbols_add_identifier_global. rewrite E. cbn [bind].
    assert (Len : length (entries st) = (length c + length (concat cs1))%nat).
    { rewrite <- (map_length core), (rep_cores _ _ R). cbn [concat]. apply app_length. }
    assert (Ne : forall j e, nth_error (entries st) j = Some e -> nth_error (concat (c :: cs1)) j = Some (core e)).
    { intros j e Ej. rewrite <- (rep_cores _ _ R). now apply map_nth_error. }
    cbn [concat] in Ne.
    destruct (insert_spec st (rep_inv _ _ R) (length c)) with (i := (ENTRY_IDENTIFIER, n)) (d := d) as (st' & -> & Cb & Iv & Ln & A1 & (l & A2) & A3).
    { lia. }
    { intros j e J Ej. apply Ne in Ej. rewrite nth_error_app1 in Ej by auto. apply nth_error_In in Ej. rewrite Forall_forall in F0. apply (F0 _ Ej). }
    { intros j e J Ej. apply Ne in Ej. rewrite nth_error_app2 in Ej by auto. apply nth_error_In in Ej. rewrite Forall_forall in F1. apply (F1 _ Ej). }
    exists st', ((c ++ [(O, ((ENTRY_IDENTIFIER, n), d))]) :: cs1). split; [reflexivity|].
    split; [unfold scopes_of; cbn [map rev]; rewrite map_app, rev_app_distr; reflexivity|]. split; [|exact Cb].
    split; auto.
    + cbn [concat]. rewrite <- app_assoc. apply nth_error_ext. intros j. destruct (Nat.lt_trichotomy j (length c)) as [J|[->|J]].
      * rewrite nth_error_app1 by auto. assert (Q := A1 j J). destruct (nth_ex (entries st) j ltac:(lia)) as [e Ej].
        rewrite Ej in Q. rewrite (map_nth_error core _ _ Q). apply Ne in Ej. rewrite nth_error_app1 in Ej by auto. auto.
      * rewrite (map_nth_error core _ _ A2). rewrite nth_error_app2, Nat.sub_diag by lia. reflexivity.
      * destruct j as [|j]; [lia|]. rewrite nth_error_app2 by lia. replace (S j - length c)%nat with (S (j - length c)) by lia. 
        change (nth_error ([(O, (ENTRY_IDENTIFIER, n, d))] ++ concat cs1) (S (j - length c))) with (nth_error (concat cs1) (j - length c)).
        destruct (Nat.lt_ge_cases j (length (entries st))) as [Lj|Lj].
        -- destruct (nth_ex (entries st) j Lj) as [e Ej]. destruct (A3 j e ltac:(lia) Ej) as [l' Q]. rewrite (map_nth_error core _ _ Q).
           apply Ne in Ej. rewrite nth_error_app2 in Ej by lia. now rewrite Ej.
        -- assert (nth_error (concat cs1) (j - length c) = None) as -> by (apply nth_error_None; lia).
           apply nth_error_None. rewrite map_length, Ln. lia.
    + cbn [length]. rewrite Cb. apply (rep_len _ _ R).
    + intros b x H. destruct b as [|b]; cbn in H.
      * injection H as <-. apply Forall_app. split; auto.
      * apply (rep_blocks _ _ R (S b)). exact H.
  - cbn [bind]. rewrite F. cbn [option_map]. destruct (Sd d) as [M E]. eexists _, (rev (replace1 (hitc (ENTRY_IDENTIFIER, n) false) d (rev c)) :: cs1).
    split; [reflexivity|]. split; [|split; [|reflexivity]].
    + unfold scopes_of. cbn [map rev]. f_equal. f_equal. rewrite map_rev, rev_involutive, redeclare_replace. now rewrite map_rev.
    + apply (set_rep _ (c :: cs1)); auto.
      * rewrite M. cbn [concat]. rewrite rev_app_distr, replace_app, find_none_blocks by now apply Forall_rev'.
        rewrite rev_app_distr, rev_involutive. f_equal. f_equal. apply replace_block0. now apply Forall_rev'.
      * intros b x H. destruct b as [|b]; cbn in H.
        -- injection H as <-. now apply Forall_rev', replace_blocks, Forall_rev'.
        -- apply (rep_blocks _ _ R (S b)). exact H.
Qed.

Lemma enter_rep st cs : rep st cs -> rep (push_scope st) (cs ++ [[]]).
Proof.
  intros R. destruct (rep_inv _ _ R) as [H1 H2 H3]. split.
  - split; auto.
  - cbn [entries push_scope]. rewrite (rep_cores _ _ R), concat_app. cbn. now rewrite app_nil_r.
  - cbn. rewrite app_length, (rep_len _ _ R). cbn. lia.
  - intros b c H. destruct (Nat.lt_ge_cases b (length cs)) as [L|L].
    + apply (rep_blocks _ _ R). now rewrite nth_error_app1 in H by auto.
    + rewrite nth_error_app2 in H by auto. destruct (b - length cs)%nat as [|[|?]]; cbn in H; try discriminate. injection H as <-. constructor.
Qed.
Lemma leave_rep st cs m : rep st cs -> current_block st = S m ->
  exists st' cs', pop_scope st = Ok st' /\ tl (scopes_of cs) = scopes_of cs' /\ rep st' cs' /\ current_block st' = m.
Proof.
  intros R C. destruct (chunks_snoc st cs R) as (cs0 & c & -> & L & Fc & F0).
  assert (Cores := rep_cores _ _ R). rewrite concat_app in Cores. cbn [concat] in Cores. rewrite app_nil_r in Cores.
  assert (Len : length (entries st) = (length (concat cs0) + length c)%nat) by (rewrite <- (map_length core), Cores; apply app_length).
  assert (Ne : forall j e, nth_error (entries st) j = Some e -> nth_error (concat cs0 ++ c) j = Some (core e))
    by (intros j e Ej; rewrite <- Cores; now apply map_nth_error).
  destruct (pop_scope_inv st m (length (concat cs0)) (rep_inv _ _ R) C) as (st' & E & Ee & Ec & Iv).
  - lia.
  - intros j e J Ej. apply Ne in Ej. rewrite nth_error_app1 in Ej by auto. apply nth_error_In in Ej. rewrite Forall_forall in F0. specialize (F0 _ Ej). cbn in F0. lia.
  - intros j e J Ej. apply Ne in Ej. rewrite nth_error_app2 in Ej by auto. apply nth_error_In in Ej. rewrite Forall_forall in Fc. specialize (Fc _ Ej). cbn in Fc. lia.
  - exists st', cs0. split; auto. rewrite scopes_snoc. split; [reflexivity|]. split; auto. split; auto.
    + rewrite Ee, <- firstn_map, Cores, firstn_app, Nat.sub_diag, firstn_all. cbn. apply app_nil_r.
    + lia.
    + intros b x H. apply (rep_blocks _ _ R). rewrite nth_error_app1; auto. eapply nth_lt; eauto.
Qed.

Definition depth_after (c : call) (n : nat) : option nat := match c with Enter => Some (S n) | Leave => match n with O => None | S m => Some m end | _ => Some n end.
Theorem call_follows st cs c n : rep st cs -> depth_after c (current_block st) = Some n -> follows st (scopes_of cs) (symbols_call st c) (meaning (scopes_of cs) c) n.
Proof.
  intros R D. destruct c as [| |nm d|nm d|nm d|nm d|k nm|k nm|nm]; cbn [symbols_call meaning depth_after] in *.
  - injection D as <-. exists (push_scope st), (cs ++ [[]]). split; auto. split; [rewrite scopes_snoc; reflexivity|]. split; [now apply enter_rep|reflexivity].
  - destruct (current_block st) as [|m] eqn:C; [discriminate|]. injection D as <-. destruct (leave_rep st cs m R C) as (st' & cs' & -> & E & R' & C').
    cbn [bind]. exists st', cs'. auto.
  - injection D as <-. unfold symbols_add_identifier. destruct nm as [|x nm].
    + exists st, cs. cbn. auto.
    + assert (A := symbols_add_rep st cs (ENTRY_IDENTIFIER, x :: nm) d R). destruct (scopes_of cs) as [|sc r]; [contradiction|].
      destruct (declared (ENTRY_IDENTIFIER, x :: nm) sc); cbn [follows].
      * now rewrite A.
      * destruct A as (st' & cs' & -> & E & R' & C'). exists st', cs'. cbn. auto.
  - injection D as <-. assert (A := symbols_add_rep st cs (ENTRY_STRUCT, nm) d R). destruct (scopes_of cs) as [|sc r]; [contradiction|].
    destruct (declared (ENTRY_STRUCT, nm) sc); cbn [follows].
    + now rewrite A.
    + destruct A as (st' & cs' & -> & E & R' & C'). exists st', cs'. cbn. auto.
  - injection D as <-. assert (A := typedef_rep st cs nm d R). destruct (scopes_of cs) as [|sc r]; [contradiction|].
    destruct A as (st' & cs' & -> & E & R' & C'). cbn [bind].
    destruct (declared (ENTRY_TYPEDEF, nm) sc); cbn [follows]; exists st', cs'; auto.
  - injection D as <-. destruct (function_rep st cs nm d R) as (st' & cs' & -> & E & R' & C'). cbn [bind].
    destruct (declared (ENTRY_IDENTIFIER, nm) (file_scope (scopes_of cs))); cbn [follows]; exists st', cs'; auto.
  - injection D as <-. unfold symbols_get. rewrite visible_find. exists st, cs.
    destruct (found st _ (k, nm) false R) as [[-> F]|(q & e & -> & F & _)]; rewrite F; cbn; auto.
  - injection D as <-. unfold symbols_get_in_current_scope. destruct (chunks_snoc st cs R) as (cs0 & c & -> & L & Fc & F0). rewrite scopes_snoc, declared_find.
    assert (C := current_found st cs0 c (k, nm) Fc F0). exists st, (cs0 ++ [c]). rewrite scopes_snoc.
    destruct (found st _ (k, nm) false R) as [[-> F]|(q & e & -> & F & _)]; rewrite F in C; cbn [bind].
    + rewrite C. cbn. auto.
    + change (fst (core e)) with (block e) in C. destruct C as [[B ->]|[B ->]].
      * rewrite B, Nat.eqb_refl. cbn. auto.
      * destruct (Nat.eqb_spec (block e) (current_block st)); [contradiction|]. cbn. auto.
  - injection D as <-. unfold symbols_get_identifier_global. destruct (chunks_cons st cs R) as (c & cs1 & -> & F0 & F1). rewrite file_scope_of, declared_find.
    exists st, (c :: cs1).
    assert (G : find (hitc (ENTRY_IDENTIFIER, nm) true) (rev (concat (c :: cs1))) = find (hitc (ENTRY_IDENTIFIER, nm) false) (rev c)).
    { cbn [concat]. rewrite rev_app_distr, find_app, find_none_blocks by now apply Forall_rev'. apply find_block0. now apply Forall_rev'. }
    destruct (found st _ (ENTRY_IDENTIFIER, nm) true R) as [[-> F]|(q & e & -> & F & _)]; rewrite G in F; rewrite F; cbn; auto.
Qed.
Lemma init_rep : rep symbols_init [[]].
Proof.
  split; cbn [entries symbols_init map concat current_block length]; auto.
  - split; cbn [heads entries symbols_init].
    + intros h H. cbn [length last_idx]. now apply nth_error_repeat.
    + intros j e E. destruct j; discriminate.
    + apply repeat_length.
  - intros b c H. destruct b as [|[|b]]; cbn in H; try discriminate. injection H as <-. constructor.
Qed.
Theorem run_follows l : forall st cs, rep st cs -> balanced (current_block st) l ->
  symbols_run st l = match meanings (scopes_of cs) l with Some os => Ok os | None => Fail end.
Proof.
  induction l as [|c l IH]; intros st cs R B; [reflexivity|].
  assert (D : exists n, depth_after c (current_block st) = Some n /\ balanced n l).
  { destruct c; cbn in *; eauto. destruct (current_block st); [contradiction|eauto]. }
  destruct D as (n & D & B'). assert (F := call_follows st cs c n R D). cbn [symbols_run meanings].
  destruct (meaning (scopes_of cs) c) as [(ss' & o)|]; cbn [follows] in F.
  - destruct F as (st' & cs' & -> & -> & R' & C'). cbn [bind]. rewrite (IH st' cs' R') by (rewrite C'; exact B').
    destruct (meanings (scopes_of cs') l); reflexivity.
  - rewrite F. reflexivity.
Qed.
