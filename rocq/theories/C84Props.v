(** C84: the dependency files of -MD. *)
From Coq Require Import String.
From Verif Require Import Base CharTypes DepFile DepFileSpec.
Local Open Scope Z_scope.
Local Open Scope list_scope.

Definition read_files (inputs : list (option (list Z))) : list (list Z) := flat_map (fun p => match p with Some p => [p] | None => [] end) inputs.

(** One line has one reading. *)
Lemma name_not_blank w c : name w -> In c w -> c <> 9 /\ c <> 32 /\ c <> 58 /\ c <> 10.
Proof. intros [_ F] I. rewrite Forall_forall in F. apply F in I as (? & ? & ? & ? & N & _). repeat split; auto. intros ->. apply N. vm_compute. tauto. Qed.
Lemma name_run : forall w w' s s', name w -> name w' -> (s = [] \/ exists c r, s = c :: r /\ (c = 9 \/ c = 32)) ->
  (s' = [] \/ exists c r, s' = c :: r /\ (c = 9 \/ c = 32)) -> w ++ s = w' ++ s' -> w = w' /\ s = s'.
Proof.
  intros w w' s s' N N' S S' E.
  assert (F : Forall (fun c => c <> 9 /\ c <> 32) w) by (apply Forall_forall; intros c I; apply (name_not_blank w) in I; tauto).
  assert (F' : Forall (fun c => c <> 9 /\ c <> 32) w') by (apply Forall_forall; intros c I; apply (name_not_blank w') in I; tauto).
  clear N N'. revert w' F' E. induction F as [|c w C F IH]; intros [|c' w'] F' E; auto.
  - exfalso. cbn in E. subst s. inversion F' as [|? ? D _]; subst. destruct S as [S|(x & r & S & B)]; [discriminate|]. injection S as -> _. lia.
  - exfalso. cbn in E. subst s'. destruct S' as [S'|(x & r & S' & B)]; [discriminate|]. injection S' as -> _. lia.
  - injection E as -> E. inversion F'; subst. destruct (IH _ H2 E) as [-> ->]. auto.
Qed.
Lemma blank_run : forall g g' w w' s s', blank g -> blank g' -> name w -> name w' -> g ++ w ++ s = g' ++ w' ++ s' -> w ++ s = w' ++ s'.
Proof.
  intros g g' w w' s s' G G' N N'. assert (K : forall w, name w -> exists c r, w = c :: r /\ c <> 9 /\ c <> 32).
  { intros [|c r] M; [destruct M; congruence|]. exists c, r. split; [reflexivity|]. destruct (name_not_blank _ c M (or_introl eq_refl)) as (? & ? & _). auto. }
  destruct (K _ N) as (c & r & -> & C1 & C2), (K _ N') as (c' & r' & -> & C1' & C2'). clear K N N'.
  revert g' G'. induction G as [|b g B G IH]; intros [|b' g'] G' E; auto.
  - exfalso. injection E as -> _. inversion G'; subst. lia.
  - exfalso. injection E as -> _. lia.
  - injection E as -> E. inversion G'; subst. eauto.
Qed.
Lemma words_unique : forall l s, words l s -> forall l', words l' s -> l = l'.
Proof.
  assert (K : forall g g' w s, blank g -> blank g' -> name w -> g = g' ++ w ++ s -> False).
  { intros g g' w s G G' N ->. destruct w as [|c w]; [destruct N; congruence|]. unfold blank in G. rewrite Forall_forall in G.
    assert (I : In c (g' ++ (c :: w) ++ s)) by (apply in_or_app; right; now left). apply G in I.
    destruct (name_not_blank _ c N (or_introl eq_refl)) as (? & ? & _). lia. }
  intros l s W. induction W as [g G|g w l s G N W IH S]; intros l' W'; inversion W' as [g' G' E1 E2|g' w' l2 s' G' N' W2 S' E1 E2]; subst; auto.
  - exfalso. exact (K _ _ _ _ G G' N' eq_refl).
  - exfalso. exact (K _ _ _ _ G' G N eq_refl).
  - assert (E := blank_run _ _ _ _ _ _ G' G N' N E2). destruct (name_run _ _ _ _ N' N S' S E) as [-> ->]. f_equal. auto.
Qed.
Lemma words_no l s c : words l s -> In c s -> c <> 58 /\ c <> 10.
Proof.
  intros W. induction W as [g G|g w l s G N W IH S]; intros I; unfold blank in G; rewrite Forall_forall in G.
  - apply G in I. lia.
  - apply in_app_or in I as [I|I]; [apply G in I; lia|]. apply in_app_or in I as [I|I]; auto. destruct (name_not_blank _ _ N I). tauto.
Qed.
Lemma rule_unique ts ps ts' ps' s : rule ts ps s -> rule ts' ps' s -> ts = ts' /\ ps = ps'.
Proof.
  intros (a & b & -> & A & B) (a' & b' & E & A' & B').
  assert (K : forall a a' b b' : list Z, ~ In 58 a -> ~ In 58 a' -> a ++ [58] ++ b = a' ++ [58] ++ b' -> a = a' /\ b = b').
  { clear. induction a as [|c a IH]; intros [|c' a'] b b' N N' E; cbn in *.
    - injection E as E. auto.
    - injection E as <- _. tauto.
    - injection E as -> _. tauto.
    - injection E as -> E. destruct (IH a' b b') as [-> ->]; auto. }
  destruct (K a a' (b ++ [10]) (b' ++ [10])) as [-> E2]; auto; [intros I; apply (words_no _ _ _ A) in I; tauto|intros I; apply (words_no _ _ _ A') in I; tauto|].
  apply app_inj_tail in E2 as [-> _]. split; eapply words_unique; eauto.
Qed.

Lemma words_deps : forall ps, Forall name ps -> words ps (flat_map (fun p => chars " " ++ p) ps).
Proof.
  intros ps F. induction F as [|p ps N F IH]; [constructor; constructor|]. cbn [flat_map]. rewrite <- app_assoc.
  apply (w_name [32] p); auto; [constructor; auto; constructor|]. destruct ps as [|q ps]; [left; reflexivity|]. right. exists 32, (q ++ flat_map (fun p => chars " " ++ p) ps). auto.
Qed.
Lemma recorded inputs : forall d, write_dependencies d = true ->
  fold_left (fun d p => record_input p d) inputs d = {| write_dependencies := true; deps := deps d ++ read_files inputs |}.
Proof.
  induction inputs as [|[p|] l IH]; intros d W; cbn [fold_left record_input].
  - destruct d as [w ds]. cbn in *. subst w. now rewrite app_nil_r.
  - rewrite W, IH by reflexivity. cbn [deps]. rewrite <- app_assoc. reflexivity.
  - rewrite IH by exact W. reflexivity.
Qed.

(** However many sources one run compiles, the dependency file of each is read by make as
    one rule: its target and, in order, the files read for that source and no others. The
    names are taken without the characters that make treats specially. *)
Theorem dependency_rules_partial : forall l d, deps d = [] -> Forall (fun u => name (fst u) /\ Forall name (read_files (snd u))) l ->
  exists ss, compile_all_deps l d = Ok ss /\
    Forall2 (fun u s => rule [fst u] (read_files (snd u)) s /\ forall ts ps, rule ts ps s -> ts = [fst u] /\ ps = read_files (snd u)) l ss.
Proof.
  induction l as [|[mt inputs] l IH]; intros d D F; [exists []; split; [reflexivity|constructor]|].
  inversion F as [|? ? [N P] F']; subst. cbn [fst snd] in N, P. cbn [compile_all_deps]. unfold compile_deps.
  rewrite recorded by reflexivity. cbn [directiver_write_dependencies deps]. rewrite D. cbn [app directiver_finish_writing_dependencies bind deps].
  destruct (IH (directiver_reset {| write_dependencies := true; deps := read_files inputs |}) eq_refl F') as (ss & E & R). rewrite E. cbn [bind].
  eexists. split; [reflexivity|]. constructor; [|exact R]. cbn [fst snd].
  assert (Ru : rule [mt] (read_files inputs) (mt ++ [58] ++ flat_map (fun p => chars " " ++ p) (read_files inputs) ++ [10])).
  { exists mt, (flat_map (fun p => chars " " ++ p) (read_files inputs)). split; [reflexivity|]. split; [|now apply words_deps].
    pose proof (w_name [] mt [] [] (Forall_nil _) N (w_end [] (Forall_nil _)) (or_introl eq_refl)) as H. cbn [app] in H. now rewrite app_nil_r in H. }
  split; [exact Ru|]. intros ts ps R2. eapply rule_unique; eauto.
Qed.
Print Assumptions dependency_rules_partial.

Example C84_run : compile_all_deps [(chars "a.o", [Some (chars "a.c"); Some (chars "./x.h"); None]); (chars "b.o", [Some (chars "b.c")])] dep_start =
  Ok [chars "a.o: a.c ./x.h" ++ [10]; chars "b.o: b.c" ++ [10]].
Proof. reflexivity. Qed.
Example C84_names : deps dep_start = [] /\ Forall (fun u => name (fst u) /\ Forall name (read_files (snd u)))
  [(chars "a.o", [Some (chars "a.c"); Some (chars "./x.h"); None]); (chars "b.o", [Some (chars "b.c")])].
Proof.
  assert (K : forall w, w <> [] -> forallb (fun c => negb (existsb (Z.eqb c) ([0; 9; 10; 13; 32] ++ chars "#$%:;=|\&~*?["))) w = true -> name w).
  { intros w N F. split; [exact N|]. rewrite forallb_forall in F. apply Forall_forall. intros c I. specialize (F _ I). apply negb_true_iff in F.
    assert (G : ~ In c ([0; 9; 10; 13; 32] ++ chars "#$%:;=|\&~*?[")).
    { intros J. assert (T : existsb (Z.eqb c) ([0; 9; 10; 13; 32] ++ chars "#$%:;=|\&~*?[") = true) by (apply existsb_exists; exists c; split; [exact J|apply Z.eqb_refl]). congruence. }
    rewrite in_app_iff in G. unfold name_char. repeat split; try (intros ->; apply G; left; cbn; tauto). tauto. }
  split; [reflexivity|]. repeat apply Forall_cons; try apply Forall_nil; split; cbn [fst snd read_files flat_map app]; repeat apply Forall_cons; try apply Forall_nil; apply K; try discriminate; vm_compute; reflexivity.
Qed.

(** A path with a blank is written as it is and read as two prerequisites. *)
Theorem dependency_blanks_refuted : exists mt inputs ss s ps,
  compile_all_deps [(mt, inputs)] dep_start = Ok ss /\ ss = [s] /\ rule [mt] ps s /\ (forall ts qs, rule ts qs s -> qs <> read_files inputs).
Proof.
  exists (chars "a.o"), [Some (chars "my file.c")], [chars "a.o: my file.c" ++ [10]], (chars "a.o: my file.c" ++ [10]), [chars "my"; chars "file.c"].
  assert (K : forall w, w <> [] -> Forall name_char w -> name w) by (split; auto).
  assert (R : rule [chars "a.o"] [chars "my"; chars "file.c"] (chars "a.o: my file.c" ++ [10])).
  { assert (M : forall w, In w [chars "a.o"; chars "my"; chars "file.c"] -> name w).
    { intros w I. apply K; [cbn in I; intuition (subst; discriminate)|]. cbn in I. destruct I as [<-|[<-|[<-|[]]]]; repeat apply Forall_cons; try apply Forall_nil; unfold name_char; (repeat split; try discriminate); vm_compute; intuition discriminate. }
    exists (chars "a.o"), (chars " my file.c"). split; [reflexivity|]. split.
    - apply (w_name [] (chars "a.o") [] []); [constructor|apply M; cbn; tauto|constructor; constructor|auto].
    - apply (w_name [32] (chars "my") _ (chars " file.c")); [constructor; auto; constructor|apply M; cbn; tauto| |right; exists 32, (chars "file.c"); auto].
      apply (w_name [32] (chars "file.c") [] []); [constructor; auto; constructor|apply M; cbn; tauto|constructor; constructor|auto]. }
  split; [reflexivity|]. split; [reflexivity|]. split; [exact R|]. intros ts qs R2 E. destruct (rule_unique _ _ _ _ _ R R2) as [_ E2]. rewrite E in E2. discriminate.
Qed.
Print Assumptions dependency_blanks_refuted.

(** The result of opening the dependency file is not looked at. *)
Theorem dependency_file_refuted : forall mt inputs d, compile_deps false mt inputs d = Undef.
Proof. reflexivity. Qed.
Print Assumptions dependency_file_refuted.
