(** Proofs about file inclusion. *)
From Coq Require Import String.
From Verif Require Import Base CharTypes Tokens Arch CTypesSpec MacroTable MacroTableSpec MacroTableProofs StringSet Fuel Expander ExpanderSpec ExpanderProofs
  PPExpr PPExprSpec C17Props C59Props Directives CondInclSpec CondInclProofs InclSpec.

(** The directory of the including file. *)
Lemma dir_length_base b : forall i best, ~ In 47 b -> dir_length b i best = best.
Proof.
  induction b as [|c b IH]; intros i best H; [reflexivity|]. cbn [dir_length]. cbn [In] in H.
  destruct (c =? 47) eqn:E; [apply Z.eqb_eq in E; tauto|]. apply IH. tauto.
Qed.
Lemma dir_length_slash d : forall b i best, ~ In 47 b -> dir_length ((d ++ [47]) ++ b) i best = (i + length d + 1)%nat.
Proof.
  induction d as [|c d IH]; intros b i best H; cbn [app dir_length length].
  - rewrite Z.eqb_refl, dir_length_base by auto. lia.
  - rewrite IH by auto. lia.
Qed.
Lemma directory_is p d : directory p d -> firstn (dir_length p 0 0) p = d.
Proof.
  intros (b & -> & H & [-> | (d' & ->)]).
  - cbn [app]. rewrite dir_length_base by auto. reflexivity.
  - rewrite dir_length_slash by auto. cbn [Nat.add].
    replace (length d' + 1)%nat with (length (d' ++ [47%Z])) by (rewrite app_length; reflexivity).
    rewrite firstn_app, firstn_all, Nat.sub_diag. cbn [firstn]. apply app_nil_r.
Qed.
Lemma inner_ends a n b : inner ([a] ++ n ++ [b]) = n.
Proof.
  unfold inner. cbn [app skipn length]. rewrite app_length. cbn [length].
  replace (S (length n + 1) - 2)%nat with (length n) by lia. rewrite firstn_app, firstn_all, Nat.sub_diag. cbn [firstn]. apply app_nil_r.
Qed.
Lemma find_first (f : list Z -> bool) l1 p l2 : Forall (fun q => f q = false) l1 -> f p = true -> find f (l1 ++ p :: l2) = Some p.
Proof. intros H E. induction H as [|q l Hq _ IH]; cbn [app find]; [rewrite E; reflexivity|]. rewrite Hq. exact IH. Qed.
Lemma opened fs search dis from system name p l : header fs search from system name p l ->
  input_open fs search dis from name system = Ok (if string_set_contains dis p then None else Some (p, l)).
Proof.
  intros (b & a & P & B & E). unfold input_open.
  assert (C : (if system then [] else [firstn (dir_length from 0 0) from ++ name]) ++ map (fun d => d ++ 47 :: name) search = b ++ p :: a).
  { clear -P. remember (b ++ p :: a) as L. clear HeqL. destruct P as [n|n d D]; [reflexivity|]. rewrite (directory_is from d D). reflexivity. }
  rewrite C, (find_first _ b p a).
  - rewrite E. destruct (string_set_contains dis p); reflexivity.
  - eapply Forall_impl; [|exact B]. cbv beta. intros q ->. reflexivity.
  - rewrite E. reflexivity.
Qed.

Section Run.
Variables (m : abi) (fs : fsys) (search : list (list Z)).
Notation Step := (Step m fs search).
Notation yields := (yields m fs search).

(** The end of an included file. *)
Lemma Step_pop p p' ps dis r env c cs :
  Step (mk p' ({| rest := r; pushed := []; path := p |} :: ps) dis [] env (c :: cs)) (mk p ps dis r env (c :: cs)).
Proof.
  exists O, O. intros n _. cbn [Nat.add]. unfold directiver_next, mk. cbn [conds].
  unfold next. cbn [cur parents line_diff next_in pushed rest path]. 
  destruct (next_in 0 _ ps) as [[t f] q]. rewrite shift_line_0. reflexivity.
Qed.
Lemma Step_pop_pushed p p' ps dis t r env c cs :
  Step (mk p' ({| rest := r; pushed := [t]; path := p |} :: ps) dis [] env (c :: cs)) (mk p ps dis (t :: r) env (c :: cs)).
Proof.
  exists O, O. intros n _. cbn [Nat.add]. rewrite dnext_mk. unfold directiver_next, mk. cbn [conds].
  unfold next. destruct ps; cbn [cur parents line_diff next_in pushed rest path]; rewrite !shift_line_0; reflexivity.
Qed.
(** A directive after which the loop goes on, in whatever file. *)
Lemma Step_any p ps dis h d l env c cs st c' cs' N : hash_token h -> fol d = false -> ty d = T_IDENT -> conds st = c' :: cs' ->
  (forall n, (N <= n)%nat -> do_directive n m fs search h d (mk p ps dis l env (c :: cs)) = Some (Ok (false, st))) ->
  Step (mk p ps dis (h :: d :: l) env (c :: cs)) st.
Proof.
  intros H Fd Hd C D. exists 1%nat, N. intros n Hn. cbn [Nat.add]. rewrite dloop_dir by auto. rewrite D by auto. cbn [exbind].
  unfold directiver_next. rewrite C. reflexivity.
Qed.
Ltac name D := repeat rewrite (is_eq _ _ _ D);
  repeat match goal with |- context [sv_cmp (chars ?a) (chars ?b)] => let v := eval vm_compute in (sv_cmp (chars a) (chars b)) in change (sv_cmp (chars a) (chars b)) with v end;
  cbn [orb andb negb].
Lemma do_include_line n h d p ps dis l env cs : text d = chars "include" ->
  do_directive n m fs search h d (mk p ps dis l env (1 :: cs)) =
  (let! st1 := do_include n fs search (mk p ps dis l env (1 :: cs)) in ok (false, st1)).
Proof.
  intros D. unfold do_directive, top_cond. cbn [conds mk exbind]. change {| cur := _ |} with (mk p ps dis l env (1 :: cs)).
  unfold is_if, is_elif. name D. change (1 =? 1) with true. cbn iota. reflexivity.
Qed.
Lemma do_pragma_line n h d p ps dis w l env cs : text d = chars "pragma" -> text w = chars "once" ->
  do_directive n m fs search h d (mk p ps dis (w :: l) env (1 :: cs)) = Some (Ok (false, mk p ps (string_set_insert dis p) l env (1 :: cs))).
Proof.
  intros D W. unfold do_directive, top_cond. cbn [conds mk exbind]. change {| cur := _ |} with (mk p ps dis (w :: l) env (1 :: cs)).
  unfold is_if, is_elif. name D. change (1 =? 1) with true. cbn iota. unfold handle_pragma. rewrite next_mk.
  rewrite (is_true w "once" W). reflexivity.
Qed.
(** The state after an #include line with its rest of the file. *)
Definition entered p ps dis l env cs (f : dfile) : dstate :=
  {| cur := {| rest := l; pushed := []; path := p |}; parents := f :: ps; macros := env; conds := cs; line_diff := 0; disabled := dis |}.

Lemma include_line env ms args system name p lp from ps dis rest cs l :
  directive "include" args l -> names env args system name -> header fs search from system name p lp -> Renv env ms ->
  after rest \/ ~ by_macros args ->
  (In p dis -> Step (mk from ps dis (l ++ rest) ms (1 :: cs)) (mk from ps dis rest ms (1 :: cs))) /\
  (~ In p dis -> exists f, Step (mk from ps dis (l ++ rest) ms (1 :: cs)) (mk p (f :: ps) dis lp ms (1 :: cs)) /\
     forall dis' ms' cs', Step (mk p (f :: ps) dis' [] ms' (1 :: cs')) (mk from ps dis' rest ms' (1 :: cs'))).
Proof.
  intros (h & d & -> & Hh & (Fd & Td & Xd) & Fa) NM HD RE A. cbn [app].
  pose proof (opened fs search dis from system name p lp HD) as OP.
  assert (DIRECT : forall x, args = [x] -> (ty x = PP_HEADER_NAME_H \/ ty x = PP_HEADER_NAME_Q) -> inner (text x) = name -> (ty x =? PP_HEADER_NAME_H) = system ->
     forall n, do_include n fs search (mk from ps dis (args ++ rest) ms (1 :: cs)) =
       Some (Ok (if string_set_contains dis p then mk from ps dis rest ms (1 :: cs)
                 else mk p ({| rest := rest; pushed := []; path := from |} :: ps) dis lp ms (1 :: cs)))).
  { intros x -> TX IN SY n. cbn [app]. unfold do_include. change (with_line_diff (mk from ps dis (x :: rest) ms (1 :: cs)) 0) with (mk from ps dis (x :: rest) ms (1 :: cs)).
    rewrite next_mk. assert (T : (ty x =? PP_HEADER_NAME_H) || (ty x =? PP_HEADER_NAME_Q) = true) by (destruct TX as [-> | ->]; reflexivity).
    rewrite T, IN, SY. unfold push_input. change (disabled (mk from ps dis rest ms (1 :: cs))) with dis. change (path (cur (mk from ps dis rest ms (1 :: cs)))) with from.
    rewrite OP. destruct (string_set_contains dis p); reflexivity. }
  assert (FIN : forall x, args = [x] -> (ty x = PP_HEADER_NAME_H \/ ty x = PP_HEADER_NAME_Q) -> inner (text x) = name -> (ty x =? PP_HEADER_NAME_H) = system ->
     (In p dis -> Step (mk from ps dis (h :: d :: args ++ rest) ms (1 :: cs)) (mk from ps dis rest ms (1 :: cs))) /\
     (~ In p dis -> exists f, Step (mk from ps dis (h :: d :: args ++ rest) ms (1 :: cs)) (mk p (f :: ps) dis lp ms (1 :: cs)) /\
     forall dis' ms' cs', Step (mk p (f :: ps) dis' [] ms' (1 :: cs')) (mk from ps dis' rest ms' (1 :: cs')))).
  { intros x AE TX IN SY. specialize (DIRECT x AE TX IN SY). split.
    - intros I. apply contains_in in I. rewrite I in DIRECT. eapply (Step_any _ _ _ _ _ _ _ _ _ _ 1 cs O); auto. intros n _; rewrite do_include_line, DIRECT by auto; reflexivity.
    - intros I. assert (C : string_set_contains dis p = false) by (destruct (string_set_contains dis p) eqn:C; auto; apply contains_in in C; contradiction).
      rewrite C in DIRECT. eexists. split.
      + eapply (Step_any _ _ _ _ _ _ _ _ _ _ 1 cs O); auto. intros n _; rewrite do_include_line, DIRECT by auto; reflexivity.
      + intros dis' ms' cs'. apply Step_pop. }
  destruct NM as [x name EA TX AN|x name EA TX AN|s name BM GT PL RP QU].
  - apply (FIN x); auto; [|rewrite TX; reflexivity]. unfold angle in AN. rewrite AN. apply inner_ends.
  - apply (FIN x); auto; [|rewrite TX; reflexivity]. unfold quoted in AN. rewrite AN. apply inner_ends.
  - destruct A as [A|A]; [|contradiction]. destruct rest as [|t r]; [contradiction|]. destruct A as [Ft _].
    set (lk := lookup (mkp from ps dis t r ms (1 :: cs))).
    assert (L : forall n, lk n = option_map clean (env n)) by (intros n; apply (Renv_lookup env ms); auto).
    assert (Q : Forall (fun t => plain lk (obs t) /\ e_hs t = []) (map dt args)).
    { rewrite Forall_map. clear -PL Fa L. induction PL as [|a l P _ IH]; inversion Fa as [|? ? F1 F2]; subst; constructor; auto. split; [apply (same_plain lk env L); auto|].
      destruct F1 as (_ & _ & _ & X). exact X. }
    destruct (C59_expand_line lk from (map dt args) {| ib := []; feed := [] |} (same_table lk env L GT) Q) as (f0 & out & R2 & X).
    assert (E2 : map obs out = [(T_STRING, s)]).
    { rewrite map_map in R2. eapply replaced_det; [exact R2|]. apply (same_replaced lk env L). exact RP. }
    destruct out as [|o [|]]; try discriminate. cbn [map] in E2. injection E2 as E2 E3.
    assert (NH : args <> []) by (intros ->; inversion RP).
    assert (DI : forall n, (length args + 2 + f0 <= n)%nat -> do_include n fs search (mk from ps dis (args ++ t :: r) ms (1 :: cs)) =
       Some (push_input fs search name false (mkp from ps dis t r ms (1 :: cs)))).
    { intros n Hn. unfold do_include. change (with_line_diff (mk from ps dis (args ++ t :: r) ms (1 :: cs)) 0) with (mk from ps dis (args ++ t :: r) ms (1 :: cs)).
      pose proof (read_line_all from ps dis args n t r ms (1 :: cs) (Forall_fol _ Fa) Ft ltac:(lia)) as RL.
      destruct args as [|a0 ar]; [contradiction|]. cbn [app] in *. rewrite next_mk in *. cbv iota beta in RL |- *.
      destruct (BM a0 ar eq_refl) as [B1 B2]. rewrite (proj2 (Z.eqb_neq _ _) B1), (proj2 (Z.eqb_neq _ _) B2). cbn [orb]. rewrite RL. cbn [exbind].
      change (path (cur (mkp from ps dis t r ms (1 :: cs)))) with from. fold lk. rewrite X by lia. cbn [exbind]. rewrite E2. change (T_STRING =? T_STRING) with true. cbn iota.
      rewrite E3. unfold quoted in QU. rewrite QU, inner_ends. reflexivity. }
    assert (PI : push_input fs search name false (mkp from ps dis t r ms (1 :: cs)) =
       Ok (if string_set_contains dis p then mkp from ps dis t r ms (1 :: cs)
           else mk p ({| rest := r; pushed := [t]; path := from |} :: ps) dis lp ms (1 :: cs))).
    { unfold push_input. change (disabled (mkp from ps dis t r ms (1 :: cs))) with dis. change (path (cur (mkp from ps dis t r ms (1 :: cs)))) with from.
      rewrite OP. destruct (string_set_contains dis p); reflexivity. }
    rewrite PI in DI. split.
    + intros I. apply contains_in in I. rewrite I in DI.
      apply (Step_dirp m fs search from ps dis h d _ ms 1 cs t r ms 1 cs (length args + 2 + f0)%nat); auto.
      intros n Hn. rewrite do_include_line, DI by auto. reflexivity.
    + intros I. assert (C : string_set_contains dis p = false) by (destruct (string_set_contains dis p) eqn:C; auto; apply contains_in in C; contradiction).
      rewrite C in DI. eexists. split.
      * eapply (Step_any _ _ _ _ _ _ _ _ _ _ 1 cs (length args + 2 + f0)%nat); auto. intros n Hn; rewrite do_include_line, DI by auto; reflexivity.
      * intros dis' ms' cs'. apply Step_pop_pushed.
Qed.

Scheme included_mut := Induction for included Sort Prop with included_tail_mut := Induction for included_tail Sort Prop.
Combined Scheme included_ind2 from included_mut, included_tail_mut.

Definition Rm (env : menv) (o : once) (ms : mstate) (dis : list (list Z)) : Prop := Renv env ms /\ forall p, o p <-> In p dis.
Lemma Rm_once env o ms dis p : Rm env o ms dis -> Rm env (fun q => o q \/ q = p) ms (string_set_insert dis p).
Proof. intros [A B]. split; auto. intros q. rewrite insert_in, B. tauto. Qed.
Lemma ends_next g x l rest : (x = Null \/ exists d a, x = Def d a) -> after rest \/ ends_well (Line x g) -> written g l -> after (l ++ rest).
Proof.
  intros X H W. apply (written_after' g); auto. destruct H as [H|H]; auto. left. intros ->. destruct X as [-> |(d & a & ->)]; exact H.
Qed.
Lemma ends_include g ol args l rest : directive "include" args ol -> after rest \/ ends_well (Line (Other ol) g) -> written g l -> after (l ++ rest) \/ ~ by_macros args.
Proof.
  intros D H W. destruct H as [H|H]; [left; eapply written_after; eauto|].
  destruct g as [|x g|c b t g]; [right|left; apply (written_after' (Line x g)); auto; left; discriminate|left; apply (written_after' (Section_ c b t g)); auto; left; discriminate].
  cbn [ends_well] in H. intros B. apply H. exists args. auto.
Qed.

Lemma included_yields :
  (forall from env o g env' o' out, included m fs search from env o g env' o' out -> forall ps dis l rest ms cs, written g l -> Rm env o ms dis ->
     after rest \/ ends_well g ->
     exists ms' dis', Rm env' o' ms' dis' /\ forall out', yields (mk from ps dis' rest ms' (1 :: cs)) out' -> yields (mk from ps dis (l ++ rest) ms (1 :: cs)) (out ++ out')) /\
  (forall from env o t env' o' out, included_tail m fs search from env o t env' o' out -> forall ps dis l rest ms cs, written_tail t l -> Rm env o ms dis ->
     exists ms' dis', Rm env' o' ms' dis' /\ forall out', yields (mk from ps dis' rest ms' (1 :: cs)) out' -> yields (mk from ps dis (l ++ rest) ms (0 :: 1 :: cs)) (out ++ out')).
Proof.
  assert (LO : forall x g rest, after rest \/ ends_well (Line x g) -> after rest \/ ends_well g).
  { intros x g rest [H|H]; auto. right. destruct g; [exact I| |]; destruct x; exact H. }
  apply (included_ind2 m fs search (fun from env o g env' o' out _ => forall ps dis l rest ms cs, written g l -> Rm env o ms dis -> after rest \/ ends_well g ->
     exists ms' dis', Rm env' o' ms' dis' /\ forall out', yields (mk from ps dis' rest ms' (1 :: cs)) out' -> yields (mk from ps dis (l ++ rest) ms (1 :: cs)) (out ++ out'))
     (fun from env o t env' o' out _ => forall ps dis l rest ms cs, written_tail t l -> Rm env o ms dis ->
     exists ms' dis', Rm env' o' ms' dis' /\ forall out', yields (mk from ps dis' rest ms' (1 :: cs)) out' -> yields (mk from ps dis (l ++ rest) ms (0 :: 1 :: cs)) (out ++ out'))).
  - intros from env o ps dis l rest ms cs -> RE _. exists ms, dis. auto.
  - intros from env o x g env' o' out _ IH ps dis l rest ms cs (l1 & l2 & -> & W1 & W2) RE A.
    destruct (IH ps dis l2 rest ms cs W2 RE (LO _ _ _ A)) as (ms' & dis' & RE' & Y). exists ms', dis'. split; auto. intros out' Z.
    rewrite <- !app_assoc. inversion W1; subst. apply yields_text; auto. constructor; [auto|]. apply inline_text; auto.
  - intros from env o d a g env' o' out _ IH ps dis l rest ms cs (l1 & l2 & -> & W1 & W2) RE A.
    destruct (Renv_define env ms d (proj1 RE)) as (ms1 & M & RE1).
    destruct (IH ps dis l2 rest ms1 cs W2 (conj RE1 (proj2 RE)) (LO _ _ _ A)) as (ms' & dis' & RE' & Y). exists ms', dis'. split; auto. intros out' Z. specialize (Y _ Z).
    pose proof (ends_next g (Def d a) l2 rest (or_intror (ex_intro _ d (ex_intro _ a eq_refl))) A W2) as AF.
    rewrite <- app_assoc. inversion W1 as [|d' args l' DF DR| | |]; subst. destruct DR as (h & dd & -> & Hh & (Fd & Td & Xd) & Fa).
    destruct (l2 ++ rest) as [|t r]; [contradiction|]. eapply Step_yields; [|exact Y]. cbn [app].
    apply (Step_dirp m fs search from ps dis h dd _ _ _ _ _ _ _ _ _ (length a + 2)%nat); auto. intros n Hn. apply do_define; auto. eapply define_line; eauto.
  - intros from env o x g env' o' out _ IH ps dis l rest ms cs (l1 & l2 & -> & W1 & W2) RE A.
    destruct (Renv_undef env ms (text x) (proj1 RE)) as (ms1 & M & RE1).
    destruct (IH ps dis l2 rest ms1 cs W2 (conj RE1 (proj2 RE)) (LO _ _ _ A)) as (ms' & dis' & RE' & Y). exists ms', dis'. split; auto. intros out' Z. specialize (Y _ Z).
    rewrite <- app_assoc. inversion W1 as [| |n' l' DR| |]; subst. destruct DR as (h & dd & -> & Hh & (Fd & Td & Xd) & Fa).
    eapply Step_yields; [|exact Y]. cbn [app]. apply (Step_dir m fs search from ps dis h dd _ _ _ _ _ _ _ _ O); auto. intros n _. apply do_undef; auto.
  - intros from env o g env' o' out _ IH ps dis l rest ms cs (l1 & l2 & -> & W1 & W2) RE A.
    destruct (IH ps dis l2 rest ms cs W2 RE (LO _ _ _ A)) as (ms' & dis' & RE' & Y). exists ms', dis'. split; auto. intros out' Z. specialize (Y _ Z).
    pose proof (ends_next g Null l2 rest (or_introl eq_refl) A W2) as AF.
    rewrite <- app_assoc. inversion W1 as [| | |h Hh|]; subst. destruct (l2 ++ rest) as [|t r]; [contradiction|]. destruct AF as [AF _].
    eapply Step_yields; [|exact Y]. apply Step_null; auto.
  - intros from env o w ol g env' o' out D Xw _ IH ps dis l rest ms cs (l1 & l2 & -> & W1 & W2) RE A.
    destruct (IH ps (string_set_insert dis from) l2 rest ms cs W2 (Rm_once _ _ _ _ from RE) (LO _ _ _ A)) as (ms' & dis' & RE' & Y). exists ms', dis'. split; auto. intros out' Z. specialize (Y _ Z).
    assert (E : l1 = ol) by (inversion W1; subst; reflexivity). subst l1. rewrite <- app_assoc.
    destruct D as (h & d & -> & Hh & (Fd & Td & Xd) & Fa). eapply Step_yields; [|exact Y]. cbn [app].
    eapply (Step_any _ _ _ _ _ _ _ _ _ _ 1 cs O); auto. intros n _; apply do_pragma_line; auto.
  - intros from env o args ol system name p lp gp g env1 o1 env' o' out1 out2 D NM HD NO WP EP _ IHp _ IHg ps dis l rest ms cs (l1 & l2 & -> & W1 & W2) RE A.
    assert (E : l1 = ol) by (inversion W1; subst; reflexivity). subst l1.
    destruct (include_line env ms args system name p lp from ps dis (l2 ++ rest) cs ol D NM HD (proj1 RE) (ends_include _ _ _ _ _ D A W2)) as [_ IL].
    destruct IL as (f & S1 & S2); [intros I; apply NO; apply (proj2 RE); exact I|].
    destruct (IHp (f :: ps) dis lp [] ms cs WP RE (or_intror EP)) as (ms1 & dis1 & RE1 & Y1).
    destruct (IHg ps dis1 l2 rest ms1 cs W2 RE1 (LO _ _ _ A)) as (ms' & dis' & RE' & Y2).
    exists ms', dis'. split; auto. intros out' Z. rewrite <- !app_assoc. eapply Step_yields; [exact S1|]. rewrite <- (app_nil_r lp). apply Y1.
    eapply Step_yields; [apply S2|]. apply Y2. exact Z.
  - intros from env o args ol system name p lp g env' o' out D NM HD NO _ IH ps dis l rest ms cs (l1 & l2 & -> & W1 & W2) RE A.
    assert (E : l1 = ol) by (inversion W1; subst; reflexivity). subst l1.
    destruct (include_line env ms args system name p lp from ps dis (l2 ++ rest) cs ol D NM HD (proj1 RE) (ends_include _ _ _ _ _ D A W2)) as [IL _].
    destruct (IH ps dis l2 rest ms cs W2 RE (LO _ _ _ A)) as (ms' & dis' & RE' & Y). exists ms', dis'. split; auto. intros out' Z.
    rewrite <- app_assoc. eapply Step_yields; [apply IL; apply (proj2 RE); exact NO|]. auto.
  - intros from env o c body t g env1 o1 env' o' out1 out2 D _ IHb _ IHg ps dis l rest ms cs (l1 & l2 & l3 & l4 & -> & W1 & W2 & W3 & W4) RE A.
    destruct (IHb ps dis l2 (l3 ++ l4 ++ rest) ms (1 :: cs) W2 RE) as (ms1 & dis1 & RE1 & Y1); [left; eapply written_tail_after; eauto|].
    destruct (IHg ps dis1 l4 rest ms1 cs W4 RE1) as (ms' & dis' & RE' & Y2); [exact A|].
    exists ms', dis'. split; auto. intros out' Z. rewrite <- !app_assoc.
    eapply Step_yields; [apply (eval_cond m fs search from ps dis true c l1 _ env ms true cs W1 (proj1 RE) D); eapply written_after; eauto; eapply written_tail_after; eauto|].
    cbn iota. apply Y1. eapply Step_yields; [apply (tail_done m fs search from ps dis1 t); auto|]. auto.
  - intros from env o c body t g env1 o1 env' o' out1 out2 D _ IHt _ IHg ps dis l rest ms cs (l1 & l2 & l3 & l4 & -> & W1 & W2 & W3 & W4) RE A.
    destruct (IHt ps dis l3 (l4 ++ rest) ms cs W3 RE) as (ms1 & dis1 & RE1 & Y1).
    destruct (IHg ps dis1 l4 rest ms1 cs W4 RE1) as (ms' & dis' & RE' & Y2); [exact A|].
    exists ms', dis'. split; auto. intros out' Z. rewrite <- !app_assoc.
    eapply Step_yields; [apply (eval_cond m fs search from ps dis true c l1 _ env ms false cs W1 (proj1 RE) D); eapply written_after; eauto; eapply written_tail_after; eauto|].
    cbn iota. eapply Step_yields; [apply (proj1 (skipped m fs search from ps dis) body); auto; [discriminate|eapply written_tail_after; eauto]|]. auto.
  - intros from env o ps dis l rest ms cs W RE. exists ms, dis. split; auto. intros out' Z. eapply Step_yields; [apply Step_endif; auto|]. auto.
  - intros from env o body env' o' out _ IH ps dis l rest ms cs (l1 & l2 & l3 & -> & W1 & W2 & W3) RE.
    destruct (IH ps dis l2 (l3 ++ rest) ms (1 :: cs) W2 RE) as (ms' & dis' & RE' & Y); [left; eapply directive_after; eauto|].
    exists ms', dis'. split; auto. intros out' Z. rewrite <- !app_assoc.
    eapply Step_yields; [apply eval_else; auto; eapply written_after; eauto; eapply directive_after; eauto|].
    apply Y. eapply Step_yields; [apply Step_endif; auto|]. auto.
  - intros from env o c body t env' o' out D _ IH ps dis l rest ms cs (l1 & l2 & l3 & -> & W1 & W2 & W3) RE.
    destruct (IH ps dis l2 (l3 ++ rest) ms (1 :: cs) W2 RE) as (ms' & dis' & RE' & Y); [left; eapply written_tail_after; eauto|].
    exists ms', dis'. split; auto. intros out' Z. rewrite <- !app_assoc.
    eapply Step_yields; [apply (eval_cond m fs search from ps dis false c l1 _ env ms true (1 :: cs) W1 (proj1 RE) D); eapply written_after; eauto; eapply written_tail_after; eauto|].
    cbn iota. apply Y. eapply Step_yields; [apply (tail_done m fs search from ps dis' t); auto|]. auto.
  - intros from env o c body t env' o' out D _ IH ps dis l rest ms cs (l1 & l2 & l3 & -> & W1 & W2 & W3) RE.
    destruct (IH ps dis l3 rest ms cs W3 RE) as (ms' & dis' & RE' & Y).
    exists ms', dis'. split; auto. intros out' Z. rewrite <- !app_assoc.
    eapply Step_yields; [apply (eval_cond m fs search from ps dis false c l1 _ env ms false (1 :: cs) W1 (proj1 RE) D); eapply written_after; eauto; eapply written_tail_after; eauto|].
    cbn iota. eapply Step_yields; [apply (proj1 (skipped m fs search from ps dis) body); auto; [discriminate|eapply written_tail_after; eauto]|]. auto.
Qed.
End Run.
