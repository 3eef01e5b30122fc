(** Proofs for C79: replacement lists with ##. *)
From Coq Require Import String.
From Verif Require Import Base CharTypes Tokens MacroTable MacroTableSpec MacroTableProofs StringSet C17Props Fuel Expander ExpanderSpec ExpanderProofs CallProofs TokenizerSpec ScanProofs PasteSpec PasteProofs.
Local Open Scope Z_scope.
Local Open Scope list_scope.

Section Groups.
Variables (lk : list Z -> option define) (path : list Z) (fuel : nat) (d : define) (args : list (list etok)) (line : Z) (input : bool).
Hypothesis Func : d_func d = true.
Hypothesis Count : length args = length (d_par d).
Hypothesis Inert : Forall (fun a => Forall (inert_t lk) a /\ (length a < fuel)%nat) args.
Let params := map k_str (d_par d).
Let oargs := map (map obs) args.
Let run := body_loop (fun i s => expand_buffer fuel lk path i [] s) d args [] false line input.
Definition hh (t : mtoken) : Prop := k_type t = PP_HHASH.
(** The tokens an operand stands for. *)
Let val (t : mtoken) : list token := value params oargs (mobs t).
Definition operand (t : mtoken) : Prop := operator_free (mobs t).
Definition quiet (r : list mtoken) : Prop := match r with [] => True | p :: _ => k_type p <> PP_HHASH /\ k_type p <> PP_HASH end.

Lemma param_value t : match get_param d t with
  | Some i => exists a, nth_error args i = Some a /\ map obs a = val t /\ Forall (inert_t lk) a /\ (length a < fuel)%nat
  | None => val t = [mobs t] end.
Proof.
  unfold get_param. rewrite Func. cbn [negb orb]. unfold val, value. cbn [mobs fst snd]. destruct (k_type t =? T_IDENT) eqn:EI; cbn [negb]; [|reflexivity].
  rewrite (index_position lk). fold params. destruct (position params (k_str t)) as [i|] eqn:EP; [|reflexivity]. cbn [Nat.add].
  pose proof (CallProofs.position_lt lk _ _ _ EP) as Hi. unfold params in Hi. rewrite map_length in Hi.
  destruct (nth_error args i) as [a|] eqn:EA; [|apply nth_error_None in EA; lia]. exists a. split; [reflexivity|].
  pose proof (proj1 (Forall_forall _ _) Inert a (nth_error_In _ _ EA)) as [Ia La]. split; [|split; assumption].
  unfold oargs. rewrite (nth_indep _ [] (map obs [])) by (rewrite map_length; lia). rewrite map_nth. f_equal. symmetry. apply nth_error_nth. exact EA.
Qed.

(** Scanning the tokens that are left of an argument. *)
Lemma scan_rest l s : Forall (inert_t lk) l -> (length l < fuel)%nat ->
  expand_buffer fuel lk path input [] (push_all (push s eoi_token) l) = ok (l, s).
Proof.
  intros HI HL. unfold push_all, push. cbn [ib feed]. replace fuel with (length l + S (fuel - S (length l)))%nat by lia.
  rewrite inert_buffer by exact HI. cbn [app expand_buffer ib length Nat.eqb]. rewrite orb_true_r. cbn [negb]. unfold take. cbn [ib exbind feed eoi_token e_type].
  change (T_EOI =? T_EOI) with true. cbn iota. destruct s; reflexivity.
Qed.
Definition touched (t : mtoken) (l : list etok) : list etok :=
  map_last (fun x => with_wsa x (e_wsa x || k_ws_after t)) (map_first (fun x => with_ws x (e_ws x || k_ws t)) l).
Lemma touched_obs t l : map obs (touched t l) = map obs l.
Proof. unfold touched. rewrite map_last_map, map_first_map by reflexivity. reflexivity. Qed.
Lemma touched_inert t l : Forall (inert_t lk) l -> Forall (inert_t lk) (touched t l).
Proof. apply inert_obs. symmetry. apply touched_obs. Qed.
Lemma touched_length t l : length (touched t l) = length l.
Proof. rewrite <- (map_length obs), touched_obs, map_length. reflexivity. Qed.

Lemma finish t c l s : Forall (inert_t lk) l -> (length l < fuel)%nat ->
  (let again := negb (c || false) in
   let s2 := if again then push s eoi_token else s in
   let s3 := push_all s2 (touched t l) in
   if again then let! (out, s4) := expand_buffer fuel lk path input [] s3 in ok (push_all s4 out) else ok s3) = ok (push_all s (touched t l)).
Proof.
  intros HI HL. destruct c; cbn [orb negb]; cbv zeta; [reflexivity|].
  rewrite scan_rest; [reflexivity|apply touched_inert; exact HI|rewrite touched_length; exact HL].
Qed.
(** An argument that nothing is pasted to. *)
Lemma argument_alone t a c s : Forall (inert_t lk) a -> (length a < fuel)%nat ->
  expand_argument (fun i s => expand_buffer fuel lk path i [] s) t a false c false input s = ok (push_all s (touched t a)).
Proof. intros HI HL. unfold expand_argument. unfold ok at 1. cbn [exbind]. exact (finish t c a s HI HL). Qed.
Lemma argument_none t c s : expand_argument (fun i s => expand_buffer fuel lk path i [] s) t [] true c false input s = ok (push_all s []) \/ fuel = O.
Proof.
  destruct (Nat.eq_dec fuel 0) as [F|F]; [right; exact F|left]. unfold expand_argument. cbn [rev]. unfold ok at 1. cbn [exbind].
  apply (finish t c [] s); [constructor|cbn; lia].
Qed.
(** An argument whose last token is pasted. *)
Lemma argument_pasted t l x c y R s0 g : Forall (inert_t lk) l -> (length l < fuel)%nat -> glue y x = Ok g ->
  expand_argument (fun i s => expand_buffer fuel lk path i [] s) t (l ++ [x]) true c false input (push_all s0 (y :: R)) = ok (push_all s0 (touched t l ++ g :: R)).
Proof.
  intros HI HL G. unfold expand_argument. rewrite rev_app_distr. cbn [rev app]. unfold top, push_all at 1. cbn [ib app]. cbn [exbind]. rewrite G. cbn [exbind].
  unfold ok at 1. cbn [exbind]. rewrite rev_involutive. unfold replace_top. cbn [ib tl feed push_all app].
  change (map_last _ _) with (touched t l). rewrite (finish t c l _ HI HL). unfold push_all. cbn [ib feed]. rewrite <- app_assoc. reflexivity.
Qed.

(** One operand. [c]: it is preceded by ##. *)
Definition preceded (c : bool) (h : mtoken) (r : list mtoken) : list mtoken := if c then h :: r else r.
Definition good_prev (c : bool) (h : mtoken) (r : list mtoken) : Prop := if c then hh h else quiet r.
Definition some {A} (l : list A) : bool := match l with [] => false | _ => true end.
Lemma prev_type c h r : good_prev c h r ->
  (match preceded c h r with [] => 0 | p :: _ => k_type p end =? PP_HHASH) = c /\ (match preceded c h r with [] => 0 | p :: _ => k_type p end =? PP_HASH) = false.
Proof.
  destruct c; cbn [preceded good_prev]; intros H.
  - unfold hh in H. rewrite H. split; reflexivity.
  - destruct r as [|p r]; [split; reflexivity|]. destruct H as [H1 H2]. split; apply Z.eqb_neq; assumption.
Qed.
Lemma skip_prev c h r : (if c || false then match preceded c h r with _ :: r' => r' | [] => preceded c h r end else preceded c h r) = r.
Proof. destruct c; reflexivity. Qed.

Lemma step_alone t c h r s : operand t -> good_prev c h r ->
  exists L, map obs L = val t /\ run (t :: preceded c h r) false s = run r (c && some (val t)) (push_all s L).
Proof.
  intros (N1 & N2 & N3) GP. cbn [mobs fst snd] in N1, N2, N3. destruct (prev_type _ _ _ GP) as [P1 P2]. unfold run. cbn [body_loop]. rewrite P1, P2.
  rewrite (eqb_neq _ _ N2), (sv_string_cmp_false _ _ N3). rewrite skip_prev. pose proof (param_value t) as V. destruct (get_param d t) as [i|].
  - destruct V as (a & EA & Va & Ia & La). rewrite EA. unfold ok at 1. cbn [exbind]. rewrite argument_alone by assumption. unfold ok at 1 2. cbn [exbind].
    exists (touched t a). split; [rewrite touched_obs; exact Va|]. rewrite <- Va. f_equal. destruct a, c; reflexivity.
  - unfold ok at 1. cbn [exbind]. unfold ok at 1. cbn [exbind]. exists [with_line (of_mtoken t) line]. split; [rewrite V; reflexivity|]. rewrite V. cbn [some]. destruct c; reflexivity.
Qed.
Lemma step_none t c h r s : operand t -> good_prev c h r -> val t = [] -> run (t :: preceded c h r) true s = run r true s.
Proof.
  intros (N1 & N2 & N3) GP E. cbn [mobs fst snd] in N1, N2, N3. destruct (prev_type _ _ _ GP) as [P1 P2]. unfold run. cbn [body_loop]. rewrite P1, P2.
  rewrite (eqb_neq _ _ N2), (sv_string_cmp_false _ _ N3). rewrite skip_prev. pose proof (param_value t) as V. destruct (get_param d t) as [i|]; [|congruence].
  destruct V as (a & EA & Va & Ia & La). rewrite E in Va. destruct a; [|discriminate]. rewrite EA. unfold ok at 1. cbn [exbind].
  destruct (argument_none t c s) as [-> |F]; [|exfalso; rewrite F in La; cbn in La; lia]. unfold ok at 1 2. cbn [exbind]. f_equal. unfold push_all. destruct s; reflexivity.
Qed.
Lemma split_map {A B} (f : A -> B) l u x : map f l = u ++ [x] -> exists l1 y, l = l1 ++ [y] /\ map f l1 = u /\ f y = x.
Proof.
  revert u. induction l as [|a l IH] using rev_ind; intros u H; [destruct u; discriminate|]. clear IH. rewrite map_app in H. cbn [map] in H.
  apply app_inj_tail in H. destruct H as [H1 H2]. exists l, a. auto.
Qed.
Lemma step_pasted t c h r s0 y R u x z : operand t -> good_prev c h r -> val t = u ++ [x] -> pasted x (obs y) z -> alike x (obs y) ->
  exists L, map obs L = u ++ z :: map obs R /\ run (t :: preceded c h r) true (push_all s0 (y :: R)) = run r c (push_all s0 L).
Proof.
  intros (N1 & N2 & N3) GP E P AL. cbn [mobs fst snd] in N1, N2, N3. destruct (prev_type _ _ _ GP) as [P1 P2]. unfold run. cbn [body_loop]. rewrite P1, P2.
  rewrite (eqb_neq _ _ N2), (sv_string_cmp_false _ _ N3). rewrite skip_prev. pose proof (param_value t) as V. destruct (get_param d t) as [i|].
  - destruct V as (a & EA & Va & Ia & La). rewrite E in Va. destruct (split_map _ _ _ _ Va) as (l & x0 & -> & <- & <-).
    destruct (paste_complete _ _ _ P AL) as (g & G & <-). rewrite EA. unfold ok at 1. cbn [exbind].
    apply Forall_app in Ia. destruct Ia as [Il _]. rewrite app_length in La. cbn in La.
    rewrite (argument_pasted t l x0 c y R s0 g Il ltac:(lia) G). unfold ok at 1 2. cbn [exbind]. exists (touched t l ++ g :: R). split.
    + rewrite map_app, touched_obs. reflexivity.
    + f_equal. destruct l; reflexivity.
  - rewrite V in E. assert (Q : u = [] /\ x = mobs t) by (destruct u as [|? [|? ?]]; cbn in E; injection E; intros; subst; auto; discriminate).
    destruct Q as [-> ->]. change (mobs t) with (obs (of_mtoken t)) in P, AL. destruct (paste_complete _ _ _ P AL) as (g & G & <-).
    unfold top, push_all at 1. cbn [ib app exbind]. rewrite G. cbn [exbind]. unfold ok at 1. cbn [exbind]. exists (g :: R). split; [reflexivity|].
    unfold ok at 1. cbn [exbind]. unfold replace_top, push_all. cbn [ib tl feed app]. destruct c; reflexivity.
Qed.

(** A group of operands. *)
Lemma no_operands r : ~ joined [] r.
Proof. intros H. inversion H. Qed.
Lemma group_run ops b : glued hh ops b -> Forall operand ops -> forall out, joined (map val ops) out ->
  forall c h r s, good_prev c h r -> (c = false -> match ops with t :: _ :: _ => val t <> [] | _ => True end) ->
  exists L, map obs L = out /\ run (rev b ++ preceded c h r) false s = run r (c && some out) (push_all s L).
Proof.
  induction 1 as [t|t u ops h0 b H0 G IH]; intros FO out J c h r s GP NE.
  - cbn [map] in J. assert (E : out = val t) by (inversion J; subst; auto; exfalso; eapply no_operands; eassumption).
    subst out. apply Forall_inv in FO. cbn [rev app]. exact (step_alone t c h r s FO GP).
  - apply Forall_inv in FO as Ft. apply Forall_inv_tail in FO. cbn [rev]. rewrite <- !app_assoc. cbn [app]. cbn [map] in J.
    assert (STEP : forall out', joined (val u :: map val ops) out' -> exists L', map obs L' = out' /\
       run (rev b ++ h0 :: t :: preceded c h r) false s = run (t :: preceded c h r) (some out') (push_all s L')).
    { intros out' J'. exact (IH FO out' J' true h0 (t :: preceded c h r) s H0 ltac:(discriminate)). }
    inversion J as [l El|rest r0 J' El|l rest J' El|l x rest y r0 z J' P AL El]; subst.
    + destruct (STEP _ J') as (L' & EL & ER). rewrite ER. destruct out as [|o out].
      * cbn [some]. destruct (step_alone t c h r (push_all s L') Ft GP) as (L & E1 & E2). rewrite E2. rewrite <- El in E1. destruct L; [|discriminate].
        exists L'. split; [exact EL|]. rewrite <- El. cbn [some]. unfold push_all. cbn [ib feed app]. reflexivity.
      * cbn [some]. destruct c; [|exfalso; apply (NE eq_refl); symmetry; exact El].
        rewrite (step_none t true h r _ Ft GP (eq_sym El)). exists L'. split; [exact EL|reflexivity].
    + destruct (STEP _ J') as (L' & EL & ER). destruct L'; [|discriminate]. rewrite ER. cbn [some].
      destruct (step_alone t c h r (push_all s []) Ft GP) as (L & E1 & E2). exists L. split; [exact E1|]. rewrite E2. f_equal.
    + destruct (STEP _ J') as (L' & EL & ER). destruct L' as [|y' R]; [discriminate|]. cbn [map] in EL. injection EL as <- <-. rewrite ER. cbn [some].
      destruct (step_pasted t c h r s y' R l x z Ft GP (eq_sym El) P AL) as (L & E1 & E2). exists L. split; [exact E1|]. rewrite E2. f_equal.
      destruct l, c; reflexivity.
Qed.

(** The whole replacement list. *)
Lemma glued_shape ops b : glued hh ops b -> Forall operand ops -> quiet (rev b) /\ b <> [].
Proof.
  induction 1 as [t|t u ops h b H G IH]; intros FO.
  - split; [|discriminate]. apply Forall_inv in FO. destruct FO as (N1 & N2 & _). split; assumption.
  - split; [|discriminate]. destruct (IH (Forall_inv_tail FO)) as (Q & N). cbn [rev]. destruct (rev b) as [|p q] eqn:E.
    + exfalso. apply N. rewrite <- (rev_involutive b), E. reflexivity.
    + exact Q.
Qed.
Lemma groups_run groups bodies : Forall2 (glued hh) groups bodies -> forall outs, Forall (Forall operand) groups ->
  Forall2 (fun g out => joined (map val g) out) groups outs -> Forall (fun g => match g with t :: _ :: _ => val t <> [] | _ => True end) groups ->
  forall r s, quiet r -> exists L, map obs L = concat outs /\ run (rev (concat bodies) ++ r) false s = run r false (push_all s L).
Proof.
  induction 1 as [|g b groups bodies Hg HG IH]; intros outs FO FJ FN r s Q.
  - inversion FJ; subst. exists []. split; [reflexivity|]. destruct s; reflexivity.
  - inversion FJ as [|? out ? outs' J FJ']; subst. pose proof (Forall_inv FO) as Og. pose proof (Forall_inv FN) as Ng.
    cbn [concat]. rewrite rev_app_distr, <- app_assoc. destruct (glued_shape _ _ Hg Og) as (Qb & Nb).
    assert (Q' : quiet (rev b ++ r)) by (destruct (rev b); [exact Q|exact Qb]).
    destruct (IH outs' (Forall_inv_tail FO) FJ' (Forall_inv_tail FN) (rev b ++ r) s Q') as (L2 & E2 & R2). rewrite R2.
    destruct (group_run g b Hg Og out J false (Build_mtoken PP_HHASH [] false false) r (push_all s L2) Q (fun _ => Ng)) as (L1 & E1 & R1).
    cbn [preceded] in R1. rewrite R1. exists (L1 ++ L2). split; [rewrite map_app, E1, E2; reflexivity|]. cbn [andb]. f_equal. unfold push_all. cbn [ib feed]. rewrite app_assoc. reflexivity.
Qed.
End Groups.

Section Call.
Variables (lk : list Z -> option define) (path : list Z).
Lemma paste_subs fuel name d input comma lpar rpar args rest fd groups bodies outs :
  d_func d = true -> d_vararg d = false -> length args = length (d_par d) ->
  e_type lpar = T_LPAR -> e_type rpar = T_RPAR -> e_type comma = T_COMMA ->
  Forall (fun a => argument 0 (map obs a) /\ Forall (inert_t lk) a /\ (length a < fuel)%nat) args ->
  d_def d = concat bodies -> Forall2 (glued hh) groups bodies -> Forall (Forall operand) groups ->
  Forall2 (fun g out => joined (map (fun t => value (map k_str (d_par d)) (map (map obs) args) (mobs t)) g) out) groups outs ->
  Forall (fun g => match g with t :: _ :: _ => value (map k_str (d_par d)) (map (map obs) args) (mobs t) <> [] | _ => True end) groups ->
  exists L, map obs L = concat outs /\
  subs_buffer (fun i s => expand_buffer fuel lk path i [] s) fuel name d input {| ib := lpar :: join comma args ++ rpar :: rest; feed := fd |} =
    ok {| ib := L ++ rest; feed := fd |}.
Proof.
  intros HD HV HL EL ER EC HA EB0 HG HO HJ HE. unfold subs_buffer. rewrite HD, HV.
  unfold take at 1. cbn [ib exbind feed]. rewrite EL. change (negb (T_LPAR =? T_LPAR)) with false. cbn iota.
  assert (PP : parse_arguments fuel (length (d_par d)) input [] false {| ib := join comma args ++ rpar :: rest; feed := fd |} =
     ok (map trim args, match args with [] => false | _ => true end, {| ib := rpar :: rest; feed := fd |})).
  { rewrite <- HL. destruct args as [|a args]; [reflexivity|]. 
    rewrite (parse_arguments_spec lk path input fd rest comma rpar fuel EC ER (a :: args) []); [reflexivity| |discriminate].
    eapply Forall_impl; [|exact HA]. cbn. tauto. }
  rewrite PP. unfold ok at 1. cbn [exbind andb]. unfold ok at 1. cbn [exbind]. unfold take at 1. cbn [ib exbind feed].
  rewrite ER. change (negb (T_RPAR =? T_RPAR)) with false. cbn iota. unfold ok at 1. cbn [exbind].
  assert (TA : map (map obs) (map trim args) = map (map obs) args) by (rewrite map_map; apply map_ext; intros; apply trim_obs).
  destruct (groups_run lk path fuel d (map trim args) (e_line name) input HD) with (groups := groups) (bodies := bodies) (outs := outs) (r := @nil mtoken) (s := {| ib := rest; feed := fd |}) as (L & EO & EB).
  - rewrite map_length. auto.
  - apply Forall_map. eapply Forall_impl; [|exact HA]. cbn. intros a (_ & Ia & La). split.
    + eapply inert_obs; [symmetry; apply trim_obs|auto].
    + unfold trim. rewrite map_last_length, map_first_length. auto.
  - exact HG.
  - exact HO.
  - rewrite TA. exact HJ.
  - rewrite TA. exact HE.
  - exact I.
  - rewrite app_nil_r in EB. rewrite EB0, EB. cbn [body_loop]. unfold ok at 1. cbn [exbind]. unfold push_all. cbn [ib feed].
    rewrite app_length, Nat.add_sub. rewrite firstn_app, Nat.sub_diag, firstn_all. cbn [firstn]. rewrite app_nil_r.
    rewrite skipn_app, Nat.sub_diag, skipn_all. cbn [skipn app].
    eexists. split; [|reflexivity]. rewrite map_first_map, map_last_map by reflexivity. rewrite map_map. rewrite <- EO. apply map_ext. reflexivity.
Qed.

Lemma paste_step fuel n acc name d input comma lpar rpar args rest fd groups bodies outs :
  e_type name = T_IDENT -> ~ In (e_str name) (e_hs name) -> e_str name <> chars "__LINE__" -> e_str name <> chars "__FILE__" ->
  lk (e_str name) = Some d ->
  d_func d = true -> d_vararg d = false -> length args = length (d_par d) ->
  e_type lpar = T_LPAR -> e_type rpar = T_RPAR -> e_type comma = T_COMMA ->
  Forall (fun a => argument 0 (map obs a) /\ Forall (inert_t lk) a) args ->
  d_def d = concat bodies -> Forall2 (glued hh) groups bodies -> Forall (Forall operand) groups ->
  Forall2 (fun g out => joined (map (fun t => value (map k_str (d_par d)) (map (map obs) args) (mobs t)) g) out) groups outs ->
  Forall (fun g => match g with t :: _ :: _ => value (map k_str (d_par d)) (map (map obs) args) (mobs t) <> [] | _ => True end) groups ->
  Forall (inert lk) (concat outs) ->
  (forall a, In a args -> (length a < fuel)%nat) -> (fuel = length (concat outs) + n)%nat ->
  exists L, map obs L = concat outs /\
  expand_buffer (S fuel) lk path input acc {| ib := name :: lpar :: join comma args ++ rpar :: rest; feed := fd |} =
  expand_buffer n lk path input (acc ++ L) {| ib := rest; feed := fd |}.
Proof.
  intros EN NH N1 N2 EL HD HV HLen ELp ERp EC HA EB HG HO HJ HE HI HF Hfuel.
  destruct (paste_subs fuel name d input comma lpar rpar args rest fd groups bodies outs HD HV HLen ELp ERp EC) as (L & EO & ES); auto.
  { apply Forall_forall. intros a Ia. pose proof (proj1 (Forall_forall _ _) HA a Ia) as [A1 A2]. auto. }
  exists L. split; auto. cbn [expand_buffer ib length Nat.eqb]. rewrite orb_true_r. cbn [negb].
  unfold take at 1. cbn [ib exbind feed]. rewrite EN. change (T_IDENT =? T_EOI) with false. cbn iota.
  unfold classify. rewrite EN. change (negb (T_IDENT =? T_IDENT)) with false. rewrite (contains_false _ _ NH). cbn [orb].
  unfold builtin_macros. rewrite (sv_string_cmp_false _ _ N1), (sv_string_cmp_false _ _ N2), EL, HD.
  cbn [ib length Nat.eqb]. rewrite orb_true_r. cbn [negb]. unfold top. cbn [ib bind]. rewrite ELp. change (T_LPAR =? T_LPAR) with true. cbn [exbind].
  rewrite ES. unfold ok. cbn [exbind].
  assert (LL : length L = length (concat outs)) by (rewrite <- EO, map_length; auto).
  rewrite Hfuel, <- LL. apply inert_buffer. rewrite <- EO in HI. exact (proj1 (Forall_map obs (inert lk) L) HI).
Qed.
End Call.
