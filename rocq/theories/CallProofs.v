From Coq Require Import String.
From Verif Require Import Base CharTypes Tokens MacroTable MacroTableSpec MacroTableProofs StringSet C17Props Fuel Expander ExpanderSpec ExpanderProofs.

Section Call.
Variables (lk : list Z -> option define) (path : list Z).

Definition inert_t (t : etok) := inert lk (obs t).

Lemma inert_obs l l' : map obs l = map obs l' -> Forall inert_t l -> Forall inert_t l'.
Proof.
  intros E H. assert (H' : Forall (inert lk) (map obs l)) by (apply Forall_map; exact H).
  rewrite E in H'. exact (proj1 (Forall_map obs (inert lk) l') H').
Qed.

Lemma classify_inert input t s : inert_t t -> classify lk path input t s = Ok (inl t, s).
Proof.
  intros [_ HP]. cbn [obs fst snd] in HP. unfold classify.
  destruct (Z.eqb_spec (e_type t) T_IDENT) as [E|N]; cbn [negb orb]; [|auto].
  destruct (HP E) as (N1 & N2 & HO). destruct (string_set_contains (e_hs t) (e_str t)); auto.
  unfold builtin_macros. rewrite (sv_string_cmp_false _ _ N1), (sv_string_cmp_false _ _ N2), HO. auto.
Qed.

Lemma inert_buffer l : Forall inert_t l -> forall n input acc rest f,
  expand_buffer (length l + n) lk path input acc {| ib := l ++ rest; feed := f |} =
  expand_buffer n lk path input (acc ++ l) {| ib := rest; feed := f |}.
Proof.
  induction 1 as [|t l Ht HF IH]; intros n input acc rest f.
  - cbn. rewrite app_nil_r. auto.
  - cbn [length Nat.add app]. cbn [expand_buffer ib length Nat.eqb]. rewrite orb_true_r. cbn [negb].
    unfold take. cbn [ib exbind feed]. pose proof Ht as [NE _]. cbn [obs fst] in NE. rewrite (eqb_neq _ _ NE).
    rewrite classify_inert by auto. cbn [exbind]. rewrite IH, <- app_assoc. auto.
Qed.

Definition trim (l : list etok) : list etok :=
  map_last (fun t => with_wsa t false) (map_first (fun t => with_ws t false) l).
Lemma trim_obs l : map obs (trim l) = map obs l.
Proof. unfold trim. rewrite map_last_map, map_first_map by reflexivity. auto. Qed.

Definition separator (t : etok) := e_type t = T_COMMA \/ e_type t = T_RPAR.

Lemma parse_argument_spec input fd rest t : separator t -> forall l depth acc fuel, argument depth (map obs l) -> (length l < fuel)%nat ->
  parse_argument fuel false input (1 + Z.of_nat depth) acc {| ib := l ++ t :: rest; feed := fd |} =
  ok (trim (acc ++ l), e_type t =? T_RPAR, {| ib := if e_type t =? T_RPAR then t :: rest else rest; feed := fd |}).
Proof.
  intros HS. induction l as [|x l IH]; intros depth acc fuel HA HF; (destruct fuel as [|fuel]; [cbn in HF; lia|]).
  - cbn in HA. subst depth. cbn [app parse_argument]. unfold take. cbn [ib exbind feed].
    rewrite app_nil_r. destruct HS as [E|E]; rewrite E; reflexivity.
  - cbn [app parse_argument]. unfold take. cbn [ib exbind feed]. cbn [map argument obs fst] in HA. cbn [length] in HF.
    destruct (e_type x =? T_LPAR) eqn:E1.
    + replace (1 + Z.of_nat depth + 1) with (1 + Z.of_nat (S depth)) by lia. rewrite IH by (auto; lia). rewrite <- app_assoc. auto.
    + destruct (e_type x =? T_RPAR) eqn:E2.
      * destruct depth as [|k]; [contradiction|].
        rewrite (eqb_neq (1 + Z.of_nat (S k) - 1) 0) by lia.
        replace (1 + Z.of_nat (S k) - 1) with (1 + Z.of_nat k) by lia. rewrite IH by (auto; lia). rewrite <- app_assoc. auto.
      * destruct HA as [HC HA]. cbn [negb andb].
        assert (EC : (e_type x =? T_COMMA) && (1 + Z.of_nat depth =? 1) = false).
        { destruct depth as [|k]; [rewrite (eqb_neq _ _ (HC eq_refl)); auto|].
          rewrite (eqb_neq (1 + Z.of_nat (S k)) 1) by lia. apply andb_false_r. }
        rewrite EC. rewrite IH by (auto; lia). rewrite <- app_assoc. auto.
Qed.

Lemma parse_arguments_spec input fd rest comma rpar fuel : e_type comma = T_COMMA -> e_type rpar = T_RPAR ->
  forall args acc, Forall (fun a => argument 0 (map obs a) /\ (length a < fuel)%nat) args -> args <> [] ->
  parse_arguments fuel (length args) input acc false {| ib := join comma args ++ rpar :: rest; feed := fd |} =
  ok (acc ++ map trim args, true, {| ib := rpar :: rest; feed := fd |}).
Proof.
  intros EC ER. induction args as [|a args IH]; intros acc HA HN; [congruence|].
  apply Forall_inv in HA as Ha. destruct Ha as [Ha Hf]. apply Forall_inv_tail in HA.
  cbn [length parse_arguments]. destruct args as [|b args].
  - cbn [join length]. pose proof (parse_argument_spec input fd rest rpar (or_intror ER) a 0%nat [] fuel Ha Hf) as P.
    change (1 + Z.of_nat 0) with 1 in P. rewrite P. rewrite ER. cbn. reflexivity.
  - cbn [join]. rewrite <- app_assoc. cbn [app].
    pose proof (parse_argument_spec input fd (join comma (b :: args) ++ rpar :: rest) comma (or_introl EC) a 0%nat [] fuel Ha Hf) as P.
    change (1 + Z.of_nat 0) with 1 in P. 
    match goal with |- context [parse_argument ?f ?x ?i ?d ?ac ?s] => replace (parse_argument f x i d ac s) with
       (@ok (list etok * bool * ibuf) (trim ([] ++ a), e_type comma =? T_RPAR, {| ib := if e_type comma =? T_RPAR then comma :: join comma (b :: args) ++ rpar :: rest else join comma (b :: args) ++ rpar :: rest; feed := fd |})) by (symmetry; exact P) end.
    rewrite EC. unfold ok at 1. cbn [exbind]. change (T_COMMA =? T_RPAR) with false. cbn [andb orb].
    rewrite IH by (auto; discriminate). cbn [map app]. rewrite <- app_assoc. auto.
Qed.

(** ** Substituting in the body *)
Lemma index_position l s : forall i, index_of l s i = match position (map k_str l) s with Some j => Some (i + j)%nat | None => None end.
Proof.
  induction l as [|p l IH]; intros i; cbn; auto. rewrite sv_cmp_dec. unfold name_dec.
  destruct (list_eq_dec Z.eq_dec (k_str p) s); [f_equal; lia|]. rewrite IH. destruct (position _ _); auto. f_equal. lia.
Qed.
Lemma position_lt l s j : position l s = Some j -> (j < length l)%nat.
Proof.
  revert j; induction l as [|p l IH]; intros j; cbn; [discriminate|]. destruct (list_eq_dec _ _ _); [intros H; inversion H; lia|].
  destruct (position l s); [|discriminate]. intros H. inversion H. specialize (IH _ eq_refl). lia.
Qed.

Lemma expand_argument_inert fuel t a input s : Forall inert_t a -> (length a < fuel)%nat ->
  exists l, map obs l = map obs a /\
  expand_argument (fun i s => expand_buffer fuel lk path i [] s) t a false false false input s = ok (push_all s l).
Proof.
  intros HI HL. unfold expand_argument. unfold ok at 1. cbn [exbind orb negb].
  set (l1 := map_last _ _).
  assert (E : map obs l1 = map obs a) by (unfold l1; rewrite map_last_map, map_first_map by reflexivity; auto).
  assert (L : length l1 = length a) by (unfold l1; rewrite map_last_length, map_first_length; auto).
  exists l1. split; auto. unfold push_all, push. cbn [ib feed].
  replace fuel with (length l1 + S (fuel - S (length a)))%nat by lia.
  rewrite inert_buffer by (eapply inert_obs; [symmetry; exact E|auto]).
  cbn [app expand_buffer ib length Nat.eqb]. rewrite orb_true_r. cbn [negb]. unfold take. cbn [ib exbind feed eoi_token e_type].
  change (T_EOI =? T_EOI) with true. cbn iota. unfold ok at 1. cbn [exbind ib feed]. reflexivity.
Qed.

Lemma body_loop_subst fuel d (args : list (list etok)) input line r :
  d_func d = true -> length args = length (d_par d) ->
  Forall (fun a => Forall inert_t a /\ (length a < fuel)%nat) args ->
  Forall no_ops r -> forall s, exists L,
  map obs L = substitute (map k_str (d_par d)) (map (map obs) args) (map mobs (rev r)) /\
  body_loop (fun i s => expand_buffer fuel lk path i [] s) d args [] false line input r false s = ok (push_all s L).
Proof.
  intros HD HL HA HN. induction HN as [|t r Ht HN IH]; intros s.
  - exists []. split; auto. cbn. unfold push_all. destruct s; auto.
  - cbn [body_loop]. destruct (prev_free r HN) as [E1 E2]. rewrite E1, E2. destruct Ht as (H1 & H2 & H3). cbn [mobs fst snd] in H1, H2, H3.
    rewrite (eqb_neq _ _ H2), (sv_string_cmp_false _ _ H3). cbn [orb].
    assert (EP : get_param d t = if k_type t =? T_IDENT then position (map k_str (d_par d)) (k_str t) else None).
    { unfold get_param. rewrite HD. cbn. destruct (k_type t =? T_IDENT); cbn; auto. rewrite index_position. destruct (position _ _); auto. }
    assert (ES : forall L1 L2, map obs L1 = substitute (map k_str (d_par d)) (map (map obs) args) (map mobs (rev r)) ->
              map obs L2 = substitute (map k_str (d_par d)) (map (map obs) args) [mobs t] ->
              map obs (L1 ++ L2) = substitute (map k_str (d_par d)) (map (map obs) args) (map mobs (rev (t :: r)))).
    { intros L1 L2 A B. cbn [rev]. rewrite !map_app, A, B. unfold substitute. rewrite flat_map_app. reflexivity. }
    assert (PA : forall s l1 l2, push_all (push_all s l1) l2 = push_all s (l2 ++ l1)) by (intros; unfold push_all; cbn; rewrite app_assoc; auto).
    rewrite EP. destruct (k_type t =? T_IDENT) eqn:EI; [destruct (position (map k_str (d_par d)) (k_str t)) as [i|] eqn:EPos|].
    + pose proof (position_lt _ _ _ EPos) as Hi. rewrite map_length in Hi.
      destruct (nth_error args i) as [a|] eqn:EA; [|apply nth_error_None in EA; lia].
      pose proof (proj1 (Forall_forall _ _) HA a (nth_error_In _ _ EA)) as [Ia La].
      destruct (expand_argument_inert fuel t a input s Ia La) as (l & El & EE).
      unfold ok at 1. cbn [exbind]. rewrite EE. unfold ok at 1. cbn [exbind].
      assert (EM : match a with [] => false | _ :: _ => false end = false) by (destruct a; auto).
      rewrite EM. unfold ok at 1. cbn [exbind].
      destruct (IH (push_all s l)) as (L & EL & EB). exists (L ++ l). split; [|rewrite EB, PA; auto].
      apply ES; auto. unfold substitute. cbn [flat_map mobs fst snd]. rewrite EI, EPos, app_nil_r.
      rewrite (nth_indep _ [] (map obs [])) by (rewrite map_length; lia). rewrite map_nth, El. f_equal.
      apply nth_error_nth with (d := []) in EA. auto.
    + unfold ok at 1. cbn [exbind].
      destruct (IH (push s (with_line (of_mtoken t) line))) as (L & EL & EB). exists (L ++ [with_line (of_mtoken t) line]). split.
      * apply ES; auto. unfold substitute. cbn [flat_map mobs fst snd]. rewrite EI, EPos. reflexivity.
      * unfold ok at 1. cbn [exbind]. change (push s ?x) with (push_all s [x]) in *. rewrite EB, PA. auto.
    + unfold ok at 1. cbn [exbind].
      destruct (IH (push s (with_line (of_mtoken t) line))) as (L & EL & EB). exists (L ++ [with_line (of_mtoken t) line]). split.
      * apply ES; auto. unfold substitute. cbn [flat_map mobs fst snd]. rewrite EI. reflexivity.
      * unfold ok at 1. cbn [exbind]. change (push s ?x) with (push_all s [x]) in *. rewrite EB, PA. auto.
Qed.

Lemma subs_call fuel name d input comma lpar rpar args rest fd :
  d_func d = true -> d_vararg d = false -> length args = length (d_par d) ->
  e_type lpar = T_LPAR -> e_type rpar = T_RPAR -> e_type comma = T_COMMA ->
  Forall (fun a => argument 0 (map obs a) /\ Forall inert_t a /\ (length a < fuel)%nat) args -> Forall no_ops (d_def d) ->
  exists L, map obs L = substitute (map k_str (d_par d)) (map (map obs) args) (map mobs (d_def d)) /\
  subs_buffer (fun i s => expand_buffer fuel lk path i [] s) fuel name d input {| ib := lpar :: join comma args ++ rpar :: rest; feed := fd |} =
    ok {| ib := L ++ rest; feed := fd |}.
Proof.
  intros HD HV HL EL ER EC HA HN. unfold subs_buffer. rewrite HD, HV.
  unfold take at 1. cbn [ib exbind feed]. rewrite EL. change (negb (T_LPAR =? T_LPAR)) with false. cbn iota.
  assert (PP : parse_arguments fuel (length (d_par d)) input [] false {| ib := join comma args ++ rpar :: rest; feed := fd |} =
     ok (map trim args, match args with [] => false | _ => true end, {| ib := rpar :: rest; feed := fd |})).
  { rewrite <- HL. destruct args as [|a args]; [reflexivity|]. 
    rewrite (parse_arguments_spec input fd rest comma rpar fuel EC ER (a :: args) []); [reflexivity| |discriminate].
    eapply Forall_impl; [|exact HA]. cbn. tauto. }
  rewrite PP. unfold ok at 1. cbn [exbind andb]. unfold ok at 1. cbn [exbind]. unfold take at 1. cbn [ib exbind feed].
  rewrite ER. change (negb (T_RPAR =? T_RPAR)) with false. cbn iota. unfold ok at 1. cbn [exbind].
  destruct (body_loop_subst fuel d (map trim args) input (e_line name) (rev (d_def d)) HD) with (s := {| ib := rest; feed := fd |}) as (L & EO & EB).
  - rewrite map_length. auto.
  - apply Forall_map. eapply Forall_impl; [|exact HA]. cbn. intros a (_ & Ia & La). split.
    + eapply inert_obs; [symmetry; apply trim_obs|auto].
    + unfold trim. rewrite map_last_length, map_first_length. auto.
  - apply Forall_rev. auto.
  - rewrite EB. unfold ok at 1. cbn [exbind]. rewrite rev_involutive in EO. unfold push_all. cbn [ib feed].
    rewrite app_length, Nat.add_sub. rewrite firstn_app, Nat.sub_diag, firstn_all. cbn [firstn]. rewrite app_nil_r.
    rewrite skipn_app, Nat.sub_diag, skipn_all. cbn [skipn app].
    eexists. split; [|reflexivity]. rewrite map_first_map, map_last_map by reflexivity. rewrite map_map. 
    rewrite map_map in EO. rewrite (map_ext _ (map obs)) in EO by (intros; apply trim_obs). rewrite <- EO. apply map_ext. reflexivity.
Qed.

Lemma substitute_inert params args body : Forall (Forall (inert lk)) args ->
  Forall (fun t => inert lk t \/ (fst t = T_IDENT /\ In (snd t) params)) body -> length args = length params ->
  Forall (inert lk) (substitute params args body).
Proof.
  intros HA HB HL. induction HB as [|t body Ht HB IH]; cbn; auto. apply Forall_app. split; auto.
  assert (PN : forall s, In s params -> position params s <> None).
  { intros s. clear. induction params as [|p l IH]; cbn; [contradiction|]. intros [->|H].
    - destruct (list_eq_dec _ _ _); congruence.
    - destruct (list_eq_dec _ _ _); [congruence|]. specialize (IH H). destruct (position l s); congruence. }
  destruct (fst t =? T_IDENT) eqn:E.
  - destruct (position params (snd t)) as [i|] eqn:EP.
    + apply position_lt in EP. apply (proj1 (Forall_forall _ _) HA). apply nth_In. lia.
    + destruct Ht as [Ht|[_ Ht]]; [auto|]. apply PN in Ht. contradiction.
  - destruct Ht as [Ht|[Ht _]]; [auto|]. apply Z.eqb_neq in E. contradiction.
Qed.

Lemma call_step fuel n acc name d input comma lpar rpar args rest fd :
  e_type name = T_IDENT -> ~ In (e_str name) (e_hs name) -> e_str name <> chars "__LINE__" -> e_str name <> chars "__FILE__" ->
  lk (e_str name) = Some d ->
  d_func d = true -> d_vararg d = false -> length args = length (d_par d) ->
  e_type lpar = T_LPAR -> e_type rpar = T_RPAR -> e_type comma = T_COMMA ->
  Forall (fun a => argument 0 (map obs a) /\ Forall inert_t a) args -> 
  Forall (fun t => operator_free (mobs t) /\ (inert lk (mobs t) \/ (k_type t = T_IDENT /\ In (k_str t) (map k_str (d_par d))))) (d_def d) ->
  (forall a, In a args -> (length a < fuel)%nat) -> 
  (fuel = length (substitute (map k_str (d_par d)) (map (map obs) args) (map mobs (d_def d))) + n)%nat ->
  exists L, map obs L = substitute (map k_str (d_par d)) (map (map obs) args) (map mobs (d_def d)) /\
  expand_buffer (S fuel) lk path input acc {| ib := name :: lpar :: join comma args ++ rpar :: rest; feed := fd |} =
  expand_buffer n lk path input (acc ++ L) {| ib := rest; feed := fd |}.
Proof.
  intros EN NH N1 N2 EL HD HV HLen ELp ERp EC HA HB HF Hfuel.
  destruct (subs_call fuel name d input comma lpar rpar args rest fd HD HV HLen ELp ERp EC) as (L & EO & ES).
  { apply Forall_forall. intros a Ia. pose proof (proj1 (Forall_forall _ _) HA a Ia) as [A1 A2]. auto. }
  { eapply Forall_impl; [|exact HB]. cbn. intros t [H _]. exact H. }
  exists L. split; auto. cbn [expand_buffer ib length Nat.eqb]. rewrite orb_true_r. cbn [negb].
  unfold take at 1. cbn [ib exbind feed]. rewrite EN. change (T_IDENT =? T_EOI) with false. cbn iota.
  unfold classify. rewrite EN. change (negb (T_IDENT =? T_IDENT)) with false. rewrite (contains_false _ _ NH). cbn [orb].
  unfold builtin_macros. rewrite (sv_string_cmp_false _ _ N1), (sv_string_cmp_false _ _ N2), EL, HD.
  cbn [ib length Nat.eqb]. rewrite orb_true_r. cbn [negb]. unfold top. cbn [ib bind]. rewrite ELp. change (T_LPAR =? T_LPAR) with true. cbn [exbind].
  rewrite ES. unfold ok. cbn [exbind].
  assert (LL : length L = length (substitute (map k_str (d_par d)) (map (map obs) args) (map mobs (d_def d)))) by (rewrite <- EO, map_length; auto).
  rewrite Hfuel, <- LL. apply inert_buffer. assert (H' : Forall (inert lk) (map obs L)); [|exact (proj1 (Forall_map obs (inert lk) L) H')]. rewrite EO.
  apply substitute_inert.
  - apply Forall_map. eapply Forall_impl; [|exact HA]. cbn. intros a [_ H]. apply Forall_map. exact H.
  - apply Forall_map. eapply Forall_impl; [|exact HB]. cbn. intros t [_ H]. exact H.
  - rewrite !map_length. auto.
Qed.
End Call.
