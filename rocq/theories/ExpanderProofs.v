From Coq Require Import String.
From Verif Require Import Base CharTypes Tokens MacroTable MacroTableProofs StringSet C17Props Fuel Expander ExpanderSpec.

Lemma obs_ws t b : obs (with_ws t b) = obs t. Proof. reflexivity. Qed.
Lemma obs_wsa t b : obs (with_wsa t b) = obs t. Proof. reflexivity. Qed.

Lemma map_first_map {A B} (g : A -> B) f l : (forall x, g (f x) = g x) -> map g (map_first f l) = map g l.
Proof. intros H. destruct l; cbn; congruence. Qed.
Lemma map_last_map {A B} (g : A -> B) f l : (forall x, g (f x) = g x) -> map g (map_last f l) = map g l.
Proof.
  intros H. induction l as [|x l IH]; auto. destruct l as [|y l]; [cbn; congruence|].
  change (map_last f (x :: y :: l)) with (x :: map_last f (y :: l)). cbn [map] in *. congruence.
Qed.
Lemma map_first_length {A} (f : A -> A) l : length (map_first f l) = length l.
Proof. destruct l; auto. Qed.
Lemma map_last_length {A} (f : A -> A) l : length (map_last f l) = length l.
Proof.
  induction l as [|x l IH]; auto. destruct l as [|y l]; auto.
  change (S (length (map_last f (y :: l))) = S (length (y :: l))). congruence.
Qed.
Lemma Forall_map_first {A} (P : A -> Prop) f l : (forall x, P x -> P (f x)) -> Forall P l -> Forall P (map_first f l).
Proof. intros H HF. destruct HF; cbn; auto. Qed.
Lemma Forall_map_last {A} (P : A -> Prop) f l : (forall x, P x -> P (f x)) -> Forall P l -> Forall P (map_last f l).
Proof.
  intros H. induction l as [|x l IH]; intros HF; auto. inversion HF; subst. destruct l as [|y l]; [cbn; auto|].
  change (map_last f (x :: y :: l)) with (x :: map_last f (y :: l)). auto.
Qed.

Lemma sv_string_cmp_false a b : a <> b -> sv_string_cmp a b = false.
Proof. intros N. destruct (sv_string_cmp a b) eqn:E; auto. apply sv_string_cmp_spec in E. contradiction. Qed.

(** ** The body loop on operator-free lists without parameters *)
Definition no_ops (t : mtoken) := operator_free (mobs t).

Lemma eqb_neq a b : a <> b -> (a =? b) = false.
Proof. apply Z.eqb_neq. Qed.

Lemma prev_free (rest : list mtoken) : Forall no_ops rest ->
  (match rest with [] => 0 | p :: _ => k_type p end =? PP_HHASH) = false /\
  (match rest with [] => 0 | p :: _ => k_type p end =? PP_HASH) = false.
Proof.
  intros H. destruct H as [|p rest Hp H]; [split; reflexivity|]. destruct Hp as (H1 & H2 & _). cbn in H1, H2.
  split; apply eqb_neq; auto.
Qed.

Lemma body_loop_plain rec d args v vi line input r : Forall no_ops r -> Forall (fun t => get_param d t = None) r ->
  forall s, body_loop rec d args v vi line input r false s =
    ok (push_all s (rev (map (fun t => with_line (of_mtoken t) line) r))).
Proof.
  intros HN HP. induction HN as [|t r Ht HN IH]; intros s.
  - cbn. unfold push_all. destruct s; reflexivity.
  - inversion HP as [|? ? HP1 HP2]; subst. cbn [body_loop].
    destruct (prev_free r HN) as [E1 E2]. rewrite E1, E2. destruct Ht as (H1 & H2 & H3). cbn [mobs fst snd] in H1, H2, H3.
    rewrite (eqb_neq _ _ H2), (sv_string_cmp_false _ _ H3), HP1. cbn [exbind orb ok].
    unfold ok at 1. cbn [exbind]. rewrite (IH HP2). unfold push_all, push. cbn [ib feed map rev].
    rewrite <- app_assoc. reflexivity.
Qed.

Definition new_tokens (t : etok) (d : define) : list etok :=
  map_first (fun x => with_ws x (e_ws x || e_ws t))
    (map_last (fun x => with_wsa x (e_wsa x || e_wsa t))
      (map (fun x => with_hs x (string_set_union (string_set_insert (e_hs t) (d_name d)) (e_hs x)))
        (map (fun x => with_line (of_mtoken x) (e_line t)) (d_def d)))).

Lemma subs_object rec fuel t d input s : d_func d = false -> Forall no_ops (d_def d) ->
  subs_buffer rec fuel t d input s = ok {| ib := new_tokens t d ++ ib s; feed := feed s |}.
Proof.
  intros HF HN. unfold subs_buffer. rewrite HF. unfold ok at 1. cbn [exbind].
  rewrite body_loop_plain.
  - unfold ok at 1. cbn [exbind]. unfold push_all. cbn [ib feed].
    rewrite map_rev, rev_involutive. rewrite app_length, Nat.add_sub.
    rewrite firstn_app, Nat.sub_diag, firstn_all. cbn [firstn]. rewrite app_nil_r.
    rewrite skipn_app, Nat.sub_diag, skipn_all. cbn [skipn app]. reflexivity.
  - apply Forall_rev. auto.
  - apply Forall_rev. apply Forall_forall. intros x _. unfold get_param. rewrite HF. reflexivity.
Qed.

Lemma new_tokens_obs t d : map obs (new_tokens t d) = map mobs (d_def d).
Proof.
  unfold new_tokens. rewrite map_first_map, map_last_map by reflexivity. rewrite !map_map. apply map_ext. reflexivity.
Qed.
Lemma new_tokens_hs t d : Forall (fun x => e_hs x = string_set_insert (e_hs t) (d_name d)) (new_tokens t d).
Proof.
  unfold new_tokens. apply Forall_map_first; [auto|]. apply Forall_map_last; [auto|].
  apply Forall_forall. intros x Hx. rewrite map_map in Hx. apply in_map_iff in Hx. destruct Hx as (y & <- & _). cbn.
  apply union_nil_r.
Qed.

(** ** Steps of expand_buffer and expander_next *)
Section Obj.
Variables (lk : list Z -> option define) (path : list Z).
Hypothesis (GT : good_table lk).

Definition is_macro (t : etok) : option define :=
  if (e_type t =? T_IDENT) && negb (string_set_contains (e_hs t) (e_str t)) then lk (e_str t) else None.

Lemma classify_plain input t s : plain lk (obs t) ->
  classify lk path input t s = Ok (match is_macro t with Some d => inr d | None => inl t end, s).
Proof.
  intros [_ HP]. cbn [obs fst snd] in HP. unfold classify, is_macro.
  destruct (Z.eqb_spec (e_type t) T_IDENT) as [E|N]; cbn [negb orb andb]; [|auto].
  destruct (string_set_contains (e_hs t) (e_str t)); cbn [negb orb]; auto.
  destruct (HP E) as (N1 & N2 & HO). unfold builtin_macros.
  rewrite (sv_string_cmp_false _ _ N1), (sv_string_cmp_false _ _ N2).
  destruct (lk (e_str t)) as [d|] eqn:EL; auto. rewrite (HO d eq_refl). auto.
Qed.

Lemma macro_body t d : plain lk (obs t) -> is_macro t = Some d ->
  e_type t = T_IDENT /\ ~ In (e_str t) (e_hs t) /\ lk (e_str t) = Some d /\ d_func d = false /\ d_name d = e_str t /\
  Forall no_ops (d_def d) /\ Forall (fun x => plain lk (obs x)) (new_tokens t d).
Proof.
  intros [_ HP] HM. unfold is_macro in HM. destruct (Z.eqb_spec (e_type t) T_IDENT) as [E|N]; cbn in HM; [|discriminate].
  destruct (string_set_contains (e_hs t) (e_str t)) eqn:EC; cbn in HM; [discriminate|].
  destruct (HP E) as (_ & _ & HO). pose proof (HO d HM) as HF.
  pose proof (gt_body lk GT _ _ HM HF) as HB.
  split; [auto|]. split. { intros HI. apply contains_in in HI. congruence. }
  split; [auto|]. split; [auto|]. split; [apply (gt_name lk GT); auto|]. split.
  - eapply Forall_impl; [|exact HB]. intros a [_ Ha]. exact Ha.
  - apply Forall_forall. intros x Hx. apply (in_map obs) in Hx. rewrite new_tokens_obs in Hx.
    apply in_map_iff in Hx. destruct Hx as (y & Ey & Hy). rewrite <- Ey.
    apply (proj1 (Forall_forall _ _) HB) in Hy. apply Hy.
Qed.

Lemma buffer_step input t rest f n acc : plain lk (obs t) ->
  expand_buffer (S n) lk path input acc {| ib := t :: rest; feed := f |} =
  match is_macro t with
  | Some d => expand_buffer n lk path input acc {| ib := new_tokens t d ++ rest; feed := f |}
  | None => expand_buffer n lk path input (acc ++ [t]) {| ib := rest; feed := f |}
  end.
Proof.
  intros HP. cbn [expand_buffer ib length Nat.eqb]. rewrite orb_true_r. cbn [negb].
  unfold take. cbn [ib exbind feed]. pose proof HP as [NE _]. cbn in NE. rewrite (eqb_neq _ _ NE).
  rewrite classify_plain by auto. cbn [exbind]. destruct (is_macro t) as [d|] eqn:EM; auto.
  destruct (macro_body t d HP EM) as (_ & _ & _ & HF & _ & HN & _).
  rewrite subs_object by auto. unfold ok. cbn [exbind ib feed]. reflexivity.
Qed.

Lemma next_step t rest f n : plain lk (obs t) ->
  expander_next (S n) lk path {| ib := t :: rest; feed := f |} =
  match is_macro t with
  | Some d => expander_next n lk path {| ib := new_tokens t d ++ rest; feed := f |}
  | None => ok (t, {| ib := rest; feed := f |})
  end.
Proof.
  intros HP. cbn [expander_next ib]. 
  unfold take. cbn [ib exbind feed]. pose proof HP as [NE _]. cbn in NE. rewrite (eqb_neq _ _ NE).
  rewrite classify_plain by auto. cbn [exbind]. destruct (is_macro t) as [d|] eqn:EM; auto.
  destruct (macro_body t d HP EM) as (_ & _ & _ & HF & _ & HN & _).
  rewrite subs_object by auto. unfold ok. cbn [exbind ib feed]. reflexivity.
Qed.

(** ** Termination measure *)
Definition remaining (names : list (list Z)) (h : list (list Z)) : nat :=
  length (filter (fun n => negb (string_set_contains h n)) names).

Lemma filter_le {A} (p q : A -> bool) l : (forall x, p x = true -> q x = true) ->
  (length (filter p l) <= length (filter q l))%nat.
Proof.
  intros H. induction l as [|x l IH]; cbn; auto. destruct (p x) eqn:E; [rewrite (H _ E); cbn; lia|].
  destruct (q x); cbn; lia.
Qed.
Lemma filter_lt {A} (p q : A -> bool) l y : (forall x, p x = true -> q x = true) -> In y l -> p y = false -> q y = true ->
  (length (filter p l) < length (filter q l))%nat.
Proof.
  intros H HI Hp Hq. induction l as [|x l IH]; [contradiction|]. cbn. destruct HI as [->|HI].
  - rewrite Hp, Hq. cbn. pose proof (filter_le p q l H). lia.
  - specialize (IH HI). destruct (p x) eqn:E; [rewrite (H _ E); cbn; lia|]. destruct (q x); cbn; lia.
Qed.
Lemma contains_false h x : ~ In x h -> string_set_contains h x = false.
Proof. intros N. destruct (string_set_contains h x) eqn:E; auto. apply contains_in in E. contradiction. Qed.

Lemma remaining_insert names h n : In n names -> ~ In n h ->
  (remaining names (string_set_insert h n) < remaining names h)%nat.
Proof.
  intros HI HN. unfold remaining. apply filter_lt with (y := n); auto.
  - intros x. destruct (string_set_contains h x) eqn:E; cbn; auto. apply contains_in in E.
    assert (HX : In x (string_set_insert h n)) by (apply insert_in; auto). apply contains_in in HX. rewrite HX. auto.
  - assert (HX : In n (string_set_insert h n)) by (apply insert_in; auto). apply contains_in in HX. rewrite HX. auto.
  - rewrite contains_false by auto. auto.
Qed.

Lemma replaced_ext h1 l out : replaced lk h1 l out -> forall h2, (forall x, In x h1 <-> In x h2) -> replaced lk h2 l out.
Proof.
  induction 1 as [h|h t l out HC HR IH|h t l d o1 o2 HT HN HL HR1 IH1 HR2 IH2]; intros h2 HE.
  - constructor.
  - constructor; auto. rewrite <- HE. auto.
  - apply (r_replace lk h2 t l d); auto.
    + rewrite <- HE. auto.
    + apply IH1. intros x. cbn. rewrite HE. intuition.
Qed.
Lemma replaced_app h l1 o1 l2 o2 : replaced lk h l1 o1 -> replaced lk h l2 o2 -> replaced lk h (l1 ++ l2) (o1 ++ o2).
Proof.
  induction 1 as [h|h t l out HC HR IH|h t l d a b HT HN HL HR1 IH1 HR2 IH2]; intros H2; cbn; auto.
  - constructor; auto.
  - rewrite <- app_assoc. apply (r_replace lk h t (l ++ l2) d); auto.
Qed.
Lemma replaced_det h l o1 : replaced lk h l o1 -> forall o2, replaced lk h l o2 -> o1 = o2.
Proof.
  induction 1 as [h|h t l out HC HR IH|h t l d a b HT HN HL HR1 IH1 HR2 IH2]; intros o2 H2; inversion H2; subst; auto.
  - f_equal. auto.
  - exfalso. destruct HC as [HC|[HC|HC]]; congruence || contradiction.
  - exfalso. match goal with H : _ \/ _ \/ _ |- _ => destruct H as [HC|[HC|HC]] end; congruence || contradiction.
  - match goal with H : lk (snd t) = Some ?d' |- _ => assert (d' = d) by congruence; subst d' end. f_equal; auto.
Qed.

Inductive yields : ibuf -> list etok -> Prop :=
| y_end s : (exists f0 s', forall f, (f0 <= f)%nat -> expander_next f lk path s = ok (eoi_token, s')) -> yields s []
| y_tok s t s' r : (exists f0, forall f, (f0 <= f)%nat -> expander_next f lk path s = ok (t, s')) ->
    e_type t <> T_EOI -> yields s' r -> yields s (t :: r).

Lemma yields_macro t d rest f res : plain lk (obs t) -> is_macro t = Some d ->
  yields {| ib := new_tokens t d ++ rest; feed := f |} res -> yields {| ib := t :: rest; feed := f |} res.
Proof.
  intros HP HM HY. inversion HY as [s (f0 & s' & H)|s x s' r (f0 & H) NE Hr]; subst.
  - apply y_end. exists (S f0), s'. intros [|k] Hk; [lia|]. rewrite next_step, HM by auto. apply H. lia.
  - apply (y_tok _ x s'); auto. exists (S f0). intros [|k] Hk; [lia|]. rewrite next_step, HM by auto. apply H. lia.
Qed.

(** The effect of scanning one token, and a list of tokens. *)
Definition tok_done (t : etok) (out : list etok) : Prop :=
  replaced lk (e_hs t) [obs t] (map obs out) /\
  (exists f, forall n input acc rest fd, (0 < n)%nat ->
     expand_buffer (f + n) lk path input acc {| ib := t :: rest; feed := fd |} =
     expand_buffer n lk path input (acc ++ out) {| ib := rest; feed := fd |}) /\
  (forall rest fd res, yields {| ib := rest; feed := fd |} res ->
     yields {| ib := t :: rest; feed := fd |} (out ++ res)).
Definition list_done (h : list (list Z)) (l : list etok) (out : list etok) : Prop :=
  replaced lk h (map obs l) (map obs out) /\
  (exists f, forall n input acc rest fd, (0 < n)%nat ->
     expand_buffer (f + n) lk path input acc {| ib := l ++ rest; feed := fd |} =
     expand_buffer n lk path input (acc ++ out) {| ib := rest; feed := fd |}) /\
  (forall rest fd res, yields {| ib := rest; feed := fd |} res ->
     yields {| ib := l ++ rest; feed := fd |} (out ++ res)).

Lemma list_done_of h l : Forall (fun t => e_hs t = h /\ exists out, tok_done t out) l -> exists out, list_done h l out.
Proof.
  induction 1 as [|t l (Eh & o1 & R1 & (f1 & B1) & Y1) HF (o2 & R2 & (f2 & B2) & Y2)].
  - exists []. split; [constructor|]. split; [|cbn; auto]. exists O. intros. cbn [app Nat.add]. rewrite app_nil_r. auto.
  - exists (o1 ++ o2). split; [|split].
    + cbn [map]. change (obs t :: map obs l) with ([obs t] ++ map obs l). rewrite map_app. apply replaced_app; auto. congruence.
    + exists (f1 + f2)%nat. intros n input acc rest fd Hn. cbn [app].
      rewrite <- Nat.add_assoc, B1 by lia. rewrite B2 by auto. rewrite app_assoc. auto.
    + intros rest fd res HY. cbn [app]. rewrite <- app_assoc. apply Y1. auto.
Qed.

Lemma tok_done_exists names : (forall n d, lk n = Some d -> In n names) ->
  forall k t, (remaining names (e_hs t) < k)%nat -> plain lk (obs t) -> exists out, tok_done t out.
Proof.
  intros HNames. induction k as [|k IH]; intros t HK HP; [lia|].
  destruct (is_macro t) as [d|] eqn:EM.
  - destruct (macro_body t d HP EM) as (ET & NI & EL & HF & ED & HN & HPl).
    pose proof (new_tokens_hs t d) as HH.
    destruct (list_done_of (string_set_insert (e_hs t) (d_name d)) (new_tokens t d)) as (out & R & (f & B) & Y).
    { apply Forall_forall. intros x Hx. split; [apply (proj1 (Forall_forall _ _) HH); auto|].
      apply IH; [|apply (proj1 (Forall_forall _ _) HPl); auto].
      rewrite (proj1 (Forall_forall _ _) HH x Hx), ED. 
      pose proof (remaining_insert names (e_hs t) (e_str t) (HNames _ _ EL) NI). lia. }
    exists out. split; [|split].
    + rewrite <- (app_nil_r (map obs out)). apply (r_replace lk (e_hs t) (obs t) [] d); auto; [|constructor].
      rewrite new_tokens_obs in R. eapply replaced_ext; [exact R|]. intros x. rewrite insert_in, ED. cbn. intuition.
    + exists (S f). intros n input acc rest fd Hn. cbn [Nat.add]. rewrite buffer_step, EM by auto. apply B. auto.
    + intros rest fd res HY. apply (yields_macro t d); auto.
  - exists [t]. split; [|split].
    + cbn [map]. constructor; [|constructor]. unfold is_macro in EM. cbn.
      destruct (Z.eqb_spec (e_type t) T_IDENT) as [E|N]; [|auto]. right.
      destruct (string_set_contains (e_hs t) (e_str t)) eqn:EC; cbn in EM; [left; apply contains_in; auto|auto].
    + exists 1%nat. intros n input acc rest fd Hn. cbn [Nat.add]. rewrite buffer_step, EM by auto. auto.
    + intros rest fd res HY. cbn [app]. apply (y_tok _ t {| ib := rest; feed := fd |}); auto.
      * exists 1%nat. intros [|n] Hn; [lia|]. rewrite next_step, EM by auto. auto.
      * apply HP.
Qed.

Lemma list_done_exists l : Forall (fun t => plain lk (obs t) /\ e_hs t = []) l -> exists out, list_done [] l out.
Proof.
  intros H. destruct (gt_finite lk GT) as (names & HN). apply list_done_of.
  eapply Forall_impl; [|exact H]. cbn. intros t [HP HE]. split; auto.
  apply (tok_done_exists names HN (S (remaining names (e_hs t)))); auto.
Qed.

Lemma yields_expand_all s res : yields s res ->
  exists n0 f0, forall n f, (n0 <= n)%nat -> (f0 <= f)%nat -> expand_all n f lk path s = ok res.
Proof.
  induction 1 as [s (f0 & s' & H)|s t s' r (f0 & H) NE HY (n1 & f1 & IH)].
  - exists 1%nat, f0. intros [|n] f Hn Hf; [lia|]. cbn [expand_all]. rewrite H by auto. reflexivity.
  - exists (S n1), (Nat.max f0 f1). intros [|n] f Hn Hf; [lia|]. cbn [expand_all]. rewrite H by lia.
    unfold ok at 1. cbn [exbind]. rewrite (eqb_neq _ _ NE). rewrite IH by lia. reflexivity.
Qed.

Lemma yields_feed t f res : yields {| ib := [t]; feed := f |} res -> yields {| ib := []; feed := t :: f |} res.
Proof.
  assert (E : forall n, expander_next n lk path {| ib := []; feed := t :: f |} = expander_next n lk path {| ib := [t]; feed := f |})
    by (intros [|n]; reflexivity).
  intros HY. inversion HY as [s (f0 & s' & H)|s x s' r (f0 & H) NE Hr]; subst.
  - apply y_end. exists f0, s'. intros k Hk. rewrite E. auto.
  - apply (y_tok _ x s'); auto. exists f0. intros k Hk. rewrite E. auto.
Qed.

Lemma feed_yields l : Forall (fun t => plain lk (obs t) /\ e_hs t = []) l ->
  exists out, replaced lk [] (map obs l) (map obs out) /\ yields {| ib := []; feed := l |} out.
Proof.
  destruct (gt_finite lk GT) as (names & HN). induction 1 as [|t l [HP HE] HF (o2 & R2 & Y2)].
  - exists []. split; [constructor|]. apply y_end. exists 1%nat, {| ib := []; feed := [] |}. intros [|f] Hf; [lia|]. reflexivity.
  - destruct (tok_done_exists names HN (S (remaining names (e_hs t))) t ltac:(lia) HP) as (o1 & R1 & _ & Y1).
    exists (o1 ++ o2). split.
    + cbn [map]. change (obs t :: map obs l) with ([obs t] ++ map obs l). rewrite map_app. apply replaced_app; auto.
      rewrite HE in R1. auto.
    + apply yields_feed. apply Y1. auto.
Qed.
End Obj.
