(** Which values the steps of an initializer leave. *)
From Coq Require Import String.
From Verif Require Import Base Fuel InitParse InitSpec InitSteps InitProofs.
Local Open Scope Z_scope.
Local Open Scope list_scope.

Lemma overlap_prefix p : forall t q, prefix p q = true -> overlap t p q = true.
Proof.
  induction p as [|a p IH]; intros t q H; [destruct q; reflexivity|]. destruct q as [|b q]; [discriminate|].
  cbn in *. apply andb_true_iff in H as [-> H]. destruct (sub t a); [apply IH; exact H|reflexivity].
Qed.
Lemma overlap_prefix' q : forall t p, prefix q p = true -> overlap t p q = true.
Proof.
  induction q as [|a q IH]; intros t p H; [destruct p; reflexivity|]. destruct p as [|b p]; [discriminate|].
  cbn in *. apply andb_true_iff in H as [E H]. apply Nat.eqb_eq in E. subst b. rewrite Nat.eqb_refl.
  destruct (sub t a); [apply IH; exact H|reflexivity].
Qed.

Lemma has_value_snoc t ws w p v :
  has_value t (ws ++ [w]) p v <-> w = (p, Some v) \/ has_value t ws p v /\ overlap t (fst w) p = false.
Proof.
  split.
  - intros (ws1 & ws2 & E & H). destruct ws2 as [|w' ws2] using rev_ind.
    + apply app_inj_tail in E as [_ ->]. left. reflexivity.
    + right. change (ws1 ++ (p, Some v) :: ws2 ++ [w']) with (ws1 ++ ((p, Some v) :: ws2) ++ [w']) in E. rewrite app_assoc in E.
      apply app_inj_tail in E as [-> ->]. split; [|apply H; apply in_or_app; right; left; reflexivity].
      exists ws1, ws2. split; [reflexivity|]. intros w I. apply H. apply in_or_app. left. exact I.
  - intros [->|((ws1 & ws2 & -> & H) & O)].
    + exists ws, []. split; [reflexivity|]. intros w [].
    + exists ws1, (ws2 ++ [w]). split; [rewrite <- app_assoc; reflexivity|]. intros w' I. apply in_app_or in I as [I|[<-|[]]]; [apply H; exact I|exact O].
Qed.
Lemma has_value_in t ws p v : has_value t ws p v -> In (p, Some v) ws.
Proof. intros (ws1 & ws2 & -> & _). apply in_or_app. right. left. reflexivity. Qed.

Definition nothing : state := fun _ => None.
Lemma writes_ok t ws : no_second_list t ws ->
  fine nothing ws /\ forall p v, effects nothing ws p = Some v <-> has_value t ws p v.
Proof.
  induction ws as [|w ws IH] using rev_ind; intros NS.
  - split; [exact I|]. intros p v. split; [discriminate|]. intros (ws1 & ws2 & E & _). destruct ws1; discriminate.
  - destruct IH as [F H].
    { intros ws1 w' ws2 E p v IN O. apply (NS ws1 w' (ws2 ++ [w])) with (v := v); [rewrite E, <- app_assoc; reflexivity|exact IN|exact O]. }
    assert (NS1 : forall p v, effects nothing ws p = Some v -> overlap t (fst w) p = true -> prefix (fst w) p = true /\ snd w <> None).
    { intros p v E O. apply H, has_value_in in E. exact (NS ws w [] eq_refl p v E O). }
    split.
    + apply fine_app. split; [exact F|]. split; [|exact I]. intros p P D.
      destruct (effects nothing ws p) as [v|] eqn:E; [|reflexivity]. exfalso.
      destruct (NS1 p v E (overlap_prefix' _ _ _ P)) as [A B]. destruct D as [D|D]; congruence.
    + intros p v. rewrite has_value_snoc, effects_app. cbn [effects fold_left]. unfold effect.
      destruct w as (wp, [v0|]); cbn [fst snd] in *.
      * destruct (prefix wp p) eqn:P1.
        -- destruct (prefix p wp) eqn:P2.
           ++ pose proof (prefix_both _ _ P1 P2) as ->. split; [intros E; injection E as ->; left; reflexivity|].
              intros [E|(_ & O)]; [injection E as ->; reflexivity|]. rewrite (overlap_prefix _ t _ P1) in O. discriminate.
           ++ split; [discriminate|]. intros [E|(_ & O)].
              ** injection E as -> ->. rewrite prefix_refl in P2. discriminate.
              ** rewrite (overlap_prefix _ t _ P1) in O. discriminate.
        -- fold (effects nothing ws). split.
           ++ intros E. right. split; [apply H; exact E|]. destruct (overlap t wp p) eqn:O; [|reflexivity].
              destruct (NS1 p v E O). congruence.
           ++ intros [E|(E & _)]; [injection E as -> ->; rewrite prefix_refl in P1; discriminate|apply H; exact E].
      * fold (effects nothing ws). split.
        -- intros E. right. split; [apply H; exact E|]. destruct (overlap t wp p) eqn:O; [|reflexivity].
           destruct (NS1 p v E O). congruence.
        -- intros [E|(E & _)]; [discriminate|apply H; exact E].
Qed.

Theorem parse_ok wide t i ws rest : initializable t -> inits wide true t i ws -> no_second_list t ws -> starts_lbrace rest = false ->
  exists x f0, (forall f, (f0 <= f)%nat -> parse_initializer wide f t (print i ++ rest) = ok (completed t ws, x, rest)) /\
    forall p v, leaf x p = Some v <-> has_value t ws p v.
Proof.
  intros R IN NS SL. destruct (writes_ok t ws NS) as [F H].
  destruct (all_ok wide (S (isz i))) as (PI & _).
  destruct (PI t i ws IEmpty None false nothing (print i ++ rest) rest R ltac:(destruct t; try exact I; split; reflexivity) IN (le_n _) F
    ltac:(intros []; reflexivity) ltac:(left; split; reflexivity) SL) as (x & (f0 & E) & X).
  exists x, f0. split; [exact E|]. intros p v. rewrite X. apply H.
Qed.

Scheme inits_mind := Minimality for inits Sort Prop
  with lists_mind := Minimality for lists Sort Prop
  with item_mind := Minimality for item Sort Prop.
Lemma takes_lenient wide t i v : takes wide true t i v -> takes wide false t i v.
Proof.
  destruct 1 as [k e|k sk s|un tag cn cn' fs e ER EC|n k sk s CT|k sk s CT]; try (constructor; assumption).
  apply (takes_record _ _ _ _ _ cn'); [exact ER|discriminate].
Qed.
Theorem inits_lenient wide t i ws : inits wide true t i ws -> inits wide false t i ws.
Proof.
  apply (inits_mind wide true (inits wide false) (lists wide false) (item wide false)).
  - intros. apply inits_value. apply takes_lenient. assumption.
  - intros. apply inits_braced_value; [assumption|discriminate|]. apply takes_lenient. assumption.
  - intros. apply inits_list; assumption.
  - intros. apply lists_end.
  - intros. apply lists_next with (u := u); [discriminate|assumption..].
  - intros. apply lists_designated with (p := p) (u := u); assumption.
  - intros. apply item_intro with (u0 := u0); assumption.
Qed.
