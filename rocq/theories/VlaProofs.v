(** Proofs about variable-length array types. *)
From Verif Require Import Base Vla VlaSpec.
Local Open Scope Z_scope.
Local Open Scope list_scope.

Scheme ty_mut := Induction for ty Sort Prop
with tys_mut := Induction for tys Sort Prop.

(** What evaluation does to the state: new entries for the expressions listed. *)
Definition grown (now : nat -> Z) (st st' : state) (ev : list nat) : Prop :=
  forall i, length_var i st' = match length_var i st with
                               | Some v => Some v
                               | None => if in_dec Nat.eq_dec i ev then Some (wrap 64 (now i)) else None
                               end.

Lemma grown_refl now st : grown now st st [].
Proof. intros i. destruct (length_var i st); reflexivity. Qed.

Lemma grown_trans now a b c e f : grown now a b e -> grown now b c f -> grown now a c (e ++ f).
Proof.
  intros H K i. rewrite (K i), (H i). destruct (length_var i a); [reflexivity|].
  destruct (in_dec Nat.eq_dec i e) as [I|I].
  - destruct (in_dec Nat.eq_dec i (e ++ f)) as [J|J]; [reflexivity|destruct J; apply in_or_app; auto].
  - destruct (in_dec Nat.eq_dec i f) as [L|L]; destruct (in_dec Nat.eq_dec i (e ++ f)) as [J|J]; try reflexivity.
    + destruct J. apply in_or_app; auto.
    + apply in_app_or in J. destruct J; contradiction.
Qed.

Lemma grown_one now i st : length_var i st = None -> grown now st ((i, wrap 64 (now i)) :: st) [i].
Proof.
  intros N k. cbn [length_var]. destruct (Nat.eqb_spec i k) as [->|D].
  - rewrite N. destruct (in_dec Nat.eq_dec k [k]) as [_|J]; [reflexivity|destruct J; left; reflexivity].
  - destruct (length_var k st); [reflexivity|]. destruct (in_dec Nat.eq_dec k [i]) as [[J|[]]|_]; [contradiction|reflexivity].
Qed.

(** Each expression that has no value yet is evaluated once. *)
Definition good (now : nat -> Z) (f : state -> res (state * list nat)) (es : list nat) : Prop :=
  forall st, exists st' ev, f st = Ok (st', ev) /\ grown now st st' ev /\
    NoDup ev /\ (forall i, In i ev <-> In i es /\ length_var i st = None).

Lemma NoDup_join {A} (a b : list A) : NoDup a -> NoDup b -> (forall x, In x a -> ~ In x b) -> NoDup (a ++ b).
Proof.
  intros Na Nb D. induction Na as [|x a N Na IH]; [exact Nb|]. cbn. constructor.
  - intros I. apply in_app_or in I. destruct I as [I|I]; [contradiction|]. apply (D x); [left; reflexivity|exact I].
  - apply IH. intros y I. apply D. right; exact I.
Qed.

Lemma good_nil now : good now (fun st => Ok (st, [])) [].
Proof.
  intros st. exists st, []. split; [reflexivity|]. split; [apply grown_refl|]. split; [constructor|].
  intros i. split; [intros []|intros [[] _]].
Qed.

Lemma good_then now f g a b : good now f a -> good now g b ->
  good now (fun st => let* (st', ev) := f st in let* (st'', ev') := g st' in Ok (st'', ev ++ ev')) (a ++ b).
Proof.
  intros F G st. destruct (F st) as (s1 & e1 & E1 & G1 & N1 & I1). destruct (G s1) as (s2 & e2 & E2 & G2 & N2 & I2).
  exists s2, (e1 ++ e2). rewrite E1. cbn [bind]. rewrite E2. cbn [bind]. split; [reflexivity|].
  split; [exact (grown_trans _ _ _ _ _ _ G1 G2)|].
  assert (L : forall i, length_var i s1 = None <-> length_var i st = None /\ ~ In i e1).
  { intros i. rewrite (G1 i). destruct (length_var i st); [split; [discriminate|intros [K _]; discriminate K]|].
    destruct (in_dec Nat.eq_dec i e1); split; try discriminate; try tauto. }
  split.
  - apply NoDup_join; [exact N1|exact N2|]. intros i J K. apply I2 in K. destruct K as [_ K]. apply L in K. tauto.
  - intros i. rewrite !in_app_iff. rewrite I1, I2, L. rewrite I1.
    destruct (in_dec Nat.eq_dec i a); tauto.
Qed.

Lemma good_one now i :
  good now (fun st => match length_var i st with Some _ => Ok (st, []) | None => Ok ((i, wrap 64 (now i)) :: st, [i]) end) [i].
Proof.
  intros st. destruct (length_var i st) eqn:E.
  - exists st, []. split; [reflexivity|]. split; [apply grown_refl|]. split; [constructor|].
    intros k. split; [intros []|]. intros [[->|[]] K]. rewrite E in K. discriminate.
  - exists ((i, wrap 64 (now i)) :: st), [i]. split; [reflexivity|]. split; [apply grown_one; exact E|].
    split; [repeat constructor; intros []|]. intros k. split; [intros [->|[]]; split; [left; reflexivity|exact E]|tauto].
Qed.

Lemma good_ext now f g es : (forall st, f st = g st) -> good now f es -> good now g es.
Proof. intros E F st. rewrite <- E. apply F. Qed.

Lemma evaluate_good now : forall t, no_star t -> good now (evaluate now t) (expressions t).
Proof.
  apply (ty_mut (fun t => no_star t -> good now (evaluate now t) (expressions t))
                (fun l => no_stars l -> good now (evaluate_all now l) (expressions_of l))).
  - intros s _. apply good_nil.
  - intros t IH N. exact (IH N).
  - intros n t IH N. exact (IH N).
  - intros t IH N. exact (IH N).
  - intros [i|] t IH [N1 N2]; [|destruct (N1 eq_refl)]. cbn [expressions].
    eapply good_ext; [|exact (good_then _ _ _ _ _ (IH N2) (good_one now i))].
    intros st. cbn [evaluate]. destruct (evaluate now t st) as [[s e]| |]; cbn [bind]; try reflexivity.
    destruct (length_var i s); cbn [bind]; [rewrite app_nil_r|]; reflexivity.
  - intros l IH N. exact (IH N).
  - intros _. apply good_nil.
  - intros t IH l IHl [N1 N2]. cbn [expressions_of].
    eapply good_ext; [|exact (good_then _ _ _ _ _ (IH N1) (IHl N2))]. intros st. reflexivity.
Qed.

Lemma nothing_evaluated : forall t, contains_unevaluated t [] = false.
Proof.
  apply (ty_mut (fun t => contains_unevaluated t [] = false) (fun l => any_unevaluated l [] = false));
    intros; cbn [contains_unevaluated any_unevaluated length_var]; try reflexivity; try assumption.
  - rewrite H. destruct length; reflexivity.
  - rewrite H. exact H0.
Qed.

Lemma bytes_nonneg t : object_type t -> 0 <= bytes (fun _ => 0) t.
Proof.
  induction t; cbn [object_type bytes]; intros H; try lia.
  - destruct H as (Hn & Ho & _). specialize (IHt Ho). nia.
  - destruct length; lia.
Qed.
Lemma constant_bytes len t : object_type t -> has_variable_size t = false ->
  bytes len t = bytes (fun _ => 0) t /\ calculate_size t = bytes (fun _ => 0) t.
Proof.
  induction t; cbn [object_type has_variable_size bytes calculate_size]; intros H V; try discriminate; try (destruct H; fail); auto.
  destruct H as (Hn & Ho & Hb). destruct (IHt Ho V) as [B C]. rewrite B, C. split; [reflexivity|].
  apply signed_id; [lia|]. specialize (Hb V). pose proof (bytes_nonneg t Ho).
  change (2 ^ (32 - 1)) with (2 ^ 31). nia.
Qed.

Lemma sizeof_bytes len st : forall t, object_type t ->
  (forall i, In i (expressions t) -> length_var i st = Some (wrap 64 (len i))) ->
  type_sizeof t st = Ok (wrap 64 (bytes len t)).
Proof.
  induction t; intros O L; try (destruct O; fail).
  - reflexivity.
  - reflexivity.
  - pose proof O as O0. cbn [object_type] in O. destruct O as (Hn & Ho & Hb). cbn [type_sizeof].
    destruct (has_variable_size t) eqn:V.
    + rewrite (IHt Ho L). cbn [bind bytes]. unfold wrap. rewrite Zmult_mod_idemp_r. reflexivity.
    + f_equal. f_equal. destruct (constant_bytes len (Array length t) O0 V) as [B C]. rewrite B, C. reflexivity.
  - cbn [object_type] in O. destruct O as [N Ho]. destruct length as [i|]; [|destruct (N eq_refl)].
    cbn [type_sizeof]. rewrite (L i) by (cbn [expressions]; apply in_or_app; right; left; reflexivity).
    rewrite IHt; [|exact Ho|intros k K; apply L; cbn [expressions]; apply in_or_app; left; exact K].
    cbn [bind bytes]. unfold wrap. rewrite <- Zmult_mod. reflexivity.
Qed.
