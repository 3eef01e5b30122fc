(** C15: type identity. *)
From Verif Require Import Base Arch Types TypesProofs.

(** After any history of constructions whose children are pointers returned
    earlier in the history: all constructions succeed; two of them return the
    same pointer exactly when they were given the same constructor, parameters,
    qualifier and children; and at the end each returned object still holds what
    it was created from. *)
Theorem C15_type_identity :
  forall reqs, well_founded_history tinit [] reqs ->
  exists st ps, type_run tinit reqs = Ok (st, ps) /\ length ps = length reqs /\
    (forall i j p q a b, nth_error ps i = Some p -> nth_error ps j = Some q ->
       nth_error reqs i = Some a -> nth_error reqs j = Some b -> (p = q <-> a = b)) /\
    (forall i p a, nth_error ps i = Some p -> nth_error reqs i = Some a -> request_at (heap st) p = Ok a).
Proof.
  intros reqs HW. destruct (run_spec reqs tinit [] tinit_inv ltac:(constructor) HW) as (st & ps & E & HI & _ & HF).
  exists st, ps. split; auto. split; [clear -HF; induction HF; cbn; congruence|].
  assert (K : forall i p a, nth_error ps i = Some p -> nth_error reqs i = Some a -> key (heap st) p a).
  { clear -HF. induction HF; intros [|i] p a E1 E2; try discriminate; cbn in *.
    - inversion E1; inversion E2; subst; auto.
    - eauto. }
  split.
  - intros i j p q a b Ep Eq Ea Eb. pose proof (K _ _ _ Ep Ea) as KA. pose proof (K _ _ _ Eq Eb) as KB. split.
    + intros ->. eapply key_fun; eauto.
    + intros ->. apply (ti_unique st HI p q b); auto.
  - intros i p a Ep Ea. apply (key_at _ _ _ (K _ _ _ Ep Ea)).
Qed.
Print Assumptions C15_type_identity.

(** Objects never change: constructions only append to the heap. *)
Theorem C15_objects_immutable :
  forall reqs more st ps, well_founded_history tinit [] (reqs ++ more) ->
  type_run tinit reqs = Ok (st, ps) ->
  exists st' ps', type_run tinit (reqs ++ more) = Ok (st', ps ++ ps') /\
    forall p a, request_at (heap st) p = Ok a -> request_at (heap st') p = Ok a.
Proof.
  assert (G : forall reqs more s0 seen st ps, TInv s0 -> below (length (heap s0)) seen ->
     well_founded_history s0 seen (reqs ++ more) -> type_run s0 reqs = Ok (st, ps) ->
     exists st' ps' e, type_run s0 (reqs ++ more) = Ok (st', ps ++ ps') /\ heap st' = heap st ++ e).
  { induction reqs as [|a reqs IH]; intros more s0 seen st ps HI HS HW E; cbn in E.
    - inversion E; subst. destruct (run_spec more st seen HI HS HW) as (st' & ps' & E' & _ & (e & EE) & _).
      exists st', ps', e. auto.
    - destruct HW as [HC HW].
      assert (HB : below (length (heap s0)) (r_children a)).
      { apply Forall_forall. intros x Hx. apply (proj1 (Forall_forall _ _) HS). auto. }
      destruct (create_spec s0 a HI HB) as (s1 & p & EC & HI1 & HK & e1 & E1). rewrite EC in E. cbn [bind] in E.
      destruct (type_run s1 reqs) as [[st1 ps1]| |] eqn:ER; cbn [bind] in E; inversion E; subst.
      assert (HS1 : below (length (heap s1)) (p :: seen)).
      { constructor; [apply (key_at _ _ _ HK)|]. rewrite E1, app_length. eapply Forall_impl; [|exact HS]. cbn. intros. lia. }
      destruct (IH more s1 (p :: seen) st ps1 HI1 HS1 (HW _ _ EC) ER) as (st' & ps' & e & E' & EE).
      exists st', ps', e. cbn [app type_run]. rewrite EC. cbn [bind]. rewrite E'. cbn [bind]. auto. }
  intros reqs more st ps HW E. destruct (G reqs more tinit [] st ps tinit_inv ltac:(constructor) HW E) as (st' & ps' & e & E' & EE).
  exists st', ps'. split; auto. intros p a H. unfold request_at in *. rewrite EE.
  destruct (nth_error (heap st) p) eqn:N; [|discriminate]. rewrite nth_error_app1; [rewrite N; auto|]. apply nth_error_Some. congruence.
Qed.
Print Assumptions C15_objects_immutable.

(** int, int *, const int, char, int * again, int[3], function(int*, char). *)
Definition C15_history : list request :=
  [ {| r_params := PSimple ST_INT; r_const := 0; r_children := [] |};
    {| r_params := PPointer; r_const := 0; r_children := [0%nat] |};
    {| r_params := PSimple ST_INT; r_const := 1; r_children := [] |};
    {| r_params := PSimple ST_CHAR; r_const := 0; r_children := [] |};
    {| r_params := PPointer; r_const := 0; r_children := [0%nat] |};
    {| r_params := PArray 3; r_const := 0; r_children := [0%nat] |};
    {| r_params := PFunction 0; r_const := 0; r_children := [1%nat; 3%nat] |} ].
Example C15_nontrivial :
  exists st, type_run tinit C15_history = Ok (st, [0; 1; 2; 3; 1; 4; 5]%nat).
Proof. eexists. vm_compute. reflexivity. Qed.
Example C15_history_ok : well_founded_history tinit [] C15_history.
Proof.
  unfold C15_history.
  repeat (split; [intros x Hx; cbn in Hx |- *; intuition congruence|
    intros st' p E; vm_compute in E; injection E as <- <-]).
  exact I.
Qed.
