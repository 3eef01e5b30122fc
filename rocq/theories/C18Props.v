(** C18: push_macro / pop_macro. *)
From Verif Require Import Base Common MacroTable MacroTableSpec MacroTableProofs.

(** Any history of #define, #undef, push_macro and pop_macro in which push_macro
    is applied to macros that are defined at that point: all lookups agree with
    the map-with-stacks specification. *)
Theorem C18_push_pop_partial :
  forall history, pushes_defined sinit history ->
  exists st, macro_run minit history = Ok st /\
  forall name, exists r, define_map_get (tab st) name = Ok r /\ matches (defs (spec_run history) name) r.
Proof.
  intros l HP. destruct (rel_run l minit sinit rel_init HP) as (st & E & HR).
  exists st. split; auto. intros n. exists (found (tab st) n). split; [apply get_found; apply (r_tab _ _ HR)|].
  rewrite (r_found _ _ HR). unfold spec_run. destruct (defs (fold_left spec_step l sinit) n) as [d|]; cbn; auto. apply clean_stored.
Qed.
Print Assumptions C18_push_pop_partial.

(** In particular a push, any #define/#undef of that or other names, and the
    matching pop leave the name as it was before. *)
Theorem C18_pop_restores :
  forall before between name,
  pushes_defined sinit (before ++ OpPush name :: between ++ [OpPop name]) -> no_pragmas between ->
  exists st1 st2, macro_run minit before = Ok st1 /\
    macro_run minit (before ++ OpPush name :: between ++ [OpPop name]) = Ok st2 /\
    exists r1 r2 d, define_map_get (tab st1) name = Ok r1 /\ define_map_get (tab st2) name = Ok r2 /\
      matches (Some d) r1 /\ matches (Some d) r2.
Proof.
  intros before between name HP HN.
  destruct (C18_push_pop_partial _ HP) as (st2 & E2 & H2).
  assert (HP1 : pushes_defined sinit before /\ defs (spec_run before) name <> None).
  { unfold spec_run. clear -HP. revert HP. generalize sinit. induction before as [|op l IH]; cbn; intros s H.
    - split; auto. apply H.
    - destruct H as [H1 H]. destruct (IH _ H) as [A B]. auto. }
  destruct HP1 as [HP1 ND]. destruct (C18_push_pop_partial _ HP1) as (st1 & E1 & H1).
  destruct (defs (spec_run before) name) as [d|] eqn:ED; [|congruence].
  exists st1, st2. split; auto. split; auto.
  destruct (H1 name) as (r1 & G1 & M1), (H2 name) as (r2 & G2 & M2).
  exists r1, r2, d. split; auto. split; auto. rewrite ED in M1. split; auto.
  assert (ES : defs (spec_run (before ++ OpPush name :: between ++ [OpPop name])) name = Some d).
  { unfold spec_run in *. rewrite fold_left_app. cbn [fold_left]. rewrite fold_left_app. cbn [fold_left].
    set (s := fold_left spec_step before sinit) in *.
    assert (SV : forall s', saved s' name = defs s name :: saved s name ->
       saved (fold_left spec_step between s') name = defs s name :: saved s name).
    { clear -HN. induction HN as [|op l HO HN IH]; cbn; auto. intros s' H. apply IH. destruct op; try contradiction; cbn; auto. }
    cbn [spec_step]. rewrite SV.
    - cbn [defs]. unfold upd. destruct (name_dec name name); [auto|congruence].
    - cbn [saved spec_step]. unfold upd. destruct (name_dec name name); [auto|congruence]. }
  rewrite ES in M2. auto.
Qed.
Print Assumptions C18_pop_restores.

Definition C18_def (v : Z) : define :=
  {| d_name := [88]; d_func := false; d_vararg := false; d_par := [];
     d_def := [{| k_type := v; k_str := [v]; k_ws := false; k_ws_after := false |}] |}.

(** Missing: saving an undefined macro does not save its absence, so the later
    pop leaves the new definition in force. *)
Theorem C18_push_undefined_refuted :
  exists history st r, macro_run minit history = Ok st /\ define_map_get (tab st) [88] = Ok r /\
    defs (spec_run history) [88] = None /\ r <> None.
Proof.
  exists [OpPush [88]; OpDefine (C18_def 1); OpPop [88]]. eexists; eexists.
  split; [vm_compute; reflexivity|]. split; [vm_compute; reflexivity|]. split; [reflexivity|discriminate].
Qed.
Print Assumptions C18_push_undefined_refuted.

Example C18_nontrivial :
  let h := [OpDefine (C18_def 1); OpPush [88]; OpDefine (C18_def 2); OpPush [88]; OpUndef [88]; OpPop [88]; OpPop [88]; OpPop [88]] in
  pushes_defined sinit h /\ defs (spec_run h) [88] = Some (C18_def 1) /\
  exists st, macro_run minit h = Ok st /\ define_map_get (tab st) [88] = Ok (Some (C18_def 1)).
Proof.
  cbn zeta. split; [|split].
  - cbn. repeat split; discriminate.
  - vm_compute. reflexivity.
  - eexists. split; vm_compute; reflexivity.
Qed.
