(** C59: macro replacement of object-like macros. *)
From Coq Require Import String.
From Verif Require Import Base CharTypes Tokens MacroTable Fuel Expander ExpanderSpec ExpanderProofs.

(** Expansion of a token list (as done for #if and #include lines) ends for every
    table, however its macros refer to each other, and produces exactly the
    tokens of the C replacement rules. *)
Theorem C59_expand_line :
  forall lk path l s, good_table lk -> Forall (fun t => plain lk (obs t) /\ e_hs t = []) l ->
  exists fuel0 out, replaced lk [] (map obs l) (map obs out) /\
  forall fuel, (fuel0 <= fuel)%nat -> expand_token_list fuel lk path l s = Some (Ok (out, s)).
Proof.
  intros lk path l s GT HL. destruct (list_done_exists lk path GT l HL) as (out & R & (f & B) & _).
  exists (f + 1)%nat, out. split; auto. intros fuel Hf. unfold expand_token_list, push_all, push. cbn [ib feed].
  replace fuel with (f + (fuel - f))%nat by lia. rewrite B by lia.
  destruct (fuel - f)%nat as [|n] eqn:E; [lia|]. destruct s as [si sf]. reflexivity.
Qed.
Print Assumptions C59_expand_line.

(** The tokens of a whole source reach the parser replaced by the same rules. *)
Theorem C59_expand_source :
  forall lk path l, good_table lk -> Forall (fun t => plain lk (obs t) /\ e_hs t = []) l ->
  exists n0 fuel0 out, replaced lk [] (map obs l) (map obs out) /\
  forall n fuel, (n0 <= n)%nat -> (fuel0 <= fuel)%nat ->
    expand_all n fuel lk path {| ib := []; feed := l |} = Some (Ok out).
Proof.
  intros lk path l GT HL. destruct (feed_yields lk path GT l HL) as (out & R & Y).
  destruct (yields_expand_all lk path _ _ Y) as (n0 & f0 & H). exists n0, f0, out. auto.
Qed.
Print Assumptions C59_expand_source.

(** The replacement rules determine the result. *)
Theorem C59_result_unique :
  forall lk hidden l o1 o2, replaced lk hidden l o1 -> replaced lk hidden l o2 -> o1 = o2.
Proof. intros. eapply replaced_det; eauto. Qed.
Print Assumptions C59_result_unique.

Definition C59_tok (ty : Z) (s : list Z) : mtoken := {| k_type := ty; k_str := s; k_ws := false; k_ws_after := false |}.
Definition C59_id (c : Z) := C59_tok T_IDENT [c].
Definition C59_obj (n : Z) (b : list mtoken) := {| d_name := [n]; d_func := false; d_vararg := false; d_def := b; d_par := [] |}.
(** a -> a b and b -> a c: mutually recursive. *)
Definition C59_lk (n : list Z) : option define :=
  if sv_cmp n [97] then Some (C59_obj 97 [C59_id 97; C59_id 98])
  else if sv_cmp n [98] then Some (C59_obj 98 [C59_id 97; C59_id 99]) else None.
Example C59_good : good_table C59_lk.
Proof.
  assert (H : forall n d, C59_lk n = Some d -> (n = [97] /\ d = C59_obj 97 [C59_id 97; C59_id 98]) \/ (n = [98] /\ d = C59_obj 98 [C59_id 97; C59_id 99])).
  { intros n d. unfold C59_lk. destruct (sv_cmp n [97]) eqn:E1; [|destruct (sv_cmp n [98]) eqn:E2; [|discriminate]];
      intros H; inversion H; [left|right]; split; auto; apply MacroTableProofs.sv_cmp_spec; auto. }
  assert (HF : forall n d, C59_lk n = Some d -> d_func d = false) by (intros n d E; apply H in E; destruct E as [(-> & ->)|(-> & ->)]; auto).
  split.
  - intros n d E. apply H in E. destruct E as [(-> & ->)|(-> & ->)]; auto.
  - intros n d E _. apply H in E.
    destruct E as [(-> & ->)|(-> & ->)]; cbn; repeat (apply Forall_cons; [split; [split; [discriminate|]|]|]); try apply Forall_nil;
      try (intros _; split; [discriminate|]; split; [discriminate|apply HF]); repeat split; discriminate.
  - exists [[97]; [98]]. intros n d E. apply H in E. cbn. intuition.
Qed.
Example C59_nontrivial :
  match expand_token_list 40 C59_lk [] (map of_mtoken [C59_id 97; C59_id 98]) {| ib := []; feed := [] |} with
  | Some (Ok (l, _)) => map obs l = map mobs [C59_id 97; C59_id 97; C59_id 99; C59_id 97; C59_id 98; C59_id 99]
  | _ => False
  end.
Proof. vm_compute. reflexivity. Qed.

(** With function-like macros the rule that a macro is not replaced inside its own
    replacement fails, because the hide set intersection of C17 loses members:
      #define a() z )
      #define z f(
      #define f() a()
    a() is replaced by z ), z by f( so that f() is called inside the replacement
    of a and its a() has to stay; the expander replaces it again and ends with f(). *)
Definition C59_lk2 (n : list Z) : option define :=
  if sv_cmp n [97] then Some {| d_name := [97]; d_func := true; d_vararg := false; d_def := [C59_id 122; C59_tok T_RPAR [41]]; d_par := [] |}
  else if sv_cmp n [122] then Some (C59_obj 122 [C59_id 102; C59_tok T_LPAR [40]])
  else if sv_cmp n [102] then Some {| d_name := [102]; d_func := true; d_vararg := false; d_def := [C59_id 97; C59_tok T_LPAR [40]; C59_tok T_RPAR [41]]; d_par := [] |}
  else None.
Theorem C59_function_like_refuted :
  exists out, expand_token_list 40 C59_lk2 [] (map of_mtoken [C59_id 97; C59_tok T_LPAR [40]; C59_tok T_RPAR [41]]) {| ib := []; feed := [] |}
    = Some (Ok (out, {| ib := []; feed := [] |})) /\
  map obs out = map mobs [C59_id 102; C59_tok T_LPAR [40]; C59_tok T_RPAR [41]] /\
  map obs out <> map mobs [C59_id 97; C59_tok T_LPAR [40]; C59_tok T_RPAR [41]].
Proof. eexists. split; [vm_compute; reflexivity|]. split; [reflexivity|discriminate]. Qed.
Print Assumptions C59_function_like_refuted.
