(** C60: calls of function-like macros. *)
From Coq Require Import String.
From Verif Require Import Base CharTypes Tokens MacroTable StringSet Fuel Expander ExpanderSpec ExpanderProofs CallProofs.

(** A call f(a1, ..., ak), among tokens that are not macro names, is replaced by
    the body of f with every parameter replaced by the corresponding argument.
    Arguments may contain nested parentheses and, inside them, commas. *)
Theorem C60_call_substitution_partial :
  forall lk path s before after name lpar rpar comma args d,
  lk (e_str name) = Some d -> d_func d = true -> d_vararg d = false ->
  e_type name = T_IDENT -> e_hs name = [] -> e_str name <> chars "__LINE__" -> e_str name <> chars "__FILE__" ->
  e_type lpar = T_LPAR -> e_type rpar = T_RPAR -> e_type comma = T_COMMA ->
  length args = length (d_par d) ->
  Forall (fun a => argument 0 (map obs a) /\ Forall (fun t => inert lk (obs t)) a) args ->
  Forall (fun t => operator_free (mobs t) /\
            (inert lk (mobs t) \/ (k_type t = T_IDENT /\ In (k_str t) (map k_str (d_par d))))) (d_def d) ->
  Forall (fun t => inert lk (obs t)) (before ++ after) ->
  exists fuel0, forall fuel, (fuel0 <= fuel)%nat ->
  exists out,
    expand_token_list fuel lk path (before ++ name :: lpar :: join comma args ++ rpar :: after) s = Some (Ok (out, s)) /\
    map obs out = map obs before ++
      substitute (map k_str (d_par d)) (map (map obs) args) (map mobs (d_def d)) ++ map obs after.
Proof.
  intros lk path s before after name lpar rpar comma args d EL HD HV EN EH N1 N2 ELp ERp EC HLen HA HB HI.
  apply Forall_app in HI. destruct HI as [HIb HIa].
  set (sub := substitute (map k_str (d_par d)) (map (map obs) args) (map mobs (d_def d))).
  set (big := S (list_sum (map (@length etok) args))).
  assert (HBig : forall a, In a args -> (length a < big)%nat).
  { intros a Ha. unfold big. clear -Ha. induction args as [|b l IH]; [contradiction|]. unfold list_sum in *. cbn [map fold_right]. destruct Ha as [->|Ha]; [lia|]. specialize (IH Ha). lia. }
  exists (length before + S (length sub + (big + (length after + 1))))%nat. intros fuel Hf.
  set (k := (fuel - length before - 1 - length sub - length after)%nat).
  destruct (call_step lk path (length sub + (length after + k)) (length after + k) ([] ++ before) name d false comma lpar rpar args
     (after ++ eoi_token :: ib s) (feed s)) as (L & EO & ES); auto.
  - rewrite EH. auto.
  - intros a Ha. specialize (HBig a Ha). unfold k. lia.
  - exists (before ++ L ++ after). split.
    + unfold expand_token_list, push_all, push. cbn [ib feed]. rewrite <- !app_assoc. cbn [app].
      replace (join comma args ++ rpar :: after) with (join comma args ++ (rpar :: after)) by reflexivity.
      rewrite <- app_assoc. cbn [app].
      replace fuel with (length before + S (length sub + (length after + k)))%nat by (unfold k; lia).
      rewrite inert_buffer by auto. rewrite ES. rewrite inert_buffer by auto.
      replace k with (S (k - 1)) by (unfold k; lia). cbn [expand_buffer ib length Nat.eqb orb negb]. unfold take. cbn [ib exbind feed eoi_token e_type].
      change (T_EOI =? T_EOI) with true. cbn iota. rewrite <- !app_assoc. cbn [app]. destruct s; reflexivity.
    + rewrite !map_app, EO. reflexivity.
Qed.
Print Assumptions C60_call_substitution_partial.

Definition C60_tok (ty : Z) (s : list Z) : mtoken := {| k_type := ty; k_str := s; k_ws := false; k_ws_after := false |}.
Definition C60_id (c : Z) := C60_tok T_IDENT [c].
(** #define m(x,y) x+(y)*x *)
Definition C60_def := {| d_name := [109]; d_func := true; d_vararg := false; d_par := [C60_id 120; C60_id 121];
  d_def := [C60_id 120; C60_tok T_ADD [43]; C60_tok T_LPAR [40]; C60_id 121; C60_tok T_RPAR [41]; C60_tok T_STAR [42]; C60_id 120] |}.
Definition C60_lk (n : list Z) : option define := if sv_cmp n [109] then Some C60_def else None.
(** m((p,q),) in the tokens  a m ( ( p , q ) , ) b *)
Definition C60_args : list (list etok) :=
  [map of_mtoken [C60_tok T_LPAR [40]; C60_id 112; C60_tok T_COMMA [44]; C60_id 113; C60_tok T_RPAR [41]]; []].
Example C60_nontrivial :
  Forall (fun a => argument 0 (map obs a) /\ Forall (fun t => inert C60_lk (obs t)) a) C60_args /\
  Forall (fun t => operator_free (mobs t) /\
            (inert C60_lk (mobs t) \/ (k_type t = T_IDENT /\ In (k_str t) (map k_str (d_par C60_def))))) (d_def C60_def) /\
  match expand_token_list 60 C60_lk [] (map of_mtoken [C60_id 97] ++ of_mtoken (C60_id 109) :: of_mtoken (C60_tok T_LPAR [40]) ::
     join (of_mtoken (C60_tok T_COMMA [44])) C60_args ++ of_mtoken (C60_tok T_RPAR [41]) :: map of_mtoken [C60_id 98]) {| ib := []; feed := [] |} with
  | Some (Ok (out, _)) => map snd (map obs out) = [[97]; [40]; [112]; [44]; [113]; [41]; [43]; [40]; [41]; [42]; [40]; [112]; [44]; [113]; [41]; [98]]
  | _ => False
  end.
Proof.
  split; [|split].
  - apply Forall_cons; [split|apply Forall_cons; [split|apply Forall_nil]]; try apply Forall_nil;
      try (vm_compute; repeat split; discriminate).
    repeat (apply Forall_cons; [split; [vm_compute; discriminate|intros E; vm_compute in E; try discriminate E; repeat split; vm_compute; discriminate]|]); apply Forall_nil.
  - repeat (apply Forall_cons; [split; [repeat split; vm_compute; discriminate|]|]); try apply Forall_nil;
      try (left; split; [vm_compute; discriminate|]; intros E; vm_compute in E; discriminate E); right; cbn; auto.
  - vm_compute. reflexivity.
Qed.
