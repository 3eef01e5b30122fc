(** C57: stringification keeps the spelling of string literals and character
    constants. *)
From Coq Require Import String.
From Verif Require Import Base CharTypes Escape EscapeSpec EscapeProofs Tokens Expander.
Local Open Scope Z_scope.
Local Open Scope list_scope.

(** For every token spelling without a DEL byte, the literal built by the #
    operator denotes exactly the bytes of the spelling when it is read back. *)
Theorem C57_stringify_spelling_partial :
  forall spelling rest, Forall (fun b => 0 <= b < 256) spelling -> ~ In 127 spelling ->
  exists text, escape_all true spelling = Ok text /\
    escape_string_to_buffer (34 :: text ++ 34 :: rest) (length text + 2) STRING_DEFAULT = Ok spelling.
Proof. exact stringify_reread. Qed.
Print Assumptions C57_stringify_spelling_partial.

Theorem C57_del_refuted :
  exists spelling, Forall (fun b => 0 <= b < 256) spelling /\ escape_all true spelling = Undef.
Proof. exists [34; 127; 34]. split; [repeat constructor; lia|reflexivity]. Qed.
Print Assumptions C57_del_refuted.

Example C57_nontrivial :
  escape_all true (chars """a\n?""") = Ok (chars "\""a\\n\?\""").
Proof. reflexivity. Qed.

(** The # operator on a whole argument (C11 6.10.3.2): the spellings of the tokens, with
    one space where there was white space between two of them and none at the ends. *)
Definition spelling (t : etok) : list Z :=
  if (e_type t =? T_STRING) || (e_type t =? T_CHARACTER_CONSTANT) then e_str t
  else match find (fun p => fst p =? e_type t) symbols with
       | Some (_, s) => s
       | None => if (e_type t =? PP_HASH) || (e_type t =? PP_DIRECTIVE) then chars "#"
                 else if e_type t =? PP_HHASH then chars "##" else e_str t
       end.
Fixpoint tail_spelled (before : etok) (l : list etok) : list Z :=
  match l with [] => [] | t :: r => (if e_wsa before || e_ws t then [32] else []) ++ spelling t ++ tail_spelled t r end.
Definition spelled (l : list etok) : list Z := match l with [] => [] | t :: r => spelling t ++ tail_spelled t r end.
(** Quotes and backslashes occur in literals only, DEL nowhere. *)
Definition ordinary (t : etok) : Prop :=
  if (e_type t =? T_STRING) || (e_type t =? T_CHARACTER_CONSTANT) then Forall (fun b => 0 <= b < 256) (e_str t) /\ ~ In 127 (e_str t)
  else Forall (fun c => 0 <= c < 255 /\ c <> 34 /\ c <> 92) (e_str t).

Lemma symbols_plain : Forall (fun p => Forall (fun c => 0 <= c < 255 /\ c <> 34 /\ c <> 92) (snd p)) symbols.
Proof. repeat (apply Forall_cons; [cbn; repeat (apply Forall_cons; [lia|]); apply Forall_nil|]). apply Forall_nil. Qed.
Lemma add_body t start ws : ordinary t -> exists e0, stringify_add t start ws = Ok (e0, e_wsa t) /\
  forall e v, body_value short_hex e v 34 -> Forall (fun c => c <> 255) e ->
  body_value short_hex (e0 ++ e) ((if negb start && (e_ws t || ws) then [32] else []) ++ spelling t ++ v) 34 /\ Forall (fun c => c <> 255) (e0 ++ e).
Proof.
  intros O.
  assert (B : exists b, (if (e_type t =? T_STRING) || (e_type t =? T_CHARACTER_CONSTANT) then escape_all true (e_str t)
    else match find (fun p => fst p =? e_type t) symbols with
         | Some (_, s) => Ok s
         | None => if (e_type t =? PP_HASH) || (e_type t =? PP_DIRECTIVE) then Ok (chars "#")
                   else if e_type t =? PP_HHASH then Ok (chars "##") else Ok (e_str t)
         end) = Ok b /\ forall e v, body_value short_hex e v 34 -> Forall (fun c => c <> 255) e ->
    body_value short_hex (b ++ e) (spelling t ++ v) 34 /\ Forall (fun c => c <> 255) (b ++ e)).
  { unfold spelling, ordinary in *. destruct ((e_type t =? T_STRING) || (e_type t =? T_CHARACTER_CONSTANT)).
    - destruct O as [O1 O2]. apply stringified_app; auto.
    - destruct (find _ symbols) as [[n s]|] eqn:Ef.
      + apply find_some in Ef as [I _]. assert (P := symbols_plain). rewrite Forall_forall in P. exists s. split; auto. apply plain_app, (P _ I).
      + destruct (_ || _); [exists (chars "#"); split; auto; apply plain_app; cbn; repeat (apply Forall_cons; [lia|]); apply Forall_nil|].
        destruct (_ =? _); [exists (chars "##"); split; auto; apply plain_app; cbn; repeat (apply Forall_cons; [lia|]); apply Forall_nil|].
        exists (e_str t). split; auto. now apply plain_app. }
  destruct B as (b & Eb & B). unfold stringify_add. rewrite Eb. cbn [bind].
  destruct (negb start && (e_ws t || ws)); (eexists; split; [reflexivity|]); intros e v Be Fe; destruct (B e v Be Fe) as [B1 B2].
  - cbn [app]. split; [apply body_plain; auto; lia|constructor; auto; lia].
  - cbn [app]. auto.
Qed.
Lemma loop_body l : Forall ordinary l -> forall before, exists e, stringify_loop l false (e_wsa before) = Ok e /\
  body_value short_hex e (tail_spelled before l) 34 /\ Forall (fun c => c <> 255) e.
Proof.
  induction 1 as [|t l O F IH]; intros before.
  - exists []. cbn. repeat split; constructor.
  - cbn [stringify_loop tail_spelled]. destruct (add_body t false (e_wsa before) O) as (e0 & -> & A). cbn [bind].
    destruct (IH t) as (e & -> & B1 & B2). cbn [bind]. exists (e0 ++ e). split; auto. destruct (A _ _ B1 B2) as [A1 A2].
    cbn [negb andb] in A1. rewrite orb_comm in A1. auto.
Qed.
Theorem C57_stringify_argument_partial : forall l rest, Forall ordinary l ->
  exists text, stringify l = Ok text /\ escape_string_to_buffer (text ++ rest) (List.length text) STRING_DEFAULT = Ok (spelled l).
Proof.
  intros l rest F.
  assert (B : exists e, stringify_loop l true false = Ok e /\ body_value short_hex e (spelled l) 34 /\ Forall (fun c => c <> 255) e).
  { destruct F as [|t l O F]; [exists []; cbn; repeat split; constructor|].
    cbn [stringify_loop spelled]. destruct (add_body t true false O) as (e0 & -> & A). cbn [bind].
    destruct (loop_body l F t) as (e & -> & B1 & B2). cbn [bind]. exists (e0 ++ e). split; auto. destruct (A _ _ B1 B2) as [A1 A2]. auto. }
  destruct B as (e & E & B & Fe). unfold stringify. rewrite E. cbn [bind]. eexists. split; [reflexivity|].
  rewrite !app_length. cbn [List.length app]. rewrite <- app_assoc. cbn [app].
  replace (1 + (List.length e + 1))%nat with (List.length e + 2)%nat by lia. apply (literal_spec short_hex); auto.
Qed.
Print Assumptions C57_stringify_argument_partial.
Definition ex_tok ty s ws : etok := {| e_type := ty; e_str := s; e_ws := ws; e_wsa := false; e_line := 1; e_hs := [] |}.
Example C57_argument_nontrivial :
  let l := [ex_tok T_IDENT (chars "a") true; ex_tok T_ADD [] true; ex_tok T_STRING (chars """x\n""") false] in
  Forall ordinary l /\ spelled l = chars "a +""x\n""" /\ stringify l = Ok (chars """a +\""x\\n\""""").
Proof. cbv zeta. split; [repeat constructor; cbn; try lia; intuition lia|split; reflexivity]. Qed.
