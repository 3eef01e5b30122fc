(** Specification of macro replacement (C11 6.10.3). A preprocessing token is its
    kind and its spelling. *)
From Coq Require Import String.
From Verif Require Import Base CharTypes Tokens MacroTable Fuel Expander.

Definition ptok := (Z * list Z)%type.
Definition obs (t : etok) : ptok := (e_type t, e_str t).
Definition mobs (t : mtoken) : ptok := (k_type t, k_str t).

(** Object-like replacement: [replaced lk hidden l out] when scanning [l], inside
    the replacement of the macros in [hidden], gives [out]: a macro name that is
    not being replaced already is replaced by the rescanned replacement list. *)
Inductive replaced (lk : list Z -> option define) : list (list Z) -> list ptok -> list ptok -> Prop :=
| r_nil hidden : replaced lk hidden [] []
| r_keep hidden t l out :
    (fst t <> T_IDENT \/ In (snd t) hidden \/ lk (snd t) = None) ->
    replaced lk hidden l out -> replaced lk hidden (t :: l) (t :: out)
| r_replace hidden t l d out1 out2 :
    fst t = T_IDENT -> ~ In (snd t) hidden -> lk (snd t) = Some d ->
    replaced lk (snd t :: hidden) (map mobs (d_def d)) out1 ->
    replaced lk hidden l out2 -> replaced lk hidden (t :: l) (out1 ++ out2).

(** Tokens the theorem is about: not the end marker, not __LINE__ or __FILE__,
    not the name of a function-like macro. *)
Definition plain (lk : list Z -> option define) (t : ptok) : Prop :=
  fst t <> T_EOI /\
  (fst t = T_IDENT -> snd t <> chars "__LINE__" /\ snd t <> chars "__FILE__" /\
     forall d, lk (snd t) = Some d -> d_func d = false).
(** Replacement lists without the # and ## operators and __VA_ARGS__. *)
Definition operator_free (t : ptok) : Prop :=
  fst t <> PP_HASH /\ fst t <> PP_HHASH /\ snd t <> chars "__VA_ARGS__".

(** A macro table whose object-like macros have such replacement lists; the
    table has finitely many names. *)
Record good_table (lk : list Z -> option define) : Prop := {
  gt_name : forall n d, lk n = Some d -> d_name d = n;
  gt_body : forall n d, lk n = Some d -> d_func d = false ->
     Forall (fun t => plain lk (mobs t) /\ operator_free (mobs t)) (d_def d);
  gt_finite : exists names, forall n d, lk n = Some d -> In n names }.

(** Tokens that no scan changes. *)
Definition inert (lk : list Z -> option define) (t : ptok) : Prop :=
  fst t <> T_EOI /\
  (fst t = T_IDENT -> snd t <> chars "__LINE__" /\ snd t <> chars "__FILE__" /\ lk (snd t) = None).

(** Arguments of a call: parentheses are balanced and commas occur only inside them. *)
Fixpoint argument (depth : nat) (l : list ptok) : Prop :=
  match l with
  | [] => depth = O
  | t :: r =>
      if fst t =? T_LPAR then argument (S depth) r
      else if fst t =? T_RPAR then match depth with O => False | S k => argument k r end
      else (depth = O -> fst t <> T_COMMA) /\ argument depth r
  end.

(** Parameter substitution: each parameter in the body stands for its argument. *)
Fixpoint position (params : list (list Z)) (s : list Z) : option nat :=
  match params with
  | [] => None
  | p :: t => if list_eq_dec Z.eq_dec p s then Some O
              else match position t s with Some i => Some (S i) | None => None end
  end.
Definition substitute (params : list (list Z)) (args : list (list ptok)) (body : list ptok) : list ptok :=
  flat_map (fun t => if fst t =? T_IDENT then
                       match position params (snd t) with Some i => nth i args [] | None => [t] end
                     else [t]) body.

(** The arguments of a call as written: separated by commas. *)
Fixpoint join (comma : etok) (args : list (list etok)) : list etok :=
  match args with
  | [] => []
  | [a] => a
  | a :: t => a ++ comma :: join comma t
  end.
