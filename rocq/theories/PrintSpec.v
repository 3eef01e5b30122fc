(** What the text printed by -E has to be: a source whose tokens are those the
    preprocessor delivers. *)
From Coq Require Import String.
From Verif Require Import Base CharTypes Tokens Expander Directives TokenizerSpec.
Local Open Scope Z_scope.
Local Open Scope list_scope.

(** [stands_for t k s]: the token [t] of the parser is written in a source as the
    preprocessing token of type [k] spelled [s]. Identifiers and keywords are both
    identifiers there. Identifiers without letters outside of ASCII; string literals and
    character constants are left out. *)
Inductive stands_for : dtok -> Z -> list Z -> Prop :=
| sf_ident t c w : ty t = T_IDENT -> text t = c :: w -> nondigit c -> Forall (fun d => nondigit d \/ digit d) w -> stands_for t T_IDENT (c :: w)
| sf_keyword t s : In (ty t, s) keywords -> stands_for t T_IDENT s
| sf_number t x w : ty t = T_NUM -> text t = x ++ w -> (exists d, digit d /\ (x = [d] \/ x = [46; d])) -> pp_rest w -> ~ In 39 w ->
    stands_for t T_NUM (x ++ w)
| sf_punct t s : In (ty t, s) symbols -> stands_for t (ty t) s.

(** Any two tokens are marked as separated by white space or a new line. *)
Fixpoint separated (l : list dtok) : Prop :=
  match l with
  | a :: (b :: _) as r => (e_wsa (dt a) = true \/ fol b = true \/ e_ws (dt b) = true) /\ separated r
  | _ => True
  end.
