(** How make reads a rule without a recipe: words separated by blanks, the targets before
    the first colon, the prerequisites after it, to the end of the line. *)
From Coq Require Import String.
From Verif Require Import Base CharTypes.
Local Open Scope Z_scope.
Local Open Scope list_scope.

(** Characters that make takes as part of a name. Blanks and newline end a word, a colon
    ends the targets, the others start a comment, a variable, a pattern, an assignment, an
    order-only part, a command or a second rule, or escape the next character. *)
Definition name_char (c : Z) : Prop := c <> 9 /\ c <> 10 /\ c <> 13 /\ c <> 32 /\ ~ In c (chars "#$%:;=|\&~*?[") /\ c <> 0.
Definition name (w : list Z) : Prop := w <> [] /\ Forall name_char w.
Definition blank (g : list Z) : Prop := Forall (fun c => c = 9 \/ c = 32) g.
(** [words l s]: the text [s] is the names [l] with blanks around them. *)
Inductive words : list (list Z) -> list Z -> Prop :=
| w_end g : blank g -> words [] g
| w_name g w l s : blank g -> name w -> words l s -> (s = [] \/ exists c r, s = c :: r /\ (c = 9 \/ c = 32)) -> words (w :: l) (g ++ w ++ s).
(** [rule ts ps s]: the text [s] is one rule with the targets [ts] and the prerequisites [ps]. *)
Definition rule (ts ps : list (list Z)) (s : list Z) : Prop :=
  exists a b, s = a ++ [58] ++ b ++ [10] /\ words ts a /\ words ps b.
