(** C11 6.10.3.3: the ## operator. *)
From Coq Require Import String.
From Verif Require Import Base CharTypes Tokens ExpanderSpec TokenizerSpec.
Local Open Scope Z_scope.
Local Open Scope list_scope.

(** A preprocessing token: its type and its spelling. The text [x] alone is one token
    of type [k] (6.4); header names are none outside of #include, and # is no directive
    inside of one. *)
Definition token := (Z * list Z)%type.
Definition one_token (t : token) : Prop := lexeme (fst t) (snd t) [] /\ fst t <> PP_HEADER_NAME_H /\ fst t <> PP_DIRECTIVE.
Definition word (t : token) : Prop := fst t = T_IDENT \/ fst t = T_NUM.
Definition punct (t : token) : Prop := punctuator (fst t) (snd t).

(** p3: the two tokens are concatenated; the result is the token so spelled. *)
Definition pasted (a b t : token) : Prop := one_token a /\ one_token b /\ snd t = snd a ++ snd b /\ one_token t.
(** Both are identifiers or numbers, or both are punctuators: the pairs the compiler
    knows of. *)
Definition alike (a b : token) : Prop := word a /\ word b \/ punct a /\ punct b.

(** p2, p3: operands joined by ##, each given as the tokens it stands for: the last token
    of each is pasted to the first of what follows; an operand without tokens (a
    placemarker) leaves the others as they are. *)
Inductive joined : list (list token) -> list token -> Prop :=
| j_one l : joined [l] l
| j_empty rest r : joined rest r -> joined ([] :: rest) r
| j_before_empty l rest : joined rest [] -> joined (l :: rest) l
| j_paste l x rest y r t : joined rest (y :: r) -> pasted x y t -> alike x y -> joined ((l ++ [x]) :: rest) (l ++ t :: r).

(** A replacement list is a sequence of operands, some of them joined by ##: [glued ops b]
    when the tokens [b] are the operands [ops] with ## between them. *)
Section Glued.
Context {A : Type} (hashes : A -> Prop).
Inductive glued : list A -> list A -> Prop :=
| g_one t : glued [t] [t]
| g_more t u ops h b : hashes h -> glued (u :: ops) b -> glued (t :: u :: ops) (t :: h :: b).
End Glued.

(** What an operand stands for: a parameter for its argument, other tokens for
    themselves. *)
Definition value (params : list (list Z)) (args : list (list token)) (t : token) : list token :=
  if fst t =? T_IDENT then match position params (snd t) with Some i => nth i args [] | None => [t] end else [t].

(** Letters, digits, the underscore and the dollar sign. *)
Definition plain_char (c : Z) : Prop := digit c \/ nondigit c.
