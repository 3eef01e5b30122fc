(** #line (C11 6.10.4): the lines after the directive are numbered from the number it
    gives on. *)
From Coq Require Import String.
From Verif Require Import Base CharTypes Tokens Expander Directives.
Local Open Scope Z_scope.
Local Open Scope list_scope.

(** A source made of text and #line directives, with or without a file name. *)
Inductive litem :=
| Text (t : dtok)
| Line (hash dir num : dtok) (name : option dtok).
Definition tokens (i : litem) : list dtok :=
  match i with
  | Text t => [t]
  | Line h d n s => [h; d; n] ++ match s with Some s => [s] | None => [] end
  end.
Definition written (l : list litem) : list dtok := flat_map tokens l.

(** The value of a sequence of digits. *)
Definition decimal (s : list Z) : Z := fold_left (fun a c => 10 * a + (c - 48)) s 0.
(** The last #line: its number and the physical line it stands on. *)
Definition numbering := option (Z * Z).
Definition presumed (l : numbering) (physical : Z) : Z :=
  match l with None => physical | Some (n, d) => n + (physical - (d + 1)) end.
(** The text with the line numbers it is to have. *)
Fixpoint numbered (m : numbering) (l : list litem) : list dtok :=
  match l with
  | [] => []
  | Text t :: r => {| dt := with_line (dt t) (presumed m (e_line (dt t))); fol := fol t |} :: numbered m r
  | Line h d n s :: r => numbered (Some (decimal (text n), e_line (dt d))) r
  end.

Definition line_directive (h d n : dtok) : Prop :=
  ty h = PP_DIRECTIVE /\ fol h = true /\ ty d = T_IDENT /\ text d = chars "line" /\ fol d = false /\
  ty n = T_NUM /\ fol n = false /\ Forall (fun c => 48 <= c <= 57) (text n).
(** [proper renumbered l]: the sources taken here. A directive without a file name is
    followed by another line, and it is only taken while the numbers are the physical
    ones. *)
Inductive proper : bool -> list litem -> Prop :=
| p_end b : proper b []
| p_text b t l : ty t <> PP_DIRECTIVE -> ty t <> T_EOI -> proper b l -> proper b (Text t :: l)
| p_named b h d n s l : line_directive h d n -> ty s = T_STRING -> fol s = false -> proper true l -> proper b (Line h d n (Some s) :: l)
| p_number h d n l x r : line_directive h d n -> written l = x :: r -> fol x = true -> proper true l -> proper false (Line h d n None :: l).
