(** C11 5.1.1.2, 6.4: logical source text and its division into preprocessing
    tokens, white space and comments. *)
From Coq Require Import String.
From Verif Require Import Base CharTypes Tokens Expander Directives.
Local Open Scope string_scope.

(** Translation phase 2: a backslash before a newline (LF or CR LF) is removed with
    the newline. *)
Fixpoint unsplice (l : list Z) : list Z :=
  match l with
  | 92 :: 10 :: r => unsplice r
  | 92 :: 13 :: 10 :: r => unsplice r
  | x :: r => x :: unsplice r
  | [] => []
  end.
(** A byte order mark at the start of a file is not part of the text. *)
Definition without_bom (l : list Z) : list Z :=
  match l with 239 :: 187 :: 191 :: r => r | _ => l end.
Definition logical (src : list Z) : list Z := unsplice (without_bom src).

Definition occurs (p l : list Z) : Prop := exists a b, l = (a ++ p ++ b)%list.
(** The character after which text, or 0 at the end of the source. *)
Definition ahead (r : list Z) : Z := hd 0 r.

Definition digit (c : Z) : Prop := 48 <= c <= 57.
Definition nondigit (c : Z) : Prop := 65 <= c <= 90 \/ 97 <= c <= 122 \/ c = 95 \/ c = 36.
(** Bytes of a UTF-8 sequence count as letters. *)
Definition id_start (c : Z) : Prop := nondigit c \/ 128 <= c < 256.
(** A backslash starts a universal character name. *)
Definition id_char (c : Z) : Prop := id_start c \/ digit c \/ c = 92.
Definition exponent (c : Z) : Prop := In c (chars "eEpP").
Definition sign (c : Z) : Prop := In c (chars "+-").
(** Rest of a pp-number (6.4.8), with digit separators. *)
Inductive pp_rest : list Z -> Prop :=
| pp_end : pp_rest []
| pp_char c x : digit c \/ nondigit c \/ c = 46 -> pp_rest x -> pp_rest (c :: x)
| pp_exp c s x : exponent c -> sign s -> pp_rest x -> pp_rest (c :: s :: x)
| pp_sep c x : digit c \/ nondigit c -> pp_rest x -> pp_rest (39 :: c :: x).
(** Between the quotes [q] of a literal. A character after a backslash ends nothing,
    nor does the first character of a universal character name. *)
Inductive quoted (q : Z) : list Z -> Prop :=
| q_end : quoted q []
| q_char c x : c <> q -> c <> 10 -> c <> 92 -> quoted q x -> quoted q (c :: x)
| q_escape c x : ~ In c (chars "uU") -> quoted q x -> quoted q (92 :: c :: x)
| q_ucn c d x : In c (chars "uU") -> quoted q x -> quoted q (92 :: c :: d :: x).

(** Punctuators: those of the table of src/preprocessor/tokens.h and # and ##. *)
Definition punctuator (k : Z) (x : list Z) : Prop :=
  In (k, x) symbols \/ (x = chars "#" /\ (k = PP_HASH \/ k = PP_DIRECTIVE)) \/ (x = chars "##" /\ k = PP_HHASH).
Definition starts (p l : list Z) : Prop := exists b, l = (p ++ b)%list.

(** [lexeme k x r]: [x], followed by the text [r], is a token of type [k]. Each is the
    longest of its kind. *)
Inductive lexeme : Z -> list Z -> list Z -> Prop :=
| lx_ident c w r : id_start c -> Forall id_char w -> ~ id_char (ahead r) ->
    (In (c :: w) [chars "u"; chars "U"; chars "L"] -> ahead r <> 34 /\ ahead r <> 39) ->
    (c :: w = chars "u8" -> ahead r <> 34) ->
    lexeme T_IDENT (c :: w) r
| lx_num x w r : (exists d, digit d /\ (x = [d] \/ x = [46; d])) -> pp_rest w ->
    ~ (digit (ahead r) \/ nondigit (ahead r) \/ ahead r = 46 \/ ahead r = 39) ->
    (exponent (last w 0) -> ~ sign (ahead r)) ->
    lexeme T_NUM (x ++ w)%list r
| lx_string pre b r : In pre [[]; chars "u8"; chars "u"; chars "U"; chars "L"] -> quoted 34 b ->
    lexeme T_STRING (pre ++ [34] ++ b ++ [34])%list r
| lx_char pre b r : In pre [[]; chars "u"; chars "U"; chars "L"] -> quoted 39 b ->
    lexeme T_CHARACTER_CONSTANT (pre ++ [39] ++ b ++ [39])%list r
| lx_header b r : quoted 62 b -> lexeme PP_HEADER_NAME_H (60 :: b ++ [62])%list r
| lx_punct k x r : punctuator k x ->
    (forall k' x', punctuator k' x' -> starts x' (x ++ r)%list -> (length x' <= length x)%nat) ->
    ~ starts (chars "//") (x ++ r)%list -> ~ starts (chars "/*") (x ++ r)%list ->
    ~ (x = chars "." /\ digit (ahead r)) ->
    lexeme k x r.

(** White space characters. *)
Definition white (c : Z) : Prop := In c [9; 13; 32].
(** [gap ok nl g r]: the text [g], before the text [r], is white space and comments;
    block comments are those whose body [ok] allows; [nl] tells whether it has a
    newline outside of block comments. *)
Inductive gap (ok : list Z -> Prop) : bool -> list Z -> list Z -> Prop :=
| gap_none r : gap ok false [] r
| gap_white c nl g r : white c -> gap ok nl g r -> gap ok nl (c :: g) r
| gap_newline nl g r : gap ok nl g r -> gap ok true (10 :: g) r
| gap_line b nl g r : ~ In 10 b -> (g ++ r = [] \/ exists g', g = 10 :: g')%list -> gap ok nl g r ->
    gap ok nl (chars "//" ++ b ++ g)%list r
| gap_block b nl g r : ok b -> gap ok nl g r -> gap ok nl (chars "/*" ++ b ++ chars "*/" ++ g)%list r.

(** [tiles P l u]: the text [u] is the tokens [l] and the white space between them; [P]
    holds of each token, its place (first of the file or not), the white space before
    it, its text and what follows. *)
Inductive tiles (ok : list Z -> Prop) (P : bool -> list Z -> bool -> dtok -> list Z -> list Z -> Prop) : bool -> list dtok -> list Z -> Prop :=
| tiles_end start nl g : gap ok nl g [] -> tiles ok P start [] g
| tiles_token start nl g t x r l : gap ok nl g (x ++ r)%list -> x <> [] -> P start g nl t x r -> tiles ok P false l r ->
    tiles ok P start (t :: l) (g ++ x ++ r)%list.

(** White space or a comment starts here. *)
Definition blank (r : list Z) : Prop := white (ahead r) \/ ahead r = 10 \/ starts (chars "//") r \/ starts (chars "/*") r.

(** Backslash, CR, LF does not occur. *)
Definition no_crlf (l : list Z) : Prop := ~ occurs [92; 13; 10] l.
(** The text kept for a token of the source [src] whose logical text is [x]: [x] itself if
    it has no backslash (and no digit separator), and numbers without their digit
    separators if the source has no backslash at all. *)
Local Open Scope Z_scope.
Definition spelled (src : list Z) (t : dtok) (x : list Z) : Prop :=
  (no_crlf src -> ~ In 92 x -> (ty t = T_NUM -> ~ In 39 x) -> text t = x) /\
  (~ In 92 src -> text t = if ty t =? T_NUM then filter (fun c => negb (c =? 39)) x else x).
(** The block comment with this body ends at the first */ after its opening. *)
Definition ends_first (b : list Z) : Prop := ~ occurs (chars "*/") (b ++ chars "*").
Definition nonempty (g : list Z) : bool := match g with [] => false | _ => true end.
