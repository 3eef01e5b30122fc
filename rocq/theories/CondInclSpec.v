(** C11 6.10, 6.10.1: lines and groups of a preprocessing file, and which lines of a
    file are selected. *)
From Coq Require Import String.
From Verif Require Import Base CharTypes Tokens Arch CTypesSpec IntLitSpec MacroTable Expander ExpanderSpec PPExpr PPExprSpec Directives.

(** A condition: #ifdef name, #ifndef name or #if tokens. *)
Inductive cond := CDef (name : dtok) | CNdef (name : dtok) | CExpr (l : list dtok).
(** Lines: text; #define of the definition [d]; #undef; the null directive; any
    other directive, known or not. *)
Inductive line := Text (l : list dtok) | Def (d : define) (l : list dtok) | Undf (name : dtok) | Null | Other (l : list dtok).
(** Groups: lines and #if sections. *)
Inductive group := Done | Line (l : line) (g : group) | Section_ (c : cond) (body : group) (t : tail) (g : group)
with tail := Endif | Else (body : group) | Elif (c : cond) (body : group) (t : tail).

(** How lines are written as tokens. Only the first token of a line carries the
    first_of_line flag, and the # of a directive line is the only PP_DIRECTIVE
    token. The first token of a line has white space (the newline) before it. Tokens
    of a file have empty hide sets. *)
Definition inline (t : dtok) : Prop := fol t = false /\ ty t <> PP_DIRECTIVE /\ ty t <> T_EOI /\ e_hs (dt t) = [].
Definition hash_token (t : dtok) : Prop := fol t = true /\ ty t = PP_DIRECTIVE.
Definition word (s : list Z) (t : dtok) : Prop := fol t = false /\ ty t = T_IDENT /\ text t = s.
(** # name args *)
Definition directive (name : string) (args l : list dtok) : Prop :=
  exists h d, l = h :: d :: args /\ hash_token h /\ word (chars name) d /\ Forall inline args.

(** Tokens of a definition after the word define (C11 6.10.3): the name, for a
    function-like macro the parameter list in parentheses directly after the name,
    and the replacement list. *)
Definition token_is (k : Z) (t : dtok) : Prop := ty t = k.
Inductive parameters : list mtoken -> bool -> list dtok -> Prop :=
| par_none r : token_is T_RPAR r -> parameters [] false [r]
| par_dots e r : token_is T_ELLIPSIS e -> token_is T_RPAR r -> parameters [] true [e; r]
| par_last p r : token_is T_IDENT p -> token_is T_RPAR r -> parameters [to_mtoken p] false [p; r]
| par_more p c ps v l : token_is T_IDENT p -> token_is T_COMMA c -> parameters ps v l -> (ps = [] -> v = true) ->
    parameters (to_mtoken p :: ps) v (p :: c :: l).
Inductive definition : define -> list dtok -> Prop :=
| def_object n b : token_is T_IDENT n ->
    (forall t r, b = t :: r -> ty t = T_LPAR -> e_ws (dt t) = true) ->
    definition {| d_name := text n; d_func := false; d_vararg := false; d_def := map to_mtoken b; d_par := [] |} (n :: b)
| def_function n lp ps v l b : token_is T_IDENT n -> token_is T_LPAR lp -> e_ws (dt lp) = false -> parameters ps v l ->
    definition {| d_name := text n; d_func := true; d_vararg := v; d_def := map to_mtoken b; d_par := ps |} (n :: lp :: l ++ b).

Inductive written_line : line -> list dtok -> Prop :=
| w_text t l : fol t = true -> e_ws (dt t) = true -> ty t <> PP_DIRECTIVE -> ty t <> T_EOI -> Forall inline l -> written_line (Text (t :: l)) (t :: l)
| w_def d args l : definition d args -> directive "define" args l -> written_line (Def d args) l
| w_undef n l : directive "undef" [n] l -> written_line (Undf n) l
| w_null h : hash_token h -> written_line Null [h]
| w_other h l : hash_token h -> Forall inline l ->
    (forall d r, l = d :: r -> ty d = T_IDENT ->
       ~ In (text d) [chars "if"; chars "ifdef"; chars "ifndef"; chars "elif"; chars "elifdef"; chars "elifndef"; chars "else"; chars "endif"]) ->
    written_line (Other (h :: l)) (h :: l).

(** [first] tells #if from #elif. *)
Definition written_cond (first : bool) (c : cond) (l : list dtok) : Prop :=
  match c with
  | CDef n => directive (if first then "ifdef" else "elifdef") [n] l
  | CNdef n => directive (if first then "ifndef" else "elifndef") [n] l
  | CExpr e => directive (if first then "if" else "elif") e l
  end.
Fixpoint written (g : group) (l : list dtok) : Prop :=
  match g with
  | Done => l = []
  | Line x g => exists l1 l2, l = l1 ++ l2 /\ written_line x l1 /\ written g l2
  | Section_ c body t g =>
      exists l1 l2 l3 l4, l = l1 ++ l2 ++ l3 ++ l4 /\
        written_cond true c l1 /\ written body l2 /\ written_tail t l3 /\ written g l4
  end
with written_tail (t : tail) (l : list dtok) : Prop :=
  match t with
  | Endif => directive "endif" [] l
  | Else body => exists l1 l2 l3, l = l1 ++ l2 ++ l3 /\ directive "else" [] l1 /\ written body l2 /\ directive "endif" [] l3
  | Elif c body t => exists l1 l2 l3, l = l1 ++ l2 ++ l3 /\ written_cond false c l1 /\ written body l2 /\ written_tail t l3
  end.

(** Macros in force: a name's definition. *)
Definition menv := list Z -> option define.
Definition now (env : menv) (name : list Z) (v : option define) : menv := fun n => if list_eq_dec Z.eq_dec name n then v else env n.
Definition is_macro (env : menv) (name : list Z) : bool := match env name with Some _ => true | None => false end.

(** defined name and defined ( name ) stand for 1 or 0 (C11 6.10.1p1). *)
Definition one_or_zero (b : bool) : ptok := (T_NUM, if b then chars "1" else chars "0").
Inductive without_defined (env : menv) : list dtok -> list ptok -> Prop :=
| wd_nil : without_defined env [] []
| wd_bare d x l l' : text d = chars "defined" -> ty x <> T_LPAR -> without_defined env l l' ->
    without_defined env (d :: x :: l) (one_or_zero (is_macro env (text x)) :: l')
| wd_paren d a x b l l' : text d = chars "defined" -> ty a = T_LPAR -> ty b = T_RPAR -> without_defined env l l' ->
    without_defined env (d :: a :: x :: b :: l) (one_or_zero (is_macro env (text x)) :: l')
| wd_other t l l' : text t <> chars "defined" -> without_defined env l l' -> without_defined env (t :: l) (obs (dt t) :: l').
(** Tokens as parts of an expression: integer constants (C07), character constants
    of one plain character, identifiers, operators. *)
Inductive operand (m : abi) : ptok -> pptok -> Prop :=
| o_number r s digits suffix u t : literal r s digits -> In (suffix, u) suffixes -> digits_value r digits < 2 ^ 64 ->
    literal_type m r u (digits_value r digits) = Some t ->
    operand m (T_NUM, s ++ suffix) (KNum (spec_signed t) (digits_value r digits))
| o_char c : 32 <= c < 127 -> c <> 39 -> c <> 92 -> operand m (T_CHARACTER_CONSTANT, [39; c; 39]) (KChar c)
| o_ident s : operand m (T_IDENT, s) KIdent
| o_op k s : k <> T_NUM -> k <> T_CHARACTER_CONSTANT -> k <> T_IDENT -> operand m (k, s) (KOp k).
(** [holds m env l b]: the tokens [l] of an #if line, after defined has been evaluated
    and macros have been replaced (C59), form an expression (C19) that is not zero or
    is zero. *)
Definition holds (m : abi) (env : menv) (l : list dtok) (b : bool) : Prop :=
  exists l1 l2 e v, without_defined env l l1 /\ good_table env /\ Forall (plain env) l1 /\ replaced env [] l1 l2 /\
    Forall2 (operand m) l2 (spell e) /\ derivable e /\ within e /\ value e = Value v /\ b = negb (v =? 0).

Section Selection.
Variable m : abi.
Definition decides (env : menv) (c : cond) (b : bool) : Prop :=
  match c with
  | CDef n => b = is_macro env (text n)
  | CNdef n => b = negb (is_macro env (text n))
  | CExpr l => holds m env l b
  end.

(** [selected env g env' out]: with macros [env] at its start, the group [g] that is
    itself selected leaves the macros [env'] and its selected text lines are
    [out]. Conditions after the selected group of a section are not looked at. *)
Inductive selected : menv -> group -> menv -> list dtok -> Prop :=
| s_done env : selected env Done env []
| s_text env l g env' out : selected env g env' out -> selected env (Line (Text l) g) env' (l ++ out)
| s_def env d l g env' out : selected (now env (d_name d) (Some d)) g env' out -> selected env (Line (Def d l) g) env' out
| s_undef env n g env' out : selected (now env (text n) None) g env' out -> selected env (Line (Undf n) g) env' out
| s_null env g env' out : selected env g env' out -> selected env (Line Null g) env' out
| s_true env c body t g env1 env' out1 out2 :
    decides env c true -> selected env body env1 out1 -> selected env1 g env' out2 ->
    selected env (Section_ c body t g) env' (out1 ++ out2)
| s_false env c body t g env1 env' out1 out2 :
    decides env c false -> selected_tail env t env1 out1 -> selected env1 g env' out2 ->
    selected env (Section_ c body t g) env' (out1 ++ out2)
with selected_tail : menv -> tail -> menv -> list dtok -> Prop :=
| s_endif env : selected_tail env Endif env []
| s_else env body env' out : selected env body env' out -> selected_tail env (Else body) env' out
| s_elif_true env c body t env' out : decides env c true -> selected env body env' out -> selected_tail env (Elif c body t) env' out
| s_elif_false env c body t env' out : decides env c false -> selected_tail env t env' out -> selected_tail env (Elif c body t) env' out.
End Selection.

(** The last line of the file is neither a #define nor a null directive. *)
Fixpoint last_line_ordinary (g : group) : Prop :=
  match g with
  | Done => True
  | Line (Def _ _) Done | Line Null Done => False
  | Line _ g => last_line_ordinary g
  | Section_ _ _ _ g => last_line_ordinary g
  end.
