(** C11 6.10.2: what a source file with #include lines stands for, and #pragma once. *)
From Coq Require Import String.
From Verif Require Import Base CharTypes Tokens Arch MacroTable Expander ExpanderSpec Directives CondInclSpec.

(** The directory part of a path: everything up to and including its last slash. *)
Definition directory (p d : list Z) : Prop :=
  exists base, p = d ++ base /\ ~ In 47 base /\ (d = [] \/ exists d', d = d' ++ [47]).
(** <name> and "name". *)
Definition angle (name s : list Z) : Prop := s = [60] ++ name ++ [62].
Definition quoted (name s : list Z) : Prop := s = [34] ++ name ++ [34].

(** No header name is written on the line: macros give it. *)
Definition by_macros (args : list dtok) : Prop := forall t r, args = t :: r -> ty t <> PP_HEADER_NAME_H /\ ty t <> PP_HEADER_NAME_Q.
(** The last line of the file is neither a #define, nor a null directive, nor an
    #include that names its header by macros. *)
Fixpoint ends_well (g : group) : Prop :=
  match g with
  | Done => True
  | Line (Def _ _) Done | Line Null Done => False
  | Line (Other l) Done => ~ exists args, directive "include" args l /\ by_macros args
  | Line _ g => ends_well g
  | Section_ _ _ _ g => ends_well g
  end.

Section Files.
(** The files there are, and the directories of -I in order. *)
Variables (m : abi) (files : list Z -> option (list dtok)) (dirs : list (list Z)).

(** Where a header is looked for: in the directory of the including file, when its
    name is quoted, and then in each of the directories. *)
Inductive places (from : list Z) : bool -> list Z -> list (list Z) -> Prop :=
| places_angle name : places from true name (map (fun d => d ++ [47] ++ name) dirs)
| places_quoted name d : directory from d -> places from false name ((d ++ name) :: map (fun d => d ++ [47] ++ name) dirs).
(** The header is the first of these that exists. *)
Definition header (from : list Z) (system : bool) (name p : list Z) (l : list dtok) : Prop :=
  exists before after, places from system name (before ++ p :: after) /\ Forall (fun q => files q = None) before /\ files p = Some l.

(** The header an #include line with these tokens names: directly, or by macros that
    are replaced by one string literal. *)
Inductive names (env : menv) (args : list dtok) : bool -> list Z -> Prop :=
| n_angle h name : args = [h] -> ty h = PP_HEADER_NAME_H -> angle name (text h) -> names env args true name
| n_quoted h name : args = [h] -> ty h = PP_HEADER_NAME_Q -> quoted name (text h) -> names env args false name
| n_macros s name : by_macros args ->
    good_table env -> Forall (fun t => plain env (obs (dt t))) args ->
    replaced env [] (map (fun t => obs (dt t)) args) [(T_STRING, s)] -> quoted name s -> names env args false name.

(** Files under the effect of #pragma once. *)
Definition once := list Z -> Prop.

(** [included from env o g env' o' out]: the group [g] of the file [from], read with
    the macros [env] and the files [o] not to be read again, leaves [env'] and [o'] and
    stands for the lines [out]. *)
Inductive included : list Z -> menv -> once -> group -> menv -> once -> list dtok -> Prop :=
| i_done from env o : included from env o Done env o []
| i_text from env o l g env' o' out : included from env o g env' o' out -> included from env o (Line (Text l) g) env' o' (l ++ out)
| i_def from env o d l g env' o' out : included from (now env (d_name d) (Some d)) o g env' o' out ->
    included from env o (Line (Def d l) g) env' o' out
| i_undef from env o n g env' o' out : included from (now env (text n) None) o g env' o' out -> included from env o (Line (Undf n) g) env' o' out
| i_null from env o g env' o' out : included from env o g env' o' out -> included from env o (Line Null g) env' o' out
| i_once from env (o : once) w l g env' o' out : directive "pragma" [w] l -> text w = chars "once" ->
    included from env (fun p => o p \/ p = from) g env' o' out -> included from env o (Line (Other l) g) env' o' out
| i_include from env (o : once) args l system name p lp gp g env1 o1 env' o' out1 out2 :
    directive "include" args l -> names env args system name -> header from system name p lp ->
    ~ o p -> written gp lp -> ends_well gp -> included p env o gp env1 o1 out1 -> included from env1 o1 g env' o' out2 ->
    included from env o (Line (Other l) g) env' o' (out1 ++ out2)
| i_again from env (o : once) args l system name p lp g env' o' out :
    directive "include" args l -> names env args system name -> header from system name p lp ->
    o p -> included from env o g env' o' out -> included from env o (Line (Other l) g) env' o' out
| i_true from env o c body t g env1 o1 env' o' out1 out2 :
    decides m env c true -> included from env o body env1 o1 out1 -> included from env1 o1 g env' o' out2 ->
    included from env o (Section_ c body t g) env' o' (out1 ++ out2)
| i_false from env o c body t g env1 o1 env' o' out1 out2 :
    decides m env c false -> included_tail from env o t env1 o1 out1 -> included from env1 o1 g env' o' out2 ->
    included from env o (Section_ c body t g) env' o' (out1 ++ out2)
with included_tail : list Z -> menv -> once -> tail -> menv -> once -> list dtok -> Prop :=
| i_endif from env o : included_tail from env o Endif env o []
| i_else from env o body env' o' out : included from env o body env' o' out -> included_tail from env o (Else body) env' o' out
| i_elif_true from env o c body t env' o' out : decides m env c true -> included from env o body env' o' out ->
    included_tail from env o (Elif c body t) env' o' out
| i_elif_false from env o c body t env' o' out : decides m env c false -> included_tail from env o t env' o' out ->
    included_tail from env o (Elif c body t) env' o' out.
End Files.
