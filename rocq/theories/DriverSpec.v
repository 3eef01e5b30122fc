(** What a command line asks of a C compiler: which files it writes (POSIX c99; -MD, -MF
    and -MT as everywhere), under which settings. *)
From Coq Require Import String.
From Verif Require Import Base CharTypes Arguments ArgumentsSpec Driver.
Local Open Scope Z_scope.
Local Open Scope list_scope.

Definition said (p : plain) (l : list item) : Prop := In (Plain p) l.
Definition files (l : list item) : list text := flat_map operand_in l.
Definition source (p : text) : Prop := exists s, p = s ++ chars ".c".
Definition object (p : text) : Prop := exists s, p = s ++ chars ".o".
(** The name of a source without its directories and its extension. *)
Definition stem (p b : text) : Prop :=
  exists dir, p = dir ++ b ++ chars ".c" /\ (dir = [] \/ exists d, dir = d ++ chars "/") /\ ~ In 47 b.

(** ** Settings *)
(** Of the options [yes] and [no] the last one given counts. *)
Definition last_wins (yes no : text) (l : list text) : Prop := exists u v, l = u ++ yes :: v /\ ~ In no v.
Definition about (n : text) (op : macro_op) : Prop := match op with DefineMacro m _ | RemoveMacro m => m = n end.
Definition defined_as (ops : list macro_op) (n v : text) : Prop :=
  exists u r, ops = u ++ DefineMacro n v :: r /\ Forall (fun op => ~ about n op) r.
(** -D name and -D name=value. *)
Definition says (s n v : text) : Prop := ~ In 61 n /\ (s = n ++ chars "=" ++ v \/ s = n /\ v = chars "1").
(** A name given with -U is not defined, wherever it is given; otherwise the last -D for
    the name counts, and without one the name is as predefined. *)
Definition macros_for (initial : list macro_op) (l : list item) (ops : list macro_op) : Prop :=
  (forall n v, In n (values VUndefine l) -> ~ defined_as ops n v) /\
  (forall n v u s r, ~ In n (values VUndefine l) -> values VDefine l = u ++ s :: r -> says s n v ->
     (forall s' v', In s' r -> ~ says s' n v') -> defined_as ops n v) /\
  (forall n v, ~ In n (values VUndefine l) -> (forall s v', In s (values VDefine l) -> ~ says s n v') ->
     (defined_as ops n v <-> defined_as initial n v)).
Record settings_for (initial : abi -> bool -> list macro_op) (l : list item) (set : settings) : Prop := {
  f_abi : s_abi set = Microsoft <-> last_wins (chars "abi=ms") (chars "abi=sysv") (values VFeature l);
  f_model : s_model set = Large <-> s_mingw set = true \/ last_wins (chars "cmodel=large") (chars "cmodel=small") (values VFeature l);
  f_mingw : s_mingw set = true <-> In (chars "mingw-workarounds") (values VFeature l);
  f_includes : s_includes set = values VInclude l ++ default_include;
  f_macros : macros_for (initial (s_abi set) (s_mingw set)) l (s_macros set) }.

(** ** Files *)
(** The output for the source [p]: what -o says, or the name of the source with another
    extension. *)
Definition output (ext : string) (l : list item) (p out : text) : Prop :=
  match last_of (values VOut l) with Some o => out = o | None => exists b, stem p b /\ out = b ++ chars ext end.
(** With -MD, a dependency file: named by -MF, or like the output. *)
Definition dependencies (l : list item) (p out : text) (es : list effect) : Prop :=
  said PDeps l /\ (exists m t, es = [DependencyFile m t p] /\
     match last_of (values VDepTarget l) with Some t' => t = t' | None => t = out end /\
     match last_of (values VDepFile l) with
     | Some m' => m = m'
     | None => exists s, s <> [] /\ (out = s ++ chars ".o" \/ out = s ++ chars ".s") /\ m = s ++ chars ".d"
     end) \/ ~ said PDeps l /\ es = [].
(** Linking: the objects made of the sources, and the objects given. *)
Inductive linked (l : list item) (set : settings) (out : text) : list text -> list effect -> list input -> Prop :=
| lk_nil : linked l set out [] [] []
| lk_source p r e es is : source p -> dependencies l p out e -> linked l set out r es is ->
    linked l set out (p :: r) (e ++ es) (FromSource p [] set :: is)
| lk_object p r es is : object p -> linked l set out r es is -> linked l set out (p :: r) es (FromObject p :: is).
Inductive each (P : text -> list effect -> Prop) : list text -> list effect -> Prop :=
| each_nil : each P [] []
| each_cons p r e es : P p e -> each P r es -> each P (p :: r) (e ++ es).
(** With -o, one source. *)
Definition one_for_o (l : list item) : Prop := values VOut l <> [] -> length (files l) = 1%nat.
Inductive produces (l : list item) (set : settings) : list effect -> Prop :=
(** -E writes to the standard output; together with -o it is left out here. *)
| p_preprocess : said PPreprocess l -> values VOut l = [] -> Forall source (files l) -> produces l set (map (fun p => Preprocessed p set) (files l))
| p_assembly es : ~ said PPreprocess l -> said PAssembly l -> ~ said PCompile l -> one_for_o l ->
    each (fun p e => source p /\ exists out d, output ".s" l p out /\ dependencies l p out d /\ e = AssemblyFile out p [] set :: d) (files l) es ->
    produces l set es
| p_object es : ~ said PPreprocess l -> ~ said PAssembly l -> said PCompile l -> one_for_o l ->
    each (fun p e => source p /\ exists out d, output ".o" l p out /\ dependencies l p out d /\ e = ObjectFile (s_abi set) out (Some (p, [])) set :: d) (files l) es ->
    produces l set es
| p_link out es is : ~ said PPreprocess l -> ~ said PAssembly l -> ~ said PCompile l ->
    out = match last_of (values VOut l) with Some o => o | None => chars "a.out" end ->
    linked l set out (files l) es is -> produces l set (es ++ [Executable out is]).
(** Nothing but the last source has data or a #pragma pack(push). *)
Definition nothing_left (w : tools) (set : settings) (l : list item) : Prop :=
  forall u p v, files l = u ++ p :: v -> source p -> (exists q, In q v /\ source q) -> has_data w set p = false /\ pushes w set p = false.
(** Everything the driver calls works on these files. *)
Definition all_work (w : tools) (set : settings) (l : list item) : Prop :=
  (forall p, In p (files l) -> preprocesses w set p = true /\ compiles w set p = true /\ reads w p = true) /\ forall is, links w is = true.
