(** What a command line of a C compiler says. *)
From Coq Require Import String.
From Verif Require Import Base CharTypes Arguments.
Local Open Scope Z_scope.
Local Open Scope list_scope.

(** Options that take a value, and their spelling. *)
Inductive valued := VOut | VLevel | VDefine | VUndefine | VInclude | VLibDir | VLib | VFeature | VDepTarget | VDepFile.
Definition valued_spelling (v : valued) : list Z :=
  match v with
  | VOut => chars "-o" | VLevel => chars "-O" | VDefine => chars "-D" | VUndefine => chars "-U" | VInclude => chars "-I"
  | VLibDir => chars "-L" | VLib => chars "-l" | VFeature => chars "-f" | VDepTarget => chars "-MT" | VDepFile => chars "-MF"
  end.
(** Options that take none. *)
Inductive plain := PCompile | PDebug | PStrip | PPreprocess | PAssembly | PDeps.
Definition plain_spelling (p : plain) : list Z :=
  match p with
  | PCompile => chars "-c" | PDebug => chars "-g" | PStrip => chars "-s" | PPreprocess => chars "-E" | PAssembly => chars "-S" | PDeps => chars "-MD"
  end.

(** One thing said on a command line, and the arguments that say it. A value
    may be joined to its option or be an argument of its own; warning options
    and the language standard are accepted and mean nothing. *)
Inductive item :=
| Operand (s : list Z)
| Plain (p : plain)
| Joined (v : valued) (s : list Z)
| Apart (v : valued) (s : list Z)
| Warning (s : list Z)
| Standard (s : list Z).
Definition render (i : item) : list (list Z) :=
  match i with
  | Operand s => [s]
  | Plain p => [plain_spelling p]
  | Joined v s => [valued_spelling v ++ s]
  | Apart v s => [valued_spelling v; s]
  | Warning s => [chars "-W" ++ s]
  | Standard s => [chars "-std" ++ s]
  end.
Definition command_line (l : list item) : list (list Z) := flat_map render l.
(** An operand does not begin with a dash, a joined value is not empty; the value
    in an argument of its own may be anything. *)
Definition well_formed (i : item) : Prop :=
  match i with
  | Operand s => hd_error s <> Some 45
  | Joined _ s => s <> []
  | _ => True
  end.

Definition is_plain (p : plain) (i : item) : bool :=
  match i, p with
  | Plain PCompile, PCompile | Plain PDebug, PDebug | Plain PStrip, PStrip | Plain PPreprocess, PPreprocess | Plain PAssembly, PAssembly | Plain PDeps, PDeps => true
  | _, _ => false
  end.
Definition same_option (v w : valued) : bool :=
  match v, w with
  | VOut, VOut | VLevel, VLevel | VDefine, VDefine | VUndefine, VUndefine | VInclude, VInclude | VLibDir, VLibDir | VLib, VLib | VFeature, VFeature | VDepTarget, VDepTarget | VDepFile, VDepFile => true
  | _, _ => false
  end.
(** The values given for an option, the operands, in the order of the command line. *)
Definition value_in (v : valued) (i : item) : list (list Z) :=
  match i with Joined w s | Apart w s => if same_option v w then [s] else [] | _ => [] end.
Definition values (v : valued) (l : list item) : list (list Z) := flat_map (value_in v) l.
Definition operand_in (i : item) : list (list Z) := match i with Operand s => [s] | _ => [] end.
Definition last_of (l : list (list Z)) : option (list Z) := hd_error (rev l).

(** The arguments a command line stands for: switches that occur, lists in
    order, and for options with one value the last one given. *)
Definition stands_for (l : list item) (r : arguments) : Prop :=
  flag_c r = existsb (is_plain PCompile) l /\ flag_g r = existsb (is_plain PDebug) l /\
  flag_s r = existsb (is_plain PStrip) l /\ flag_E r = existsb (is_plain PPreprocess) l /\
  flag_S r = existsb (is_plain PAssembly) l /\ flag_MD r = existsb (is_plain PDeps) l /\
  operands r = flat_map operand_in l /\
  defines r = values VDefine l /\ undefines r = values VUndefine l /\ includes r = values VInclude l /\
  libraries r = values VLib l /\ library_dirs r = values VLibDir l /\ flags r = values VFeature l /\
  outfile r = last_of (values VOut l) /\ optlevel r = last_of (values VLevel l) /\
  mt_path r = last_of (values VDepTarget l) /\ mf_path r = last_of (values VDepFile l).

(** Arguments that say none of these things: a dash alone, [-M] alone, a
    switch with something joined to it, or an unknown letter. *)
Definition known_letters : list Z := chars "cgsESWoODUILlfM".
Definition known_m_letters : list Z := chars "DTF".
Inductive unrecognised : list Z -> Prop :=
| lone_dash : unrecognised (chars "-")
| lone_M : unrecognised (chars "-M")
| joined_plain : forall p s, s <> [] -> (forall t, plain_spelling p ++ s <> chars "-std" ++ t) -> unrecognised (plain_spelling p ++ s)
| unknown_letter : forall c s, ~ In c known_letters -> unrecognised (45 :: c :: s)
| unknown_m_letter : forall c s, ~ In c known_m_letters -> unrecognised (45 :: 77 :: c :: s).
