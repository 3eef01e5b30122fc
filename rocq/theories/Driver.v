(** Model of the driver, src/main.c: what the compiler does with its operands and which
    files it writes. Compilation of one file, reading of object files and linking are
    modelled elsewhere; here they either work or end the compiler ([tools]).

    Simplifications: printing of warnings and of -fdebug-stack-size, -fdump-ir and the
    macros __DATE__ and __TIME__ (given as any text) are left out; a file cannot fail to
    open for writing; what the freed array of packings does is noted at the end of the
    compilation that touches it. *)
From Coq Require Import String.
From Verif Require Import Base CharTypes Arguments.
Local Open Scope Z_scope.
Local Open Scope list_scope.

Definition text := list Z.
Definition same_text (a b : text) : bool := if list_eq_dec Z.eq_dec a b then true else false.
Inductive abi := Sysv | Microsoft.
Inductive code_model := Small | Large.
(** define_string and define_remove (macro_expander.c:104-108, preprocessor.c:48-51), in
    the order of the calls. *)
Inductive macro_op := DefineMacro (n v : text) | RemoveMacro (n : text).
Record settings := { s_abi : abi; s_model : code_model; s_mingw : bool; s_includes : list text; s_macros : list macro_op }.
(** What is compiled from a source: with it, the string literals and static variables of
    the sources in [with_data], which were compiled before it. *)
Inductive input := FromSource (p : text) (with_data : list text) (set : settings) | FromObject (p : text).
(** The files written, in order. An object file holds what was compiled from a source, or
    nothing. *)
Inductive effect :=
| Preprocessed (src : text) (set : settings)
| AssemblyFile (out src : text) (with_data : list text) (set : settings)
| ObjectFile (format : abi) (out : text) (src : option (text * list text)) (set : settings)
| DependencyFile (out target src : text)
| Executable (out : text) (from : list input).
Record tools := { preprocesses : settings -> text -> bool; compiles : settings -> text -> bool;
                  reads : text -> bool; links : list input -> bool;
                  (** the source has string literals or static variables; it has
                      #pragma pack(push) *)
                  has_data : settings -> text -> bool; pushes : settings -> text -> bool }.
(** What one compilation leaves to the next: the entries of src/codegen/rodata.c:25-26 and
    95-96, which nothing empties, and the array freed but kept by src/parser/parser.c:21-26
    (parser_reset). *)
Record left_over := { earlier : list text; pack_freed : bool }.

(** src/main.c:52-59 (get_basename). *)
Fixpoint base_from (p cur : text) : text :=
  match p with [] => cur | c :: r => if c =? 47 then base_from r r else base_from r cur end.
Definition get_basename (p : text) : text := base_from p p.
(** main.c:61-64 (is_ext_file): the two characters at the end, counted from the start of
    the base name: those of a path shorter than two lie before it. *)
Definition is_ext_file (p : text) (ext : Z) : res bool :=
  match rev p with
  | e :: d :: _ => Ok ((d =? 46) && (e =? ext))
  | _ => Undef
  end.
(** main.c:66-74 (dependency_path_from_outfile). *)
Definition dependency_path_from_outfile (p : text) : option text :=
  if Nat.leb (length p) 2 then None
  else match rev p with
       | e :: d :: r => if (d =? 46) && ((e =? 111) || (e =? 115)) then Some (rev r ++ chars ".d") else None
       | _ => None
       end.
(** main.c:76-90 (add_definition). *)
Fixpoint split_at_equals (s : text) : text * option text :=
  match s with
  | [] => ([], None)
  | c :: r => if c =? 61 then ([], Some r) else let (n, v) := split_at_equals r in (c :: n, v)
  end.
Definition add_definition (s : text) : macro_op :=
  let (n, v) := split_at_equals s in DefineMacro n match v with Some v => v | None => chars "1" end.
(** main.c:92-118 (set_flags). *)
Definition set_flag (set : abi * code_model * bool) (flag : text) : abi * code_model * bool :=
  let '(a, m, w) := set in
  if same_text flag (chars "cmodel=small") then (a, Small, w)
  else if same_text flag (chars "cmodel=large") then (a, Large, w)
  else if same_text (firstn 16 flag) (chars "debug-stack-size") then set
  else if same_text flag (chars "abi=ms") then (Microsoft, m, w)
  else if same_text flag (chars "abi=sysv") then (Sysv, m, w)
  else if same_text flag (chars "mingw-workarounds") then (a, m, true)
  else set.
(** config.def.h:3-18. *)
Definition default_include : list text := [chars "include/linux/"; chars "/usr/include/"].
Definition default_defs : list text := [chars "__linux"].
(** main.c:31-50 (add_implementation_defs). *)
Definition implementation_defs (date time : text) : list macro_op :=
  [DefineMacro (chars "NULL") (chars "(void*)0"); DefineMacro (chars "__DATE__") date; DefineMacro (chars "__TIME__") time;
   DefineMacro (chars "__STDC__") (chars "1"); DefineMacro (chars "__FUNCTION__") (chars "__func__");
   DefineMacro (chars "__STDC_HOSTED__") (chars "0"); DefineMacro (chars "__STDC_VERSION__") (chars "201710L"); DefineMacro (chars "__x86_64__") (chars "1")].

(** src/abi/microsoft.c:285-312 (abi_init_microsoft, abi_init_mingw_workarounds). *)
Definition abi_defs (ab : abi) : list macro_op :=
  match ab with Sysv => [] | Microsoft => [DefineMacro (chars "_WIN32") (chars "1"); DefineMacro (chars "_WIN64") (chars "1"); DefineMacro (chars "__LLP64__") (chars "1")] end.
Definition mingw_defs : list macro_op :=
  [DefineMacro (chars "_VA_LIST_DEFINED") (chars "1"); DefineMacro (chars "_crt_va_start") (chars "__builtin_va_start"); DefineMacro (chars "_crt_va_end") (chars "__builtin_va_end");
   DefineMacro (chars "_crt_va_arg") (chars "__builtin_va_arg"); DefineMacro (chars "_crt_va_copy") (chars "__builtin_va_copy"); DefineMacro (chars "_CRTIMP") []; DefineMacro (chars "_SECIMP") [];
   DefineMacro (chars "__MINGW_IMPORT") []; DefineMacro (chars "__CRT__NO_INLINE") (chars "1"); DefineMacro (chars "__cdecl") []; DefineMacro (chars "__forceinline") (chars "static inline");
   DefineMacro (chars "__inline") (chars "inline"); DefineMacro (chars "__int8") (chars "int"); DefineMacro (chars "__int16") (chars "short"); DefineMacro (chars "__int32") (chars "int");
   DefineMacro (chars "__int64") (chars "long long"); DefineMacro (chars "__cdecl") []; DefineMacro (chars "_MSVCRT_") (chars "1"); DefineMacro (chars "__x86_64") (chars "1")].
Definition predefined (date time : text) (ab : abi) (mw : bool) : list macro_op :=
  (if mw then mingw_defs else []) ++ abi_defs ab ++ implementation_defs date time ++ map add_definition default_defs.

Section Driver.
Variables (w : tools) (date time : text) (a : arguments).
Definition chosen : abi * code_model * bool := fold_left set_flag (flags a) (Sysv, Small, false).
(** main.c:136-152 and 240-256 *)
Definition current : settings :=
  let '(ab, m, mw) := chosen in
  {| s_abi := ab; s_model := if mw then Large else m; s_mingw := mw; s_includes := includes a ++ default_include;
     s_macros := predefined date time ab mw ++ map add_definition (defines a) ++ map RemoveMacro (undefines a) |}.

(** main.c:175-186: the name of the output. *)
Definition output_of (p : text) : text :=
  let b := get_basename p in
  match outfile a with
  | Some o => o
  | None => if flag_S a then firstn (length b - 2) b ++ chars ".s"
            else if flag_c a then firstn (length b - 2) b ++ chars ".o"
            else chars "a.out"
  end.
(** main.c:123-225 (compile_file): the files written, what is added to the list of
    objects, what is left over, and how it ends. *)
Definition compile_file (lo : left_over) (p : text) : list effect * list input * left_over * res unit :=
  if negb (compiles w current p) then ([], [], lo, Fail) else
  let out := output_of p in
  let files := (if flag_S a then [AssemblyFile out p (earlier lo) current] else []) ++
               (if flag_c a then [ObjectFile (s_abi current) out (if flag_S a then None else Some (p, earlier lo)) current] else []) in
  let objects := if flag_c a || flag_S a then [] else [FromSource p (earlier lo) current] in
  let lo' := {| earlier := earlier lo ++ (if has_data w current p then [p] else []); pack_freed := pushes w current p |} in
  let fin := if pack_freed lo then Undef else Ok tt in
  if flag_MD a then
    match match mf_path a with Some m => Some m | None => dependency_path_from_outfile out end with
    | None => (files, objects, lo', Undef)
    | Some m => (files ++ [DependencyFile m match mt_path a with Some t => t | None => out end p], objects, lo', fin)
    end
  else (files, objects, lo', fin).
(** main.c:229-283 (preprocess_file) *)
Definition preprocess_file (lo : left_over) (p : text) : list effect * list input * left_over * res unit :=
  match undefines a with
  | _ :: _ => ([], [], lo, Fail)
  | [] => if preprocesses w current p then ([Preprocessed p current], [], lo, Ok tt) else ([], [], lo, Fail)
  end.
(** main.c:306-329: one operand. *)
Definition operand_run (lo : left_over) (p : text) : list effect * list input * left_over * res unit :=
  match is_ext_file p 99, is_ext_file p 111 with
  | Ok c, Ok o =>
      if flag_E a then if c then preprocess_file lo p else ([], [], lo, Fail)
      else if c then compile_file lo p
      else if o then
        if flag_S a || flag_c a then ([], [], lo, Fail)
        else if reads w p then ([], [FromObject p], lo, Ok tt) else ([], [], lo, Fail)
      else ([], [], lo, Fail)
  | _, _ => ([], [], lo, Undef)
  end.
Fixpoint operands_run (l : list text) (lo : left_over) (objects : list input) : list effect * res (list input) :=
  match l with
  | [] => ([], Ok objects)
  | p :: r =>
      let '(e, o, lo', x) := operand_run lo p in
      match x with
      | Ok _ => let (e', y) := operands_run r lo' (objects ++ o) in (e ++ e', y)
      | Fail => (e, Fail)
      | Undef => (e, Undef)
      end
  end.
(** main.c:285-339 (main). *)
Definition main : list effect * res unit :=
  let will_link := negb (flag_S a || flag_c a || flag_E a) in
  if flag_s a then ([], Fail)
  else if negb (Nat.eqb (length (operands a)) 1) && (match outfile a with Some _ => true | None => false end) && (flag_S a || flag_c a) then ([], Fail)
  else
    let (e, x) := operands_run (operands a) {| earlier := []; pack_freed := false |} [] in
    match x with
    | Ok objects =>
        if will_link then
          if links w objects then (e ++ [Executable match outfile a with Some o => o | None => chars "a.out" end objects], Ok tt) else (e, Fail)
        else (e, Ok tt)
    | Fail => (e, Fail)
    | Undef => (e, Undef)
    end.
End Driver.
(** main.c:285-286: the arguments after the name of the program. *)
Definition compiler (w : tools) (date time : text) (argv : list text) : list effect * res unit :=
  match arguments_parse argv with
  | Some (Ok a) => main w date time a
  | Some Fail => ([], Fail)
  | _ => ([], Undef)
  end.
