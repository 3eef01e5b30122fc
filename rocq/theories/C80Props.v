(** C80: the files a command line asks for. *)
From Coq Require Import String.
From Verif Require Import Base CharTypes Arguments ArgumentsSpec C54Props Driver DriverSpec DriverProofs.
Local Open Scope Z_scope.
Local Open Scope list_scope.

(** Every command line that asks for something ([produces]) is answered by exactly those
    files, in that order, made under the settings it asks for. Not covered: -s, which is
    not implemented; -E with -U, which is refused; -S with -c; data or #pragma pack(push)
    in a source that another source follows. *)
Theorem command_line_files_partial : forall w date time l, Forall well_formed l -> ~ said PStrip l -> (said PPreprocess l -> values VUndefine l = []) ->
  exists set, settings_for (predefined date time) l set /\
    (all_work w set l -> said PPreprocess l \/ nothing_left w set l ->
     forall es, produces l set es -> compiler w date time (command_line l) = (es, Ok tt)).
Proof.
  intros w date time l F NS NU. destruct (C54_command_line l F) as (r & E & St). exists (current date time r). split; [apply settings_given; exact St|].
  intros W NL es P. unfold compiler. rewrite E. eapply run_produces; eassumption.
Qed.
Print Assumptions command_line_files_partial.

(** What cannot be compiled is never accepted: an operand that is neither source nor
    object, and an object where nothing is linked. *)
Theorem other_operands_are_refused : forall w date time l p, Forall well_formed l -> In p (files l) ->
  neither p \/ object p /\ (said PPreprocess l \/ said PAssembly l \/ said PCompile l) -> snd (compiler w date time (command_line l)) <> Ok tt.
Proof.
  intros w date time l p F I H. destruct (C54_command_line l F) as (r & E & St). unfold compiler. rewrite E.
  destruct (flags_of l r St) as (FE & FS & FC & Fs & FO & FF & FU). apply (main_stop w date time r p); [rewrite FO; exact I|].
  intros lo e o lo'. unfold operand_run. destruct H as [H|(H & M)].
  - destruct (ext_neither p H) as [-> ->]. destruct (flag_E r); discriminate.
  - destruct (ext_object p H) as [-> ->]. rewrite FE, FS, FC. destruct (existsb (is_plain PPreprocess) l) eqn:E1; [discriminate|].
    destruct (existsb (is_plain PAssembly) l) eqn:E2; [discriminate|]. destruct (existsb (is_plain PCompile) l) eqn:E3; [discriminate|].
    exfalso. destruct M as [M|[M|M]]; apply saidP in M; congruence.
Qed.
Print Assumptions other_operands_are_refused.
(** One output for several sources is refused, and no file is written. *)
Theorem one_output_for_many_is_refused : forall w date time l, Forall well_formed l -> said PAssembly l \/ said PCompile l ->
  values VOut l <> [] -> length (files l) <> 1%nat -> compiler w date time (command_line l) = ([], Fail).
Proof.
  intros w date time l F M O N. destruct (C54_command_line l F) as (r & E & St). unfold compiler. rewrite E.
  destruct (flags_of l r St) as (FE & FS & FC & Fs & FO & FF & FU). unfold main. destruct (flag_s r); [reflexivity|].
  assert (X : flag_S r || flag_c r = true) by (rewrite FS, FC; apply orb_true_iff; destruct M as [M|M]; apply saidP in M; auto).
  rewrite X, FO, FF. destruct (last_of (values VOut l)) eqn:Q; [|apply last_none in Q; contradiction].
  apply Nat.eqb_neq in N. unfold text in N. rewrite N. reflexivity.
Qed.
Print Assumptions one_output_for_many_is_refused.

(** ** Witnesses *)
Definition any_tools : tools :=
  {| preprocesses := fun _ _ => true; compiles := fun _ _ => true; reads := fun _ => true; links := fun _ => true; has_data := fun _ _ => true; pushes := fun _ _ => false |}.
Definition packing : tools :=
  {| preprocesses := fun _ _ => true; compiles := fun _ _ => true; reads := fun _ => true; links := fun _ => true; has_data := fun _ _ => false; pushes := fun _ _ => true |}.
Definition run_of (w : tools) (l : list item) := compiler w (chars "d") (chars "t") (command_line l).
Definition set_of (l : list item) : settings :=
  match arguments_parse (command_line l) with Some (Ok a) => current (chars "d") (chars "t") a | _ => {| s_abi := Sysv; s_model := Small; s_mingw := false; s_includes := []; s_macros := [] |} end.

(** An output has the data of its own source only: false. With -c a.c b.c the second
    object defines the static variables and string literals of a.c again, so the two do
    not link. *)
Definition two := [Plain PCompile; Operand (chars "a.c"); Operand (chars "b.c")].
Theorem data_of_other_sources_refuted :
  Forall well_formed two /\ all_work any_tools (set_of two) two /\
  produces two (set_of two) [ObjectFile Sysv (chars "a.o") (Some (chars "a.c", [])) (set_of two); ObjectFile Sysv (chars "b.o") (Some (chars "b.c", [])) (set_of two)] /\
  run_of any_tools two = ([ObjectFile Sysv (chars "a.o") (Some (chars "a.c", [])) (set_of two); ObjectFile Sysv (chars "b.o") (Some (chars "b.c", [chars "a.c"])) (set_of two)], Ok tt).
Proof.
  split; [repeat constructor; discriminate|]. split; [split; [intros; repeat split|reflexivity]|]. split; [|reflexivity].
  apply p_object; [intros [H|[H|[H|[]]]]; discriminate|intros [H|[H|[H|[]]]]; discriminate|left; reflexivity|intros H; exfalso; apply H; reflexivity|].
  assert (X : forall p b, stem p b -> source p -> forall s, s = set_of two -> s_abi s = Sysv ->
    source p /\ exists out d, output ".o" two p out /\ dependencies two p out d /\ [ObjectFile Sysv (b ++ chars ".o") (Some (p, [])) s] = ObjectFile (s_abi s) out (Some (p, [])) s :: d).
  { intros p b S Sp s Es Ab. split; [exact Sp|]. exists (b ++ chars ".o"), []. split; [exists b; split; [exact S|reflexivity]|]. split; [|rewrite Ab; reflexivity].
    right. split; [intros [H|[H|[H|[]]]]; discriminate|reflexivity]. }
  change (files two) with [chars "a.c"; chars "b.c"].
  change [ObjectFile Sysv (chars "a.o") (Some (chars "a.c", [])) (set_of two); ObjectFile Sysv (chars "b.o") (Some (chars "b.c", [])) (set_of two)]
    with ([ObjectFile Sysv (chars "a" ++ chars ".o") (Some (chars "a.c", [])) (set_of two)] ++ [ObjectFile Sysv (chars "b" ++ chars ".o") (Some (chars "b.c", [])) (set_of two)] ++ []).
  constructor; [apply X; [exists []; repeat split; [left; reflexivity|cbn; intuition discriminate]|exists (chars "a"); reflexivity|reflexivity|reflexivity]|].
  constructor; [apply X; [exists []; repeat split; [left; reflexivity|cbn; intuition discriminate]|exists (chars "b"); reflexivity|reflexivity|reflexivity]|constructor].
Qed.
Print Assumptions data_of_other_sources_refuted.
(** After a source with #pragma pack(push) the next one frees the same array again. *)
Theorem source_after_packing_refuted : all_work packing (set_of two) two /\ snd (run_of packing two) = Undef.
Proof. split; [split; [intros; repeat split|reflexivity]|reflexivity]. Qed.
Print Assumptions source_after_packing_refuted.
(** -S -c: the assembly is overwritten by an object compiled from nothing. *)
Theorem assembly_and_object_refuted : let l := [Plain PAssembly; Plain PCompile; Operand (chars "a.c")] in
  run_of any_tools l = ([AssemblyFile (chars "a.s") (chars "a.c") [] (set_of l); ObjectFile Sysv (chars "a.s") None (set_of l)], Ok tt).
Proof. reflexivity. Qed.
Print Assumptions assembly_and_object_refuted.
(** -MD while linking: no name for the dependency file, and NULL is opened. *)
Theorem dependencies_when_linking_refuted : run_of any_tools [Plain PDeps; Operand (chars "a.c")] = ([], Undef).
Proof. reflexivity. Qed.
Print Assumptions dependencies_when_linking_refuted.
(** An operand of one character: its extension is read before its first character. *)
Theorem short_operand_refuted : run_of any_tools [Plain PCompile; Operand (chars "a")] = ([], Undef).
Proof. reflexivity. Qed.
Print Assumptions short_operand_refuted.
(** -E -U is refused; -E -o f does not write f, nor does -E -MD write dependencies. *)
Theorem preprocess_options_refuted :
  run_of any_tools [Plain PPreprocess; Joined VUndefine (chars "X"); Operand (chars "a.c")] = ([], Fail) /\
  (let l := [Plain PPreprocess; Plain PDeps; Joined VOut (chars "a.i"); Operand (chars "a.c")] in run_of any_tools l = ([Preprocessed (chars "a.c") (set_of l)], Ok tt)).
Proof. split; reflexivity. Qed.
Print Assumptions preprocess_options_refuted.

(** The hypotheses are met: an object with dependencies under the Microsoft convention,
    and an executable of a source and an object. *)
Definition one := [Plain PCompile; Plain PDeps; Joined VFeature (chars "abi=ms"); Joined VDefine (chars "N=3"); Joined VUndefine (chars "__linux"); Operand (chars "src/a.c")].
Example C80_object : Forall well_formed one /\ ~ said PStrip one /\ all_work any_tools (set_of one) one /\ nothing_left any_tools (set_of one) one /\
  settings_for (predefined (chars "d") (chars "t")) one (set_of one) /\
  produces one (set_of one) [ObjectFile Microsoft (chars "a.o") (Some (chars "src/a.c", [])) (set_of one); DependencyFile (chars "a.d") (chars "a.o") (chars "src/a.c")].
Proof.
  split; [repeat constructor; discriminate|]. split; [intros H; repeat (destruct H as [H|H]; try discriminate); destruct H|]. split; [split; [intros; repeat split|reflexivity]|].
  split; [intros u p v E _ (q & I & _); change (files one) with [chars "src/a.c"] in E; destruct u as [|x u]; [injection E as _ <-; destruct I|destruct u; discriminate]|].
  split.
  { assert (F : Forall well_formed one) by (repeat constructor; discriminate). destruct (C54_command_line one F) as (r & E & St). unfold set_of. rewrite E. apply settings_given. exact St. }
  apply p_object; [intros H; repeat (destruct H as [H|H]; try discriminate); destruct H|intros H; repeat (destruct H as [H|H]; try discriminate); destruct H|left; reflexivity|intros H; exfalso; apply H; reflexivity|].
  change (files one) with [chars "src/a.c"].
  change [ObjectFile Microsoft (chars "a.o") (Some (chars "src/a.c", [])) (set_of one); DependencyFile (chars "a.d") (chars "a.o") (chars "src/a.c")]
    with ([ObjectFile Microsoft (chars "a.o") (Some (chars "src/a.c", [])) (set_of one); DependencyFile (chars "a.d") (chars "a.o") (chars "src/a.c")] ++ []).
  constructor; [|constructor]. split; [exists (chars "src/a"); reflexivity|]. exists (chars "a.o"), [DependencyFile (chars "a.d") (chars "a.o") (chars "src/a.c")].
  split; [exists (chars "a"); split; [exists (chars "src/"); repeat split; [right; exists (chars "src"); reflexivity|cbn; intuition discriminate]|reflexivity]|].
  split; [|reflexivity]. left. split; [right; left; reflexivity|]. exists (chars "a.d"), (chars "a.o"). split; [reflexivity|]. split; [reflexivity|].
  exists (chars "a"). split; [discriminate|]. split; [left; reflexivity|reflexivity].
Qed.
Definition exe := [Operand (chars "a.c"); Operand (chars "lib/b.o"); Apart VOut (chars "prog")].
Example C80_link : run_of any_tools exe = ([Executable (chars "prog") [FromSource (chars "a.c") [] (set_of exe); FromObject (chars "lib/b.o")]], Ok tt) /\
  produces exe (set_of exe) [Executable (chars "prog") [FromSource (chars "a.c") [] (set_of exe); FromObject (chars "lib/b.o")]].
Proof.
  split; [reflexivity|]. apply (p_link exe (set_of exe) (chars "prog") []); try (intros H; repeat (destruct H as [H|H]; try discriminate); destruct H); [reflexivity|].
  change (files exe) with [chars "a.c"; chars "lib/b.o"]. apply (lk_source exe _ _ (chars "a.c") _ [] []); [exists (chars "a"); reflexivity| |].
  - right. split; [|reflexivity]. intros H; repeat (destruct H as [H|H]; try discriminate); destruct H.
  - apply lk_object; [exists (chars "lib/b"); reflexivity|constructor].
Qed.
