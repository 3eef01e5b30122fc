(** C54: the command line. *)
From Coq Require Import String.
From Verif Require Import Base CharTypes Arguments ArgumentsSpec.
From Coq Require Import Lia.
Local Open Scope Z_scope.
Local Open Scope list_scope.

(** ** The loop ends *)
Definition pending (n : option (list Z)) : nat := match n with Some a => (length a + 1)%nat | None => 0%nat end.
Definition weight (argv : list (list Z)) : nat := fold_right (fun a n => (length a + 1 + n)%nat) 0%nat argv.
Lemma step_shrinks : forall s arg r s' n' r', step s arg r = Ok (s', n', r') -> (pending n' < length arg + 1)%nat.
Proof.
  assert (A : forall x rest s' n' r', after_letter x rest = Ok (s', n', r') -> (pending n' <= length rest + 1)%nat).
  { intros [[[r0 ns] c] i] rest s' n' r' H. unfold after_letter in H. destruct rest as [|b rest]; [injection H as <- <- <-; cbn; lia|].
    destruct c; [injection H as <- <- <-; cbn; lia|]. destruct i; [injection H as <- <- <-; cbn; lia|discriminate]. }
  intros s arg r s' n' r' H. destruct s; cbn [step] in H; try (injection H as <- <- <-; cbn; lia).
  destruct arg as [|a t]; [injection H as <- <- <-; cbn; lia|].
  destruct (a =? 45); [|injection H as <- <- <-; cbn; lia].
  destruct t as [|b u]; [discriminate|].
  destruct (b =? 77).
  - destruct u as [|c rest]; [discriminate|]. apply A in H. cbn [length]. lia.
  - match type of H with (if ?x then _ else _) = _ => destruct x end; [injection H as <- <- <-; cbn; lia|].
    apply A in H. cbn [length]. lia.
Qed.
Lemma enough : forall k s n argv r, (pending n + weight argv < k)%nat -> parse_loop k s n argv r <> None.
Proof.
  induction k as [|k IH]; intros s n argv r H; [lia|]. cbn [parse_loop].
  destruct n as [arg|].
  - destruct (step s arg r) as [[[s' n'] r']| |] eqn:E; [|discriminate|discriminate].
    apply IH. apply step_shrinks in E. cbn [pending] in H. lia.
  - destruct argv as [|arg t]; [discriminate|].
    destruct (step s arg r) as [[[s' n'] r']| |] eqn:E; [|discriminate|discriminate].
    apply IH. apply step_shrinks in E. cbn [pending weight fold_right] in H. fold (weight t) in H. lia.
Qed.
Lemma more_fuel : forall k s n argv r x, parse_loop k s n argv r = Some x -> forall j, parse_loop (k + j) s n argv r = Some x.
Proof.
  induction k as [|k IH]; intros s n argv r x H j; [discriminate|]. cbn [parse_loop Nat.add] in H |- *.
  destruct n as [arg|].
  - destruct (step s arg r) as [[[s' n'] r']| |]; [apply IH; exact H|exact H|exact H].
  - destruct argv as [|arg t]; [exact H|]. destruct (step s arg r) as [[[s' n'] r']| |]; [apply IH; exact H|exact H|exact H].
Qed.
(** With the turns given, any count that answers answers the same. *)
Lemma same_answer : forall k k' s n argv r x, parse_loop k s n argv r = Some x -> (pending n + weight argv < k')%nat -> parse_loop k' s n argv r = Some x.
Proof.
  intros k k' s n argv r x H L. destruct (Nat.le_ge_cases k k') as [A|A].
  - replace k' with (k + (k' - k))%nat by lia. apply more_fuel. exact H.
  - destruct (parse_loop k' s n argv r) as [y|] eqn:E; [|exfalso; exact (enough k' s n argv r L E)].
    assert (B := more_fuel _ _ _ _ _ _ E (k - k')%nat). replace (k' + (k - k'))%nat with k in B by lia. congruence.
Qed.

(** The whole parse does not depend on the count of turns. *)
Definition run (s : state) (n : option (list Z)) (argv : list (list Z)) (r : arguments) : res arguments :=
  match parse_loop (S (pending n + weight argv)) s n argv r with Some x => x | None => Fail end.
Lemma run_spec : forall s n argv r, parse_loop (S (pending n + weight argv)) s n argv r = Some (run s n argv r).
Proof.
  intros. unfold run. destruct (parse_loop (S (pending n + weight argv)) s n argv r) as [x|] eqn:E; [reflexivity|].
  exfalso. apply (enough _ _ _ _ _ (Nat.lt_succ_diag_r _) E).
Qed.
Lemma run_end : forall s r, run s None [] r = Ok r.
Proof. reflexivity. Qed.
Lemma run_pending : forall s a argv r, run s (Some a) argv r = match step s a r with Ok (s', n', r') => run s' n' argv r' | Fail => Fail | Undef => Undef end.
Proof.
  intros. assert (A := run_spec s (Some a) argv r). cbn [parse_loop] in A.
  destruct (step s a r) as [[[s' n'] r']| |] eqn:E; [|congruence|congruence].
  assert (B := same_answer _ (S (pending n' + weight argv)) _ _ _ _ _ A (Nat.lt_succ_diag_r _)). rewrite run_spec in B. congruence.
Qed.
Lemma run_next : forall s a argv r, run s None (a :: argv) r = match step s a r with Ok (s', n', r') => run s' n' argv r' | Fail => Fail | Undef => Undef end.
Proof.
  intros. assert (A := run_spec s None (a :: argv) r). cbn [parse_loop] in A.
  destruct (step s a r) as [[[s' n'] r']| |] eqn:E; [|congruence|congruence].
  assert (B := same_answer _ (S (pending n' + weight argv)) _ _ _ _ _ A (Nat.lt_succ_diag_r _)). rewrite run_spec in B. congruence.
Qed.
Lemma parse_run : forall argv, arguments_parse argv = Some (run S_OPERAND None argv no_arguments).
Proof. intros. exact (run_spec S_OPERAND None argv no_arguments). Qed.

(** ** One item *)
Definition state_of (v : valued) : state :=
  match v with
  | VOut => S_OUTFILE | VLevel => S_OPTLEVEL | VDefine => S_DEFINE | VUndefine => S_UNDEFINE | VInclude => S_INCLUDE
  | VLibDir => S_LIBRARY_DIR | VLib => S_LIBRARY | VFeature => S_FLAG | VDepTarget => S_MT | VDepFile => S_MF
  end.
Definition set_plain (p : plain) (r : arguments) : arguments :=
  match p with PCompile => set_c r | PDebug => set_g r | PStrip => set_s r | PPreprocess => set_E r | PAssembly => set_S r | PDeps => set_MD r end.
Definition apply (i : item) (r : arguments) : arguments :=
  match i with
  | Operand s => add_operand s r
  | Plain p => set_plain p r
  | Joined v s | Apart v s => store (state_of v) s r
  | _ => r
  end.
Lemma run_item : forall i rest r, well_formed i -> run S_OPERAND None (render i ++ rest) r = run S_OPERAND None rest (apply i r).
Proof.
  intros i rest r W. destruct i as [s|p|v s|v s|s|s]; cbn [render app].
  - rewrite run_next. cbn [well_formed] in W. destruct s as [|a t]; [reflexivity|]. cbn [step].
    destruct (Z.eqb_spec a 45) as [->|_]; [exfalso; apply W; reflexivity|]. reflexivity.
  - rewrite run_next. destruct p; reflexivity.
  - rewrite run_next. cbn [well_formed] in W. destruct s as [|a t]; [congruence|].
    destruct v; cbn - [run]; rewrite run_pending; reflexivity.
  - rewrite run_next. destruct v; cbn - [run]; rewrite run_next; reflexivity.
  - rewrite run_next. destruct s; reflexivity.
  - rewrite run_next. reflexivity.
Qed.
Lemma run_items : forall l rest r, Forall well_formed l -> run S_OPERAND None (command_line l ++ rest) r = run S_OPERAND None rest (fold_left (fun r i => apply i r) l r).
Proof.
  induction l as [|i l IH]; intros rest r H; [reflexivity|]. inversion H; subst.
  cbn [command_line flat_map fold_left]. fold (command_line l). rewrite <- app_assoc, run_item by assumption. apply IH. assumption.
Qed.
Lemma last_of_app : forall l s, last_of (l ++ [s]) = Some s.
Proof. intros. unfold last_of. rewrite rev_unit. reflexivity. Qed.
Lemma stands_for_fold : forall l, stands_for l (fold_left (fun r i => apply i r) l no_arguments).
Proof.
  induction l as [|i l IH] using rev_ind; [unfold stands_for; repeat split|].
  rewrite fold_left_app. cbn [fold_left]. set (r := fold_left (fun r i => apply i r) l no_arguments) in *.
  unfold stands_for in *. unfold values in *.
  destruct IH as (H1 & H2 & H3 & H4 & H5 & H6 & H7 & H8 & H9 & H10 & H11 & H12 & H13 & H14 & H15 & H16 & H17).
  rewrite !existsb_app, !flat_map_app. cbn [existsb flat_map]. rewrite !app_nil_r, !Bool.orb_false_r.
  destruct i as [s|p|v s|v s|s|s]; cbn [operand_in value_in is_plain apply]; rewrite ?app_nil_r, ?Bool.orb_false_r.
  - cbn. rewrite ?app_nil_r. repeat split; try assumption; congruence.
  - destruct p; cbn; rewrite ?app_nil_r, ?Bool.orb_false_r, ?Bool.orb_true_r; repeat split; assumption.
  - destruct v; cbn; rewrite ?app_nil_r, ?last_of_app; repeat split; try assumption; congruence.
  - destruct v; cbn; rewrite ?app_nil_r, ?last_of_app; repeat split; try assumption; congruence.
  - repeat split; assumption.
  - repeat split; assumption.
Qed.

(** ** The property *)

(** Parsing any argument vector comes to an end. *)
Theorem C54_terminates : forall argv, arguments_parse argv <> None.
Proof. intros argv. rewrite parse_run. discriminate. Qed.
Print Assumptions C54_terminates.

(** Every command line made of operands, switches and options with their values,
    in any number and order, is recorded as what it stands for. *)
Theorem C54_command_line : forall l, Forall well_formed l ->
  exists r, arguments_parse (command_line l) = Some (Ok r) /\ stands_for l r.
Proof.
  intros l H. exists (fold_left (fun r i => apply i r) l no_arguments). split; [|apply stands_for_fold].
  rewrite parse_run. rewrite <- (app_nil_r (command_line l)), run_items by assumption. reflexivity.
Qed.
Print Assumptions C54_command_line.

(** *** Nothing else is accepted without an unknown option or a missing value *)
Lemma classify_dash : forall t,
  unrecognised (45 :: t) \/
  (exists p, 45 :: t = plain_spelling p) \/ (exists v s, s <> [] /\ 45 :: t = valued_spelling v ++ s) \/
  (exists v, 45 :: t = valued_spelling v) \/ (exists s, 45 :: t = chars "-W" ++ s) \/ (exists s, 45 :: t = chars "-std" ++ s).
Proof.
  intros t. destruct t as [|b u]; [left; exact lone_dash|].
  assert (V : forall v w, 45 :: w = valued_spelling v -> forall u, (exists v s, s <> [] /\ 45 :: w ++ u = valued_spelling v ++ s) \/ (exists v, 45 :: w ++ u = valued_spelling v)).
  { intros v w E z. destruct z as [|a z]; [right; exists v; rewrite app_nil_r; exact E|left]. exists v, (a :: z). split; [discriminate|]. rewrite <- E. reflexivity. }
  destruct (in_dec Z.eq_dec b known_letters) as [I|I]; [|left; apply unknown_letter; exact I].
  vm_compute in I.
  assert (VV : forall v, 45 :: [b] = valued_spelling v ->
    unrecognised (45 :: b :: u) \/ (exists p, 45 :: b :: u = plain_spelling p) \/ (exists v s, s <> [] /\ 45 :: b :: u = valued_spelling v ++ s) \/
    (exists v, 45 :: b :: u = valued_spelling v) \/ (exists s, 45 :: b :: u = chars "-W" ++ s) \/ (exists s, 45 :: b :: u = chars "-std" ++ s)).
  { intros v E. destruct (V v [b] E u) as [A|A]; [right; right; left; exact A|right; right; right; left; exact A]. }
  assert (PP : forall p, 45 :: [b] = plain_spelling p -> b <> 115 ->
    unrecognised (45 :: b :: u) \/ (exists p, 45 :: b :: u = plain_spelling p) \/ (exists v s, s <> [] /\ 45 :: b :: u = valued_spelling v ++ s) \/
    (exists v, 45 :: b :: u = valued_spelling v) \/ (exists s, 45 :: b :: u = chars "-W" ++ s) \/ (exists s, 45 :: b :: u = chars "-std" ++ s)).
  { intros p E N. destruct u as [|a z]; [right; left; exists p; exact E|left].
    replace (45 :: b :: a :: z) with (plain_spelling p ++ (a :: z)) by (rewrite <- E; reflexivity).
    apply joined_plain; [discriminate|]. intros t. rewrite <- E. change (chars "-std") with [45; 115; 116; 100]. cbn. congruence. }
  destruct I as [<-|[<-|[<-|[<-|[<-|[<-|[<-|[<-|[<-|[<-|[<-|[<-|[<-|[<-|[<-|[]]]]]]]]]]]]]]]].
  - apply (PP PCompile); [reflexivity|discriminate].
  - apply (PP PDebug); [reflexivity|discriminate].
  - destruct u as [|a z]; [right; left; exists PStrip; reflexivity|].
    destruct (list_eq_dec Z.eq_dec (firstn 2 (a :: z)) [116; 100]) as [E|N].
    + do 5 right. destruct z as [|c z]; [discriminate|]. cbn in E. injection E as -> ->. exists z. reflexivity.
    + left. apply (joined_plain PStrip (a :: z)); [discriminate|]. intros t E. apply N.
      change (plain_spelling PStrip) with [45; 115] in E. change (chars "-std") with [45; 115; 116; 100] in E. cbn in E. injection E as -> ->. reflexivity.
  - apply (PP PPreprocess); [reflexivity|discriminate].
  - apply (PP PAssembly); [reflexivity|discriminate].
  - do 4 right. left. exists u. reflexivity.
  - apply (VV VOut eq_refl).
  - apply (VV VLevel eq_refl).
  - apply (VV VDefine eq_refl).
  - apply (VV VUndefine eq_refl).
  - apply (VV VInclude eq_refl).
  - apply (VV VLibDir eq_refl).
  - apply (VV VLib eq_refl).
  - apply (VV VFeature eq_refl).
  - destruct u as [|c u]; [left; exact lone_M|].
    destruct (in_dec Z.eq_dec c known_m_letters) as [I|I]; [|left; apply unknown_m_letter; exact I].
    vm_compute in I. destruct I as [<-|[<-|[<-|[]]]].
    + destruct u as [|a z]; [right; left; exists PDeps; reflexivity|left]. apply (joined_plain PDeps (a :: z)); [discriminate|]. intros t. vm_compute. congruence.
    + destruct (V VDepTarget [77; 84] eq_refl u) as [A|A]; [right; right; left; exact A|right; right; right; left; exact A].
    + destruct (V VDepFile [77; 70] eq_refl u) as [A|A]; [right; right; left; exact A|right; right; right; left; exact A].
Qed.
Lemma decompose : forall n argv, (length argv <= n)%nat ->
  exists l, Forall well_formed l /\
    (argv = command_line l \/ (exists v, argv = command_line l ++ [valued_spelling v]) \/
     (exists bad rest, argv = command_line l ++ bad :: rest /\ unrecognised bad)).
Proof.
  induction n as [|n IH]; intros argv L.
  - destruct argv; [|cbn in L; lia]. exists []. split; [constructor|]. left. reflexivity.
  - destruct argv as [|arg t]; [exists []; split; [constructor|]; left; reflexivity|]. cbn [length] in L.
    assert (K : forall i t', (length t' <= n)%nat -> well_formed i -> arg :: t = render i ++ t' ->
       exists l, Forall well_formed l /\ (arg :: t = command_line l \/ (exists v, arg :: t = command_line l ++ [valued_spelling v]) \/
         (exists bad rest, arg :: t = command_line l ++ bad :: rest /\ unrecognised bad))).
    { intros i t' L' W E. rewrite E. destruct (IH t' L') as (l & F & C). exists (i :: l). split; [constructor; assumption|].
      cbn [command_line flat_map]. fold (command_line l).
      destruct C as [->|[(v & ->)|(bad & rest & -> & U)]]; [left; reflexivity|right; left; exists v; apply app_assoc|].
      right; right. exists bad, rest. split; [apply app_assoc|exact U]. }
    destruct arg as [|a u]; [apply (K (Operand []) t); [lia|discriminate|reflexivity]|].
    destruct (Z.eq_dec a 45) as [->|N]; [|apply (K (Operand (a :: u)) t); [lia|cbn; congruence|reflexivity]].
    destruct (classify_dash u) as [U|[(p & E)|[(v & s & N & E)|[(v & E)|[(s & E)|(s & E)]]]]].
    + exists []. split; [constructor|]. right; right. exists (45 :: u), t. split; [reflexivity|exact U].
    + apply (K (Plain p) t); [lia|exact I|]. rewrite E. reflexivity.
    + apply (K (Joined v s) t); [lia|exact N|]. rewrite E. reflexivity.
    + destruct t as [|s t]; [exists []; split; [constructor|]; right; left; exists v; rewrite E; reflexivity|].
      apply (K (Apart v s) t); [cbn in L; lia|exact I|]. rewrite E. reflexivity.
    + apply (K (Warning s) t); [lia|exact I|]. rewrite E. reflexivity.
    + apply (K (Standard s) t); [lia|exact I|]. rewrite E. reflexivity.
Qed.
(** Every argument vector without an unrecognised argument and without a missing
    value is such a command line, so it is recorded as it stands. Together
    with C54_command_line: options never become operands nor operands options,
    except behind an unrecognised argument. *)
Theorem C54_every_vector_partial : forall argv,
  exists l, Forall well_formed l /\
    ((exists r, argv = command_line l /\ arguments_parse argv = Some (Ok r) /\ stands_for l r) \/
     (exists v, argv = command_line l ++ [valued_spelling v]) \/
     (exists bad rest, argv = command_line l ++ bad :: rest /\ unrecognised bad)).
Proof.
  intros argv. destruct (decompose (length argv) argv (Nat.le_refl _)) as (l & F & [E|C]); exists l; (split; [exact F|]); [left|right; exact C].
  destruct (C54_command_line l F) as (r & P & S). exists r. subst argv. split; [reflexivity|split; [exact P|exact S]].
Qed.
Print Assumptions C54_every_vector_partial.

(** *** What happens otherwise *)

(** An option whose value is missing is dropped without a word. *)
Theorem C54_missing_value_refuted : forall l v, Forall well_formed l ->
  exists r, arguments_parse (command_line l ++ [valued_spelling v]) = Some (Ok r) /\ stands_for l r.
Proof.
  intros l v F. exists (fold_left (fun r i => apply i r) l no_arguments). split; [|apply stands_for_fold].
  rewrite parse_run, run_items by assumption. rewrite run_next. destruct v; reflexivity.
Qed.
Print Assumptions C54_missing_value_refuted.

(** What is joined to an unknown option becomes an operand: the compiler takes
    part of an option for an input file. *)
Theorem C54_option_becomes_operand_refuted : forall l c s l', Forall well_formed l -> Forall well_formed l' ->
  ~ In c known_letters -> s <> [] -> hd_error s <> Some 45 ->
  exists r, arguments_parse (command_line l ++ (45 :: c :: s) :: command_line l') = Some (Ok r) /\ stands_for (l ++ Operand s :: l') r.
Proof.
  intros l c s l' F F' N NE H. exists (fold_left (fun r i => apply i r) (l ++ Operand s :: l') no_arguments). split; [|apply stands_for_fold].
  rewrite parse_run, run_items by assumption. rewrite run_next.
  assert (X : forall r, step S_OPERAND (45 :: c :: s) r = Ok (S_OPERAND, Some s, r)).
  { intros r. cbn [step]. change (45 =? 45) with true. cbv iota.
    assert (Y : forall d, In d known_letters -> (c =? d) = false) by (intros d D; apply Z.eqb_neq; intros ->; exact (N D)).
    unfold switch. rewrite !Y by (vm_compute; tauto). cbn [andb]. unfold after_letter. destruct s; [congruence|reflexivity]. }
  rewrite X. rewrite run_pending. destruct s as [|a t]; [congruence|]. cbn [step].
  destruct (Z.eqb_spec a 45) as [->|_]; [exfalso; apply H; reflexivity|].
  rewrite <- (app_nil_r (command_line l')), run_items by assumption. rewrite run_end, fold_left_app. reflexivity.
Qed.
Print Assumptions C54_option_becomes_operand_refuted.

(** The same for unknown letters after [-M], as in [-MMD]. *)
Theorem C54_m_option_becomes_operand_refuted : forall l c s l', Forall well_formed l -> Forall well_formed l' ->
  ~ In c known_m_letters -> s <> [] -> hd_error s <> Some 45 ->
  exists r, arguments_parse (command_line l ++ (45 :: 77 :: c :: s) :: command_line l') = Some (Ok r) /\ stands_for (l ++ Operand s :: l') r.
Proof.
  intros l c s l' F F' N NE H. exists (fold_left (fun r i => apply i r) (l ++ Operand s :: l') no_arguments). split; [|apply stands_for_fold].
  rewrite parse_run, run_items by assumption. rewrite run_next.
  assert (X : forall r, step S_OPERAND (45 :: 77 :: c :: s) r = Ok (S_OPERAND, Some s, r)).
  { intros r. cbn [step]. change (45 =? 45) with true. change (77 =? 77) with true. cbv iota.
    assert (Y : forall d, In d known_m_letters -> (c =? d) = false) by (intros d D; apply Z.eqb_neq; intros ->; exact (N D)).
    unfold m_switch. rewrite !Y by (vm_compute; tauto). unfold after_letter. destruct s; [congruence|reflexivity]. }
  rewrite X. rewrite run_pending. destruct s as [|a t]; [congruence|]. cbn [step].
  destruct (Z.eqb_spec a 45) as [->|_]; [exfalso; apply H; reflexivity|].
  rewrite <- (app_nil_r (command_line l')), run_items by assumption. rewrite run_end, fold_left_app. reflexivity.
Qed.
Print Assumptions C54_m_option_becomes_operand_refuted.

(** A dash alone, which names the standard input elsewhere, makes the compiler
    read past the end of the argument. *)
Theorem C54_lone_dash_refuted : forall l rest, Forall well_formed l -> arguments_parse (command_line l ++ chars "-" :: rest) = Some Undef.
Proof. intros. rewrite parse_run, run_items by assumption. rewrite run_next. reflexivity. Qed.
Print Assumptions C54_lone_dash_refuted.

(** [-M] and switches with something joined to them are rejected. *)
Theorem C54_rejected : forall l rest, Forall well_formed l ->
  arguments_parse (command_line l ++ chars "-M" :: rest) = Some Fail /\
  (forall p s, s <> [] -> (forall t, plain_spelling p ++ s <> chars "-std" ++ t) -> arguments_parse (command_line l ++ (plain_spelling p ++ s) :: rest) = Some Fail).
Proof.
  intros l rest F. split; [rewrite parse_run, run_items by assumption; rewrite run_next; reflexivity|].
  intros p s N T. rewrite parse_run, run_items by assumption. rewrite run_next. destruct s as [|a t]; [congruence|].
  destruct p; try reflexivity. cbn [plain_spelling]. change (chars "-s") with [45; 115]. cbn - [run switch].
  change (switch 115) with (fun r => (set_s r, S_OPERAND, false, false)).
  destruct t as [|b t]; [reflexivity|]. destruct (Z.eqb_spec a 116) as [->|]; [|reflexivity]. destruct (Z.eqb_spec b 100) as [->|]; [|reflexivity].
  exfalso. apply (T t). reflexivity.
Qed.
Print Assumptions C54_rejected.

(** ** Concrete cases *)
Example ex_line : list item :=
  [Plain PCompile; Joined VDefine (chars "X=1"); Operand (chars "a.c"); Apart VInclude (chars "-odd-dir"); Warning (chars "all"); Standard (chars "=c11");
   Apart VOut (chars "x.o"); Joined VLevel (chars "2"); Plain PDeps; Joined VDepFile (chars "x.d"); Operand (chars "b.c"); Joined VOut (chars "y.o")].
Example ex_line_formed : Forall well_formed ex_line.
Proof. repeat (apply Forall_cons; [cbn; congruence || exact I|]). apply Forall_nil. Qed.
Example ex_line_parsed :
  match arguments_parse (command_line ex_line) with
  | Some (Ok r) => operands r = [chars "a.c"; chars "b.c"] /\ includes r = [chars "-odd-dir"] /\ defines r = [chars "X=1"] /\ outfile r = Some (chars "y.o") /\ flag_c r = true /\ flag_MD r = true /\ flag_g r = false
  | _ => False
  end.
Proof. vm_compute. repeat split; reflexivity. Qed.
Example ex_m64 : match arguments_parse [chars "-m64"; chars "a.c"] with Some (Ok r) => operands r = [chars "64"; chars "a.c"] | _ => False end.
Proof. vm_compute. reflexivity. Qed.
Example ex_mmd : match arguments_parse [chars "-c"; chars "-MMD"; chars "a.c"] with Some (Ok r) => operands r = [chars "D"; chars "a.c"] /\ flag_MD r = false | _ => False end.
Proof. vm_compute. split; reflexivity. Qed.
(** The level of optimisation is a value like others: [-O a.c] takes the file. *)
Example ex_O_takes_file : match arguments_parse [chars "-O"; chars "a.c"] with Some (Ok r) => operands r = [] | _ => False end.
Proof. vm_compute. reflexivity. Qed.
