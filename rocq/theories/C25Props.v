(** C25: looking up a name yields the innermost visible declaration, leaving a block
    restores the outer view exactly, and a second declaration of the same name in the same
    block is refused. *)
From Coq Require Import String.
From Verif Require Import Base CharTypes Types MacroTable MacroTableProofs Symbols SymbolsSpec SymbolsProofs ScopeProofs.
Local Open Scope Z_scope.
Local Open Scope list_scope.

(** Every history of calls gives what a stack of scopes gives, or is refused where the
    stack refuses: however deep the nesting and whatever names share a bucket. *)
Theorem C25_scoping l : balanced 0 l -> symbols_run symbols_init l = match meanings [[]] l with Some os => Ok os | None => Fail end.
Proof. intros B. exact (run_follows l symbols_init [[]] init_rep B). Qed.
Print Assumptions C25_scoping.

(** A block whose calls enter and leave as often, and define no function. *)
Fixpoint block_body (n : nat) (l : list call) : Prop :=
  match l with
  | [] => n = O
  | Enter :: r => block_body (S n) r
  | Leave :: r => match n with O => False | S m => block_body m r end
  | DefineFunction _ _ :: _ => False
  | _ :: r => block_body n r
  end.
Fixpoint after (ss : scopes) (l : list call) : option scopes :=
  match l with [] => Some ss | c :: r => match meaning ss c with None => None | Some (ss', _) => after ss' r end end.
Lemma meanings_app l m : forall ss, meanings ss (l ++ m) = match after ss l with
  | None => None
  | Some ss' => match meanings ss l, meanings ss' m with Some a, Some b => Some (a ++ b) | _, _ => None end
  end.
Proof.
  induction l as [|c l IH]; intros ss; cbn [app meanings after]; [destruct (meanings ss m); reflexivity|].
  destruct (meaning ss c) as [(ss' & o)|]; auto. rewrite IH. destruct (after ss' l) as [s2|]; auto.
  destruct (meanings ss' l); auto. destruct (meanings s2 m); reflexivity.
Qed.
Lemma after_meanings l : forall ss, after ss l = None <-> meanings ss l = None.
Proof.
  induction l as [|c l IH]; intros ss; cbn [meanings after]; [split; discriminate|].
  destruct (meaning ss c) as [(ss' & o)|]; [|tauto]. rewrite IH. destruct (meanings ss' l); split; congruence.
Qed.
Lemma body_after l : forall n scs ss r, block_body n l -> List.length scs = S n -> after (scs ++ ss) l = Some r -> exists sc, r = sc :: ss.
Proof.
  induction l as [|c l IH]; intros n scs ss r B Ls A; cbn [block_body after] in *.
  - injection A as <-. subst n. destruct scs as [|sc [|? ?]]; try discriminate. now exists sc.
  - destruct scs as [|sc scs]; [discriminate|]. cbn [app] in A. injection Ls as Ls.
    destruct c as [| |nm d|nm d|nm d|nm d|k nm|k nm|nm]; cbn [meaning tl] in A; try contradiction.
    + apply (IH (S n) ([] :: sc :: scs) ss r B); auto. cbn. lia.
    + destruct n as [|n]; [contradiction|]. apply (IH n scs ss r B); auto.
    + destruct nm as [|x nm]; [apply (IH n (sc :: scs) ss r B); cbn; auto|].
      destruct (declared (ENTRY_IDENTIFIER, x :: nm) sc); [discriminate|].
      refine (IH n ((_ :: sc) :: scs) ss r B _ A). cbn; auto.
    + destruct (declared (ENTRY_STRUCT, nm) sc); [discriminate|]. refine (IH n ((_ :: sc) :: scs) ss r B _ A). cbn; auto.
    + destruct (declared (ENTRY_TYPEDEF, nm) sc); [refine (IH n (redeclare _ d sc :: scs) ss r B _ A)|refine (IH n ((_ :: sc) :: scs) ss r B _ A)]; cbn; auto.
    + apply (IH n (sc :: scs) ss r B); cbn; auto.
    + apply (IH n (sc :: scs) ss r B); cbn; auto.
    + apply (IH n (sc :: scs) ss r B); cbn; auto.
Qed.
Lemma body_balanced l m : forall n k, block_body n l -> balanced k m -> balanced (n + S k) (l ++ Leave :: m).
Proof.
  induction l as [|c l IH]; intros n k B M; cbn [app block_body balanced] in *.
  - subst n. exact M.
  - destruct c; cbn [balanced] in *; try contradiction; try (apply (IH n k B M)).
    + apply (IH (S n) k B M).
    + destruct n as [|n]; [contradiction|]. apply (IH n k B M).
Qed.
Fixpoint depth (n : nat) (l : list call) : nat :=
  match l with [] => n | Enter :: r => depth (S n) r | Leave :: r => depth (pred n) r | _ :: r => depth n r end.
Lemma balanced_app_iff l m : forall n, balanced n (l ++ m) <-> balanced n l /\ balanced (depth n l) m.
Proof.
  induction l as [|c l IH]; intros n; cbn [app depth]; [cbn; tauto|]. destruct c; cbn [balanced]; auto. destruct n; cbn; [tauto|apply IH].
Qed.
(** A lookup after a block gives what it gave before the block. *)
Theorem C25_leaving_restores h b k n out : balanced 0 h -> block_body 0 b ->
  symbols_run symbols_init (h ++ Enter :: b ++ [Leave; Get k n]) = Ok out ->
  exists out', symbols_run symbols_init (h ++ [Get k n]) = Ok out' /\ last out None = last out' None.
Proof.
  intros H B. rewrite !C25_scoping.
  - rewrite !meanings_app. destruct (after [[]] h) as [ss|] eqn:A; [|discriminate].
    destruct (meanings [[]] h) as [oh|]; [|discriminate]. cbn [meanings meaning]. rewrite meanings_app.
    destruct (after ([] :: ss) b) as [ss'|] eqn:Ab; [|discriminate].
    destruct (body_after b 0 [[]] ss ss' B eq_refl Ab) as [sc ->]. destruct (meanings ([] :: ss) b) as [ob|]; [|discriminate].
    cbn [meanings meaning tl]. intros E. injection E as <-. eexists. split; [reflexivity|].
    rewrite !app_comm_cons, app_assoc. rewrite !(last_last _ (visible (k, n) ss)) by idtac.
    change [None; visible (k, n) ss] with ([None] ++ [visible (k, n) ss]). rewrite app_assoc. now rewrite last_last.
  - apply balanced_app_iff. cbn. auto.
  - apply balanced_app_iff. split; auto. cbn [balanced]. apply (body_balanced b [Get k n] 0 (depth 0 h)); cbn; auto.
Qed.
Print Assumptions C25_leaving_restores.

(** A second declaration of a name in the block that already declares it is refused:
    between the two, any closed blocks and lookups may stand. *)
Theorem C25_redeclaration_refused h b x nm d d' : balanced 0 h -> block_body 0 b ->
  symbols_run symbols_init (h ++ AddIdentifier (x :: nm) d :: Enter :: b ++ [Leave; AddIdentifier (x :: nm) d']) = Fail.
Proof.
  intros H B. rewrite C25_scoping.
  - rewrite meanings_app. destruct (after [[]] h) as [ss|] eqn:A; [|reflexivity]. destruct (meanings [[]] h) as [oh|]; [|reflexivity].
    cbn [meanings meaning]. destruct ss as [|sc ss]; [reflexivity|]. destruct (declared (ENTRY_IDENTIFIER, x :: nm) sc) eqn:D; [reflexivity|].
    cbn [meaning]. rewrite meanings_app. destruct (after _ b) as [ss'|] eqn:Ab; [|reflexivity].
    destruct (body_after b 0 [[]] _ ss' B eq_refl Ab) as [sc' ->]. destruct (meanings _ b) as [ob|]; [|reflexivity].
    cbn [meanings meaning tl declared]. destruct (id_dec (ENTRY_IDENTIFIER, x :: nm) (ENTRY_IDENTIFIER, x :: nm)); [reflexivity|congruence].
  - apply balanced_app_iff. split; auto. cbn [balanced]. apply (body_balanced b _ 0 (depth 0 h)); cbn; auto.
Qed.
Print Assumptions C25_redeclaration_refused.

(** Two names in one bucket, shadowed and restored. *)
Definition demo : list call :=
  [AddIdentifier (chars "x") 1; Enter; AddIdentifier (chars "x") 2; AddStruct (chars "x") 3; Enter; DefineFunction (chars "f") 4;
   Get ENTRY_IDENTIFIER (chars "x"); Get ENTRY_STRUCT (chars "x"); Get ENTRY_IDENTIFIER (chars "f"); Leave; Leave;
   Get ENTRY_IDENTIFIER (chars "x"); Get ENTRY_STRUCT (chars "x"); GetGlobal (chars "f"); GetHere ENTRY_IDENTIFIER (chars "f")].
Example demo_balanced : balanced 0 demo. Proof. cbn. auto. Qed.
Example demo_run : symbols_run symbols_init demo =
  Ok [None; None; None; None; None; None; Some 2; Some 3; Some 4; None; None; Some 1; None; Some 4; Some 4].
Proof. rewrite C25_scoping by exact demo_balanced. reflexivity. Qed.
Example demo_body : block_body 0 [AddIdentifier (chars "x") 2; Enter; AddTypedef (chars "t") 5; Leave]. Proof. reflexivity. Qed.

(** Typedef names and variables share one name space in C (C11 6.2.3), so an inner
    variable hides an outer typedef name. Here it does not. *)
Definition c_ordinary (ss : scopes) (n : list Z) : option entry_id :=
  (fix go ss := match ss with
                | [] => None
                | sc :: r => match declared (ENTRY_TYPEDEF, n) sc, declared (ENTRY_IDENTIFIER, n) sc with
                             | Some _, _ => Some (ENTRY_TYPEDEF, n)
                             | _, Some _ => Some (ENTRY_IDENTIFIER, n)
                             | _, _ => go r
                             end
                end) ss.
Theorem C25_typedef_hiding_refuted : exists l n, balanced 0 l /\
  (exists ss, after [[]] l = Some ss /\ c_ordinary ss n = Some (ENTRY_IDENTIFIER, n)) /\
  exists o d, symbols_run symbols_init (l ++ [Get ENTRY_TYPEDEF n]) = Ok (o ++ [Some d]).
Proof.
  exists [AddTypedef (chars "T") 1; Enter; AddIdentifier (chars "T") 2], (chars "T"). split; [cbn; auto|]. split; [eexists; split; reflexivity|].
  exists [None; None; None], 1. rewrite C25_scoping by (cbn; auto). reflexivity.
Qed.
Print Assumptions C25_typedef_hiding_refuted.
