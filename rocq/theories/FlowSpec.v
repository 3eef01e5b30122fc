(** Statements of C (6.8) and how they transfer control. Expressions are
    opaque: evaluating one changes the store, and may give a truth value or an
    integer. *)
From Verif Require Import Base.

(** Statements. An expression statement or a declaration is an [SDo_] of what
    it does; [SSkip] is the empty statement and the missing else. *)
Inductive stmt :=
| SSkip
| SDo_ (a : nat)
| SSeq (s t : stmt)
| SIf (c : nat) (s t : stmt)
| SWhile (c : nat) (s : stmt)
| SDoWhile (s : stmt) (c : nat)
| SFor (init cond adv : option nat) (s : stmt)
| SSwitch (e : nat) (s : stmt)
| SCase (k : Z) (s : stmt)
| SDefault (s : stmt)
| SLabel (l : nat) (s : stmt)
| SGoto (l : nat)
| SBreak
| SContinue
| SReturn (r : nat).

(** What is left to do after a statement. *)
Inductive cont :=
| Kstop
| Kseq (s : stmt) (k : cont)
| Kwhile (c : nat) (s : stmt) (k : cont)
| Kdo (s : stmt) (c : nat) (k : cont)
| Kfor (cond adv : option nat) (s : stmt) (k : cont)
| Kswitch (k : cont).

(** A place control can be sent to. *)
Inductive target := ToLabel (l : nat) | ToCase (k : Z) | ToDefault.
Definition is_label (t : target) : bool := match t with ToLabel _ => true | _ => false end.
Definition target_eqb (a b : target) : bool :=
  match a, b with
  | ToLabel x, ToLabel y => Nat.eqb x y
  | ToCase x, ToCase y => Z.eqb x y
  | ToDefault, ToDefault => true
  | _, _ => false
  end.

(** The statement with that label within [s], and what is left to do after it;
    the labels case and default of an inner switch do not count. *)
Fixpoint find (t : target) (s : stmt) (k : cont) : option (stmt * cont) :=
  match s with
  | SSeq a b => match find t a (Kseq b k) with Some x => Some x | None => find t b k end
  | SIf _ a b => match find t a k with Some x => Some x | None => find t b k end
  | SWhile c a => find t a (Kwhile c a k)
  | SDoWhile a c => find t a (Kdo a c k)
  | SFor _ c v a => find t a (Kfor c v a k)
  | SSwitch _ a => if is_label t then find t a (Kswitch k) else None
  | SCase v a => if target_eqb t (ToCase v) then Some (a, k) else find t a k
  | SDefault a => if target_eqb t ToDefault then Some (a, k) else find t a k
  | SLabel l a => if target_eqb t (ToLabel l) then Some (a, k) else find t a k
  | _ => None
  end.

Section Run.
Context {store : Type}.
Context (act : nat -> store -> store) (test : nat -> store -> store * bool) (sel : nat -> store -> store * Z).
(** The body of the function, and the return it makes at the closing brace, if
    it makes one: that of a void function, and of main. *)
Context (body : stmt) (implicit : option nat).

Inductive state :=
| Running (s : stmt) (k : cont) (m : store)
| Returned (r : nat) (m : store)
| Fell (m : store)
| Wrong.

Definition step (x : state) : state :=
  match x with
  | Running s k m =>
      match s with
      | SSkip =>
          match k with
          | Kstop => match implicit with Some r => Returned r m | None => Fell m end
          | Kseq s k => Running s k m
          | Kwhile c s k => Running (SWhile c s) k m
          | Kdo s c k => let '(m, b) := test c m in if b then Running (SDoWhile s c) k m else Running SSkip k m
          | Kfor c v s k => Running (SFor None c v s) k (match v with Some a => act a m | None => m end)
          | Kswitch k => Running SSkip k m
          end
      | SDo_ a => Running SSkip k (act a m)
      | SSeq a b => Running a (Kseq b k) m
      | SIf c a b => let '(m, v) := test c m in Running (if v then a else b) k m
      | SWhile c a => let '(m, v) := test c m in if v then Running a (Kwhile c a k) m else Running SSkip k m
      | SDoWhile a c => Running a (Kdo a c k) m
      | SFor (Some i) c v a => Running (SFor None c v a) k (act i m)
      | SFor None None v a => Running a (Kfor None v a k) m
      | SFor None (Some c) v a =>
          let '(m, b) := test c m in if b then Running a (Kfor (Some c) v a k) m else Running SSkip k m
      | SSwitch e a =>
          let '(m, v) := sel e m in
          match find (ToCase v) a (Kswitch k) with
          | Some (s', k') => Running s' k' m
          | None =>
              match find ToDefault a (Kswitch k) with
              | Some (s', k') => Running s' k' m
              | None => Running SSkip k m
              end
          end
      | SCase _ a | SDefault a | SLabel _ a => Running a k m
      | SGoto l =>
          match find (ToLabel l) body Kstop with
          | Some (s', k') => Running s' k' m
          | None => Wrong
          end
      | SBreak =>
          match k with
          | Kstop => Wrong
          | Kseq _ k => Running SBreak k m
          | Kwhile _ _ k | Kdo _ _ k | Kfor _ _ _ k | Kswitch k => Running SSkip k m
          end
      | SContinue =>
          match k with
          | Kstop => Wrong
          | Kseq _ k | Kswitch k => Running SContinue k m
          | Kwhile _ _ _ | Kdo _ _ _ | Kfor _ _ _ _ => Running SSkip k m
          end
      | SReturn r => Returned r m
      end
  | x => x
  end.

Fixpoint steps (n : nat) (x : state) : state := match n with O => x | S n => steps n (step x) end.
End Run.
Arguments state : clear implicits.

(** The labels case that belong to the switch around [s]; how many labels
    default do; the labels gotos of [s] name. *)
Fixpoint cases (s : stmt) : list Z :=
  match s with
  | SSeq a b | SIf _ a b => cases a ++ cases b
  | SWhile _ a | SDoWhile a _ | SFor _ _ _ a | SDefault a | SLabel _ a => cases a
  | SCase k a => k :: cases a
  | _ => []
  end.
Fixpoint defaults (s : stmt) : nat :=
  match s with
  | SSeq a b | SIf _ a b => defaults a + defaults b
  | SWhile _ a | SDoWhile a _ | SFor _ _ _ a | SCase _ a | SLabel _ a => defaults a
  | SDefault a => S (defaults a)
  | _ => O
  end.
Fixpoint gotos (s : stmt) : list nat :=
  match s with
  | SSeq a b | SIf _ a b => gotos a ++ gotos b
  | SWhile _ a | SDoWhile a _ | SFor _ _ _ a | SSwitch _ a | SCase _ a | SDefault a | SLabel _ a => gotos a
  | SGoto l => [l]
  | _ => []
  end.

(** Constraints of C on the labels of a switch (6.8.4.2): the cases differ and
    there is one default at most. [no_duff]: no case or default is inside a
    loop that is inside its switch. *)
Fixpoint distinct_cases (s : stmt) : Prop :=
  match s with
  | SSeq a b | SIf _ a b => distinct_cases a /\ distinct_cases b
  | SWhile _ a | SDoWhile a _ | SFor _ _ _ a | SCase _ a | SDefault a | SLabel _ a => distinct_cases a
  | SSwitch _ a => NoDup (cases a) /\ (defaults a <= 1)%nat /\ distinct_cases a
  | _ => True
  end.
Fixpoint no_duff (s : stmt) : Prop :=
  match s with
  | SSeq a b | SIf _ a b => no_duff a /\ no_duff b
  | SWhile _ a | SDoWhile a _ | SFor _ _ _ a => cases a = [] /\ defaults a = O /\ no_duff a
  | SSwitch _ a | SCase _ a | SDefault a | SLabel _ a => no_duff a
  | _ => True
  end.
(** Every goto names a label of the function (6.8.6.1). *)
Definition gotos_defined (body : stmt) : Prop :=
  forall l, In l (gotos body) -> find (ToLabel l) body Kstop <> None.

(** Whether [s] has a continue that belongs to the loop around [s]; whether it
    has one inside a switch. *)
Fixpoint has_continue (s : stmt) : bool :=
  match s with
  | SSeq a b | SIf _ a b => has_continue a || has_continue b
  | SSwitch _ a | SCase _ a | SDefault a | SLabel _ a => has_continue a
  | SContinue => true
  | _ => false
  end.
Fixpoint continue_in_switch (s : stmt) : bool :=
  match s with
  | SSeq a b | SIf _ a b => continue_in_switch a || continue_in_switch b
  | SSwitch _ a => has_continue a
  | SCase _ a | SDefault a | SLabel _ a => continue_in_switch a
  | _ => false
  end.
(** Some while loop of [s] has one. *)
Fixpoint while_with_one (s : stmt) : bool :=
  match s with
  | SSeq a b | SIf _ a b => while_with_one a || while_with_one b
  | SWhile _ a => continue_in_switch a || while_with_one a
  | SDoWhile a _ | SFor _ _ _ a | SSwitch _ a | SCase _ a | SDefault a | SLabel _ a => while_with_one a
  | _ => false
  end.

(** Constraints of C on where statements stand: [brk], [cnt] and [sw] say
    whether a break, a continue, a case or default has a place to belong to. *)
Fixpoint placed (brk cnt sw : bool) (s : stmt) : Prop :=
  match s with
  | SSeq a b | SIf _ a b => placed brk cnt sw a /\ placed brk cnt sw b
  | SWhile _ a | SDoWhile a _ | SFor _ _ _ a => placed true true sw a
  | SSwitch _ a => placed true cnt true a
  | SCase _ a | SDefault a => sw = true /\ placed brk cnt sw a
  | SLabel _ a => placed brk cnt sw a
  | SBreak => brk = true
  | SContinue => cnt = true
  | _ => True
  end.
(** The labels [s] defines: a function defines none twice (6.8.1). *)
Fixpoint labels_of (s : stmt) : list nat :=
  match s with
  | SSeq a b | SIf _ a b => labels_of a ++ labels_of b
  | SWhile _ a | SDoWhile a _ | SFor _ _ _ a | SSwitch _ a | SCase _ a | SDefault a => labels_of a
  | SLabel l a => l :: labels_of a
  | _ => []
  end.
(** No continue is inside a switch inside its loop. *)
Fixpoint no_switched_continue (s : stmt) : Prop :=
  match s with
  | SSeq a b | SIf _ a b => no_switched_continue a /\ no_switched_continue b
  | SWhile _ a | SDoWhile a _ | SFor _ _ _ a => continue_in_switch a = false /\ no_switched_continue a
  | SSwitch _ a | SCase _ a | SDefault a | SLabel _ a => no_switched_continue a
  | _ => True
  end.
