(** The machine's view of an expression over variables: where the variables
    and the slots lie, and what memory holds. *)
From Verif Require Import Base Bytes Arch CTypesSpec X86 Codegen AsmSpec C33Props.

Record world := {
  w_type : nat -> simple_type;     (* type of each variable *)
  w_ptr : nat -> slot;             (* the slot that holds its address *)
  w_addr : nat -> Z;               (* that address *)
  w_used : nat -> Prop;            (* the variables in question *)
  w_rbp : Z                        (* the frame pointer *)
}.

(** Areas of memory: first address and length. *)
Definition in_space (a : Z * Z) : Prop := 0 <= fst a /\ fst a + snd a <= 2 ^ 64.
Definition clear (a b : Z * Z) : Prop := fst a + snd a <= fst b \/ fst b + snd b <= fst a.
Definition slot_area (W : world) (sl : slot) : Z * Z := (w_rbp W - s_loc sl, s_size sl).
Definition var_area (W : world) (x : nat) : Z * Z := (w_addr W x, object_bytes SYSV (w_type W x)).

(** Variables are objects apart from each other and from the slots that hold
    their addresses. *)
Definition world_ok (W : world) : Prop :=
  (forall x, w_used W x -> integer_type (w_type W x) /\ s_size (w_ptr W x) = 8 /\
     in_space (slot_area W (w_ptr W x)) /\ in_space (var_area W x)) /\
  (forall x y, w_used W x -> w_used W y ->
     clear (var_area W x) (slot_area W (w_ptr W y)) /\ (x <> y -> clear (var_area W x) (var_area W y))).

(** Slots for nodes: apart from the variables and from each other, as the frame
    layout makes them (see C36). *)
Fixpoint separate (W : world) (l : list slot) : Prop :=
  match l with
  | [] => True
  | a :: l => (forall b, In b l -> clear (slot_area W a) (slot_area W b)) /\ separate W l
  end.
Definition slots_ok (W : world) (l : list slot) : Prop :=
  separate W l /\
  forall a, In a l -> in_space (slot_area W a) /\
    forall x, w_used W x -> clear (slot_area W a) (var_area W x) /\ clear (slot_area W a) (slot_area W (w_ptr W x)).

(** Memory holds the values [st] of the variables. *)
Definition represents (W : world) (st : nat -> Z) (s : machine) : Prop :=
  machine_ok s /\ gpr s RBP = w_rbp W /\
  forall x, w_used W x ->
    slot_bits s (w_ptr W x) = w_addr W x /\
    load (mem s) (w_addr W x) (Z.to_nat (object_bytes SYSV (w_type W x)))
      = st x mod 2 ^ (8 * object_bytes SYSV (w_type W x)) /\
    representable SYSV (w_type W x) (st x).

(** Nothing changes but the slots [l] and the variables. *)
Definition quiet (W : world) (l : list slot) (s s' : machine) : Prop :=
  gpr s' RBP = gpr s RBP /\ gpr s' RSP = gpr s RSP /\
  forall a, (forall sl, In sl l -> ~ fst (slot_area W sl) <= a < fst (slot_area W sl) + snd (slot_area W sl)) ->
    (forall x, w_used W x -> ~ fst (var_area W x) <= a < fst (var_area W x) + snd (var_area W x)) ->
    mem s' a = mem s a.
