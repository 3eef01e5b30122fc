(** Specification: what va_start and va_arg do for a program. *)
From Verif Require Import Base Bytes Common Arch X86 Codegen AsmSpec Frame FrameSpec SysV SysVSpec Passing PassingSpec VaArg.

(** Arguments which the ABI passes in general registers or in memory. *)
Definition integer_argument (t : atype) : Prop :=
  conforming t /\ exists p, abi_classes t p /\ match p with None => True | Some l => Forall (eq INTEGER) l end.

(** [serves F live V orig st l]: with the va_list at [V] and the machine in
    state [st], one va_arg after the other delivers the arguments [l], given
    by their types and by the addresses at which the state [orig] has them.
    Between two of them the program may do what it likes, in this function or
    in one that was given the va_list, as long as it leaves the va_list and
    the memory [live] alone. A va_arg changes the object it writes and the
    va_list only. *)
Fixpoint serves (F : fpu) (live : Z -> Prop) (V : Z) (orig st : machine) (l : list (atype * Z)) : Prop :=
  match l with
  | [] => True
  | (t, a) :: l =>
      forall st0 va p d,
        machine_ok st0 -> (forall x, live x \/ V <= x < V + 24 -> mem st0 x = mem st x) ->
        (** the va_list is at [V], the result goes to [d] *)
        holds_address st0 va V -> holds_address st0 p d -> d + a_size t <= 2 ^ 64 ->
        (forall x, d <= x < d + a_size t -> ~ live x /\ ~ V <= x < V + 24) ->
        (forall x, in_slot st0 p x -> ~ V <= x < V + 24) ->
        exists code st',
          emit_va_arg p va t = Ok code /\ run F code None st0 = Ok st' /\
          (forall j, 0 <= j < a_size t -> mem st' (d + j) = mem orig (a + j)) /\
          (forall x, ~ V <= x < V + 24 -> ~ d <= x < d + a_size t -> mem st' x = mem st0 x) /\
          gpr st' RBP = gpr st0 RBP /\ gpr st' RSP = gpr st0 RSP /\ machine_ok st' /\
          serves F live V orig st' l
  end.

(** The memory with the unnamed arguments, in a function with frame pointer
    [bp]: the saved registers and what the caller pushed. *)
Definition unnamed_memory (bp position sub x : Z) : Prop :=
  bp - position <= x < bp - position + 48 \/ bp + 16 <= x < bp + 16 + sub.
