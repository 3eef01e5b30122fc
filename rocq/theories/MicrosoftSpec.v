(** Specification: the x64 calling convention of Windows ("x64 calling
    convention" of the Microsoft documentation). *)
From Verif Require Import Base X86 Microsoft.

Local Open Scope Z_scope.
Local Open Scope list_scope.

(** Values of 1, 2, 4 and 8 bytes are passed and returned as they are, all others
    by reference. *)
Definition by_value (t : mtype) : Prop := m_size t = 1 \/ m_size t = 2 \/ m_size t = 4 \/ m_size t = 8.
(** The bytes that matter in the place of an argument. *)
Definition passed_bytes (t : mtype) (n : Z) : Prop :=
  (by_value t /\ n = m_size t) \/ (~ by_value t /\ n = 8).

(** The place of word number [k]: the first four go into registers by their
    number, floating ones into the vector register of that number, the others
    have slots above the 32 bytes kept for the first four. *)
Definition convention_place (k : nat) (floating : bool) : place :=
  match k with
  | 0%nat => if floating then Vec 0 else Gp RCX
  | 1%nat => if floating then Vec 1 else Gp RDX
  | 2%nat => if floating then Vec 2 else Gp R_8
  | 3%nat => if floating then Vec 3 else Gp R_9
  | _ => Slot (8 * Z.of_nat k)
  end.

(** A result that is not void and not passed by value is preceded by its address. *)
Definition has_result_address (ret : mtype) : Prop := m_void ret = false /\ ~ by_value ret.
Definition number_of (ret : mtype) (i k : nat) : Prop :=
  (has_result_address ret /\ k = S i) \/ (~ has_result_address ret /\ k = i).

(** A floating type: float or double (long double is 16 bytes and is passed by
    reference, in a general register). *)
Definition in_vector (t : mtype) (b : bool) : Prop :=
  (by_value t /\ b = m_float t) \/ (~ by_value t /\ b = false).

(** Where a result that is passed by value is. *)
Definition result_place (ret : mtype) : place := if m_float ret then Vec 0 else Gp RAX.
