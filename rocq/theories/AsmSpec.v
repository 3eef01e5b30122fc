(** Specification: what it means for a stack slot to hold a value, and for a
    piece of code to change nothing else. *)
From Verif Require Import Base Bytes X86 Codegen.

(** A slot is the [s_size] bytes from [s_loc] below the frame pointer. *)
Definition slot_address (s : machine) (sc : slot) : Z := gpr s RBP - s_loc sc.
Definition slot_bits (s : machine) (sc : slot) : Z :=
  load (mem s) (slot_address s sc) (Z.to_nat (s_size sc)).
Definition in_memory (s : machine) (sc : slot) : Prop :=
  0 <= slot_address s sc /\ slot_address s sc + s_size sc <= 2 ^ 64.

(** The slot holds the integer [v], reduced to the bits of the slot. *)
Definition holds_value (s : machine) (sc : slot) (v : Z) : Prop :=
  slot_bits s sc = v mod 2 ^ (8 * s_size sc).

(** Memory outside [lo, lo + n) is as before. *)
Definition only_changes (s s' : machine) (lo n : Z) : Prop :=
  forall x, ~ lo <= x < lo + n -> mem s' x = mem s x.
(** The frame and stack pointers are as before. *)
Definition keeps_frame (s s' : machine) : Prop :=
  gpr s' RBP = gpr s RBP /\ gpr s' RSP = gpr s RSP.
