(** Specification: the parts of a frame and the memory each one is given. *)
From Verif Require X86.
From Verif Require Import Base Frame.

(** What may own memory in a frame: the value of the i-th instruction, the
    saved stack pointer of the j-th variable length array, the object of the
    i-th instruction, the register save area, and the caller's frame. *)
Inductive owner := Slot (i : nat) | VlaSlot (j : nat) | Object (i : nat) | SaveArea | SavedFrame.

(** [region l preamble fr o loc n]: [o] exists, needs [n] bytes and has been
    given those from [loc] below the frame pointer upwards. *)
Definition region (l : list frame_ins) (preamble : Z) (fr : frame) (o : owner) (loc n : Z) : Prop :=
  match o with
  | Slot i => exists r, nth_error l i = Some r /\ f_size r <> 0 /\ n = f_size r /\
                nth_error (fr_slots fr) i = Some (Some loc)
  | VlaSlot j => (j < length (filter f_vla l))%nat /\ loc = fr_vla_offset fr - 8 * Z.of_nat j /\ n = 8
  | Object i => exists r a, nth_error l i = Some r /\ f_alloc r = Some (n, a) /\
                nth_error (fr_objects fr) i = Some (Some loc)
  | SaveArea => preamble <> 0 /\ n = preamble /\ fr_preamble fr = Some loc
  | SavedFrame => fr_save fr = Some loc /\ n = 8
  end.

(** [loc] below the frame pointer, [n] bytes upwards. *)
Definition disjoint (loc1 n1 loc2 n2 : Z) : Prop := - loc1 + n1 <= - loc2 \/ - loc2 + n2 <= - loc1.

(** Requests that can occur: sizes are not negative, an alignment is zero (no
    request) or a power of two. *)
Definition request_ok (r : frame_ins) : Prop :=
  0 <= f_size r /\
  match f_alloc r with
  | Some (size, a) => 0 <= size /\ (a = 0 \/ exists k, 0 <= k <= 30 /\ a = 2 ^ k)
  | None => True
  end.

(** An upper bound of the bytes requested, with padding. *)
Definition request_bytes (r : frame_ins) : Z :=
  f_size r + (if f_vla r then 8 else 0) + match f_alloc r with Some (size, a) => size + a | None => 0 end.
Definition demand (l : list frame_ins) (preamble : Z) : Z :=
  fold_right (fun r n => request_bytes r + n) 0 l + preamble + 24.

(** A function has been entered: the caller's call instruction left the stack
    pointer eight below a multiple of 16, and there is room for the frame. *)
Definition just_called (s : X86.machine) (fr : frame) : Prop :=
  X86.machine_ok s /\ X86.gpr s X86.RSP mod 16 = 8 /\
  fr_sub fr + fr_align fr + 16 <= X86.gpr s X86.RSP.
