(** Specification: the integer types of C11 under the LP64 (System V) and LLP64
    (Microsoft) data models, and the values they hold. *)
From Verif Require Import Base Arch.

Definition spec_width (m : abi) (t : simple_type) : Z :=
  match t with
  | ST_BOOL => 1
  | ST_CHAR | ST_SCHAR | ST_UCHAR => 8
  | ST_SHORT | ST_USHORT => 16
  | ST_INT | ST_UINT => 32
  | ST_LONG | ST_ULONG => match m with SYSV => 64 | MICROSOFT => 32 end
  | ST_LLONG | ST_ULLONG => 64
  | _ => 0
  end.
Definition spec_signed (t : simple_type) : bool :=
  match t with
  | ST_CHAR | ST_SCHAR | ST_SHORT | ST_INT | ST_LONG | ST_LLONG => true
  | _ => false
  end.
Definition integer_type (t : simple_type) : Prop :=
  In t [ST_BOOL; ST_CHAR; ST_SCHAR; ST_UCHAR; ST_SHORT; ST_USHORT; ST_INT; ST_UINT;
        ST_LONG; ST_ULONG; ST_LLONG; ST_ULLONG].
Definition spec_min (m : abi) (t : simple_type) : Z :=
  if spec_signed t then - 2 ^ (spec_width m t - 1) else 0.
Definition spec_max (m : abi) (t : simple_type) : Z :=
  if spec_signed t then 2 ^ (spec_width m t - 1) - 1 else 2 ^ spec_width m t - 1.
Definition representable (m : abi) (t : simple_type) (v : Z) : Prop :=
  spec_min m t <= v <= spec_max m t.
