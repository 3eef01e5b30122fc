(** Specification: C11 6.3.1.1 (ranks, promotions) and 6.3.1.8 (usual
    arithmetic conversions). *)
From Verif Require Import Base Arch CTypesSpec.

Definition arithmetic_type (t : simple_type) : Prop :=
  integer_type t \/ In t [ST_FLOAT; ST_DOUBLE; ST_LDOUBLE].

(** 6.3.1.1p1 *)
Definition rank (t : simple_type) : Z :=
  match t with
  | ST_BOOL => 0
  | ST_CHAR | ST_SCHAR | ST_UCHAR => 1
  | ST_SHORT | ST_USHORT => 2
  | ST_INT | ST_UINT => 3
  | ST_LONG | ST_ULONG => 4
  | ST_LLONG | ST_ULLONG => 5
  | _ => -1
  end.
Definition can_represent (m : abi) (t u : simple_type) : bool :=
  (spec_min m t <=? spec_min m u) && (spec_max m u <=? spec_max m t).

(** 6.3.1.1p2: an object of an integer type whose rank is at most int's is
    converted to int if int can represent all its values, else to unsigned int;
    all other types are unchanged. *)
Definition spec_promote (m : abi) (t : simple_type) : simple_type :=
  if (0 <=? rank t) && (rank t <=? rank ST_INT)
  then if can_represent m ST_INT t then ST_INT else ST_UINT
  else t.

Definition unsigned_of (t : simple_type) : simple_type :=
  match t with
  | ST_CHAR | ST_SCHAR => ST_UCHAR | ST_SHORT => ST_USHORT
  | ST_INT => ST_UINT | ST_LONG => ST_ULONG | ST_LLONG => ST_ULLONG | _ => t
  end.

(** 6.3.1.8p1 *)
Definition spec_common (m : abi) (a b : simple_type) : simple_type :=
  if st_eqb a ST_LDOUBLE || st_eqb b ST_LDOUBLE then ST_LDOUBLE
  else if st_eqb a ST_DOUBLE || st_eqb b ST_DOUBLE then ST_DOUBLE
  else if st_eqb a ST_FLOAT || st_eqb b ST_FLOAT then ST_FLOAT
  else
    let a := spec_promote m a in
    let b := spec_promote m b in
    if st_eqb a b then a
    else if Bool.eqb (spec_signed a) (spec_signed b) then (if rank a <? rank b then b else a)
    else
      let u := if spec_signed a then b else a in  (* the unsigned one *)
      let s := if spec_signed a then a else b in  (* the signed one *)
      if rank s <=? rank u then u
      else if can_represent m s u then s
      else unsigned_of s.
