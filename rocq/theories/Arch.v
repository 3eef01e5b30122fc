(** Simple types and their machine properties: src/types.h, src/arch/x64.c,
    src/abi/sysv.c, src/abi/microsoft.c. *)
From Verif Require Import Base.

(** src/types.h:43-66 (enum simple_type). *)
Inductive simple_type :=
| ST_VOID | ST_CHAR | ST_SCHAR | ST_UCHAR | ST_SHORT | ST_USHORT | ST_INT | ST_UINT
| ST_LONG | ST_ULONG | ST_LLONG | ST_ULLONG | ST_FLOAT | ST_DOUBLE | ST_LDOUBLE | ST_BOOL
| ST_FLOAT_COMPLEX | ST_DOUBLE_COMPLEX | ST_LDOUBLE_COMPLEX.

Definition st_index (t : simple_type) : Z :=
  match t with
  | ST_VOID => 0 | ST_CHAR => 1 | ST_SCHAR => 2 | ST_UCHAR => 3 | ST_SHORT => 4 | ST_USHORT => 5
  | ST_INT => 6 | ST_UINT => 7 | ST_LONG => 8 | ST_ULONG => 9 | ST_LLONG => 10 | ST_ULLONG => 11
  | ST_FLOAT => 12 | ST_DOUBLE => 13 | ST_LDOUBLE => 14 | ST_BOOL => 15
  | ST_FLOAT_COMPLEX => 16 | ST_DOUBLE_COMPLEX => 17 | ST_LDOUBLE_COMPLEX => 18
  end.
Definition st_eqb (a b : simple_type) : bool := st_index a =? st_index b.
Lemma st_eqb_spec a b : Bool.reflect (a = b) (st_eqb a b).
Proof. destruct a, b; cbn; constructor; congruence. Qed.

(** The two application binary interfaces of src/abi. *)
Inductive abi := SYSV | MICROSOFT.

(** src/abi/sysv.c:508-523 (sysv_sizeof_simple) and
    src/abi/microsoft.c:246-261 (ms_sizeof_simple). Types absent from the
    tables (complex ones) have the zero entry. *)
Definition sizeof_simple (m : abi) (t : simple_type) : Z :=
  match t with
  | ST_BOOL | ST_CHAR | ST_SCHAR | ST_UCHAR => 1
  | ST_SHORT | ST_USHORT => 2
  | ST_INT | ST_UINT => 4
  | ST_LONG | ST_ULONG => match m with SYSV => 8 | MICROSOFT => 4 end
  | ST_LLONG | ST_ULLONG => 8
  | ST_FLOAT => 4
  | ST_DOUBLE => 8
  | ST_LDOUBLE => 16
  | ST_VOID => 0
  | ST_FLOAT_COMPLEX | ST_DOUBLE_COMPLEX | ST_LDOUBLE_COMPLEX => 0
  end.

(** src/arch/x64.c:16-39 (is_signed); IS_CHAR_SIGNED is 1 (x64.h:40). *)
Definition is_signed (t : simple_type) : res bool :=
  match t with
  | ST_CHAR | ST_INT | ST_SCHAR | ST_SHORT | ST_LONG | ST_LLONG => Ok true
  | ST_UINT | ST_UCHAR | ST_USHORT | ST_ULONG | ST_ULLONG | ST_BOOL => Ok false
  | _ => Fail
  end.

(** src/arch/x64.c:41-59 (get_range); [bitfield] is -1 for no bit-field. *)
Definition get_range (m : abi) (t : simple_type) (bitfield : Z) : res (Z * Z) :=
  let n_bits := if bitfield =? -1 then sizeof_simple m t * 8 else bitfield in
  let* s := is_signed t in
  Ok (if s then (n_bits - 1, n_bits - 1) else (-1, n_bits)).

(** Value of the range maximum as constant_uint; a shift count that is negative
    or at least 64 is undefined. src/arch/x64.c:61-65 (get_type_max) and the
    same expression at 486-487 and 513-514. *)
Definition range_max_of (rmax : Z) : res Z :=
  if rmax =? -1 then Ok 0
  else if (rmax - 1 <? 0) || (64 <=? rmax - 1) then Undef
  else Ok (wrap 64 (wrap 64 (wrap 64 (Z.shiftl 1 (rmax - 1)) - 1) + wrap 64 (Z.shiftl 1 (rmax - 1)))).
Definition range_min_of (rmin : Z) : res Z :=
  if rmin =? -1 then Ok 0
  else if (rmin <? 0) || (64 <=? rmin) then Undef
  else Ok (wrap 64 (Z.shiftl 1 rmin)).
Definition get_type_max (m : abi) (t : simple_type) : res Z :=
  let* r := get_range m t (-1) in range_max_of (snd r).

(** src/arch/x64.c:67-74 (is_contained_in). *)
Definition is_contained_in (m : abi) (large : simple_type) (large_bitfield : Z)
  (small : simple_type) (small_bitfield : Z) : res bool :=
  let* lr := get_range m large large_bitfield in
  let* sr := get_range m small small_bitfield in
  Ok ((fst sr <=? fst lr) && (snd sr <=? snd lr)).

(** src/arch/x64.c:77-91 (to_unsigned). *)
Definition to_unsigned (t : simple_type) : simple_type :=
  match t with
  | ST_CHAR | ST_SCHAR => ST_UCHAR
  | ST_INT => ST_UINT
  | ST_LONG => ST_ULONG
  | ST_LLONG => ST_ULLONG
  | _ => t
  end.

(** src/arch/x64.c:107-127 (type_rank). *)
Definition type_rank (t : simple_type) : res Z :=
  match t with
  | ST_UCHAR | ST_CHAR | ST_SCHAR => Ok 1
  | ST_SHORT | ST_USHORT => Ok 2
  | ST_INT | ST_UINT => Ok 3
  | ST_LONG | ST_ULONG => Ok 4
  | ST_LLONG | ST_ULLONG => Ok 5
  | _ => Fail
  end.

(** src/types.c:230-259 (type_is_integer) and 261-290 (type_is_floating),
    restricted to simple types. *)
Definition st_is_integer (t : simple_type) : bool :=
  match t with
  | ST_VOID | ST_FLOAT | ST_DOUBLE | ST_LDOUBLE
  | ST_FLOAT_COMPLEX | ST_DOUBLE_COMPLEX | ST_LDOUBLE_COMPLEX => false
  | _ => true
  end.
