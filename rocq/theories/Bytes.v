(** Model of the little-endian accessors of src/common.c. *)
From Verif Require Import Base.

(** src/common.c:103-105 (write_8). [data + pos] is the destination. *)
Definition write_8 (buf : list Z) (pos : nat) (value : Z) : res (list Z) :=
  put buf pos value.

(** src/common.c:107-110 (write_16): byte 0 then byte 1. *)
Definition write_16 (buf : list Z) (pos : nat) (value : Z) : res (list Z) :=
  let* buf := put buf pos value in
  put buf (pos + 1) (Z.shiftr value 8).

(** src/common.c:112-115 (write_32): two 16-bit halves. *)
Definition write_32 (buf : list Z) (pos : nat) (value : Z) : res (list Z) :=
  let* buf := write_16 buf pos value in
  write_16 buf (pos + 2) (Z.shiftr value 16).

(** src/common.c:117-120 (write_64): two 32-bit halves. *)
Definition write_64 (buf : list Z) (pos : nat) (value : Z) : res (list Z) :=
  let* buf := write_32 buf pos value in
  write_32 buf (pos + 4) (Z.shiftr value 32).

(** src/common.c:122-124 (read_8). *)
Definition read_8 (buf : list Z) (pos : nat) : res Z := get buf pos.

(** src/common.c:126-128 (read_16). [|] is modelled by [Z.lor]; the shift of
    a byte by 8 cannot overflow the C int it is promoted to; the result is
    converted to uint16_t. *)
Definition read_16 (buf : list Z) (pos : nat) : res Z :=
  let* a := read_8 buf pos in
  let* b := read_8 buf (pos + 1) in
  Ok (wrap 16 (Z.lor a (Z.shiftl b 8))).

(** src/common.c:130-132 (read_32). *)
Definition read_32 (buf : list Z) (pos : nat) : res Z :=
  let* a := read_16 buf pos in
  let* b := read_16 buf (pos + 2) in
  Ok (wrap 32 (Z.lor a (wrap 32 (Z.shiftl b 16)))).

(** src/common.c:134-136 (read_64). *)
Definition read_64 (buf : list Z) (pos : nat) : res Z :=
  let* a := read_32 buf pos in
  let* b := read_32 buf (pos + 4) in
  Ok (wrap 64 (Z.lor a (wrap 64 (Z.shiftl b 32)))).

(** src/common.c:146-163 (file_write_byte/word/long/quad): the file is the
    list of bytes written so far; a write appends. *)
Definition file_write_byte (f : list Z) (b : Z) : list Z := f ++ [b mod 256].
Definition file_write_word (f : list Z) (w : Z) : list Z :=
  let w := wrap 16 w in
  file_write_byte (file_write_byte f w) (Z.shiftr w 8).
Definition file_write_long (f : list Z) (l : Z) : list Z :=
  let l := wrap 32 l in
  file_write_word (file_write_word f l) (Z.shiftr l 16).
Definition file_write_quad (f : list Z) (q : Z) : list Z :=
  let q := wrap 64 q in
  file_write_long (file_write_long f q) (Z.shiftr q 32).

(** src/common.c:165-168 (file_write_zero). *)
Fixpoint file_write_zero (f : list Z) (n : nat) : list Z :=
  match n with O => f | S k => file_write_zero (file_write_byte f 0) k end.

(** src/common.c:170-174 (file_write_skip): asserts target >= position. *)
Definition file_write_skip (f : list Z) (target : nat) : res (list Z) :=
  if (length f <=? target)%nat then Ok (file_write_zero f (target - length f)) else Fail.

(** Field widths in bytes and the accessors selected by them. *)
Inductive width := W1 | W2 | W4 | W8.
Definition wbytes (w : width) : nat := match w with W1 => 1 | W2 => 2 | W4 => 4 | W8 => 8 end.
Definition write_field (w : width) :=
  match w with W1 => write_8 | W2 => write_16 | W4 => write_32 | W8 => write_64 end.
Definition read_field (w : width) :=
  match w with W1 => read_8 | W2 => read_16 | W4 => read_32 | W8 => read_64 end.
Definition file_write_field (w : width) :=
  match w with W1 => file_write_byte | W2 => file_write_word | W4 => file_write_long | W8 => file_write_quad end.
