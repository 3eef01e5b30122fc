(** Model of src/character_types.c and of character literals used by the model. *)
From Coq Require Import String Ascii.
From Verif Require Import Base.

(** Bytes of a Coq string literal, used to write C character constants. *)
Fixpoint chars (s : string) : list Z :=
  match s with
  | EmptyString => []
  | String a t => Z.of_N (N_of_ascii a) :: chars t
  end.

(** src/character_types.c:13-22 (char_props): an array of UCHAR_MAX = 255
    entries, so index 255 is out of bounds. Bit 1 = decimal digit, bit 2 = octal
    digit, bit 4 = hexadecimal digit, bit 0x10 = space, bit 0x20 = identifier
    non-digit. *)
Definition char_props (c : Z) : res Z :=
  if (c <? 0) || (255 <=? c) then Undef
  else Ok (
    if (9 <=? c) && (c <=? 12) then 16
    else if c =? 32 then 16
    else if c =? 36 then 32
    else if c =? 95 then 32
    else if (48 <=? c) && (c <=? 55) then 7
    else if (56 <=? c) && (c <=? 57) then 5
    else if (65 <=? c) && (c <=? 70) then 36
    else if (71 <=? c) && (c <=? 90) then 32
    else if (97 <=? c) && (c <=? 102) then 36
    else if (103 <=? c) && (c <=? 122) then 32
    else 0).

(** src/character_types.c:26-44. The argument is converted to unsigned char. *)
Definition has_prop (c p : Z) : res bool :=
  let* v := char_props (wrap 8 c) in Ok (negb (Z.land v p =? 0)).
Definition is_octal (c : Z) : res bool := has_prop c 2.
Definition is_decimal (c : Z) : res bool := has_prop c 1.
Definition is_hexadecimal (c : Z) : res bool := has_prop c 4.

(** src/common.c:247-255 (char_to_int). *)
Definition char_to_int (c : Z) : res Z :=
  if (48 <=? c) && (c <=? 57) then Ok (c - 48)
  else if (65 <=? c) && (c <=? 70) then Ok (c - 65 + 10)
  else if (97 <=? c) && (c <=? 102) then Ok (c - 97 + 10)
  else Fail.
