(** Model of number literals: src/arch/x64.c:308-463. A string_view is the list
    of its bytes; a char is compared as its byte (bytes above 127 are outside
    every tested range whichever sign they are given). *)
From Verif Require Import Base CharTypes Arch.

Definition between (c lo hi : Z) : bool := (lo <=? c) && (c <=? hi).

(** src/arch/x64.c:310-335 (is_float). *)
Fixpoint skip_digits (is_hex : bool) (s : list Z) : list Z :=
  match s with
  | c :: t => if between c 48 57 || (is_hex && between c 97 102) || (is_hex && between c 65 70)
              then skip_digits is_hex t else s
  | [] => []
  end.
Definition ul_char (c : Z) : bool := (c =? 117) || (c =? 85) || (c =? 108) || (c =? 76).
Definition is_float (s : list Z) : bool :=
  let '(is_hex, r) :=
    match s with
    | z :: x :: t =>
        if (z =? 48) && ((x =? 120) || (x =? 88)) then (true, t)
        else if (z =? 48) && ((x =? 98) || (x =? 66)) then (false, t)
        else (false, s)
    | _ => (false, s)
    end in
  negb (forallb ul_char (skip_digits is_hex r)).

(** src/arch/x64.c:359-364. *)
Inductive base := BASE_DECIMAL | BASE_HEXADECIMAL | BASE_OCTAL | BASE_BINARY.

(** src/arch/x64.c:366-381: the base and the text after the prefix. *)
Definition find_base (s : list Z) : res (base * list Z) :=
  match s with
  | [] => Fail
  | z :: t =>
      if z =? 48 then
        match t with
        | x :: t' =>
            if (x =? 120) || (x =? 88) then Ok (BASE_HEXADECIMAL, t')
            else if (x =? 98) || (x =? 66) then Ok (BASE_BINARY, t')
            else Ok (BASE_OCTAL, s)
        | [] => Ok (BASE_OCTAL, s)
        end
      else if between z 49 57 then Ok (BASE_DECIMAL, s)
      else Fail
  end.

(** src/arch/x64.c:383-413: digit loop, 64-bit wrap-around. *)
Definition digit_ok (b : base) (c : Z) : bool :=
  match b with
  | BASE_DECIMAL => between c 48 57
  | BASE_HEXADECIMAL => between c 48 57 || between c 97 102 || between c 65 70
  | BASE_OCTAL => between c 48 55
  | BASE_BINARY => between c 48 49
  end.
Definition base_mul (b : base) : Z :=
  match b with BASE_DECIMAL => 10 | BASE_HEXADECIMAL => 16 | BASE_OCTAL => 8 | BASE_BINARY => 2 end.
Definition digit_add (c : Z) : Z :=
  if between c 48 57 then c - 48
  else if between c 97 102 then c - 97 + 10
  else if between c 65 70 then c - 65 + 10
  else 0.
Fixpoint digits_loop (b : base) (s : list Z) (parsed : Z) : Z * list Z :=
  match s with
  | c :: t => if digit_ok b c
              then digits_loop b t (wrap 64 (wrap 64 (parsed * base_mul b) + digit_add c))
              else (parsed, s)
  | [] => (parsed, [])
  end.

(** src/arch/x64.c:415-438: suffix loop. *)
Record allow := { allow_unsigned : bool; allow_signed : bool; allow_int : bool; allow_long : bool }.
Fixpoint suffix_loop (s : list Z) (a : allow) : res allow :=
  match s with
  | [] => Ok a
  | c :: t =>
      let single :=
        if (c =? 108) || (c =? 76) then
          suffix_loop t {| allow_unsigned := allow_unsigned a; allow_signed := allow_signed a;
                           allow_int := false; allow_long := allow_long a |}
        else if (c =? 117) || (c =? 85) then
          suffix_loop t {| allow_unsigned := true; allow_signed := false;
                           allow_int := allow_int a; allow_long := allow_long a |}
        else Fail in
      match t with
      | d :: t' =>
          if ((c =? 108) && (d =? 108)) || ((c =? 76) && (d =? 76)) then
            suffix_loop t' {| allow_unsigned := allow_unsigned a; allow_signed := allow_signed a;
                              allow_int := false; allow_long := false |}
          else single
      | [] => single
      end
  end.

(** src/arch/x64.c:440-454: type selection (allow_llong is always 1). The
    constant is its type and the 64-bit pattern [parsed]. *)
Definition select_type (m : abi) (parsed : Z) (a : allow) : res simple_type :=
  let* mi := get_type_max m ST_INT in
  let* mui := get_type_max m ST_UINT in
  let* ml := get_type_max m ST_LONG in
  let* mul := get_type_max m ST_ULONG in
  let* mll := get_type_max m ST_LLONG in
  let* mull := get_type_max m ST_ULLONG in
  if (parsed <=? mi) && allow_int a && allow_signed a then Ok ST_INT
  else if (parsed <=? mui) && allow_int a && allow_unsigned a then Ok ST_UINT
  else if (parsed <=? ml) && allow_long a && allow_signed a then Ok ST_LONG
  else if (parsed <=? mul) && allow_long a && allow_unsigned a then Ok ST_ULONG
  else if (parsed <=? mll) && allow_signed a then Ok ST_LLONG
  else if (parsed <=? mull) && allow_unsigned a then Ok ST_ULLONG
  else Fail.

(** src/arch/x64.c:356-455 (integer_constant_from_string). *)
Definition integer_constant_from_string (m : abi) (s : list Z) : res (simple_type * Z) :=
  let* br := find_base s in
  let '(b, r) := br in
  let '(parsed, suf) := digits_loop b r 0 in
  let* a := suffix_loop suf {| allow_unsigned := match b with BASE_DECIMAL => false | _ => true end;
                               allow_signed := true; allow_int := true; allow_long := true |} in
  let* t := select_type m parsed a in
  Ok (t, parsed).

(** src/arch/x64.c:457-463 (constant_from_string): [None] when the literal is
    handed to strtod. *)
Definition constant_from_string (m : abi) (s : list Z) : res (option (simple_type * Z)) :=
  if is_float s then Ok None
  else let* c := integer_constant_from_string m s in Ok (Some c).
