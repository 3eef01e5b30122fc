(** Specification of C11 6.4.4.1 integer constants (with 0b as an extension). *)
From Coq Require Import String.
From Verif Require Import Base CharTypes Arch CTypesSpec.

Inductive radix := Dec | Oct | Hex | Bin.
Definition radix_num (r : radix) : Z := match r with Dec => 10 | Oct => 8 | Hex => 16 | Bin => 2 end.
Definition digit_chars (r : radix) : list Z :=
  match r with
  | Dec => chars "0123456789"
  | Oct => chars "01234567"
  | Hex => chars "0123456789abcdefABCDEF"
  | Bin => chars "01"
  end.
Definition digit_value (c : Z) : Z := if c <=? 57 then c - 48 else if c <=? 70 then c - 55 else c - 87.
Definition digits_value (r : radix) (ds : list Z) : Z :=
  fold_left (fun acc c => acc * radix_num r + digit_value c) ds 0.

(** prefix ++ digits, as the grammar requires: decimal constants start with a
    nonzero digit, octal ones with 0. *)
Inductive literal : radix -> list Z -> list Z -> Prop :=
| lit_dec d ds : In d (chars "123456789") -> Forall (fun c => In c (digit_chars Dec)) ds ->
    literal Dec (d :: ds) (d :: ds)
| lit_oct ds : Forall (fun c => In c (digit_chars Oct)) ds -> literal Oct (48 :: ds) (48 :: ds)
| lit_hex x ds : In x (chars "xX") -> ds <> [] -> Forall (fun c => In c (digit_chars Hex)) ds ->
    literal Hex (48 :: x :: ds) ds
| lit_bin x ds : In x (chars "bB") -> ds <> [] -> Forall (fun c => In c (digit_chars Bin)) ds ->
    literal Bin (48 :: x :: ds) ds.

(** Suffixes: (has u, 0 = none / 1 = l / 2 = ll). *)
Definition suffixes : list (list Z * (bool * nat)) :=
  [ (chars "", (false, 0%nat));
    (chars "u", (true, 0%nat)); (chars "U", (true, 0%nat));
    (chars "l", (false, 1%nat)); (chars "L", (false, 1%nat));
    (chars "ll", (false, 2%nat)); (chars "LL", (false, 2%nat));
    (chars "ul", (true, 1%nat)); (chars "uL", (true, 1%nat)); (chars "Ul", (true, 1%nat)); (chars "UL", (true, 1%nat));
    (chars "lu", (true, 1%nat)); (chars "lU", (true, 1%nat)); (chars "Lu", (true, 1%nat)); (chars "LU", (true, 1%nat));
    (chars "ull", (true, 2%nat)); (chars "uLL", (true, 2%nat)); (chars "Ull", (true, 2%nat)); (chars "ULL", (true, 2%nat));
    (chars "llu", (true, 2%nat)); (chars "llU", (true, 2%nat)); (chars "LLu", (true, 2%nat)); (chars "LLU", (true, 2%nat)) ].

(** The table of 6.4.4.1p5. *)
Definition candidates (r : radix) (suf : bool * nat) : list simple_type :=
  match r, suf with
  | Dec, (false, 0%nat) => [ST_INT; ST_LONG; ST_LLONG]
  | _, (false, 0%nat) => [ST_INT; ST_UINT; ST_LONG; ST_ULONG; ST_LLONG; ST_ULLONG]
  | _, (true, 0%nat) => [ST_UINT; ST_ULONG; ST_ULLONG]
  | Dec, (false, 1%nat) => [ST_LONG; ST_LLONG]
  | _, (false, 1%nat) => [ST_LONG; ST_ULONG; ST_LLONG; ST_ULLONG]
  | _, (true, 1%nat) => [ST_ULONG; ST_ULLONG]
  | Dec, (false, _) => [ST_LLONG]
  | _, (false, _) => [ST_LLONG; ST_ULLONG]
  | _, (true, _) => [ST_ULLONG]
  end.
Definition literal_type (m : abi) (r : radix) (suf : bool * nat) (v : Z) : option simple_type :=
  find (fun t => v <=? spec_max m t) (candidates r suf).
