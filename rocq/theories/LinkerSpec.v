(** What linking one object must produce: addresses and relocation formulas
    (System V ABI, AMD64 supplement, 4.4). *)
From Coq Require Import String.
From Verif Require Import Base CharTypes Object ObjectSpec.
Local Open Scope Z_scope.
Local Open Scope list_scope.

(** The image is loaded at 0x10000 and holds the sections one after the other. *)
Definition image_start : Z := 65536.
Definition start_of (o : object) (i : nat) : Z :=
  fold_right Z.add 0 (map (fun s => Z.of_nat (length (sec_data s))) (firstn i (sections o))).
Definition image_size (o : object) : Z := start_of o (length (sections o)).

(** S: the address of a symbol; P: the address of the place relocated; A: the addend. *)
Definition symbol_address (o : object) (y : symbol) : Z := image_start + start_of o (Z.to_nat (sym_section y)) + sym_value y.
Definition place_address (o : object) (i : nat) (r : relocation) : Z := image_start + start_of o i + r_offset r.
Definition formula (o : object) (i : nat) (r : relocation) (y : symbol) : Z :=
  match r_type r with
  | RELOCATE_64 | RELOCATE_32 => symbol_address o y + r_add r
  | RELOCATE_32_RELATIVE => symbol_address o y + r_add r - place_address o i r
  end.
Definition relocation_bytes (r : relocation) : nat := match r_type r with RELOCATE_64 => 8 | _ => 4 end.

(** Position [k] of section [i] is patched by a relocation. *)
Definition patched (s : section) (k : nat) : Prop :=
  exists r, In r (sec_relocations s) /\ r_offset r <= Z.of_nat k < r_offset r + Z.of_nat (relocation_bytes r).

(** Objects that can be linked. *)
Definition symbol_defined (o : object) (y : symbol) : Prop :=
  0 <= sym_section y /\ 0 <= sym_value y < 2 ^ 61 /\
  exists s, nth_error (sections o) (Z.to_nat (sym_section y)) = Some s /\ sec_data s <> [].
Definition relocation_ok (o : object) (s : section) (r : relocation) : Prop :=
  0 <= r_offset r /\ r_offset r + Z.of_nat (relocation_bytes r) <= Z.of_nat (length (sec_data s)) /\
  (r_idx r < length (symbols o))%nat /\ - 2 ^ 61 <= r_add r < 2 ^ 61.
Definition apart (a b : relocation) : Prop :=
  r_offset a + Z.of_nat (relocation_bytes a) <= r_offset b \/ r_offset b + Z.of_nat (relocation_bytes b) <= r_offset a.
Record linkable (o : object) : Prop := {
  symbols_defined : Forall (symbol_defined o) (symbols o);
  relocations_ok : forall s, In s (sections o) -> Forall (relocation_ok o s) (sec_relocations s);
  relocations_apart : forall s, In s (sections o) -> ForallOrdPairs apart (sec_relocations s);
  image_fits : image_size o < 2 ^ 61
}.
