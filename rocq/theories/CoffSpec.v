(** What C49 means: the fields of a COFF object file, taken from its bytes, and
    what they must describe. *)
From Coq Require Import String.
From Verif Require Import Base BytesSpec Object ElfSpec.
Local Open Scope Z_scope.
Local Open Scope list_scope.

(** * Fields of a file, by the positions of the format *)
Definition x_sections (file : list Z) : Z := field file 2 2.
Definition x_symtab (file : list Z) : Z := field file 8 4.
Definition x_symbols (file : list Z) : Z := field file 12 4.
(** The string table follows the symbol table; it starts with its own size. *)
Definition x_strtab (file : list Z) : Z := x_symtab file + 18 * x_symbols file.
Definition x_strtab_size (file : list Z) : Z := field file (Z.to_nat (x_strtab file)) 4.
(** Fields of section header [i]. *)
Definition x_section_at (i : nat) : nat := (20 + 40 * i)%nat.
Definition x_name (file : list Z) (i : nat) : list Z := window file (x_section_at i) 8.
Definition x_size (file : list Z) (i : nat) : Z := field file (x_section_at i + 16) 4.
Definition x_data (file : list Z) (i : nat) : Z := field file (x_section_at i + 20) 4.
Definition x_relocs (file : list Z) (i : nat) : Z := field file (x_section_at i + 24) 4.
Definition x_flags (file : list Z) (i : nat) : Z := field file (x_section_at i + 36) 4.
Definition x_nrelocs (file : list Z) (i : nat) : Z := field file (x_section_at i + 32) 2.
(** Fields of symbol [i]. *)
Definition x_symbol_at (file : list Z) (i : nat) : nat := (Z.to_nat (x_symtab file) + 18 * i)%nat.
Definition x_sym_name (file : list Z) (i : nat) : list Z := window file (x_symbol_at file i) 8.
Definition x_sym_value (file : list Z) (i : nat) : Z := field file (x_symbol_at file i + 8) 4.
Definition x_sym_section (file : list Z) (i : nat) : Z := field file (x_symbol_at file i + 12) 2.
Definition x_sym_class (file : list Z) (i : nat) : Z := field file (x_symbol_at file i + 16) 1.
(** Fields of relocation [j] of section [i]. *)
Definition x_reloc_at (file : list Z) (i j : nat) : nat := (Z.to_nat (x_relocs file i) + 10 * j)%nat.
Definition x_rel_address (file : list Z) (i j : nat) : Z := field file (x_reloc_at file i j) 4.
Definition x_rel_symbol (file : list Z) (i j : nat) : Z := field file (x_reloc_at file i j + 4) 4.
Definition x_rel_type (file : list Z) (i j : nat) : Z := field file (x_reloc_at file i j + 8) 2.

(** The bytes of a C string: up to the first zero. *)
Fixpoint until_zero (l : list Z) : list Z :=
  match l with
  | [] => []
  | b :: t => if b =? 0 then [] else b :: until_zero t
  end.
(** The string at an offset from the start of the string table. *)
Definition x_string (file : list Z) (offset : Z) : list Z := until_zero (skipn (Z.to_nat (x_strtab file + offset)) file).
(** The name of a symbol: up to 8 bytes, or four zero bytes and an offset. *)
Definition x_symbol_name (file : list Z) (i : nat) : list Z :=
  let n := x_sym_name file i in
  if le_value (firstn 4 n) =? 0 then x_string file (le_value (skipn 4 n)) else until_zero n.
(** The name of a section: up to 8 bytes, or a slash and an offset in decimal. *)
Definition decimal_value (l : list Z) : Z := fold_left (fun a d => 10 * a + (d - 48)) l 0.
Definition x_section_name (file : list Z) (i : nat) : list Z :=
  match until_zero (x_name file i) with
  | 47 :: digits => x_string file (decimal_value digits)
  | n => n
  end.

(** The parts of the file. *)
Definition x_parts (file : list Z) : list (Z * Z) :=
  (0, 20) :: (20, 40 * x_sections file) :: (x_symtab file, 18 * x_symbols file) :: (x_strtab file, x_strtab_size file) ::
  flat_map (fun i => [(x_data file i, x_size file i); (x_relocs file i, 10 * x_nrelocs file i)]) (seq 0 (Z.to_nat (x_sections file))).

(** * What relocations must say *)
(** The flags of a section that contains code (bit 5) and may be executed, read
    and written (bits 29 to 31); bits 20 to 23 hold 0 or 1 + n for an alignment
    of 2^n bytes. *)
Definition alignment_code (a : Z) : Z := if a =? 0 then 0 else 1 + Z.log2 a.
Definition section_flags (a : Z) : Z := 2 ^ 5 + 2 ^ 20 * alignment_code a + 2 ^ 29 + 2 ^ 30 + 2 ^ 31.
(** IMAGE_REL_AMD64_ADDR64, ADDR32 and REL32, the sizes of their fields, and
    the number found in the field: REL32 is relative to the end of the field. *)
Definition rel_code (t : relocation_type) : Z := match t with RELOCATE_64 => 1 | RELOCATE_32 => 2 | RELOCATE_32_RELATIVE => 4 end.
Definition rel_size (t : relocation_type) : nat := match t with RELOCATE_64 => 8%nat | _ => 4%nat end.
Definition rel_addend (r : relocation) : Z := match r_type r with RELOCATE_32_RELATIVE => r_add r + 4 | _ => r_add r end.
Definition rel_range (r : relocation) : Z * Z := (r_offset r, Z.of_nat (rel_size (r_type r))).

(** * Objects that can be written *)
Definition long_name (n : list Z) : Z := if 8 <? len n then len n + 1 else 0.
Definition symbol_long_name (y : symbol) : Z := match sym_name y with Some n => long_name n | None => 0 end.
Definition coff_strings_size (o : object) : Z :=
  1 + sum (map (fun s => long_name (sec_name s)) (sections o)) + sum (map symbol_long_name (symbols o)).
Definition coff_size (o : object) : Z :=
  20 + 40 * len (sections o) + 18 * len (symbols o) + 4 + coff_strings_size o +
  sum (map (fun s => len (sec_data s) + 10 * len (sec_relocations s)) (sections o)).
(** The fields of the relocations lie inside the section, apart from each other,
    and hold zeros; addends are 32-bit numbers. *)
Definition coff_relocation_ok (o : object) (s : section) (r : relocation) : Prop :=
  (r_idx r < length (symbols o))%nat /\ 0 <= r_offset r /\ r_offset r + Z.of_nat (rel_size (r_type r)) <= len (sec_data s) /\
  - 2 ^ 31 <= r_add r /\ rel_addend r < 2 ^ 31 /\
  field (sec_data s) (Z.to_nat (r_offset r)) (rel_size (r_type r)) = 0.
Definition coff_section_ok (o : object) (s : section) : Prop :=
  is_c_string (sec_name s) /\ bytes_ok (sec_data s) /\
  In (sec_alignment s) [0; 1; 2; 4; 8; 16; 32; 64; 128; 256; 512; 1024; 2048; 4096; 8192] /\
  len (sec_relocations s) < 2 ^ 16 /\
  Forall (coff_relocation_ok o s) (sec_relocations s) /\
  ForallOrdPairs apart (map rel_range (sec_relocations s)).
Definition coff_symbol_ok (o : object) (y : symbol) : Prop :=
  (exists n, sym_name y = Some n /\ is_c_string n /\ n <> []) /\ 0 <= sym_value y < 2 ^ 32 /\
  (sym_section y = -1 \/ 0 <= sym_section y < len (sections o)).
(** The file is smaller than 2 GB, the string table is such that "/" and an
    offset fit into a name, and there are fewer than 2^16 - 1 sections. *)
Definition coff_writable (o : object) : Prop :=
  Forall (coff_section_ok o) (sections o) /\ Forall (coff_symbol_ok o) (symbols o) /\
  len (sections o) < 2 ^ 16 - 1 /\ coff_size o < 2 ^ 31 /\
  1 + sum (map (fun s => long_name (sec_name s)) (sections o)) < 10 ^ 6.
