(** What C47 and C48 mean: the layout of an ELF file as its own header fields
    describe it, and what reading an object back must give. *)
From Coq Require Import String.
From Verif Require Import Base BytesSpec Object.
Local Open Scope Z_scope.
Local Open Scope list_scope.

(** * Layout, from the bytes of a file *)

(** The unsigned little-endian field of [n] bytes at [pos]. *)
Definition field (file : list Z) (pos n : nat) : Z := le_value (window file pos n).
(** Fields of the ELF-64 header. *)
Definition f_type (file : list Z) : Z := field file 16 2.
Definition f_entry (file : list Z) : Z := field file 24 8.
Definition f_phoff (file : list Z) : Z := field file 32 8.
Definition f_shoff (file : list Z) : Z := field file 40 8.
Definition f_phnum (file : list Z) : Z := field file 56 2.
Definition f_shnum (file : list Z) : Z := field file 60 2.
Definition f_shstrndx (file : list Z) : Z := field file 62 2.
(** Fields of the section header with index [i]. *)
Definition section_header_at (file : list Z) (i : nat) : nat := (Z.to_nat (f_shoff file) + 64 * i)%nat.
Definition f_sh_type (file : list Z) (i : nat) : Z := field file (section_header_at file i + 4) 4.
Definition f_sh_offset (file : list Z) (i : nat) : Z := field file (section_header_at file i + 24) 8.
Definition f_sh_size (file : list Z) (i : nat) : Z := field file (section_header_at file i + 32) 8.
(** Fields of the program header with index [i]. *)
Definition program_header_at (file : list Z) (i : nat) : nat := (Z.to_nat (f_phoff file) + 56 * i)%nat.
Definition f_p_type (file : list Z) (i : nat) : Z := field file (program_header_at file i) 4.
Definition f_p_flags (file : list Z) (i : nat) : Z := field file (program_header_at file i + 4) 4.
Definition f_p_offset (file : list Z) (i : nat) : Z := field file (program_header_at file i + 8) 8.
Definition f_p_vaddr (file : list Z) (i : nat) : Z := field file (program_header_at file i + 16) 8.
Definition f_p_filesz (file : list Z) (i : nat) : Z := field file (program_header_at file i + 32) 8.
Definition f_p_memsz (file : list Z) (i : nat) : Z := field file (program_header_at file i + 40) 8.
Definition f_p_align (file : list Z) (i : nat) : Z := field file (program_header_at file i + 48) 8.

(** The parts of a file: (start, length). *)
Definition parts (file : list Z) : list (Z * Z) :=
  (0, 64) :: (f_shoff file, 64 * f_shnum file) :: (f_phoff file, 56 * f_phnum file) ::
  map (fun i => (f_sh_offset file i, f_sh_size file i)) (seq 0 (Z.to_nat (f_shnum file))) ++
  map (fun i => (f_p_offset file i, f_p_filesz file i)) (seq 0 (Z.to_nat (f_phnum file))).
(** Two parts share no byte. *)
Definition apart (a b : Z * Z) : Prop := snd a = 0 \/ snd b = 0 \/ fst a + snd a <= fst b \/ fst b + snd b <= fst a.
Definition inside (file : list Z) (a : Z * Z) : Prop := snd a = 0 \/ 0 <= fst a /\ fst a + snd a <= Z.of_nat (length file).
(** The bytes of a part. *)
Definition bytes_at (file : list Z) (start size : Z) : list Z := window file (Z.to_nat start) (Z.to_nat size).

(** * Objects that can be written *)

Definition sum (l : list Z) : Z := fold_right Z.add 0 l.
Definition len {A} (l : list A) : Z := Z.of_nat (length l).
Definition name_size (n : option (list Z)) : Z := match n with Some n => len n + 1 | None => 0 end.
(** The size of the file for an object: header, section headers, contents,
    symbols, relocations, symbol names, section names. *)
Definition elf_size (o : object) : Z :=
  64 + 64 * (2 * len (sections o) + 4)
  + sum (map (fun s => len (sec_data s)) (sections o))
  + 24 * (len (sections o) + len (symbols o) + 1)
  + sum (map (fun s => 24 * len (sec_relocations s)) (sections o))
  + (1 + sum (map (fun y => name_size (sym_name y)) (symbols o)))
  + (1 + sum (map (fun s => len (sec_name s) + 1) (sections o)) + 8
     + sum (map (fun s => 5 + len (sec_name s) + 1) (sections o)) + 8 + 10).
(** A C string: bytes, none of them zero. *)
Definition is_c_string (n : list Z) : Prop := Forall (fun b => 0 < b < 256) n.
Definition u64 (v : Z) : Prop := 0 <= v < 2 ^ 64.
Definition relocation_writable (o : object) (r : relocation) : Prop :=
  (r_idx r < length (symbols o))%nat /\ u64 (r_offset r) /\ - 2 ^ 63 <= r_add r < 2 ^ 63.
Definition section_writable (o : object) (s : section) : Prop :=
  is_c_string (sec_name s) /\ len (sec_name s) <= 250 /\ bytes_ok (sec_data s) /\ u64 (sec_alignment s) /\
  Forall (relocation_writable o) (sec_relocations s).
Definition symbol_writable (o : object) (y : symbol) : Prop :=
  (exists n, sym_name y = Some n /\ is_c_string n) /\ u64 (sym_value y) /\ u64 (sym_size y) /\
  (sym_section y = -1 \/ 0 <= sym_section y < len (sections o)).
(** Every part is well formed, the file is smaller than 2 GB and there are
    fewer than 2^16 sections. *)
Definition writable_object (o : object) : Prop :=
  Forall (section_writable o) (sections o) /\ Forall (symbol_writable o) (symbols o) /\
  elf_size o < 2 ^ 31 /\ 2 * len (sections o) + 4 < 2 ^ 16.

(** * Reading back *)

(** The symbols with the local ones first. *)
Definition local_first (l : list symbol) : list symbol := filter (fun y => negb (sym_global y)) l ++ filter sym_global l.
(** Where symbol [i] is then found. *)
Definition rank (l : list symbol) (i : nat) : nat :=
  match nth_error l i with
  | Some y => if sym_global y then (length (filter (fun y => negb (sym_global y)) l) + length (filter sym_global (firstn i l)))%nat
              else length (filter (fun y => negb (sym_global y)) (firstn i l))
  | None => 0%nat
  end.
Definition moved_relocation (o : object) (r : relocation) : relocation :=
  {| r_type := r_type r; r_idx := rank (symbols o) (r_idx r); r_offset := r_offset r; r_add := r_add r |}.
(** The object as it comes back: everything but the alignments. *)
Definition returned_section (o : object) (s : section) : section :=
  {| sec_name := sec_name s; sec_alignment := 0; sec_data := sec_data s; sec_relocations := map (moved_relocation o) (sec_relocations s) |}.
Definition returned (o : object) : object :=
  {| sections := map (returned_section o) (sections o); symbols := local_first (symbols o) |}.
(** [rank] is a renaming of the symbols: each one is at its new place. *)
Definition renaming (o : object) : Prop :=
  (forall i y, nth_error (symbols o) i = Some y -> nth_error (local_first (symbols o)) (rank (symbols o) i) = Some y) /\
  (forall i j, (i < length (symbols o))%nat -> (j < length (symbols o))%nat -> rank (symbols o) i = rank (symbols o) j -> i = j) /\
  length (local_first (symbols o)) = length (symbols o).
