(** Writing object files in the COFF format (src/linker/coff.c). *)
From Coq Require Import String.
From Verif Require Import Base CharTypes Bytes Labels Object Elf.
Local Open Scope Z_scope.
Local Open Scope list_scope.

(** src/linker/coff.c:7-15, 35-46, 80-84, 92-99, 145-160: the records. Fields
    that are always zero are left out (time_date_stamp,
    size_of_optional_header, virtual_address, pointer_to_linenumbers,
    number_of_linenumbers, type and number_of_aux_symbols of a symbol), as is
    virtual_size, which is always size_of_raw_data. *)
Record coff_relocation := { virtual_address : Z; symbol_table_index : Z; coff_type : Z }.
Record coff_section := { c_name : list Z; size_of_raw_data : Z; pointer_to_raw_data : Z; pointer_to_relocations : Z;
                         number_of_relocations : Z; characteristics : Z; c_data : list Z; c_relocations : list coff_relocation }.
Record coff_symbol := { cs_name : list Z; cs_value : Z; section_number : Z; storage_class : Z }.
Record coff_file := { number_of_sections : Z; pointer_to_symbol_table : Z; number_of_symbols : Z;
                      c_sections : list coff_section; c_symbols : list coff_symbol; c_strings : list Z }.

(** src/linker/coff.c:191-210. ERROR_NO_POS ends the compiler. *)
Definition section_characteristics (alignment : Z) : res Z :=
  let base := Z.lor (Z.lor (Z.lor 32 (2 ^ 30)) (2 ^ 31)) (2 ^ 29) in
  if alignment =? 0 then Ok base
  else if alignment =? 1 then Ok (Z.lor base 1048576)
  else if alignment =? 2 then Ok (Z.lor base 2097152)
  else if alignment =? 4 then Ok (Z.lor base 3145728)
  else if alignment =? 8 then Ok (Z.lor base 4194304)
  else if alignment =? 16 then Ok (Z.lor base 5242880)
  else if alignment =? 32 then Ok (Z.lor base 6291456)
  else if alignment =? 64 then Ok (Z.lor base 7340032)
  else if alignment =? 128 then Ok (Z.lor base 8388608)
  else if alignment =? 256 then Ok (Z.lor base 9437184)
  else if alignment =? 512 then Ok (Z.lor base 10485760)
  else if alignment =? 1024 then Ok (Z.lor base 11534336)
  else if alignment =? 2048 then Ok (Z.lor base 12582912)
  else if alignment =? 4096 then Ok (Z.lor base 13631488)
  else if alignment =? 8192 then Ok (Z.lor base 14680064)
  else Fail.
(** strncpy into a zeroed array of 8 bytes (coff.c:230, 307). *)
Definition short_name (name : list Z) : list Z := firstn 8 (name ++ repeat 0 8).
(** src/linker/coff.c:224-232. sprintf into an array of 8 bytes; writing beyond
    it is undefined behaviour. [register_string] (Elf.v) is also
    coff_register_string (coff.c:162-168). *)
Definition section_name_field (name strings : list Z) : res (list Z * list Z) :=
  if (8 <? length name)%nat then
    let (idx, strings) := register_string name strings in
    let text := 47 :: decimal idx in
    if (8 <=? length text)%nat then Undef else Ok (short_name text, strings)
  else Ok (short_name name, strings).
(** src/linker/coff.c:236-277: one relocation; the first component is the data
    of the section. *)
Definition convert_relocation (data : list Z) (r : relocation) : res (list Z * coff_relocation) :=
  if (r_add r <? - 2 ^ 31) || (2 ^ 31 - 1 <? r_add r) then Fail
  else if 2 ^ 31 - 1 <? r_offset r then Fail
  else
    let offset := Z.to_nat (r_offset r) in
    match r_type r with
    | RELOCATE_32 =>
        let* data := if r_add r =? 0 then Ok data else write_32 data offset (r_add r) in
        Ok (data, {| virtual_address := r_offset r; symbol_table_index := Z.of_nat (r_idx r); coff_type := 2 |})
    | RELOCATE_64 =>
        let* data := if r_add r =? 0 then Ok data else write_64 data offset (r_add r) in
        Ok (data, {| virtual_address := r_offset r; symbol_table_index := Z.of_nat (r_idx r); coff_type := 1 |})
    | RELOCATE_32_RELATIVE =>
        if 2 ^ 31 - 1 <? r_add r + 4 then Undef
        else
          let* data := if r_add r + 4 =? 0 then Ok data else write_32 data offset (r_add r + 4) in
          Ok (data, {| virtual_address := r_offset r; symbol_table_index := Z.of_nat (r_idx r); coff_type := 4 |})
    end.
Fixpoint convert_relocations (data : list Z) (l : list relocation) : res (list Z * list coff_relocation) :=
  match l with
  | [] => Ok (data, [])
  | r :: t =>
      let* x := convert_relocation data r in
      let* y := convert_relocations (fst x) t in
      Ok (fst y, snd x :: snd y)
  end.
(** src/linker/coff.c:184-278: one section. *)
Definition convert_section (s : section) (strings : list Z) : res (coff_section * list Z) :=
  let* ch := section_characteristics (sec_alignment s) in
  let n := wrap 16 (Z.of_nat (length (sec_relocations s))) in
  let* x := section_name_field (sec_name s) strings in
  let* y := convert_relocations (sec_data s) (firstn (Z.to_nat n) (sec_relocations s)) in
  Ok ({| c_name := fst x; size_of_raw_data := wrap 32 (Z.of_nat (length (sec_data s))); pointer_to_raw_data := 0; pointer_to_relocations := 0;
         number_of_relocations := n; characteristics := ch; c_data := fst y; c_relocations := snd y |}, snd x).
Fixpoint convert_sections (l : list section) (strings : list Z) : res (list coff_section * list Z) :=
  match l with
  | [] => Ok ([], strings)
  | s :: t =>
      let* x := convert_section s strings in
      let* y := convert_sections t (snd x) in
      Ok (fst x :: fst y, snd y)
  end.
(** src/linker/coff.c:281-310: one symbol. The warning of lines 289-292 is not
    modelled. *)
Definition convert_symbol (y : symbol) (strings : list Z) : res (coff_symbol * list Z) :=
  let sn := wrap 16 (if sym_section y =? -1 then 0 else sym_section y + 1) in
  let sc := if sym_global y then 2 else 3 in
  match sym_name y with
  | None => Ok ({| cs_name := repeat 0 8; cs_value := wrap 32 (sym_value y); section_number := sn; storage_class := sc |}, strings)
  | Some name =>
      if (8 <? length name)%nat then
        let (idx, strings) := register_string name strings in
        let* field := write_32 (repeat 0 8) 4 (idx + 4) in
        Ok ({| cs_name := field; cs_value := wrap 32 (sym_value y); section_number := sn; storage_class := sc |}, strings)
      else Ok ({| cs_name := short_name name; cs_value := wrap 32 (sym_value y); section_number := sn; storage_class := sc |}, strings)
  end.
Fixpoint convert_symbols (l : list symbol) (strings : list Z) : res (list coff_symbol * list Z) :=
  match l with
  | [] => Ok ([], strings)
  | s :: t =>
      let* x := convert_symbol s strings in
      let* y := convert_symbols t (snd x) in
      Ok (fst x :: fst y, snd y)
  end.
(** src/linker/coff.c:170-315 (coff_from_object). *)
Definition coff_from_object (o : object) : res coff_file :=
  let strings := snd (register_string [] []) in
  let n := wrap 16 (Z.of_nat (length (sections o))) in
  let m := wrap 32 (Z.of_nat (length (symbols o))) in
  let* x := convert_sections (firstn (Z.to_nat n) (sections o)) strings in
  let* y := convert_symbols (firstn (Z.to_nat m) (symbols o)) (snd x) in
  Ok {| number_of_sections := n; pointer_to_symbol_table := 0; number_of_symbols := m;
        c_sections := fst x; c_symbols := fst y; c_strings := snd y |}.

(** src/linker/coff.c:327-333. *)
Fixpoint coff_allocate_sections (l : list coff_section) (address : Z) : list coff_section :=
  match l with
  | [] => []
  | s :: t =>
      let rel := wrap 32 (address + size_of_raw_data s) in
      {| c_name := c_name s; size_of_raw_data := size_of_raw_data s; pointer_to_raw_data := address; pointer_to_relocations := rel;
         number_of_relocations := number_of_relocations s; characteristics := characteristics s; c_data := c_data s; c_relocations := c_relocations s |}
      :: coff_allocate_sections t (wrap 32 (rel + number_of_relocations s * 10))
  end.
(** src/linker/coff.c:317-334 (coff_allocate). *)
Definition coff_allocate (c : coff_file) : coff_file :=
  let address := wrap 32 (20 + 40 * number_of_sections c) in
  let after := wrap 32 (wrap 32 (address + 18 * number_of_symbols c) + 4 + Z.of_nat (length (c_strings c))) in
  {| number_of_sections := number_of_sections c; pointer_to_symbol_table := address; number_of_symbols := number_of_symbols c;
     c_sections := coff_allocate_sections (c_sections c) after; c_symbols := c_symbols c; c_strings := c_strings c |}.

(** src/linker/coff.c:107-115 (coff_write_header). *)
Definition coff_write_header (f : list Z) (c : coff_file) : list Z :=
  let f := file_write_word f 34404 in
  let f := file_write_word f (number_of_sections c) in
  let f := file_write_long f 0 in
  let f := file_write_long f (pointer_to_symbol_table c) in
  let f := file_write_long f (number_of_symbols c) in
  let f := file_write_word f 0 in
  file_write_word f 4.
(** src/linker/coff.c:117-128 (coff_write_section_header). *)
Definition coff_write_section_header (f : list Z) (s : coff_section) : list Z :=
  let f := f ++ c_name s in
  let f := file_write_long f (size_of_raw_data s) in
  let f := file_write_long f 0 in
  let f := file_write_long f (size_of_raw_data s) in
  let f := file_write_long f (pointer_to_raw_data s) in
  let f := file_write_long f (pointer_to_relocations s) in
  let f := file_write_long f 0 in
  let f := file_write_word f (number_of_relocations s) in
  let f := file_write_word f 0 in
  file_write_long f (characteristics s).
(** src/linker/coff.c:130-137 (coff_write_symbol). *)
Definition coff_write_symbol (f : list Z) (y : coff_symbol) : list Z :=
  let f := f ++ cs_name y in
  let f := file_write_long f (cs_value y) in
  let f := file_write_word f (section_number y) in
  let f := file_write_word f 0 in
  let f := file_write_byte f (storage_class y) in
  file_write_byte f 0.
(** src/linker/coff.c:139-143 (coff_write_relocation). *)
Definition coff_write_relocation (f : list Z) (r : coff_relocation) : list Z :=
  let f := file_write_long f (virtual_address r) in
  let f := file_write_long f (symbol_table_index r) in
  file_write_word f (coff_type r).
(** src/linker/coff.c:351-357: contents and relocations of one section. *)
Definition coff_write_contents (f : list Z) (s : coff_section) : list Z :=
  fold_left coff_write_relocation (c_relocations s) (f ++ firstn (Z.to_nat (size_of_raw_data s)) (c_data s)).
(** src/linker/coff.c:336-360 (coff_write): the bytes of the file. *)
Definition coff_write (c : coff_file) : list Z :=
  let f := coff_write_header [] c in
  let f := fold_left coff_write_section_header (c_sections c) f in
  let f := fold_left coff_write_symbol (c_symbols c) f in
  let f := file_write_long f (Z.of_nat (length (c_strings c)) + 4) in
  let f := f ++ c_strings c in
  fold_left coff_write_contents (c_sections c) f.
(** src/linker/coff.c:362-366 (coff_write_object). *)
Definition coff_write_object (o : object) : res (list Z) :=
  let* c := coff_from_object o in
  Ok (coff_write (coff_allocate c)).
