(** ELF files: building one from an object or an executable, writing it,
    reading it back (src/linker/elf.c). *)
From Coq Require Import String.
From Verif Require Import Base CharTypes Common Bytes Object.
Local Open Scope Z_scope.
Local Open Scope list_scope.

(** src/linker/elf.c:73-78 (struct elf_section_header). *)
Record section_header := { sh_name : Z; sh_type : Z; sh_flags : Z; sh_addr : Z; sh_offset : Z; sh_size : Z;
                           sh_link : Z; sh_info : Z; sh_addralign : Z; sh_entsize : Z }.
(** src/linker/elf.c:80-87 (struct elf_header). *)
Record elf_header := { e_type : Z; e_entry : Z; e_shoff : Z; e_phoff : Z; e_shstrndx : Z }.
(** src/linker/elf.c:89-93 (struct elf_section): the size is the length of the data. *)
Record elf_section := { es_header : section_header; es_data : list Z }.
(** src/linker/elf.c:95-105 (struct elf_program_header, struct elf_segment);
    p_filesz is set by elf_from_executable but never written. *)
Record program_header := { p_type : Z; p_flags : Z; p_offset : Z; p_vaddr : Z; p_paddr : Z; p_memsz : Z; p_align : Z }.
Record elf_segment := { eg_header : program_header; eg_data : list Z }.
(** src/linker/elf.c:114-128 (struct elf_file). *)
Record elf_file := { header : elf_header; shstrings : list Z; strings : list Z;
                     elf_sections : list elf_section; elf_segments : list elf_segment }.

(** src/linker/elf.c:10-70: the constants used. *)
Definition R_X86_64_64 := 1.
Definition R_X86_64_PC32 := 2.
Definition R_X86_64_32S := 11.
Definition SHT_NULL := 0.
Definition SHT_PROGBITS := 1.
Definition SHT_SYMTAB := 2.
Definition SHT_STRTAB := 3.
Definition SHT_RELA := 4.
Definition STB_GLOBAL := 1.
Definition SHF_ALLOC := 2.
Definition SHF_EXECINSTR := 4.
Definition SHF_INFO_LINK := 64.
Definition STT_NOTYPE := 0.
Definition STT_SECTION := 3.
Definition PT_LOAD := 1.
Definition PF_X := 1.
Definition PF_W := 2.
Definition PF_R := 4.
Definition ET_REL := 1.
Definition ET_EXEC := 2.

(** src/linker/elf.c:130-144 (elf_register_shstring, elf_register_string): the
    string and its terminator are appended; the result is where it starts. *)
Definition register_string (str table : list Z) : Z * list Z := (Z.of_nat (length table), table ++ str ++ [0]).

(** * Allocation *)

(** src/linker/elf.c:179 and 192: only the offset of a header changes. *)
Definition with_offset (address : Z) (s : elf_section) : elf_section :=
  {| es_header := {| sh_name := sh_name (es_header s); sh_type := sh_type (es_header s); sh_flags := sh_flags (es_header s);
                     sh_addr := sh_addr (es_header s); sh_offset := address; sh_size := sh_size (es_header s);
                     sh_link := sh_link (es_header s); sh_info := sh_info (es_header s);
                     sh_addralign := sh_addralign (es_header s); sh_entsize := sh_entsize (es_header s) |};
     es_data := es_data s |}.
Definition segment_with_offset (address : Z) (s : elf_segment) : elf_segment :=
  {| eg_header := {| p_type := p_type (eg_header s); p_flags := p_flags (eg_header s); p_offset := address;
                     p_vaddr := p_vaddr (eg_header s); p_paddr := p_paddr (eg_header s); p_memsz := p_memsz (eg_header s);
                     p_align := p_align (eg_header s) |};
     eg_data := eg_data s |}.
(** src/linker/elf.c:176-181: the loop from section 1 on. *)
Fixpoint allocate_sections (l : list elf_section) (address : Z) : list elf_section * Z :=
  match l with
  | [] => ([], address)
  | s :: t =>
      let (t', a) := allocate_sections t (wrap 64 (address + Z.of_nat (length (es_data s)))) in
      (with_offset address s :: t', a)
  end.
(** src/linker/elf.c:187-194. round_up_to_nearest takes and returns an int. *)
Fixpoint allocate_segments (l : list elf_segment) (address : Z) : res (list elf_segment) :=
  match l with
  | [] => Ok []
  | s :: t =>
      let* rounded := round_up_to_nearest (signed 32 address) (signed 32 (p_align (eg_header s))) in
      let address := wrap 64 rounded in
      let* t' := allocate_segments t (wrap 64 (address + Z.of_nat (length (eg_data s)))) in
      Ok (segment_with_offset address s :: t')
  end.
(** src/linker/elf.c:168-196 (elf_allocate_sections). *)
Definition elf_allocate_sections (elf : elf_file) : res elf_file :=
  let h := header elf in
  let address := 64 in
  let '(shoff, secs, address) :=
    match elf_sections elf with
    | [] => (e_shoff h, [], address)
    | null :: t =>
        let (t', a) := allocate_sections t (wrap 64 (address + 64 * Z.of_nat (length (elf_sections elf)))) in
        (address, null :: t', a)
    end in
  match elf_segments elf with
  | [] => Ok {| header := {| e_type := e_type h; e_entry := e_entry h; e_shoff := shoff; e_phoff := e_phoff h; e_shstrndx := e_shstrndx h |};
                shstrings := shstrings elf; strings := strings elf; elf_sections := secs; elf_segments := [] |}
  | segs =>
      let* segs' := allocate_segments segs (wrap 64 (address + 56 * Z.of_nat (length segs))) in
      Ok {| header := {| e_type := e_type h; e_entry := e_entry h; e_shoff := shoff; e_phoff := address; e_shstrndx := e_shstrndx h |};
            shstrings := shstrings elf; strings := strings elf; elf_sections := secs; elf_segments := segs' |}
  end.

(** * elf_from_object, src/linker/elf.c:312-475 *)

(** src/linker/elf.c:146-155 (elf_add_section): everything else is zero. *)
Definition new_header (name type : Z) : section_header :=
  {| sh_name := name; sh_type := type; sh_flags := 0; sh_addr := 0; sh_offset := 0; sh_size := 0;
     sh_link := 0; sh_info := 0; sh_addralign := 0; sh_entsize := 0 |}.

(** src/linker/elf.c:322-337. *)
Fixpoint add_progbits (l : list section) (shstrings : list Z) : list elf_section * list Z :=
  match l with
  | [] => ([], shstrings)
  | s :: t =>
      let (name, shstrings) := register_string (sec_name s) shstrings in
      let (t', shstrings) := add_progbits t shstrings in
      ({| es_header := {| sh_name := name; sh_type := SHT_PROGBITS; sh_flags := SHF_ALLOC + SHF_EXECINSTR; sh_addr := 0;
                          sh_offset := 0; sh_size := 0; sh_link := 0; sh_info := 0;
                          sh_addralign := sec_alignment s; sh_entsize := 0 |};
          es_data := sec_data s |} :: t', shstrings)
  end.

(** src/linker/elf.c:362-370 and 408-413: one entry of the symbol table. *)
Definition write_symbol (buf : list Z) (idx : nat) (name info shndx value size : Z) : res (list Z) :=
  let p := (24 * idx)%nat in
  let* buf := write_32 buf p name in
  let* buf := write_8 buf (p + 4) info in
  let* buf := write_8 buf (p + 5) 0 in
  let* buf := write_16 buf (p + 6) shndx in
  let* buf := write_64 buf (p + 8) value in
  write_64 buf (p + 16) size.
(** src/linker/elf.c:356: memset of the first entry. *)
Fixpoint clear (buf : list Z) (pos n : nat) : res (list Z) :=
  match n with
  | O => Ok buf
  | S k => let* buf := write_8 buf pos 0 in clear buf (S pos) k
  end.
(** src/linker/elf.c:359-373: a symbol for every section. *)
Fixpoint write_section_symbols (l : list section) (i : nat) (buf : list Z) : res (list Z) :=
  match l with
  | [] => Ok buf
  | s :: t =>
      let* buf := write_symbol buf (S i) 0 STT_SECTION (Z.of_nat (S i)) 0 (Z.of_nat (length (sec_data s))) in
      write_section_symbols t (S i) buf
  end.
(** src/linker/elf.c:347-354 and 372: n_local_symb, without the section symbols. *)
Fixpoint count_local (l : list symbol) : nat :=
  match l with
  | [] => 0
  | y :: t => ((if sym_global y then 0 else 1) + count_local t)%nat
  end.
(** src/linker/elf.c:380-414: the symbols; the result carries the table of
    strings and symbol_mapping. A NULL name given to strlen is undefined. *)
Fixpoint write_symbols (l : list symbol) (current_local current_global : nat) (strings buf : list Z) : res (list Z * list Z * list nat) :=
  match l with
  | [] => Ok (strings, buf, [])
  | y :: t =>
      match sym_name y with
      | None => Undef
      | Some name =>
          let idx := if sym_global y then current_global else current_local in
          let (st_name, strings) := register_string name strings in
          let* buf := write_symbol buf idx st_name (if sym_global y then Z.shiftl STB_GLOBAL 4 else 0)
                        (if sym_section y =? -1 then 0 else 1 + sym_section y) (sym_value y) (sym_size y) in
          let* r := write_symbols t (if sym_global y then current_local else S current_local)
                      (if sym_global y then S current_global else current_global) strings buf in
          let '(strings, buf, mapping) := r in
          Ok (strings, buf, idx :: mapping)
      end
  end.
(** src/linker/elf.c:435-453: the entries of a relocation section. *)
Definition elf_type (t : relocation_type) : Z :=
  match t with RELOCATE_64 => R_X86_64_64 | RELOCATE_32 => R_X86_64_32S | RELOCATE_32_RELATIVE => R_X86_64_PC32 end.
Fixpoint write_relocations (l : list relocation) (j : nat) (mapping : list nat) (buf : list Z) : res (list Z) :=
  match l with
  | [] => Ok buf
  | r :: t =>
      match nth_error mapping (r_idx r) with
      | None => Undef
      | Some sym_idx =>
          let p := (24 * j)%nat in
          let* buf := write_64 buf p (r_offset r) in
          let* buf := write_64 buf (p + 8) (wrap 64 (wrap 64 (Z.shiftl (Z.of_nat sym_idx) 32) + elf_type (r_type r))) in
          let* buf := write_64 buf (p + 16) (r_add r) in
          write_relocations t (S j) mapping buf
      end
  end.
(** src/linker/elf.c:416-454. [fill] is the content of fresh memory; a name
    that does not fit the buffer of 256 bytes stops the compiler. *)
Fixpoint add_relocations (fill : Z) (l : list section) (i : nat) (sym_idx : Z) (mapping : list nat) (shstrings : list Z)
  : res (list elf_section * list Z) :=
  match l with
  | [] => Ok ([], shstrings)
  | s :: t =>
      if (256 <=? 5 + length (sec_name s))%nat then Fail
      else
        let (name, shstrings) := register_string (chars ".rela" ++ sec_name s) shstrings in
        let* data := write_relocations (sec_relocations s) 0 mapping (repeat fill (24 * length (sec_relocations s))) in
        let* r := add_relocations fill t (S i) sym_idx mapping shstrings in
        let (t', shstrings) := r in
        Ok ({| es_header := {| sh_name := name; sh_type := SHT_RELA; sh_flags := SHF_INFO_LINK; sh_addr := 0; sh_offset := 0;
                               sh_size := 0; sh_link := sym_idx; sh_info := Z.of_nat (S i); sh_addralign := 0; sh_entsize := 24 |};
               es_data := data |} :: t', shstrings)
  end.
(** src/linker/elf.c:312-475 (elf_from_object). [fill] is the content of the
    memory cc_malloc returns. The header of the symbol table is completed at
    once (its sh_link is set on line 460). *)
Definition elf_from_object (fill : Z) (o : object) : res elf_file :=
  let n := length (sections o) in
  let strings := snd (register_string [] []) in
  let (null_name, shstrings) := register_string [] [] in
  let null := {| es_header := new_header null_name SHT_NULL; es_data := [] |} in
  let (progbits, shstrings) := add_progbits (sections o) shstrings in
  let sym_idx := Z.of_nat (S n) in
  let (symtab_name, shstrings) := register_string (chars ".symtab") shstrings in
  let data := repeat fill ((n + length (symbols o) + 1) * 24) in
  let* data := clear data 0 24 in
  let* data := write_section_symbols (sections o) 0 data in
  let n_local := (1 + count_local (symbols o) + n)%nat in
  let* r := write_symbols (symbols o) (1 + n) n_local strings data in
  let '(strings, data, mapping) := r in
  let* r := add_relocations fill (sections o) 0 sym_idx mapping shstrings in
  let (relas, shstrings) := r in
  let strtab_section := Z.of_nat (1 + n + 1 + n) in
  let shstrtab_section := Z.of_nat (1 + n + 1 + n + 1) in
  let (strtab_name, shstrings) := register_string (chars ".strtab") shstrings in
  let (shstrtab_name, shstrings) := register_string (chars ".shstrtab") shstrings in
  let symtab := {| es_header := {| sh_name := symtab_name; sh_type := SHT_SYMTAB; sh_flags := 0; sh_addr := 0; sh_offset := 0; sh_size := 0;
                                   sh_link := strtab_section; sh_info := Z.of_nat n_local; sh_addralign := 0; sh_entsize := 24 |};
                   es_data := data |} in
  elf_allocate_sections
    {| header := {| e_type := ET_REL; e_entry := 0; e_shoff := 0; e_phoff := 0; e_shstrndx := shstrtab_section |};
       shstrings := shstrings; strings := strings;
       elf_sections := null :: progbits ++ symtab :: relas ++
         [{| es_header := new_header strtab_name SHT_STRTAB; es_data := strings |};
          {| es_header := new_header shstrtab_name SHT_STRTAB; es_data := shstrings |}];
       elf_segments := [] |}.

(** * elf_from_executable *)

(** src/linker/linker.h:8-22 (struct segment, struct executable). *)
Record segment := { seg_data : list Z; load_address_of : Z; load_size : Z; executable_ : bool; writable : bool; readable : bool }.
Record executable := { exec_entry : Z; exec_segments : list segment }.
(** src/linker/elf.c:483-505. *)
Definition elf_segment_of (s : segment) : elf_segment :=
  {| eg_header := {| p_type := PT_LOAD;
                     p_flags := Z.lor (Z.lor (if executable_ s then PF_X else 0) (if readable s then PF_R else 0)) (if writable s then PF_W else 0);
                     p_offset := 0; p_vaddr := load_address_of s; p_paddr := load_address_of s;
                     p_memsz := load_size s; p_align := 4096 |};
     eg_data := seg_data s |}.
(** src/linker/elf.c:477-510 (elf_from_executable). *)
Definition elf_from_executable (x : executable) : res elf_file :=
  elf_allocate_sections
    {| header := {| e_type := ET_EXEC; e_entry := exec_entry x; e_shoff := 0; e_phoff := 0; e_shstrndx := 0 |};
       shstrings := []; strings := []; elf_sections := []; elf_segments := map elf_segment_of (exec_segments x) |}.

(** * Writing. The file is the list of the bytes written so far. *)

(** src/linker/elf.c:553 (magic). *)
Definition magic : list Z := [127; 69; 76; 70].
(** src/linker/elf.c:599-627 (write_header). *)
Definition write_header (f : list Z) (elf : elf_file) : list Z :=
  let h := header elf in
  let f := f ++ magic in
  let f := file_write_byte f 2 in
  let f := file_write_byte f 1 in
  let f := file_write_byte f 1 in
  let f := file_write_byte f 0 in
  let f := file_write_byte f 0 in
  let f := file_write_zero f 7 in
  let f := file_write_word f (e_type h) in
  let f := file_write_word f 62 in
  let f := file_write_long f 1 in
  let f := file_write_quad f (e_entry h) in
  let f := file_write_quad f (e_phoff h) in
  let f := file_write_quad f (e_shoff h) in
  let f := file_write_long f 0 in
  let f := file_write_word f 64 in
  let f := file_write_word f (match elf_segments elf with [] => 0 | _ => 56 end) in
  let f := file_write_word f (Z.of_nat (length (elf_segments elf))) in
  let f := file_write_word f (match elf_sections elf with [] => 0 | _ => 64 end) in
  let f := file_write_word f (Z.of_nat (length (elf_sections elf))) in
  file_write_word f (e_shstrndx h).
(** src/linker/elf.c:645-659 (write_section_header). *)
Definition write_section_header (f : list Z) (s : elf_section) : list Z :=
  let h := es_header s in
  let f := file_write_long f (sh_name h) in
  let f := file_write_long f (sh_type h) in
  let f := file_write_quad f (sh_flags h) in
  let f := file_write_quad f (sh_addr h) in
  let f := file_write_quad f (sh_offset h) in
  let f := file_write_quad f (Z.of_nat (length (es_data s))) in
  let f := file_write_long f (sh_link h) in
  let f := file_write_long f (sh_info h) in
  let f := file_write_quad f (sh_addralign h) in
  file_write_quad f (sh_entsize h).
(** src/linker/elf.c:700-708 and 736-744: the contents, each at its offset. *)
Fixpoint write_contents (l : list (Z * list Z)) (f : list Z) : res (list Z) :=
  match l with
  | [] => Ok f
  | (offset, data) :: t =>
      match data with
      | [] => write_contents t f
      | _ => let* f := file_write_skip f (Z.to_nat offset) in write_contents t (f ++ data)
      end
  end.
(** src/linker/elf.c:688-709 (write_sections). *)
Definition write_sections (f : list Z) (elf : elf_file) : res (list Z) :=
  match elf_sections elf with
  | [] => Ok f
  | l =>
      let* f := file_write_skip f (Z.to_nat (e_shoff (header elf))) in
      write_contents (map (fun s => (sh_offset (es_header s), es_data s)) l) (fold_left write_section_header l f)
  end.
(** src/linker/elf.c:711-722 (write_program_header). *)
Definition write_program_header (f : list Z) (s : elf_segment) : list Z :=
  let h := eg_header s in
  let f := file_write_long f (p_type h) in
  let f := file_write_long f (p_flags h) in
  let f := file_write_quad f (p_offset h) in
  let f := file_write_quad f (p_vaddr h) in
  let f := file_write_quad f (p_paddr h) in
  let f := file_write_quad f (Z.of_nat (length (eg_data s))) in
  let f := file_write_quad f (p_memsz h) in
  file_write_quad f (p_align h).
(** src/linker/elf.c:724-745 (write_segments). *)
Definition write_segments (f : list Z) (elf : elf_file) : res (list Z) :=
  match elf_segments elf with
  | [] => Ok f
  | l =>
      let* f := file_write_skip f (Z.to_nat (e_phoff (header elf))) in
      write_contents (map (fun s => (p_offset (eg_header s), eg_data s)) l) (fold_left write_program_header l f)
  end.
(** src/linker/elf.c:747-755 (elf_write). That the file can be opened and
    written is assumed. *)
Definition elf_write (elf : elf_file) : res (list Z) :=
  let f := write_header [] elf in
  let* f := write_sections f elf in
  write_segments f elf.

(** src/linker/elf.c:802-814 (elf_write_object, elf_write_executable). *)
Definition elf_write_object (fill : Z) (o : object) : res (list Z) :=
  let* elf := elf_from_object fill o in elf_write elf.
Definition elf_write_executable (x : executable) : res (list Z) :=
  let* elf := elf_from_executable x in elf_write elf.

(** * Reading. The open file is the list of the bytes after the position. *)

(** src/linker/elf.c:518-521 (read): a short read stops the compiler. *)
Definition fread (n : nat) (f : list Z) : res (list Z * list Z) :=
  if (n <=? length f)%nat then Ok (firstn n f, skipn n f) else Fail.
(** src/linker/elf.c:523-542 (read_byte, read_word, read_long, read_quad). *)
Definition read_byte (f : list Z) : res (Z * list Z) :=
  match f with [] => Fail | b :: t => Ok (b, t) end.
Definition read_word (f : list Z) : res (Z * list Z) :=
  let* x := read_byte f in let '(a, f) := x in
  let* x := read_byte f in let '(b, f) := x in
  Ok (Z.lor a (Z.shiftl b 8), f).
Definition read_long (f : list Z) : res (Z * list Z) :=
  let* x := read_word f in let '(a, f) := x in
  let* x := read_word f in let '(b, f) := x in
  Ok (Z.lor a (Z.shiftl b 16), f).
Definition read_quad (f : list Z) : res (Z * list Z) :=
  let* x := read_long f in let '(a, f) := x in
  let* x := read_long f in let '(b, f) := x in
  Ok (Z.lor a (Z.shiftl b 32), f).
(** src/linker/elf.c:544-547 (read_zero): the bytes are not looked at. *)
Fixpoint read_zero (n : nat) (f : list Z) : res (list Z) :=
  match n with
  | O => Ok f
  | S k => let* x := read_byte f in read_zero k (snd x)
  end.
(** An assertion on a value just read. *)
Definition expect (v : Z) (r : res (Z * list Z)) : res (list Z) :=
  let* x := r in if fst x =? v then Ok (snd x) else Fail.

(** src/linker/elf.c:555-597 (read_header): [None] when the magic number is
    not that of an ELF file. The result carries segment_size and section_size. *)
Definition read_header (f : list Z) : res (option (elf_header * Z * Z)) :=
  let* x := fread 4 f in let '(m, f) := x in
  if negb (if list_eq_dec Z.eq_dec m magic then true else false) then Ok None
  else
    let* f := expect 2 (read_byte f) in
    let* f := expect 1 (read_byte f) in
    let* f := expect 1 (read_byte f) in
    let* f := expect 0 (read_byte f) in
    let* f := expect 0 (read_byte f) in
    let* f := read_zero 7 f in
    let* x := read_word f in let '(type, f) := x in
    let* f := expect 62 (read_word f) in
    let* f := expect 1 (read_long f) in
    let* x := read_quad f in let '(entry, f) := x in
    let* x := read_quad f in let '(phoff, f) := x in
    let* x := read_quad f in let '(shoff, f) := x in
    let* f := expect 0 (read_long f) in
    let* f := expect 64 (read_word f) in
    let* x := read_word f in let '(phentsize, f) := x in
    let* x := read_word f in let '(segment_size, f) := x in
    if negb ((segment_size =? 0) || (phentsize =? 56)) then Fail
    else
      let* x := read_word f in let '(shentsize, f) := x in
      let* x := read_word f in let '(section_size, f) := x in
      if negb ((section_size =? 0) || (shentsize =? 64)) then Fail
      else
        let* x := read_word f in let '(shstrndx, f) := x in
        Ok (Some ({| e_type := type; e_entry := entry; e_shoff := shoff; e_phoff := phoff; e_shstrndx := shstrndx |},
                  segment_size, section_size)).
(** src/linker/elf.c:629-643 (read_section_header). *)
Definition read_section_header (f : list Z) : res (section_header * list Z) :=
  let* x := read_long f in let '(name, f) := x in
  let* x := read_long f in let '(type, f) := x in
  let* x := read_quad f in let '(flags, f) := x in
  let* x := read_quad f in let '(addr, f) := x in
  let* x := read_quad f in let '(offset, f) := x in
  let* x := read_quad f in let '(size, f) := x in
  let* x := read_long f in let '(link, f) := x in
  let* x := read_long f in let '(info, f) := x in
  let* x := read_quad f in let '(addralign, f) := x in
  let* x := read_quad f in let '(entsize, f) := x in
  Ok ({| sh_name := name; sh_type := type; sh_flags := flags; sh_addr := addr; sh_offset := offset; sh_size := size;
         sh_link := link; sh_info := info; sh_addralign := addralign; sh_entsize := entsize |}, f).
(** src/linker/elf.c:669-673. *)
Fixpoint read_section_headers (n : nat) (f : list Z) : res (list section_header) :=
  match n with
  | O => Ok []
  | S k =>
      let* x := read_section_header f in let '(h, f) := x in
      let* t := read_section_headers k f in
      Ok (h :: t)
  end.
(** src/linker/elf.c:675-685: the contents, read from their offsets; a
    section of size 0 keeps the pointer cc_malloc left there, which is never
    followed. [file] is the whole file (read_skip seeks in it, 549-551). *)
Fixpoint read_contents (file : list Z) (l : list section_header) : res (list elf_section) :=
  match l with
  | [] => Ok []
  | h :: t =>
      let* data :=
        if sh_size h =? 0 then Ok []
        else let* x := fread (Z.to_nat (sh_size h)) (skipn (Z.to_nat (sh_offset h)) file) in Ok (fst x) in
      let* t' := read_contents file t in
      Ok ({| es_header := h; es_data := data |} :: t')
  end.
(** src/linker/elf.c:661-686 (read_sections). *)
Definition read_sections (file : list Z) (h : elf_header) (section_size : Z) : res (list elf_section) :=
  if section_size =? 0 then Ok []
  else
    let* l := read_section_headers (Z.to_nat section_size) (skipn (Z.to_nat (e_shoff h)) file) in
    read_contents file l.

(** src/linker/elf.c:775 and 790: a section by index, out of range being
    undefined, with the assertion that it is a table of strings. *)
Definition string_section (l : list elf_section) (i : Z) : res (list Z) :=
  match nth_error l (Z.to_nat i) with
  | None => Undef
  | Some s => if sh_type (es_header s) =? SHT_STRTAB then Ok (es_data s) else Fail
  end.
(** src/linker/elf.c:782-795: a second symbol table is refused once the first
    one's strings are known. *)
Fixpoint find_strings (all l : list elf_section) (found : option (list Z)) : res (option (list Z)) :=
  match l with
  | [] => Ok found
  | s :: t =>
      if sh_type (es_header s) =? SHT_SYMTAB then
        match found with
        | Some _ => Fail
        | None => let* d := string_section all (sh_link (es_header s)) in find_strings all t (Some d)
        end
      else find_strings all t found
  end.
(** src/linker/elf.c:757-800 (elf_read). Files with segments are refused. *)
Definition elf_read (file : list Z) : res (option elf_file) :=
  let* x := read_header file in
  match x with
  | None => Ok None
  | Some (h, segment_size, section_size) =>
      if negb (segment_size =? 0) then Fail
      else
        let* l := read_sections file h section_size in
        let* shs := if e_shstrndx h =? 0 then Ok [] else string_section l (e_shstrndx h) in
        let* strs := find_strings l l None in
        Ok (Some {| header := h; shstrings := shs; strings := match strs with Some s => s | None => [] end;
                    elf_sections := l; elf_segments := [] |})
  end.

(** * object_from_elf *)

(** strdup of a pointer into a table of strings: the bytes up to the next
    zero; running off the table is undefined. *)
Fixpoint c_string (l : list Z) : res (list Z) :=
  match l with
  | [] => Undef
  | b :: t => if b =? 0 then Ok [] else let* r := c_string t in Ok (b :: r)
  end.
Definition string_at (table : list Z) (i : Z) : res (list Z) := c_string (skipn (Z.to_nat i) table).

(** src/linker/elf.c:205-224: the sections and section_mapping. A section
    without a name gets NULL, which Object.v does not represent: [Undef]. *)
Fixpoint get_sections (shstrings : list Z) (l : list elf_section) (count : nat) : res (list section * list Z) :=
  match l with
  | [] => Ok ([], [])
  | s :: t =>
      if sh_type (es_header s) =? SHT_PROGBITS then
        if sh_name (es_header s) =? 0 then Undef
        else
          let* name := string_at shstrings (sh_name (es_header s)) in
          let* r := get_sections shstrings t (S count) in
          let (secs, mapping) := r in
          Ok ({| sec_name := name; sec_alignment := 0; sec_data := es_data s; sec_relocations := [] |} :: secs, Z.of_nat count :: mapping)
      else
        let* r := get_sections shstrings t count in
        let (secs, mapping) := r in
        Ok (secs, -1 :: mapping)
  end.
(** src/linker/elf.c:238-262: the entries from [j] on; [mapping] is
    symbol_mapping up to there, [None] being an entry never set. *)
Fixpoint get_symbols (n j ent_size : nat) (data strings : list Z) (section_mapping : list Z) (syms : list symbol) (mapping : list (option nat))
  : res (list symbol * list (option nat)) :=
  match n with
  | O => Ok (syms, mapping)
  | S k =>
      let p := (j * ent_size)%nat in
      let* st_name := read_32 data p in
      let* st_info := read_8 data (p + 4) in
      let* st_shndx := read_16 data (p + 6) in
      let* st_value := read_64 data (p + 8) in
      let* st_size := read_64 data (p + 16) in
      if negb (Z.land st_info 15 =? STT_NOTYPE)
      then get_symbols k (S j) ent_size data strings section_mapping syms (mapping ++ [None])
      else
        let* name := if st_name =? 0 then Ok None else let* s := string_at strings st_name in Ok (Some s) in
        let* sec := get section_mapping (Z.to_nat st_shndx) in
        get_symbols k (S j) ent_size data strings section_mapping
          (syms ++ [{| sym_name := name; sym_value := st_value; sym_size := st_size;
                       sym_global := negb (Z.land st_info (Z.shiftl STB_GLOBAL 4) =? 0); sym_section := sec |}])
          (mapping ++ [Some (length syms)])
  end.
(** src/linker/elf.c:228-263: every symbol table; a later one replaces
    symbol_mapping. Entry 0 of the mapping is never set. *)
Fixpoint get_symbol_tables (l : list elf_section) (strings section_mapping : list Z) (syms : list symbol) (mapping : option (list (option nat)))
  : res (list symbol * option (list (option nat))) :=
  match l with
  | [] => Ok (syms, mapping)
  | s :: t =>
      if sh_type (es_header s) =? SHT_SYMTAB then
        if sh_entsize (es_header s) =? 0 then Undef
        else
          let ent_count := sh_size (es_header s) / sh_entsize (es_header s) in
          let* r := get_symbols (Z.to_nat ent_count - 1) 1 (Z.to_nat (sh_entsize (es_header s))) (es_data s) strings section_mapping syms [None] in
          let (syms, m) := r in
          get_symbol_tables t strings section_mapping syms (Some m)
      else get_symbol_tables t strings section_mapping syms mapping
  end.
(** src/linker/elf.c:282-289. *)
Definition object_type (info : Z) : res relocation_type :=
  let t := Z.land info 65535 in
  if t =? R_X86_64_64 then Ok RELOCATE_64
  else if t =? R_X86_64_32S then Ok RELOCATE_32
  else if t =? R_X86_64_PC32 then Ok RELOCATE_32_RELATIVE
  else Fail.
(** src/linker/elf.c:275-303. Reading an entry of symbol_mapping that was
    never set, or past its end, is undefined. *)
Fixpoint get_relocations (n j ent_size : nat) (data : list Z) (mapping : option (list (option nat))) : res (list relocation) :=
  match n with
  | O => Ok []
  | S k =>
      let p := (ent_size * j)%nat in
      let* offset := read_64 data p in
      let* info := read_64 data (p + 8) in
      let* addend := read_64 data (p + 16) in
      let* type := object_type info in
      match mapping with
      | None => Fail
      | Some m =>
          match nth_error m (Z.to_nat (Z.land (Z.shiftr info 32) 65535)) with
          | Some (Some idx) =>
              let* t := get_relocations k (S j) ent_size data mapping in
              Ok ({| r_type := type; r_idx := idx; r_offset := offset; r_add := signed 64 addend |} :: t)
          | _ => Undef
          end
      end
  end.
(** src/linker/elf.c:265-304: each relocation section adds to its target. *)
Fixpoint add_relocation_sections (l : list elf_section) (section_mapping : list Z) (mapping : option (list (option nat))) (secs : list section)
  : res (list section) :=
  match l with
  | [] => Ok secs
  | s :: t =>
      if sh_type (es_header s) =? SHT_RELA then
        let* i := get section_mapping (Z.to_nat (sh_info (es_header s))) in
        if i <? 0 then Undef
        else
          match nth_error secs (Z.to_nat i) with
          | None => Undef
          | Some target =>
              if sh_entsize (es_header s) =? 0 then Undef
              else
                let ent_count := sh_size (es_header s) / sh_entsize (es_header s) in
                let* r := get_relocations (Z.to_nat ent_count) 0 (Z.to_nat (sh_entsize (es_header s))) (es_data s) mapping in
                add_relocation_sections t section_mapping mapping
                  (set_nth secs (Z.to_nat i)
                     {| sec_name := sec_name target; sec_alignment := sec_alignment target; sec_data := sec_data target;
                        sec_relocations := sec_relocations target ++ r |})
          end
      else add_relocation_sections t section_mapping mapping secs
  end.
(** src/linker/elf.c:198-310 (object_from_elf). *)
Definition object_from_elf (elf : elf_file) : res object :=
  let* r := get_sections (shstrings elf) (elf_sections elf) 0 in
  let (secs, section_mapping) := r in
  let* r := get_symbol_tables (elf_sections elf) (strings elf) section_mapping [] None in
  let (syms, mapping) := r in
  let* secs := add_relocation_sections (elf_sections elf) section_mapping mapping secs in
  Ok {| sections := secs; symbols := syms |}.
(** src/linker/elf.c:816-819 (elf_read_object). *)
Definition elf_read_object (file : list Z) : res (option object) :=
  let* x := elf_read file in
  match x with
  | None => Ok None
  | Some elf => let* o := object_from_elf elf in Ok (Some o)
  end.
