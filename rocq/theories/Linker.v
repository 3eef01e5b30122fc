(** The linker: combining objects, laying sections out in one segment and
    applying relocations (src/linker/linker.c). *)
From Coq Require Import String.
From Verif Require Import Base CharTypes MacroTable Bytes Object.
Local Open Scope Z_scope.
Local Open Scope list_scope.

(** * combine_objects, src/linker/linker.c:31-91 *)

(** src/linker/linker.c:47-51: relocation indices move with the symbols. *)
Definition shift_relocation (k : nat) (r : relocation) : relocation :=
  {| r_type := r_type r; r_idx := r_idx r + k; r_offset := r_offset r; r_add := r_add r |}.
Definition shift_section (k : nat) (s : section) : section :=
  {| sec_name := sec_name s; sec_alignment := sec_alignment s; sec_data := sec_data s;
     sec_relocations := map (shift_relocation k) (sec_relocations s) |}.
(** src/linker/linker.c:56-63. *)
Definition shift_symbol (k : nat) (y : symbol) : symbol :=
  if sym_section y =? -1 then y
  else {| sym_name := sym_name y; sym_value := sym_value y; sym_size := sym_size y; sym_global := sym_global y;
          sym_section := sym_section y + Z.of_nat k |}.
(** src/linker/linker.c:42-67: all sections and symbols one after the other;
    [sections_so_far] and [symbols_so_far] are the two running offsets. *)
Fixpoint concatenate (l : list object) (sections_so_far symbols_so_far : nat) : object :=
  match l with
  | [] => {| sections := []; symbols := [] |}
  | o :: t =>
      let rest := concatenate t (sections_so_far + length (sections o)) (symbols_so_far + length (symbols o)) in
      {| sections := map (shift_section symbols_so_far) (sections o) ++ sections rest;
         symbols := map (shift_symbol sections_so_far) (symbols o) ++ symbols rest |}
  end.

(** src/linker/linker.c:77-85: the search for a definition; the last one wins. *)
Definition defines (name : list Z) (y : symbol) : bool :=
  match sym_name y with
  | Some n => sym_global y && negb (sym_section y =? -1) && sv_cmp n name
  | None => false
  end.
Definition found_section (name : list Z) (l : list symbol) : Z :=
  fold_left (fun found y => if defines name y then sym_section y else found) l (-1).

(** src/linker/linker.c:70-89: the symbols are resolved in place, in order. *)
Fixpoint resolve (i n : nat) (l : list symbol) : res (list symbol) :=
  match n with
  | O => Ok l
  | S k =>
      match nth_error l i with
      | None => Undef
      | Some y =>
          if sym_section y =? -1 then
            match sym_name y with
            | None => Fail
            | Some name =>
                resolve (S i) k (set_nth l i
                  {| sym_name := sym_name y; sym_value := sym_value y; sym_size := sym_size y; sym_global := sym_global y;
                     sym_section := found_section name l |})
            end
          else resolve (S i) k l
      end
  end.

Definition combine_objects (l : list object) : res object :=
  let o := concatenate l 0 0 in
  let* y := resolve 0 (length (symbols o)) (symbols o) in
  Ok {| sections := sections o; symbols := y |}.

(** * linker_link, src/linker/linker.c:93-186 *)

(** src/linker/linker.c:105. *)
Definition load_address : Z := 65536.
(** What is built: the bytes of the only segment and the entry point
    (linker.h:9-24; load_size is the number of bytes). *)
Record executable := { exe_data : list Z; exe_entry : Z }.

(** src/linker/linker.c:118-134: sections are moved into the segment; an empty
    section is recorded at offset 0. *)
Fixpoint place (l : list section) (data : list Z) : list Z * list Z :=
  match l with
  | [] => (data, [])
  | s :: t =>
      let offset := match sec_data s with [] => 0 | _ => Z.of_nat (length data) end in
      let (data, offsets) := place t (data ++ sec_data s) in
      (data, offset :: offsets)
  end.

(** section_infos[idx].offset; an index outside the array is undefined behaviour. *)
Definition offset_of (offsets : list Z) (idx : Z) : res Z :=
  if idx <? 0 then Undef else match nth_error offsets (Z.to_nat idx) with Some x => Ok x | None => Undef end.

(** Writes go through a pointer into the segment's array. *)
Definition write_at (w : width) (data : list Z) (pos value : Z) : res (list Z) := write_field w data (Z.to_nat pos) value.

Definition int64_ok (v : Z) : bool := (- 2 ^ 63 <=? v) && (v <? 2 ^ 63).

(** src/linker/linker.c:141-168: one relocation of a section placed at
    [base] in the segment. *)
Definition relocate (o : object) (offsets : list Z) (base : Z) (data : list Z) (r : relocation) : res (list Z) :=
  match nth_error (symbols o) (r_idx r) with
  | None => Undef
  | Some y =>
      if sym_section y =? -1 then Fail
      else
        let* off := offset_of offsets (sym_section y) in
        let symbol_value := wrap 64 (sym_value y + off + load_address) in
        let relocation_virtual_pos := wrap 64 (r_offset r + base + load_address) in
        let segment_relative_pos := wrap 64 (r_offset r + base) in
        match r_type r with
        | RELOCATE_64 => write_at W8 data segment_relative_pos (wrap 64 (symbol_value + r_add r))
        | RELOCATE_32 => write_at W4 data segment_relative_pos (wrap 64 (symbol_value + r_add r))
        | RELOCATE_32_RELATIVE =>
            let relative := signed 64 (symbol_value - relocation_virtual_pos) in
            if int64_ok (relative + r_add r)
            then write_at W4 data segment_relative_pos (wrap 64 (relative + r_add r))
            else Undef
        end
  end.
Fixpoint relocate_list (o : object) (offsets : list Z) (base : Z) (l : list relocation) (data : list Z) : res (list Z) :=
  match l with
  | [] => Ok data
  | r :: t => let* data := relocate o offsets base data r in relocate_list o offsets base t data
  end.
(** src/linker/linker.c:136-170: the sections in order, each with its offset. *)
Fixpoint relocate_sections (o : object) (offsets : list Z) (l : list (section * Z)) (data : list Z) : res (list Z) :=
  match l with
  | [] => Ok data
  | (s, base) :: t =>
      let* data := relocate_list o offsets base (sec_relocations s) data in
      relocate_sections o offsets t data
  end.

(** src/linker/linker.c:172-183: the entry point; every symbol's section is
    looked up, named _start or not. *)
Fixpoint find_entry (l : list symbol) (offsets : list Z) (entry : Z) : res Z :=
  match l with
  | [] => Ok entry
  | y :: t =>
      let* off := offset_of offsets (sym_section y) in
      let symbol_value := wrap 64 (sym_value y + off + load_address) in
      find_entry t offsets
        (match sym_name y with Some n => if sv_cmp n (chars "_start") then symbol_value else entry | None => entry end)
  end.

Definition link_object (o : object) : res executable :=
  let (data, offsets) := place (sections o) [] in
  let* data := relocate_sections o offsets (combine (sections o) offsets) data in
  let* entry := find_entry (symbols o) offsets 0 in
  Ok {| exe_data := data; exe_entry := entry |}.

(** src/linker/linker.c:96: a single object is linked as it is. *)
Definition linker_link (l : list object) : res executable :=
  match l with
  | [o] => link_object o
  | _ => let* o := combine_objects l in link_object o
  end.
