(** The builder of object files: sections, symbols and relocations
    (src/linker/object.c, src/linker/object.h). *)
From Coq Require Import String.
From Verif Require Import Base CharTypes MacroTable Bytes.
Local Open Scope Z_scope.
Local Open Scope list_scope.

(** src/linker/object.h:9-13 (enum relocation_type). *)
Inductive relocation_type := RELOCATE_64 | RELOCATE_32 | RELOCATE_32_RELATIVE.
(** src/linker/object.h:8-18 (struct object_relocation). [r_idx] is an index
    into the symbol table. *)
Record relocation := { r_type : relocation_type; r_idx : nat; r_offset : Z; r_add : Z }.
(** src/linker/object.h:20-29 (struct section). *)
Record section := { sec_name : list Z; sec_alignment : Z; sec_data : list Z; sec_relocations : list relocation }.
(** src/linker/object.h:31-39 (struct symbol). A NULL name is [None]; section
    -1 means undefined. *)
Record symbol := { sym_name : option (list Z); sym_value : Z; sym_size : Z; sym_global : bool; sym_section : Z }.
(** src/linker/object.h:41-47 (struct object), and current_section of object.c:9. *)
Record object := { sections : list section; symbols : list symbol }.
Record builder := { obj : object; current_section : nat }.

(** A label is given by the text rodata_get_label prints for it (C39); [None]
    is the null label -1, which that function prints as .L1. Names are C
    strings, so comparing them with strcmp is comparing the byte lists. *)
Definition label_text (label : option (list Z)) : list Z := match label with Some n => n | None => chars ".L1" end.

Fixpoint find_symbol (name : list Z) (l : list symbol) (i : nat) : option nat :=
  match l with
  | [] => None
  | s :: t =>
      match sym_name s with
      | Some n => if sv_cmp n name then Some i else find_symbol name t (S i)
      | None => find_symbol name t (S i)
      end
  end.
(** src/linker/object.c:11-37 (get_symbol). *)
Definition get_symbol (label : option (list Z)) (o : object) : nat * object :=
  match find_symbol (label_text label) (symbols o) 0 with
  | Some i => (i, o)
  | None =>
      (length (symbols o),
       {| sections := sections o;
          symbols := symbols o ++ [{| sym_name := label; sym_value := 0; sym_size := 0; sym_global := false; sym_section := -1 |}] |})
  end.

Fixpoint find_section (name : list Z) (l : list section) (i : nat) : option nat :=
  match l with
  | [] => None
  | s :: t => if sv_cmp (sec_name s) name then Some i else find_section name t (S i)
  end.
(** src/linker/object.c:58-74 (object_set_section). *)
Definition object_set_section (name : list Z) (b : builder) : builder :=
  match find_section name (sections (obj b)) 0 with
  | Some i => {| obj := obj b; current_section := i |}
  | None =>
      {| obj := {| sections := sections (obj b) ++ [{| sec_name := name; sec_alignment := 0; sec_data := []; sec_relocations := [] |}];
                   symbols := symbols (obj b) |};
         current_section := length (sections (obj b)) |}
  end.

(** src/linker/object.c:39-43 (object_start). *)
Definition object_start : builder :=
  object_set_section (chars ".text") {| obj := {| sections := []; symbols := [] |}; current_section := 0 |}.

(** The current section, out of range being undefined behaviour. *)
Definition current (b : builder) : res section :=
  match nth_error (sections (obj b)) (current_section b) with Some s => Ok s | None => Undef end.
Definition set_current (b : builder) (s : section) : builder :=
  {| obj := {| sections := set_nth (sections (obj b)) (current_section b) s; symbols := symbols (obj b) |};
     current_section := current_section b |}.
Definition with_data (s : section) (d : list Z) : section :=
  {| sec_name := sec_name s; sec_alignment := sec_alignment s; sec_data := d; sec_relocations := sec_relocations s |}.

(** src/linker/object.c:76-81 (object_write). Section sizes are mathematical
    integers: the growth of the array in ADD_ELEMENTS (common.h:29) is not modelled. *)
Definition object_write (data : list Z) (b : builder) : res builder :=
  let* s := current b in
  Ok (set_current b (with_data s (sec_data s ++ data))).
(** src/linker/object.c:83-86 (object_write_byte). *)
Definition object_write_byte (imm : Z) (b : builder) : res builder := object_write [imm mod 256] b.
(** src/linker/object.c:88-97 (object_write_quad). *)
Definition object_write_quad (imm : Z) (b : builder) : res builder :=
  let* b := object_write_byte imm b in
  let* b := object_write_byte (Z.shiftr imm 8) b in
  let* b := object_write_byte (Z.shiftr imm 16) b in
  let* b := object_write_byte (Z.shiftr imm 24) b in
  let* b := object_write_byte (Z.shiftr imm 32) b in
  let* b := object_write_byte (Z.shiftr imm 40) b in
  let* b := object_write_byte (Z.shiftr imm 48) b in
  object_write_byte (Z.shiftr imm 56) b.
(** src/linker/object.c:99-102 (object_write_zero). *)
Definition object_write_zero (size : Z) (b : builder) : res builder := object_write (repeat 0 (Z.to_nat size)) b.

(** src/linker/object.c:104-112 (object_align). *)
Definition object_align (alignment : Z) (b : builder) : res builder :=
  let* s := current b in
  if alignment =? 0 then Undef
  else
    let remainder := Z.of_nat (length (sec_data s)) mod alignment in
    if remainder =? 0 then Ok b
    else
      let* b := object_write_zero (alignment - remainder) b in
      let* s := current b in
      Ok (set_current b {| sec_name := sec_name s; sec_alignment := Z.max (sec_alignment s) alignment;
                           sec_data := sec_data s; sec_relocations := sec_relocations s |}).

(** src/linker/object.c:114-129 (object_symbol_relocate). *)
Definition object_symbol_relocate (label : option (list Z)) (offset add : Z) (type : relocation_type) (b : builder) : res builder :=
  let* s := current b in
  let (idx, o) := get_symbol label (obj b) in
  Ok (set_current {| obj := o; current_section := current_section b |}
        {| sec_name := sec_name s; sec_alignment := sec_alignment s; sec_data := sec_data s;
           sec_relocations := sec_relocations s ++
             [{| r_type := type; r_idx := idx; r_offset := wrap 64 (Z.of_nat (length (sec_data s)) + offset); r_add := add |}] |}).

(** src/linker/object.c:131-141 (object_symbol_set). *)
Definition object_symbol_set (label : option (list Z)) (global : bool) (b : builder) : res builder :=
  let* s := current b in
  let (idx, o) := get_symbol label (obj b) in
  match nth_error (symbols o) idx with
  | None => Undef
  | Some y =>
      Ok {| obj := {| sections := sections o;
                      symbols := set_nth (symbols o) idx
                        {| sym_name := sym_name y; sym_value := Z.of_nat (length (sec_data s)); sym_size := sym_size y;
                           sym_global := global; sym_section := Z.of_nat (current_section b) |} |};
            current_section := current_section b |}
  end.

(** src/linker/object.c:45-56 (object_finish). *)
Definition finish_symbol (y : symbol) : symbol :=
  if sym_section y =? -1
  then {| sym_name := sym_name y; sym_value := sym_value y; sym_size := sym_size y; sym_global := true; sym_section := sym_section y |}
  else y.
Definition object_finish (b : builder) : object :=
  {| sections := sections (obj b); symbols := map finish_symbol (symbols (obj b)) |}.

(** The requests the assembler makes (src/assembler/assembler.c). *)
Inductive request :=
| Section_ (name : list Z)
| Write (data : list Z)
| WriteByte (b : Z)
| WriteQuad (q : Z)
| WriteZero (size : Z)
| Align (alignment : Z)
| Relocate (label : list Z) (offset add : Z) (type : relocation_type)
| Define (label : list Z) (global : bool).
Definition serve (r : request) (b : builder) : res builder :=
  match r with
  | Section_ name => Ok (object_set_section name b)
  | Write data => object_write data b
  | WriteByte x => object_write_byte x b
  | WriteQuad q => object_write_quad q b
  | WriteZero size => object_write_zero size b
  | Align a => object_align a b
  | Relocate label offset add type => object_symbol_relocate (Some label) offset add type b
  | Define label global => object_symbol_set (Some label) global b
  end.
Fixpoint serve_all (l : list request) (b : builder) : res builder :=
  match l with
  | [] => Ok b
  | r :: t => let* b := serve r b in serve_all t b
  end.
