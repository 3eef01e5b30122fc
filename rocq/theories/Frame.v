(** Model of the stack frame of a function: src/codegen/codegen.c
    (codegen_function, the return part of codegen_block). *)
From Verif Require Import Base Bytes Common X86 Codegen.

(** The fields of an instruction node which codegen_function reads: its size,
    whether it is an IR_VLA_ALLOC, and for an IR_ALLOC the size and alignment
    of the object. *)
Record frame_ins := { f_size : Z; f_vla : bool; f_alloc : option (Z * Z) }.

(** Addition in int; overflow is undefined. The addition at :627 is done in
    size_t and converted back, which would not be undefined but
    implementation-defined; the model treats it alike. *)
Definition add_int (a b : Z) : res Z :=
  if (- 2 ^ 31 <=? a + b) && (a + b <? 2 ^ 31) then Ok (a + b) else Undef.

(** src/codegen/codegen.c:589-602: a slot for each instruction that has a
    size. The blocks' instruction lists are taken one after the other. *)
Fixpoint place_slots (l : list frame_ins) (perm : Z) : res (list (option Z) * Z) :=
  match l with
  | [] => Ok ([], perm)
  | i :: l =>
      if f_size i =? 0 then
        let* (locs, perm) := place_slots l perm in Ok (None :: locs, perm)
      else
        let* perm := add_int perm (f_size i) in
        let* (locs, last) := place_slots l perm in Ok (Some perm :: locs, last)
  end.

(** :605-612. *)
Fixpoint count_vlas (l : list frame_ins) : Z :=
  match l with
  | [] => 0
  | i :: l => (if f_vla i then 1 else 0) + count_vlas l
  end.

(** :623-631: round the depth up to the alignment of the object, if it has one,
    and keep the largest alignment. *)
Definition align_object (perm align alignment : Z) : res (Z * Z) :=
  if alignment =? 0 then Ok (perm, align)
  else
    let remainder := Z.rem perm alignment in
    let* perm := if remainder =? 0 then Ok perm else add_int perm (alignment - remainder) in
    Ok (perm, Z.max align alignment).

(** :617-635: the objects of IR_ALLOC, and the largest alignment. *)
Fixpoint place_objects (l : list frame_ins) (perm align : Z) : res (list (option Z) * Z * Z) :=
  match l with
  | [] => Ok ([], perm, align)
  | i :: l =>
      match f_alloc i with
      | None =>
          let* r := place_objects l perm align in
          let '(locs, perm, align) := r in Ok (None :: locs, perm, align)
      | Some (size, alignment) =>
          let* perm := add_int perm size in
          let* (perm, align) := align_object perm align alignment in
          let* r := place_objects l perm align in
          let '(locs, last, align) := r in Ok (Some perm :: locs, last, align)
      end
  end.

(** cg_info.stack_location, vla_info, alloc.stack_location,
    vla_info.alloc_preamble, rbp_save_info and stack_sub. *)
Record frame := {
  fr_slots : list (option Z);
  fr_vlas : Z;
  fr_vla_offset : Z;
  fr_objects : list (option Z);
  fr_align : Z;
  fr_preamble : option Z;
  fr_save : option Z;
  fr_sub : Z
}.

(** src/codegen/codegen.c:580-681. max_temp_stack stays 0: the loop at
    :643-657 does nothing. *)
Definition allocate_frame (l : list frame_ins) (preamble : Z) : res frame :=
  let* (slots, perm) := place_slots l 0 in
  let vlas := count_vlas l in
  let* perm := add_int perm (vlas * 8) in
  let vla_offset := perm in
  let* r := place_objects l perm 0 in
  let '(objects, perm, align) := r in
  let* (pre, perm) :=
    if preamble =? 0 then Ok (None, perm)
    else let* perm := add_int perm preamble in Ok (Some perm, perm) in
  let* (save, perm) :=
    if 16 <? align then let* perm := add_int perm 8 in Ok (Some perm, perm)
    else Ok (None, perm) in
  let* sub := round_up_to_nearest perm 16 in
  Ok {| fr_slots := slots; fr_vlas := vlas; fr_vla_offset := vla_offset; fr_objects := objects;
        fr_align := align; fr_preamble := pre; fr_save := save; fr_sub := sub |}.

(** src/codegen/codegen.c:671-683. *)
Definition prologue (fr : frame) : list instr :=
  [I1 Push (R8 RBP)]
  ++ match fr_save fr with
     | Some offset => [I2 (Mov W8) (R8 RSP) (R8 RBP); I2 (And W8) (IMM (- fr_align fr)) (R8 RSP);
                       I2 (Mov W8) (R8 RBP) (MEM (- offset) RSP)]
     | None => []
     end
  ++ [I2 (Mov W8) (R8 RSP) (R8 RBP)]
  ++ (if fr_sub fr =? 0 then [] else [I2 (Sub W8) (IMM (fr_sub fr)) (R8 RSP)]).

(** src/codegen/codegen.c:555-558, up to the ret instruction. *)
Definition epilogue (fr : frame) : list instr :=
  match fr_save fr with
  | Some offset => [I2 (Mov W8) (MEM (- offset) RBP) (R8 RBP)]
  | None => []
  end ++ [I0 Leave].
