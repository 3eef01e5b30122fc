(** Struct and union layout: src/arch/x64.c. *)
From Verif Require Import Base Common Arch.

(** src/types.h:68-100 (struct type), as far as layout looks at it. A complete
    struct or union is represented by its already computed size and alignment. *)
Inductive ctype :=
| TSimple (t : simple_type)
| TStruct (size alignment : Z)
| TPointer
| TFunction
| TArray (length : Z) (t : ctype)
| TVla (t : ctype)
| TIncompleteArray (t : ctype).

(** abi_info.pointer_type: ST_ULONG for sysv (src/abi/sysv.c), ST_ULLONG for
    microsoft (src/abi/microsoft.c). *)
Definition pointer_type (m : abi) : simple_type :=
  match m with SYSV => ST_ULONG | MICROSOFT => ST_ULLONG end.

(** src/arch/x64.c:12-14 (alignof_simple), 142-164 (calculate_alignment). *)
Fixpoint calculate_alignment (m : abi) (t : ctype) : Z :=
  match t with
  | TSimple s => sizeof_simple m s
  | TStruct _ a => a
  | TPointer => sizeof_simple m (pointer_type m)
  | TFunction => -1
  | TArray _ t' | TVla t' | TIncompleteArray t' => calculate_alignment m t'
  end.

(** src/arch/x64.c:166-193 (calculate_size). The array product is computed as
    size_t and converted to int. *)
Fixpoint calculate_size (m : abi) (t : ctype) : res Z :=
  match t with
  | TSimple s => Ok (sizeof_simple m s)
  | TStruct s _ => Ok s
  | TPointer => Ok (sizeof_simple m (pointer_type m))
  | TFunction => Ok (-1)
  | TArray n t' => let* s := calculate_size m t' in Ok (signed 32 (n * s))
  | TIncompleteArray _ => Ok (-1)
  | TVla _ => Fail
  end.

(** src/arch/x64.c:209-216 (calculate_alignment_with_max). *)
Definition calculate_alignment_with_max (m : abi) (t : ctype) (packing : Z) : Z :=
  let a := calculate_alignment m t in
  if packing =? 0 then a else if packing <? a then packing else a.

(** struct field of src/types.h: what the parser fills in, and what
    calculate_offsets fills in (initially zero, src/parser/declaration.c:399-403). *)
Record field := { f_type : ctype; f_bitfield : Z }.
Record placed := { p_type : ctype; p_bitfield : Z; p_offset : Z; p_bit_offset : Z }.

(** The local variables of calculate_offsets; [done] holds fields 0..i-1, the
    latest first. *)
Record lstate := { cur : Z; max_offset : Z; alignment : Z; last_bit : Z; done : list placed }.

(** src/arch/x64.c:240-247: the search for j = i, i-1, ..., 0. [prev_offset] is
    data->fields[i - 1].offset, only looked at when last_bit_offset != 0. *)
Fixpoint find_fit (m : abi) (last w prev_offset : Z) (l : list placed) : res (option ctype) :=
  match l with
  | [] => Ok None
  | p :: t =>
      if (last =? 0) || negb (p_offset p =? prev_offset) then find_fit m last w prev_offset t
      else let* s := calculate_size m (p_type p) in
           if last + w <=? 8 * s then Ok (Some (p_type p)) else find_fit m last w prev_offset t
  end.

Definition add_int (a b : Z) : res Z := if int_ok (a + b) then Ok (a + b) else Undef.

(** One iteration of the loop, src/arch/x64.c:224-290. *)
Definition layout_step (m : abi) (is_union : bool) (packing : Z) (is_last : bool) (st : lstate) (f : field)
  : res lstate :=
  let a := calculate_alignment_with_max m (f_type f) packing in
  let* cur1 := round_up_to_nearest (cur st) a in
  if f_bitfield f =? 0 then
    Ok {| cur := cur1; max_offset := max_offset st; alignment := alignment st; last_bit := last_bit st;
          done := {| p_type := f_type f; p_bitfield := 0; p_offset := 0; p_bit_offset := 0 |} :: done st |}
  else
    let* (p, cur2, last2) :=
      (if negb (f_bitfield f =? -1) then
         let* (prev_offset, prev_bitfield) :=
           (if last_bit st =? 0 then Ok (0, 0)
            else match done st with p :: _ => Ok (p_offset p, p_bitfield p) | [] => Undef end) in
         let off := if negb (last_bit st =? 0) && negb (prev_bitfield =? 0) then prev_offset else cur1 in
         let this := {| p_type := f_type f; p_bitfield := f_bitfield f; p_offset := off; p_bit_offset := 0 |} in
         let* fit := find_fit m (last_bit st) (f_bitfield f) prev_offset (this :: done st) in
         match fit with
         | Some ft =>
             Ok ({| p_type := ft; p_bitfield := f_bitfield f; p_offset := off; p_bit_offset := last_bit st |},
                 off, if is_union then last_bit st else last_bit st + f_bitfield f)
         | None =>
             let* cur2 := (if is_union then Ok cur1 else round_up_to_nearest (max_offset st) a) in
             Ok ({| p_type := f_type f; p_bitfield := f_bitfield f; p_offset := cur2; p_bit_offset := 0 |},
                 cur2, if is_union then 0 else f_bitfield f)
         end
       else
         Ok ({| p_type := f_type f; p_bitfield := -1; p_offset := cur1; p_bit_offset := 0 |}, cur1, 0)) in
    let* new_size :=
      (match f_type f with
       | TIncompleteArray _ => if is_last then Ok 0 else Fail
       | t => let* s := calculate_size m t in if s =? -1 then Fail else Ok s
       end) in
    let al := if alignment st <? a then a else alignment st in
    if is_union then
      Ok {| cur := cur2; max_offset := if max_offset st <? new_size then new_size else max_offset st;
            alignment := al; last_bit := last2; done := p :: done st |}
    else
      let* cur3 := add_int cur2 new_size in
      Ok {| cur := cur3; max_offset := if max_offset st <? cur3 then cur3 else max_offset st;
            alignment := al; last_bit := last2; done := p :: done st |}.

Fixpoint layout_loop (m : abi) (is_union : bool) (packing : Z) (st : lstate) (fs : list field) : res lstate :=
  match fs with
  | [] => Ok st
  | f :: t => let* st' := layout_step m is_union packing (match t with [] => true | _ => false end) st f in
              layout_loop m is_union packing st' t
  end.

Record layout := { l_fields : list placed; l_size : Z; l_alignment : Z }.

(** src/arch/x64.c:218-297 (calculate_offsets). *)
Definition calculate_offsets (m : abi) (is_union : bool) (packing : Z) (fs : list field) : res layout :=
  let* st := layout_loop m is_union packing
               {| cur := 0; max_offset := 0; alignment := 1; last_bit := 0; done := [] |} fs in
  let al := if (0 <? packing) && (packing <? alignment st) then packing else alignment st in
  let* size := round_up_to_nearest (max_offset st) al in
  Ok {| l_fields := rev (done st); l_size := size; l_alignment := al |}.
