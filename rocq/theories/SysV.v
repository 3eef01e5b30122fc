(** Model of the System V calling convention: src/arch/calling.c and the
    register assignment of src/abi/sysv.c. *)
From Verif Require Import Base Common Arch X86.

(** struct type (src/types.h:68-100) as far as classification looks at it. A
    complete struct or union carries its size and, per member, the offset
    which calculate_offsets gave it; bit-fields appear as members of the type
    of the unit they live in, which is how classify_recursively sees them. *)
Inductive atype :=
| ASimple (t : simple_type)
| APointer
| AStruct (size : Z) (fields : list (Z * atype))
| AArray (length : nat) (t : atype)
| AIncompleteArray (t : atype).

(** src/arch/x64.c:166-193 (calculate_size). The product is not reduced to
    int here: objects of 2^31 bytes and more are not covered. *)
Fixpoint a_size (t : atype) : Z :=
  match t with
  | ASimple s => sizeof_simple SYSV s
  | APointer => 8
  | AStruct n _ => n
  | AArray n t => Z.of_nat n * a_size t
  | AIncompleteArray _ => -1
  end.

(** src/arch/calling.h (enum parameter_class). *)
Inductive parameter_class :=
| CLASS_INTEGER | CLASS_SSE | CLASS_SSEUP | CLASS_X87 | CLASS_X87UP | CLASS_COMPLEX_X87
| CLASS_NO_CLASS | CLASS_MEMORY.

(** src/arch/calling.c:5-30 (classify_non_recursive); [None] when it returns 0. *)
Definition classify_non_recursive (t : atype) : res (option parameter_class) :=
  match t with
  | APointer => Ok (Some CLASS_INTEGER)
  | ASimple s =>
      match s with
      | ST_CHAR | ST_SCHAR | ST_UCHAR | ST_INT | ST_UINT | ST_LONG | ST_LLONG | ST_ULONG | ST_ULLONG
      | ST_USHORT | ST_SHORT | ST_BOOL => Ok (Some CLASS_INTEGER)
      | ST_DOUBLE | ST_FLOAT => Ok (Some CLASS_SSE)
      | _ => Fail
      end
  | _ => Ok None
  end.

Definition class_eqb (a b : parameter_class) : bool :=
  match a, b with
  | CLASS_INTEGER, CLASS_INTEGER | CLASS_SSE, CLASS_SSE | CLASS_SSEUP, CLASS_SSEUP | CLASS_X87, CLASS_X87
  | CLASS_X87UP, CLASS_X87UP | CLASS_COMPLEX_X87, CLASS_COMPLEX_X87 | CLASS_NO_CLASS, CLASS_NO_CLASS
  | CLASS_MEMORY, CLASS_MEMORY => true
  | _, _ => false
  end.

(** src/arch/calling.c:32-47 (combine_class). *)
Definition combine_class (a b : parameter_class) : parameter_class :=
  let x87 c := class_eqb c CLASS_X87 || class_eqb c CLASS_X87UP || class_eqb c CLASS_COMPLEX_X87 in
  if class_eqb a b then a
  else if class_eqb a CLASS_NO_CLASS then b
  else if class_eqb b CLASS_NO_CLASS then a
  else if class_eqb a CLASS_MEMORY || class_eqb b CLASS_MEMORY then CLASS_MEMORY
  else if class_eqb a CLASS_INTEGER || class_eqb b CLASS_INTEGER then CLASS_INTEGER
  else if x87 a then CLASS_MEMORY
  else if x87 b then CLASS_MEMORY
  else CLASS_SSE.

(** src/arch/calling.c:49-95 (classify_recursively): the class found so far
    is passed and returned instead of being updated through a pointer. *)
Fixpoint classify_recursively (t : atype) (current : parameter_class) (lower upper : Z) {struct t}
  : res parameter_class :=
  match t with
  | AStruct _ fields =>
      (fix members (l : list (Z * atype)) (current : parameter_class) : res parameter_class :=
         match l with
         | [] => Ok current
         | (offset, m) :: l =>
             let* current :=
               if (offset + a_size m <? lower) || (upper <=? offset) then Ok current
               else let* c := classify_non_recursive m in
                    match c with
                    | Some c => Ok (combine_class current c)
                    | None => classify_recursively m current (lower - offset) (upper - offset)
                    end in
             members l current
         end) fields current
  | AArray n m =>
      (fix elements (k : nat) (i : Z) (current : parameter_class) : res parameter_class :=
         match k with
         | O => Ok current
         | S k =>
             let offset := a_size m * i in
             let* current :=
               if (offset + a_size m <? lower) || (upper <=? offset) then Ok current
               else let* c := classify_non_recursive m in
                    match c with
                    | Some c => Ok (combine_class current c)
                    | None => classify_recursively m current (lower - offset) (upper - offset)
                    end in
             elements k (i + 1) current
         end) n 0 current
  | AIncompleteArray _ => Ok current
  | _ => Fail
  end.

(** The loop src/arch/calling.c:110-113: [k] eightbytes from the [i]-th on. *)
Fixpoint eightbytes (t : atype) (k : nat) (i : Z) : res (list parameter_class) :=
  match k with
  | O => Ok []
  | S k =>
      let* c := classify_recursively t CLASS_NO_CLASS (i * 8) ((i + 1) * 8) in
      let* l := eightbytes t k (i + 1) in
      Ok (c :: l)
  end.

(** src/arch/calling.c:115-122: [before] is classes[i - 1], if any. *)
Fixpoint should_be_mem (before : option parameter_class) (l : list parameter_class) : bool :=
  match l with
  | [] => false
  | c :: l =>
      class_eqb c CLASS_MEMORY
      || (class_eqb c CLASS_X87UP && negb (match before with Some b => class_eqb b CLASS_X87 | None => false end))
      || should_be_mem (Some c) l
  end.

(** src/arch/calling.c:97-139 (classify): the first n_parts entries of
    classes. For a type of another kind only a message is printed and the
    caller goes on with uninitialised variables. *)
Definition classify (t : atype) : res (list parameter_class) :=
  let* c := classify_non_recursive t in
  match c with
  | Some c => Ok [c]
  | None =>
      match t with
      | AStruct size _ =>
          if 32 <? size then Ok [CLASS_MEMORY]
          else
            let* n := round_up_to_nearest size 8 in
            let* l := eightbytes t (Z.to_nat (n / 8)) 0 in
            let first_not_sse := match l with c :: _ => negb (class_eqb c CLASS_SSE) | [] => false end in
            if should_be_mem None l || ((2 <? Z.of_nat (length l)) && first_not_sse)
            then Ok [CLASS_MEMORY] else Ok l
      | _ => Undef
      end
  end.

(** A register: register_idx together with is_sse. *)
Inductive place := GP (r : reg) | VEC (x : Z).

(** src/abi/sysv.c:12-13. *)
Definition calling_convention : list reg := [RDI; RSI; RDX; RCX; R_8; R_9].
Definition return_convention : list reg := [RAX; RDX].
Definition convention (l : list reg) (i : Z) : res reg :=
  match nth_error l (Z.to_nat i) with Some r => Ok r | None => Undef end.

(** src/abi/sysv.c:31-36 (struct reg_info); [merged] is merge_into and
    merge_pos when is_merged is set. *)
Record reg_info := { r_place : place; r_merged : option (nat * Z); r_size : Z }.

(** src/abi/sysv.c:38-56 (struct call_info). ret_address_index and
    shadow_space are always 0. *)
Record call_info := {
  c_regs : list reg_info;
  c_ret_regs : list reg_info;
  c_stack : list nat;
  c_returns_address : bool;
  c_gp_offset : Z;
  c_rax : Z
}.

Definition is_vec (c : parameter_class) : bool := class_eqb c CLASS_SSE || class_eqb c CLASS_SSEUP.

(** src/abi/sysv.c:93-109: the registers of a result. *)
Fixpoint return_parts (l : list parameter_class) (gp sse : Z) : res (list reg_info) :=
  match l with
  | [] => Ok []
  | c :: l =>
      if is_vec c then
        let* rest := return_parts l gp (sse + 1) in
        Ok ({| r_place := VEC sse; r_merged := None; r_size := 8 |} :: rest)
      else
        let* r := convention return_convention gp in
        let* rest := return_parts l (gp + 1) sse in
        Ok ({| r_place := GP r; r_merged := None; r_size := 8 |} :: rest)
  end.

(** src/abi/sysv.c:121-131: how many registers of each kind. *)
Fixpoint count_parts (l : list parameter_class) (gp sse : Z) : res (Z * Z) :=
  match l with
  | [] => Ok (gp, sse)
  | c :: l =>
      if class_eqb c CLASS_MEMORY then Ok (gp, sse)
      else if is_vec c then count_parts l gp (sse + 1)
      else if class_eqb c CLASS_INTEGER then count_parts l (gp + 1) sse
      else Fail
  end.

(** src/abi/sysv.c:139-162: the registers of one argument; [i] is its number,
    [pos] is j * 8. *)
Fixpoint assign_parts (i : nat) (size : Z) (l : list parameter_class) (pos gp sse : Z)
  : res (list reg_info * Z * Z) :=
  match l with
  | [] => Ok ([], gp, sse)
  | c :: l =>
      let part_size := Z.min (size - pos) 8 in
      if is_vec c then
        let* r := assign_parts i size l (pos + 8) gp (sse + 1) in
        let '(rest, gp', sse') := r in
        Ok ({| r_place := VEC sse; r_merged := Some (i, pos); r_size := part_size |} :: rest, gp', sse')
      else
        let* q := convention calling_convention gp in
        let* r := assign_parts i size l (pos + 8) (gp + 1) sse in
        let '(rest, gp', sse') := r in
        Ok ({| r_place := GP q; r_merged := Some (i, pos); r_size := part_size |} :: rest, gp', sse')
  end.

(** src/abi/sysv.c:113-164: registers, stack variables, and the numbers of
    registers taken. An empty class list means that classes[0] is read
    uninitialised. *)
Fixpoint assign_arguments (i : nat) (args : list atype) (gp sse : Z)
  : res (list reg_info * list nat * Z * Z) :=
  match args with
  | [] => Ok ([], [], gp, sse)
  | t :: args =>
      let* classes := classify t in
      let* (n_gp, n_sse) := count_parts classes 0 0 in
      match classes with
      | [] => Undef
      | c0 :: _ =>
          if class_eqb c0 CLASS_MEMORY || (6 <? gp + n_gp) || (8 <? sse + n_sse) then
            let* r := assign_arguments (S i) args gp sse in
            let '(regs, stack, gp', sse') := r in Ok (regs, i :: stack, gp', sse')
          else
            let* r := assign_parts i (a_size t) classes 0 gp sse in
            let '(mine, gp1, sse1) := r in
            let* r := assign_arguments (S i) args gp1 sse1 in
            let '(regs, stack, gp', sse') := r in Ok (mine ++ regs, stack, gp', sse')
      end
  end.

(** src/abi/sysv.c:58-188 (get_calling_convention). *)
Definition get_calling_convention (ret : atype) (args : list atype) : res call_info :=
  let* head :=
    match ret with
    | ASimple ST_VOID => Ok ([], [], false, 0)
    | _ =>
        let* classes := classify ret in
        match classes with
        | [] => Undef
        | c0 :: _ =>
            if class_eqb c0 CLASS_MEMORY then
              Ok ([{| r_place := GP RDI; r_merged := None; r_size := 8 |}], [], true, 1)
            else let* l := return_parts classes 0 0 in Ok ([], l, false, 0)
        end
    end in
  let '(hidden, ret_regs, address, gp) := head in
  let* r := assign_arguments 0 args gp 0 in
  let '(regs, stack, gp', sse') := r in
  Ok {| c_regs := hidden ++ regs; c_ret_regs := ret_regs; c_stack := stack; c_returns_address := address;
        c_gp_offset := gp' * 8; c_rax := sse' |}.

(** src/abi/sysv.c:199, 225-230 and 294, 310-311: the registers are put into
    an array reg_variables with one entry per element of
    calling_convention. *)
Definition reg_variables_fit (c : call_info) : bool := (length (c_regs c) <=? length calling_convention)%nat.
