(** Specification: the System V AMD64 ABI, section 3.2.3, for arguments made of
    integers, pointers, float and double. *)
From Verif Require Import Base Arch X86 SysV.

(** The two register classes such arguments can have. *)
Inductive eightbyte := INTEGER | SSE.

(** "Integer types and pointers are in class INTEGER; float and double are in
    class SSE."  long double and complex types are left out. *)
Definition scalar_class (t : atype) : option eightbyte :=
  match t with
  | APointer => Some INTEGER
  | ASimple (ST_FLOAT | ST_DOUBLE) => Some SSE
  | ASimple (ST_BOOL | ST_CHAR | ST_SCHAR | ST_UCHAR | ST_SHORT | ST_USHORT | ST_INT | ST_UINT | ST_LONG | ST_ULONG
            | ST_LLONG | ST_ULLONG) => Some INTEGER
  | _ => None
  end.

(** [scalar_at t o s]: an object of type [t] has at byte [o] a part of the
    scalar type [s]; arrays and structures are flattened. *)
Inductive scalar_at : atype -> Z -> atype -> Prop :=
| scalar_simple s : scalar_at (ASimple s) 0 (ASimple s)
| scalar_pointer : scalar_at APointer 0 APointer
| scalar_field n fields o m o' s :
    In (o, m) fields -> scalar_at m o' s -> scalar_at (AStruct n fields) (o + o') s
| scalar_element n m i o' s :
    0 <= i < Z.of_nat n -> scalar_at m o' s -> scalar_at (AArray n m) (i * a_size m + o') s.

(** Members lie inside their structure; only a structure may end in an array
    of unspecified length. *)
Fixpoint wf (t : atype) : Prop :=
  match t with
  | ASimple _ | APointer => True
  | AStruct n fields =>
      0 <= n /\
      (fix all (l : list (Z * atype)) : Prop :=
         match l with
         | [] => True
         | (o, m) :: l => 0 <= o /\ o + a_size m <= n /\ wf m /\ all l
         end) fields
  | AArray n m => 0 <= a_size m /\ wf m
  | AIncompleteArray _ => True
  end.

(** Some scalar of class [c] has a byte in the [i]-th eightbyte. *)
Definition occupies (t : atype) (i : Z) (c : eightbyte) : Prop :=
  exists o s, scalar_at t o s /\ scalar_class s = Some c /\ o < 8 * i + 8 /\ 8 * i < o + a_size s.

(** "If the size of an object is larger than two eightbytes, or it contains
    unaligned fields, it has class MEMORY." *)
Definition in_memory_class (t : atype) : Prop :=
  16 < a_size t \/ exists o s, scalar_at t o s /\ o mod a_size s <> 0.

(** "If one of the classes is INTEGER, the result is INTEGER; otherwise class
    SSE is used." *)
Definition eightbyte_class (t : atype) (i : Z) (c : eightbyte) : Prop :=
  match c with
  | INTEGER => occupies t i INTEGER
  | SSE => occupies t i SSE /\ ~ occupies t i INTEGER
  end.

(** What the ABI says about passing [t]: [None] in memory, [Some l] with one
    class for each of its eightbytes. *)
Definition abi_classes (t : atype) (p : option (list eightbyte)) : Prop :=
  match p with
  | None => in_memory_class t
  | Some l =>
      ~ in_memory_class t /\ Z.of_nat (length l) = (a_size t + 7) / 8 /\
      forall i c, nth_error l i = Some c -> eightbyte_class t (Z.of_nat i) c
  end.

(** "Once arguments are classified, the registers get assigned in
    left-to-right order: INTEGER, the next available register of the sequence
    rdi, rsi, rdx, rcx, r8 and r9; SSE, the next available vector register in
    the order from xmm0 to xmm7." *)
Fixpoint take (l : list eightbyte) (gp : list reg) (vec : list Z) : option (list place * list reg * list Z) :=
  match l with
  | [] => Some ([], gp, vec)
  | INTEGER :: l =>
      match gp with
      | [] => None
      | r :: gp =>
          match take l gp vec with Some (p, gp', vec') => Some (GP r :: p, gp', vec') | None => None end
      end
  | SSE :: l =>
      match vec with
      | [] => None
      | x :: vec =>
          match take l gp vec with Some (p, gp', vec') => Some (VEC x :: p, gp', vec') | None => None end
      end
  end.

(** "If there are no registers available for any eightbyte of an argument, the
    whole argument is passed on the stack. If registers have already been
    assigned for some eightbytes of such an argument, the assignments get
    reverted." [None] for an argument on the stack. *)
Fixpoint abi_assign (args : list (option (list eightbyte))) (gp : list reg) (vec : list Z)
  : list (option (list place)) :=
  match args with
  | [] => []
  | None :: args => None :: abi_assign args gp vec
  | Some l :: args =>
      match take l gp vec with
      | Some (p, gp', vec') => Some p :: abi_assign args gp' vec'
      | None => None :: abi_assign args gp vec
      end
  end.

Definition abi_gp : list reg := [RDI; RSI; RDX; RCX; R_8; R_9].
Definition abi_vec : list Z := [0; 1; 2; 3; 4; 5; 6; 7].

(** "If the type has class MEMORY, the caller provides space for the return
    value and passes the address of this storage in rdi as if it were the
    first argument." The first available register of rax, rdx or of xmm0, xmm1
    holds each eightbyte of another result. *)
Definition abi_argument_registers (ret : option (list eightbyte)) : list reg :=
  match ret with None => tl abi_gp | Some _ => abi_gp end.
Definition abi_result (ret : option (list eightbyte)) : option (list place) :=
  match ret with
  | None => None
  | Some l => match take l [RAX; RDX] [0; 1] with Some (p, _, _) => Some p | None => None end
  end.

(** How an argument of [size] bytes, number [i], is cut into the registers
    [ps]: eightbyte after eightbyte, the last one possibly short. *)
Fixpoint pieces (i : nat) (size pos : Z) (ps : list place) : list reg_info :=
  match ps with
  | [] => []
  | p :: ps => {| r_place := p; r_merged := Some (i, pos); r_size := Z.min (size - pos) 8 |} :: pieces i size (pos + 8) ps
  end.
(** The pieces of all arguments that are in registers, and the numbers of the
    others, for arguments numbered from [i]. *)
Fixpoint register_pieces (i : nat) (args : list atype) (where_ : list (option (list place))) : list reg_info :=
  match args, where_ with
  | t :: args, Some ps :: w => pieces i (a_size t) 0 ps ++ register_pieces (S i) args w
  | t :: args, None :: w => register_pieces (S i) args w
  | _, _ => []
  end.
Fixpoint stack_arguments (i : nat) (where_ : list (option (list place))) : list nat :=
  match where_ with
  | [] => []
  | Some _ :: w => stack_arguments (S i) w
  | None :: w => i :: stack_arguments (S i) w
  end.
Definition vec_count (where_ : list (option (list place))) : Z :=
  Z.of_nat (length (filter (fun p => match p with VEC _ => true | GP _ => false end)
                           (concat (map (fun o => match o with Some ps => ps | None => [] end) where_)))).

(** The types for which src/arch/calling.c follows the ABI. *)
Record conforming (t : atype) : Prop := {
  conf_kind : match t with AArray _ _ | AIncompleteArray _ => False | _ => True end;
  conf_wf : wf t;
  conf_size : 0 < a_size t;
  (** integers, pointers, float and double only *)
  conf_scalars : forall o s, scalar_at t o s -> scalar_class s <> None;
  (** no packed structure *)
  conf_aligned : forall o s, scalar_at t o s -> o mod a_size s = 0;
  (** no eightbyte consists of padding *)
  conf_padding : forall i, 0 <= i -> 8 * i < a_size t -> occupies t i INTEGER \/ occupies t i SSE;
  (** 17 to 32 bytes: the first eightbyte is not a floating one *)
  conf_large : 16 < a_size t <= 32 -> occupies t 0 INTEGER;
  (** no purely floating second eightbyte follows an integer that ends at
      byte 8 *)
  conf_boundary : 8 < a_size t <= 16 ->
    forall o s, scalar_at t o s -> scalar_class s = Some INTEGER -> o + a_size s = 8 -> occupies t 1 INTEGER
}.
