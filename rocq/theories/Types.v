(** Hash-consed types: src/types.c and hash32 of src/common.c.
    Type objects live in a heap; a [struct type *] is an index into it. Pointers
    to struct data and to length expressions are addresses (Z). *)
From Verif Require Import Base Arch.

(** The constructor and its parameters: the tag and union of struct type,
    src/types.h:68-89. *)
Inductive params :=
| PFunction (is_variadic : Z)
| PPointer
| PSimple (t : simple_type)
| PStruct (data : Z)
| PArray (length : Z)
| PIncompleteArray
| PVla (length_expr : Z).

(** src/types.h:69-77 (enum type_ty). *)
Definition params_tag (p : params) : Z :=
  match p with
  | PArray _ => 0 | PIncompleteArray => 1 | PStruct _ => 2 | PPointer => 3 | PFunction _ => 4
  | PSimple _ => 5 | PVla _ => 6
  end.

(** What type_create is given: the params object (tag, parameters, is_const, n)
    and the child pointers. *)
Record request := { r_params : params; r_const : Z; r_children : list nat }.

Record tnode := { t_req : request; t_next : option nat }.
Record tstate := { heap : list tnode; buckets : list (option nat) }.
Definition tinit : tstate := {| heap := []; buckets := repeat None 1024 |}.

(** src/common.c:7-14 (hash32), uint32_t arithmetic. *)
Definition hash32 (a0 : Z) : Z :=
  let a := wrap 32 a0 in
  let a := Z.lxor (Z.lxor a 61) (Z.shiftr a 16) in
  let a := wrap 32 (a + wrap 32 (Z.shiftl a 3)) in
  let a := Z.lxor a (Z.shiftr a 4) in
  let a := wrap 32 (a * 668265261) in
  Z.lxor a (Z.shiftr a 15).

(** src/types.c:13-68 (compare_types): the switch on the parameters. *)
Definition params_eqb (a b : params) : bool :=
  (params_tag a =? params_tag b) &&
  match a, b with
  | PFunction x, PFunction y => x =? y
  | PSimple x, PSimple y => st_eqb x y
  | PStruct x, PStruct y => x =? y
  | PArray x, PArray y => x =? y
  | PVla x, PVla y => x =? y
  | _, _ => true
  end.

(** The loop over children, with the recursive comparison as a parameter; it
    stops at the first difference. *)
Fixpoint compare_list (cmp : nat -> nat -> res bool) (a b : list nat) : res bool :=
  match a, b with
  | [], _ => Ok true
  | x :: a', y :: b' => let* r := cmp x y in if r then compare_list cmp a' b' else Ok false
  | _ :: _, [] => Undef
  end.

Definition request_at (h : list tnode) (p : nat) : res request :=
  match nth_error h p with Some n => Ok (t_req n) | None => Undef end.

(** src/types.c:13-68 (compare_types). Fuel bounds the nesting depth. *)
Fixpoint compare_types (fuel : nat) (h : list tnode) (a : request) (q : nat) : res bool :=
  match fuel with
  | O => Undef
  | S f =>
      let* b := request_at h q in
      if negb (params_tag (r_params a) =? params_tag (r_params b)) then Ok false
      else if negb (Nat.eqb (length (r_children a)) (length (r_children b))) then Ok false
      else if negb (r_const a =? r_const b) then Ok false
      else if negb (params_eqb (r_params a) (r_params b)) then Ok false
      else compare_list (fun x y => let* rx := request_at h x in compare_types f h rx y)
             (r_children a) (r_children b)
  end.

(** src/types.c:70-105 (type_hash). *)
Definition hash_params (p : params) : Z :=
  match p with
  | PSimple t => hash32 (st_index t)
  | PFunction v => hash32 v
  | PStruct d => hash32 d
  | PArray n => hash32 n
  | PVla e => hash32 e
  | PPointer | PIncompleteArray => 0
  end.
Fixpoint hash_list (hash : nat -> res Z) (acc : Z) (l : list nat) : res Z :=
  match l with
  | [] => Ok acc
  | x :: t => let* v := hash x in hash_list hash (Z.lxor acc v) t
  end.
Fixpoint type_hash (fuel : nat) (h : list tnode) (a : request) : res Z :=
  match fuel with
  | O => Undef
  | S f =>
      let start := Z.lxor (Z.lxor (hash32 (params_tag (r_params a))) (hash32 (r_const a))) (hash_params (r_params a)) in
      hash_list (fun x => let* rx := request_at h x in type_hash f h rx) start (r_children a)
  end.

(** src/types.c:123-124: the chain walk. *)
Fixpoint walk (fuel : nat) (h : list tnode) (a : request) (first : option nat) : res (option nat) :=
  match fuel with
  | O => Undef
  | S f =>
      match first with
      | None => Ok None
      | Some q =>
          let* r := compare_types (S (length h)) h a q in
          if r then Ok (Some q)
          else match nth_error h q with Some n => walk f h a (t_next n) | None => Undef end
      end
  end.

(** src/types.c:107-138 (type_create). *)
Definition type_create (st : tstate) (a : request) : res (tstate * nat) :=
  let h := heap st in
  let* hash := type_hash (S (length h)) h a in
  let idx := Z.to_nat (hash mod 1024) in
  match nth_error (buckets st) idx with
  | None => Undef
  | Some first =>
      let* r := walk (S (length h)) h a first in
      match r with
      | Some p => Ok (st, p)
      | None =>
          Ok ({| heap := h ++ [{| t_req := a; t_next := first |}];
                 buckets := set_nth (buckets st) idx (Some (length h)) |}, length h)
      end
  end.

(** A history of constructions and the pointers it returns. *)
Fixpoint type_run (st : tstate) (l : list request) : res (tstate * list nat) :=
  match l with
  | [] => Ok (st, [])
  | a :: t =>
      let* (st1, p) := type_create st a in
      let* (st2, ps) := type_run st1 t in
      Ok (st2, p :: ps)
  end.
