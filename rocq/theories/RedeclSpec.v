(** C11 6.2.7, 6.7.3p10, 6.7.6.1p2, 6.7.6.2p6, 6.7.6.3p15: compatible types and their
    composite type; 6.2.2p4-5: linkage. [Fn r [] true] is a function declared without
    parameters being given. *)
From Verif Require Import Base Arch ExprType Redecl.
Local Open Scope list_scope.

(** Parameters that the default argument promotions leave as they are. *)
Definition promoted_already (p : ty) : Prop :=
  match p with Simple _ (ST_BOOL | ST_CHAR | ST_SCHAR | ST_UCHAR | ST_SHORT | ST_USHORT | ST_FLOAT) => False | _ => True end.
Definition prototype (ps : list ty) (variadic : bool) : Prop := ps <> [] \/ variadic = false.
Inductive compatible : ty -> ty -> ty -> Prop :=
| k_simple c s : compatible (Simple c s) (Simple c s) (Simple c s)
| k_struct c g : compatible (Struct c g) (Struct c g) (Struct c g)
| k_pointer c t u v : compatible t u v -> compatible (Ptr c t) (Ptr c u) (Ptr c v)
| k_array n t u v : compatible t u v -> compatible (Arr n t) (Arr n u) (Arr n v)
| k_array_left n t u v : compatible t u v -> compatible (Arr (Some n) t) (Arr None u) (Arr (Some n) v)
| k_array_right n t u v : compatible t u v -> compatible (Arr None t) (Arr (Some n) u) (Arr (Some n) v)
| k_function r q v ps qs vs b : prototype ps b -> compatible r q v -> parameters ps qs vs -> compatible (Fn r ps b) (Fn q qs b) (Fn v vs b)
| k_function_left r q v ps : compatible r q v -> Forall promoted_already ps -> compatible (Fn r ps false) (Fn q [] true) (Fn v ps false)
| k_function_right r q v qs : compatible r q v -> Forall promoted_already qs -> compatible (Fn r [] true) (Fn q qs false) (Fn v qs false)
| k_function_none r q v : compatible r q v -> compatible (Fn r [] true) (Fn q [] true) (Fn v [] true)
(** Qualifiers of parameters do not count. *)
with parameters : list ty -> list ty -> list ty -> Prop :=
| k_nil : parameters [] [] []
| k_cons p q v ps qs vs : compatible (unq p) (unq q) v -> parameters ps qs vs -> parameters (p :: ps) (q :: qs) (v :: vs).

Definition type_of (d : decl) : ty := match d with Declared t _ | Defined t _ => t end.
Definition says_static (d : decl) : bool := match d with Declared _ s | Defined _ s => s end.
(** The types agree: each is compatible with the composite of those before it. *)
Inductive agree : list ty -> ty -> Prop :=
| ag_one t : agree [t] t
| ag_more l t c c' : agree l c -> compatible c t c' -> agree (l ++ [t]) c'.
(** A function has internal linkage if its first declaration says static. *)
Definition exported (ds : list decl) : list bool :=
  match ds with
  | [] => []
  | d :: _ => flat_map (fun x => match x with Defined _ _ => [negb (says_static d)] | Declared _ _ => [] end) ds
  end.

(** Types with nothing left open inside: no array of unknown length, no function without
    prototype, no qualified parameter. *)
Inductive closed : ty -> Prop :=
| c_simple c s : closed (Simple c s)
| c_struct c g : closed (Struct c g)
| c_pointer c t : closed t -> closed (Ptr c t)
| c_array n t : closed t -> closed (Arr (Some n) t)
| c_function r ps b : prototype ps b -> closed r -> all_closed ps -> closed (Fn r ps b)
with all_closed : list ty -> Prop :=
| c_nil : all_closed []
| c_cons p ps : closed p -> is_const p = false -> all_closed ps -> all_closed (p :: ps).
(** On the outside, the length or the parameters may be left open. *)
Inductive flat : ty -> Prop :=
| fl_closed t : closed t -> flat t
| fl_array t : closed t -> flat (Arr None t)
| fl_function r : closed r -> flat (Fn r [] true).
