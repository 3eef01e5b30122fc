(** C11 6.7.2.2: the values of enumeration constants, for the LP64 data model. *)
From Verif Require Import Base Arch CTypesSpec ArithConvSpec ConstFold ConstFoldSpec CExprSpec Enum.
Local Open Scope Z_scope.
Local Open Scope list_scope.

Definition enumerator := (name * option init)%type.
(** An enumerator list, with or without a comma at its end. *)
Definition spell1 (e : enumerator) : list etok := EName (fst e) :: match snd e with Some i => [EIs i] | None => [] end.
Fixpoint spell (l : list enumerator) (comma : bool) : list etok :=
  match l with
  | [] => [EEnd]
  | e :: r => spell1 e ++ match r with [] => if comma then [EComma; EEnd] else [EEnd] | _ => EComma :: spell r comma end
  end.

(** Constant expressions. Enumeration constants have type int (6.4.4.3). *)
Definition values := name -> option Z.
Fixpoint i_type (e : init) : simple_type :=
  match e with
  | ILit t _ => t
  | IName _ => ST_INT
  | IBin op a b => c_result_type (working_type SYSV op (i_type a) (i_type b)) op
  | IUn _ a => spec_promote SYSV (i_type a)
  | ICast t _ => t
  | ICond _ a b => spec_common SYSV (i_type a) (i_type b)
  end.
Fixpoint i_value (env : values) (e : init) : option Z :=
  match e with
  | ILit _ v => Some v
  | IName n => env n
  | IBin op a b =>
      match i_value env a, i_value env b with
      | Some x, Some y => c_operator SYSV op (i_type a) (i_type b) x y
      | _, _ => None
      end
  | IUn op a =>
      match i_value env a with
      | Some x => c_unop SYSV (spec_promote SYSV (i_type a)) op (convert SYSV (spec_promote SYSV (i_type a)) x)
      | None => None
      end
  | ICast t a => match i_value env a with Some x => Some (convert SYSV t x) | None => None end
  | ICond c a b =>
      match i_value env c with
      | Some x =>
          match (if x =? 0 then i_value env b else i_value env a) with
          | Some y => Some (convert SYSV (spec_common SYSV (i_type a) (i_type b)) y)
          | None => None
          end
      | None => None
      end
  end.
(** Literals are values of their types. With [strict], no conversions to _Bool (C08),
    and the operand of ?: that is not evaluated has a value too. *)
Fixpoint i_ok (strict : Prop) (env : values) (e : init) : Prop :=
  match e with
  | ILit t v => integer_type t /\ representable SYSV t v
  | IName _ => True
  | IBin _ a b => i_ok strict env a /\ i_ok strict env b
  | IUn _ a => i_ok strict env a
  | ICast t a => integer_type t /\ i_ok strict env a /\ (strict -> t <> ST_BOOL)
  | ICond c a b => i_ok strict env c /\ i_ok strict env a /\ i_ok strict env b /\
      (strict -> i_value env a <> None /\ i_value env b <> None)
  end.

Definition with_value (n : name) (v : Z) (env : values) : values := fun k => if list_eq_dec Z.eq_dec n k then Some v else env k.
(** [declared]: the identifiers of the scope the list stands in. [prev]: the value of the
    enumeration constant before. With [strict], every expression has type int. *)
Inductive enumerated (strict : Prop) : option Z -> list name -> values -> list enumerator -> values -> Prop :=
| en_end prev declared env : enumerated strict prev declared env [] env
| en_value prev declared env n e v l env' :
    ~ In n declared -> i_ok strict env e -> (strict -> i_type e = ST_INT) -> i_value env e = Some v -> representable SYSV ST_INT v ->
    enumerated strict (Some v) (n :: declared) (with_value n v env) l env' ->
    enumerated strict prev declared env ((n, Some e) :: l) env'
| en_next prev declared env n v l env' :
    ~ In n declared -> v = match prev with None => 0 | Some p => p + 1 end -> representable SYSV ST_INT v ->
    enumerated strict (Some v) (n :: declared) (with_value n v env) l env' ->
    enumerated strict prev declared env ((n, None) :: l) env'.

(** The compiler's scope holds these values, as constants of type int. *)
Definition holds (s : scope) (declared : list name) (env : values) : Prop :=
  (forall n, find_in n (here s) <> None <-> In n declared) /\
  (forall n, lookup n s = match env n with Some v => Some (ST_INT, wrap 64 v) | None => None end) /\
  (forall n v, env n = Some v -> representable SYSV ST_INT v).
