(** Specification: macro definitions are a finite map from names to definitions,
    and each name has a stack of saved definitions. *)
From Verif Require Import Base Common MacroTable.

Definition name_dec : forall a b : list Z, {a = b} + {a <> b} := list_eq_dec Z.eq_dec.

(** White space before the first and after the last token of a replacement list
    is not part of it (C11 6.10.3p7). *)
Definition same_token (a b : mtoken) (first last : bool) : Prop :=
  k_type a = k_type b /\ k_str a = k_str b /\
  k_ws a = (if first then false else k_ws b) /\ k_ws_after a = (if last then false else k_ws_after b).
Definition trimmed (l l' : list mtoken) : Prop :=
  length l' = length l /\
  forall i a b, nth_error l' i = Some a -> nth_error l i = Some b ->
    same_token a b (Nat.eqb i 0) (Nat.eqb (S i) (length l)).
(** [d'] is [d] with the outer white space dropped. *)
Definition stored (d d' : define) : Prop :=
  d_name d' = d_name d /\ d_func d' = d_func d /\ d_vararg d' = d_vararg d /\ d_par d' = d_par d /\
  trimmed (d_def d) (d_def d').

(** The definition in force for [name] after a history: that of its latest
    #define not followed by an #undef. *)
Fixpoint in_force (name : list Z) (history : list macro_op) (acc : option define) : option define :=
  match history with
  | [] => acc
  | OpDefine d :: t => in_force name t (if name_dec (d_name d) name then Some d else acc)
  | OpUndef n :: t => in_force name t (if name_dec n name then None else acc)
  | _ :: t => in_force name t acc
  end.

(** With push_macro and pop_macro: current definitions and saved ones, as
    functions of the name. Saving an undefined macro saves its absence. *)
Record sstate := { defs : list Z -> option define; saved : list Z -> list (option define) }.
Definition sinit : sstate := {| defs := fun _ => None; saved := fun _ => [] |}.
Definition upd {A} (f : list Z -> A) (n : list Z) (v : A) : list Z -> A :=
  fun x => if name_dec n x then v else f x.
Definition spec_step (s : sstate) (op : macro_op) : sstate :=
  match op with
  | OpDefine d => {| defs := upd (defs s) (d_name d) (Some d); saved := saved s |}
  | OpUndef n => {| defs := upd (defs s) n None; saved := saved s |}
  | OpPush n => {| defs := defs s; saved := upd (saved s) n (defs s n :: saved s n) |}
  | OpPop n =>
      match saved s n with
      | [] => s
      | v :: r => {| defs := upd (defs s) n v; saved := upd (saved s) n r |}
      end
  end.
Definition spec_run (l : list macro_op) : sstate := fold_left spec_step l sinit.

(** Histories in which push_macro is only used on macros defined at that point. *)
Fixpoint pushes_defined (s : sstate) (l : list macro_op) : Prop :=
  match l with
  | [] => True
  | op :: t => (match op with OpPush n => defs s n <> None | _ => True end) /\ pushes_defined (spec_step s op) t
  end.

Definition matches (spec : option define) (found : option define) : Prop :=
  match spec, found with
  | None, None => True
  | Some d, Some d' => stored d d'
  | _, _ => False
  end.
Definition no_pragmas (l : list macro_op) : Prop :=
  Forall (fun op => match op with OpDefine _ | OpUndef _ => True | _ => False end) l.
