(** Specification: what a control transfer does to the phis of its target. *)
From Verif Require Import Base Bytes X86 Codegen AsmSpec Phi.

(** The operand of [p] that belongs to the edge from [current]. *)
Definition operand_of (current : Z) (preds : Z * Z) (p : phi) : option slot :=
  if Z.eq_dec current (fst preds) then fst (p_args p) else snd (p_args p).

(** All phis of the target take the values of their operands at once. *)
Definition takes_operands (current : Z) (preds : Z * Z) (uses : list (option phi)) (s s' : machine) : Prop :=
  forall p src, In (Some p) uses -> operand_of current preds p = Some src ->
    slot_bits s' (p_slot p) = slot_bits s src.

(** Two slots are the same or do not share a byte. *)
Definition apart (a b : slot) : Prop :=
  s_loc a - s_size a >= s_loc b \/ s_loc b - s_size b >= s_loc a.

(** Nothing else in memory changes. *)
Definition only_phis (uses : list (option phi)) (s s' : machine) : Prop :=
  forall x, (forall p, In (Some p) uses -> ~ slot_address s (p_slot p) <= x < slot_address s (p_slot p) + s_size (p_slot p)) ->
    mem s' x = mem s x.

(** A phi and an operand of it can be held in slots the machine has. *)
Definition phi_ok (s : machine) (current : Z) (preds : Z * Z) (p : phi) : Prop :=
  in_memory s (p_slot p) /\ In (s_size (p_slot p)) [1; 2; 4; 8] /\
  forall src, operand_of current preds p = Some src -> in_memory s src /\ s_size src = s_size (p_slot p).

(** No phi's operand is a phi copied before it, and the phis have slots of
    their own. *)
Fixpoint no_interference (current : Z) (preds : Z * Z) (uses : list (option phi)) : Prop :=
  match uses with
  | [] => True
  | None :: uses => no_interference current preds uses
  | Some p :: uses =>
      (forall q, In (Some q) uses -> apart (p_slot p) (p_slot q)) /\
      (operand_of current preds p <> None ->
       forall q src, In (Some q) uses -> operand_of current preds q = Some src -> apart (p_slot p) src) /\
      no_interference current preds uses
  end.
