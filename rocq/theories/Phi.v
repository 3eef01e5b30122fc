(** Model of the copies at the end of a block: codegen_phi_node,
    src/codegen/codegen.c:506-540. *)
From Verif Require Import Base Bytes X86 Codegen.

(** A use of the next block: [None] is a use that is not an IR_PHI; a phi has
    its own slot and the slots of its two operands, [None] for NULL
    (src/ir/ir.h, arguments[1] and arguments[2]). *)
Record phi := { p_slot : slot; p_args : option slot * option slot }.

(** One round of the loop :510-539. Blocks are numbered; [preds] are
    arguments[0] and arguments[1] of the region [next]. *)
Definition phi_copy (current : Z) (preds : Z * Z) (p : phi) : res (list instr) :=
  if s_size (p_slot p) =? 0 then Ok [] else
  let* source := if current =? fst preds then Ok (fst (p_args p))
                 else if current =? snd preds then Ok (snd (p_args p))
                 else Fail in
  match source with
  | None => Ok []
  | Some source =>
      let* la := scalar_to_reg source RAX in
      Ok (la ++ reg_to_scalar RAX (p_slot p))
  end.

(** The whole loop over next_block->uses. [region] tells whether next_block
    is an IR_REGION (:507-508). *)
Fixpoint phi_copies (current : Z) (preds : Z * Z) (uses : list (option phi)) : res (list instr) :=
  match uses with
  | [] => Ok []
  | None :: uses => phi_copies current preds uses
  | Some p :: uses =>
      let* l := phi_copy current preds p in
      let* rest := phi_copies current preds uses in
      Ok (l ++ rest)
  end.
Definition codegen_phi_node (region : bool) (current : Z) (preds : Z * Z) (uses : list (option phi)) : res (list instr) :=
  if region then phi_copies current preds uses else Ok [].
