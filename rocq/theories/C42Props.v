(** C42: the bytes emitted for an instruction are that instruction. *)
From Coq Require Import String.
From Verif Require Import Base CharTypes X86 Object Encode EncodeSpec BytesSpec EncodeRows EncodeRight EncodeForms EncodeMain.
Local Open Scope Z_scope.
Local Open Scope list_scope.

Lemma plain_filter ops : forallb plain_operand ops = true -> filter (fun o => negb (is_empty o)) ops = ops.
Proof.
  induction ops as [|o ops IH]; [reflexivity|]. cbn. intros H. apply andb_prop in H. destruct H as [A B].
  rewrite (plain_not_empty _ A). cbn. rewrite IH by exact B. reflexivity.
Qed.

Lemma choice (r : res (option (list Z * list ins_reloc))) qs :
  bind r (fun r => match r with
    | None => Fail
    | Some (out, relocs) => bind (relocation_requests (Z.of_nat (length out)) relocs) (fun qs => Ok (qs ++ [Write out]))
    end) = Ok qs ->
  exists out relocs rs, r = Ok (Some (out, relocs)) /\ relocation_requests (Z.of_nat (length out)) relocs = Ok rs /\ qs = rs ++ [Write out].
Proof.
  destruct r as [[[out relocs]|]| |]; cbn [bind]; try discriminate.
  destruct (relocation_requests (Z.of_nat (length out)) relocs) as [rs| |] eqn:Er; cbn [bind]; try discriminate.
  intros H. exists out, relocs, rs. split; [reflexivity|]. split; [exact Er|congruence].
Qed.

Lemma asm_choice mn ops qs : asm_ins mn ops = Ok qs ->
  exists out relocs rs, assemble_instruction mn (filter (fun o => negb (is_empty o)) (rev (firstn 4 ops))) = Ok (Some (out, relocs)) /\
    relocation_requests (Z.of_nat (length out)) relocs = Ok rs /\ qs = rs ++ [Write out].
Proof. unfold asm_ins. cbv zeta. apply choice. Qed.
Lemma row_choice mn os out relocs : assemble_instruction mn os = Ok (Some (out, relocs)) ->
  exists e, In e encodings /\ e_mnemonic e = mn /\ all_match 4 os (e_accepts e) = true /\ assemble_encoding e os = Ok (out, relocs).
Proof.
  unfold assemble_instruction. intros E.
  destruct (rows_choose mn os encodings None _ E) as [N|(e & r & I & Em & Ma & Ea & Eo)]; [discriminate|].
  injection Eo as <-. exists e. auto.
Qed.

(** Whatever the instruction asked for, assembling it does nothing undefined:
    it gives bytes, or the compiler stops with an error. *)
Theorem C42_defined : forall mnemonic ops, asm_ins mnemonic ops <> Undef.
Proof.
  intros mn ops. unfold asm_ins. cbv zeta. unfold assemble_instruction.
  set (os := filter _ _). pose proof (rows_defined mn os encodings (fun e I => I) None) as D.
  destruct (assemble_rows encodings mn os None) as [[[out relocs]|]| |]; cbn [bind]; try congruence.
  assert (R : forall n l, relocation_requests n l <> Undef).
  { intros n. induction l as [|r l IH]; cbn [relocation_requests]; [discriminate|].
    unfold relocation_request. destruct (ir_size r =? 8); [destruct (ir_relative r)|destruct (ir_size r =? 4); [destruct (ir_relative r)|]];
      cbn [bind]; try discriminate; destruct (relocation_requests n l); cbn [bind]; congruence. }
  specialize (R (Z.of_nat (length out)) relocs).
  destruct (relocation_requests (Z.of_nat (length out)) relocs); cbn [bind]; congruence.
Qed.
Print Assumptions C42_defined.

(** C42, for the instructions of [encodable]: whenever the assembler takes an
    instruction (its operands given source first), it asks for relocations
    and one write of at most 15 bytes. Loaded at any address, with the
    relocated fields filled in for any addresses of the labels and followed
    by any bytes, those bytes are decoded as the instruction written: same
    name, same operands in order, and what follows is left over. *)
Theorem C42_instruction_partial : forall sym at_ mnemonic ops qs,
  (length ops <= 4)%nat -> asm_ins mnemonic ops = Ok qs -> encodable mnemonic (rev ops) = true -> fits sym mnemonic ops ->
  exists relocations out, qs = relocations ++ [Write out] /\ (length out <= 15)%nat /\
    length (linked sym at_ qs out) = length out /\
    forall tail, exists name ds,
      decode (linked sym at_ qs out ++ tail) = Some (name, ds, tail) /\ same_name mnemonic name /\
      Forall2 (denotes sym (at_ + Z.of_nat (length out))) (written (rev ops) mnemonic) ds.
Proof.
  intros sym at_ mn ops qs L4 H He Hf.
  destruct (asm_choice _ _ _ H) as (out & relocs & rs & E & Er & Q). clear H.
  rewrite firstn_all2 in E by exact L4.
  assert (P : forallb plain_operand (rev ops) = true).
  { unfold encodable in He. apply andb_prop in He. destruct He as [He _]. apply andb_prop in He. destruct He as [He _].
    apply andb_prop in He. apply He. }
  rewrite plain_filter in E by exact P.
  exists rs, out. split; [exact Q|].
  destruct (row_choice _ _ _ _ E) as (e & I & Em & Ma & Ea). subst mn qs.
  assert (Hf' : fits sym (e_mnemonic e) (rev ops)).
  { destruct Hf as [Hf|Hf]; [left; exact Hf|right]. intros lb v Il. apply Hf. apply in_rev. exact Il. }
  exact (row_right sym at_ e (rev ops) out relocs rs (row_of e _ _ I eq_refl Ma He) He Ma Hf' Ea Er).
Qed.
Print Assumptions C42_instruction_partial.

(** A sequence of instructions, assembled one after the other from address
    [at_] on, is decoded as that sequence. *)
Inductive laid_out (sym : list Z -> Z) : Z -> list (string * list aop) -> list Z -> Prop :=
| laid_nil at_ : laid_out sym at_ [] []
| laid_cons at_ mnemonic ops relocations out rest bytes :
    (length ops <= 4)%nat -> asm_ins mnemonic ops = Ok (relocations ++ [Write out]) ->
    encodable mnemonic (rev ops) = true -> fits sym mnemonic ops ->
    laid_out sym (at_ + Z.of_nat (length out)) rest bytes ->
    laid_out sym at_ ((mnemonic, ops) :: rest) (linked sym at_ (relocations ++ [Write out]) out ++ bytes).
(** What the processor reads from address [at_] on: one instruction after the other. *)
Inductive reads (sym : list Z -> Z) : Z -> list (string * list aop) -> list Z -> Prop :=
| reads_nil at_ tail : reads sym at_ [] tail
| reads_cons at_ mnemonic ops rest bytes name ds tail :
    decode bytes = Some (name, ds, tail) -> same_name mnemonic name ->
    Forall2 (denotes sym (at_ + (Z.of_nat (length bytes) - Z.of_nat (length tail)))) (written (rev ops) mnemonic) ds ->
    reads sym (at_ + (Z.of_nat (length bytes) - Z.of_nat (length tail))) rest tail ->
    reads sym at_ ((mnemonic, ops) :: rest) bytes.
Theorem C42_sequence_partial : forall sym at_ code bytes tail,
  laid_out sym at_ code bytes -> reads sym at_ code (bytes ++ tail).
Proof.
  intros sym at_ code bytes tail H. induction H as [at_|at_ mn ops rel out rest bytes L4 Ha He Hf Hl IH]; [constructor|].
  destruct (C42_instruction_partial sym at_ mn ops _ L4 Ha He Hf) as (r' & o' & E & _ & Len & D).
  apply app_inj_tail in E. destruct E as [-> E]. injection E as <-.
  destruct (D (bytes ++ tail)) as (name & ds & D1 & D2 & D3).
  rewrite <- app_assoc.
  assert (EL : Z.of_nat (length (linked sym at_ (r' ++ [Write out]) out ++ bytes ++ tail)) - Z.of_nat (length (bytes ++ tail)) = Z.of_nat (length out)).
  { rewrite app_length, Len. lia. }
  eapply reads_cons; [exact D1|exact D2| |]; rewrite EL; assumption.
Qed.
Print Assumptions C42_sequence_partial.

(** The hypotheses are met by instructions of every form. *)
Definition taken (mnemonic : string) (ops : list aop) : bool :=
  match asm_ins mnemonic ops with Ok qs => encodable mnemonic (rev ops) | _ => false end.
Example C42_taken : forallb (fun p => taken (fst p) (snd p))
  [("cqto", []); ("leave", []); ("ret", []); ("pushq", [AReg RBP false 8]); ("popq", [AReg RDI false 8]);
   ("movq", [AReg RSP false 8; AReg R_12 false 8]); ("movq", [AMem None (Some R_13) 1 (-8); AReg R_9 false 8]);
   ("movl", [AImm None 70000; AMem None (Some RBP) 1 (-4)]); ("addq", [AImm None (-1000000); AReg R_15 false 8]);
   ("imulq", [AImm None 24; AReg R_10 false 8]); ("movb", [AReg RSI false 1; AMem None (Some R_8) 1 0]);
   ("salq", [AReg RCX false 1; AReg RAX false 8]); ("jmp", [AAbs (Some (chars "loop")) 0]);
   ("movabsq", [AImm (Some (chars "table")) 8; AReg RAX false 8]); ("callq", [AStar RAX false 8]);
   ("leaq", [AMem None (Some RSP) 1 40; AReg R_11 false 8]); ("cvtsi2sd", [AReg R_14 false 8; ASse 3]);
   ("movsd", [AMem None (Some R_12) 1 200; ASse 15]); ("sete", [AReg RDI false 1])]%string = true.
Proof. vm_compute. reflexivity. Qed.

(** Registers 8 to 15 in the low bits of the opcode and, without REX.W, in the
    r/m field lose their fourth bit. *)
Definition high_regs : list reg := [R_8; R_9; R_10; R_11; R_12; R_13; R_14; R_15].
Lemma high_all (P : reg -> Prop) : P R_8 -> P R_9 -> P R_10 -> P R_11 -> P R_12 -> P R_13 -> P R_14 -> P R_15 ->
  forall r, In r high_regs -> P r.
Proof. intros. cbn in H7. intuition (subst; assumption). Qed.
(** The bytes written for an instruction without labels. *)
Definition bytes_of (mnemonic : string) (ops : list aop) : option (list Z) :=
  match asm_ins mnemonic ops with Ok [Write out] => Some out | _ => None end.
Definition decoded (mnemonic : string) (ops : list aop) : option (string * list dop) :=
  match bytes_of mnemonic ops with
  | Some out => match decode out with Some (n, ds, []) => Some (n, ds) | _ => None end
  | None => None
  end.
Theorem C42_push_refuted : forall r, In r high_regs ->
  decoded "pushq" [AReg r false 8] = Some ("popq"%string, [DReg 8 (number r - 8)]) /\
  decoded "popq" [AReg r false 8] = Some ("popq"%string, [DReg 8 (number r - 8)]) /\
  decoded "callq" [AStar r false 8] = Some ("callq"%string, [DReg 8 (number r - 8)]).
Proof. apply high_all; vm_compute; repeat split; reflexivity. Qed.
Print Assumptions C42_push_refuted.
Theorem C42_movabsq_refuted : forall r, In r high_regs ->
  decoded "movabsq" [AImm None 81985529216486895; AReg r false 8] =
    Some ("movabsq"%string, [DReg 8 (number r - 8); DImm 8 81985529216486895]).
Proof. apply high_all; vm_compute; reflexivity. Qed.
Print Assumptions C42_movabsq_refuted.
Theorem C42_movl_refuted : forall r, In r high_regs ->
  decoded "movl" [AReg RAX false 4; AReg r false 4] = Some ("movl"%string, [DReg 4 (number r - 8); DReg 4 0]) /\
  decoded "movl" [AImm None 1; AReg r false 4] = Some ("movl"%string, [DReg 4 (number r - 8); DImm 4 1]) /\
  decoded "addss" [ASse (number r); ASse 0] = Some ("addss"%string, [DXmm 0; DXmm (number r - 8)]).
Proof. apply high_all; vm_compute; repeat split; reflexivity. Qed.
Print Assumptions C42_movl_refuted.
(** addq of a constant to a 32-bit register is an 8-bit addition; the high
    byte registers become other registers' low bytes; leaq from a register is
    accepted but no instruction. *)
Theorem C42_others_refuted :
  decoded "addq" [AImm None 5; AReg RAX false 4] = Some ("addb"%string, [DReg 1 0; DImm 1 5]) /\
  decoded "movb" [AReg RBX true 1; AReg RAX false 1] = Some ("movb"%string, [DReg 1 0; DReg 1 3]) /\
  (exists out, bytes_of "leaq" [AReg RAX false 8; AReg RBX false 8] = Some out /\ decode out = None).
Proof.
  split; [vm_compute; reflexivity|]. split; [vm_compute; reflexivity|].
  exists [72; 141; 216]. split; vm_compute; reflexivity.
Qed.
Print Assumptions C42_others_refuted.

(** An address with base and index (the decoder above does not take those): the fields of the SIB byte and
    the bits of REX, read as table 2-3 and section 2.2.1 of the manual say, name the two registers, with scale 1. *)
Record sib_read := { s_base : Z; s_index : option Z; s_scale : Z }.
Definition read_sib (x : rex_bits) (s : Z) : sib_read :=
  let i := ext4 (X x) (mid3 s) in
  {| s_base := ext4 (B x) (lo3 s); s_index := if i =? 4 then None else Some i; s_scale := 2 ^ hi2 s |}.
Theorem C42_index_partial : forall i b offset m, encode_sib (Some i) (Some b) offset rm0 = Ok m ->
  signed 64 offset = 0 /\ modrm_mod m = 0 /\ modrm_rm m = 4 /\ has_sib m = true /\ has_disp8 m = false /\ has_disp32 m = false /\
  0 <= sib_index m < 8 /\ 0 <= sib_base m < 8 /\ sib_base m <> 5 /\
  read_sib {| W := true; R := false; X := rex_x m =? 1; B := rex_b m =? 1 |} (8 * sib_index m + sib_base m) =
    {| s_base := number b; s_index := Some (number i); s_scale := 1 |}.
Proof.
  intros i b offset m. unfold encode_sib, get_disp_size.
  destruct (Z.eqb_spec (signed 64 offset) 0) as [E|N].
  - cbn [bind]. intros H. split; [exact E|]. clear E.
    destruct i; try discriminate; destruct b; try discriminate; injection H as <-; vm_compute; repeat (split; [first [reflexivity|discriminate|split; [discriminate|reflexivity]]|]); reflexivity.
  - destruct (_ && _); [discriminate|]. destruct (_ && _); discriminate.
Qed.
Print Assumptions C42_index_partial.
Example C42_index_bytes : bytes_of "movq" [AMem (Some RSI) (Some R_9) 1 0; AReg RDX false 8] = Some [73; 139; 20; 49].
Proof. vm_compute. reflexivity. Qed.
(** But the fourth bit of the index is not written with the others: an index of r8 to r15 becomes rax to rdi, and r12 none. *)
Theorem C42_high_index_refuted :
  (forall i r, In (i, r) [(R_8, RAX); (R_9, RCX); (R_10, RDX); (R_11, RBX); (R_13, RBP); (R_14, RSI); (R_15, RDI)] ->
     bytes_of "movq" [AMem (Some i) (Some RAX) 1 0; AReg RDX false 8] = bytes_of "movq" [AMem (Some r) (Some RAX) 1 0; AReg RDX false 8] /\
     bytes_of "movq" [AMem (Some i) (Some RAX) 1 0; AReg RDX false 8] <> None) /\
  decoded "movq" [AMem (Some R_12) (Some RAX) 1 0; AReg RDX false 8] = Some ("movq"%string, [DReg 8 2; DMem 0 0]).
Proof.
  split; [|vm_compute; reflexivity].
  intros i r H. cbn [In] in H. repeat (destruct H as [H|H]; [injection H as <- <-; split; [vm_compute; reflexivity|vm_compute; discriminate]|]). destruct H.
Qed.
Print Assumptions C42_high_index_refuted.
(** The scale of an address is not encoded. *)
Theorem C42_scale_refuted : forall scale,
  bytes_of "movq" [AMem (Some RCX) (Some RAX) scale 0; AReg RDX false 8] = bytes_of "movq" [AMem (Some RCX) (Some RAX) 1 0; AReg RDX false 8] /\
  bytes_of "movq" [AMem (Some RCX) (Some RAX) 1 0; AReg RDX false 8] = Some [72; 139; 20; 8].
Proof. intros scale. split; vm_compute; reflexivity. Qed.
Print Assumptions C42_scale_refuted.
