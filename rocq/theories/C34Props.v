(** C34: emitted block copies and clears touch exactly the bytes asked for. *)
From Verif Require Import Base Bytes X86 Codegen AsmSpec X86Proofs CodegenProofs.

(** Clearing [n] bytes at the address in rdi: every byte of [rdi, rdi + n)
    becomes 0, no other byte and no register changes. *)
Theorem C34_clear : forall F n s,
  machine_ok s -> 0 <= n -> gpr s RDI + n <= 2 ^ 64 ->
  exists s', exec_all F (codegen_memzero n) s = Ok s' /\
    (forall i, 0 <= i < n -> mem s' (gpr s RDI + i) = 0) /\
    only_changes s s' (gpr s RDI) n /\ (forall r, gpr s' r = gpr s r).
Proof.
  intros F n s (G & X & M) N H. unfold codegen_memzero.
  destruct (memzero_loop_ok F (Z.to_nat n) n 0 s (gpr s RDI)) as (s' & E & ME & GE); auto; try lia; try apply G.
  exists s'. split; [exact E|]. rewrite Z.add_0_r in ME. split; [|split; [|exact GE]].
  - intros i I. rewrite ME. destruct (Z.leb_spec (gpr s RDI) (gpr s RDI + i)); [|lia].
    destruct (Z.ltb_spec (gpr s RDI + i) (gpr s RDI + n)); [reflexivity|lia].
  - intros x XO. rewrite ME. destruct (Z.leb_spec (gpr s RDI) x); [|reflexivity].
    destruct (Z.ltb_spec x (gpr s RDI + n)); [lia|reflexivity].
Qed.
Print Assumptions C34_clear.

(** Copying [n] bytes from the address in rdi to the address in rsi, the two
    blocks disjoint or identical: the destination gets the bytes the source
    had, no other byte changes, and only the scratch register rax does. *)
Theorem C34_copy : forall F n s,
  machine_ok s -> 0 <= n -> gpr s RDI + n <= 2 ^ 64 -> gpr s RSI + n <= 2 ^ 64 ->
  gpr s RDI + n <= gpr s RSI \/ gpr s RSI + n <= gpr s RDI \/ gpr s RDI = gpr s RSI ->
  exists s', exec_all F (codegen_memcpy n) s = Ok s' /\
    (forall i, 0 <= i < n -> mem s' (gpr s RSI + i) = mem s (gpr s RDI + i)) /\
    only_changes s s' (gpr s RSI) n /\ (forall r, r <> RAX -> gpr s' r = gpr s r).
Proof.
  intros F n s OK N H1 H2 D. pose proof OK as (G & X & M). unfold codegen_memcpy.
  destruct (memcpy_loop_ok F (Z.to_nat n) n 0 s (gpr s RDI) (gpr s RSI)) as (s' & E & ME & GE & _);
    auto; try lia; try apply G.
  exists s'. split; [exact E|]. rewrite Z.add_0_r in ME. split; [|split; [|exact GE]].
  - intros i I. rewrite ME. destruct (Z.leb_spec (gpr s RSI) (gpr s RSI + i)); [|lia].
    destruct (Z.ltb_spec (gpr s RSI + i) (gpr s RSI + n)); [cbn [andb]; f_equal; lia|lia].
  - intros x XO. rewrite ME. destruct (Z.leb_spec (gpr s RSI) x); [|reflexivity].
    destruct (Z.ltb_spec x (gpr s RSI + n)); [lia|reflexivity].
Qed.
Print Assumptions C34_copy.

Lemma set_gpr_ok s r v : machine_ok s -> 0 <= v < 2 ^ 64 -> machine_ok (set_gpr s r v).
Proof.
  intros (G & X & M) V. split; [|split; auto]. intros q.
  destruct (reg_eqb_spec q r) as [->|Q]; [rewrite gpr_same|rewrite gpr_other by auto]; auto.
Qed.

Lemma slot_bits_range s sc : machine_ok s -> 0 <= s_size sc <= 8 -> 0 <= slot_bits s sc < 2 ^ 64.
Proof.
  intros (G & X & M) S. pose proof (load_range (mem s) (slot_address s sc) (Z.to_nat (s_size sc)) M) as R.
  split; [apply R|]. eapply Z.lt_le_trans; [apply R|]. apply pow_small. lia.
Qed.

(** The code for a store through a pointer writes exactly the bytes of the
    value to the object pointed to. *)
Theorem C34_store : forall F s p v,
  machine_ok s -> in_memory s p -> in_memory s v -> s_size p = 8 -> 0 <= s_size v ->
  let a := slot_bits s p in
  a + s_size v <= 2 ^ 64 ->
  a + s_size v <= slot_address s v \/ slot_address s v + s_size v <= a \/ a = slot_address s v ->
  exists code s', codegen_store p v = Ok code /\ exec_all F code s = Ok s' /\
    (forall i, 0 <= i < s_size v -> mem s' (a + i) = mem s (slot_address s v + i)) /\
    only_changes s s' a (s_size v) /\ keeps_frame s s'.
Proof.
  intros F s p v OK IP IV SP SV a H D.
  assert (AR : 0 <= a < 2 ^ 64) by (apply slot_bits_range; auto; lia).
  unfold codegen_store.
  destruct (scalar_to_reg_ok F s p RSI ([I2 (Lea W8) (MEM (- s_loc v) RBP) (R8 RDI)] ++ codegen_memcpy (s_size v)))
    as (lp & EP & EX); auto.
  { unfold scalar_size. rewrite SP. simpl. tauto. }
  rewrite EP. cbn [bind]. eexists. fold a in EX.
  set (s1 := set_gpr s RSI a) in *.
  assert (OK1 : machine_ok s1) by (apply set_gpr_ok; auto).
  destruct IV as [V0 VH]. unfold slot_address in V0, VH.
  assert (VA : 0 <= slot_address s v < 2 ^ 64 \/ s_size v = 0) by (unfold slot_address; lia).
  set (sa := wrap 64 (slot_address s v)).
  set (s2 := set_gpr s1 RDI sa).
  assert (OK2 : machine_ok s2).
  { apply set_gpr_ok; auto. apply Z.mod_pos_bound. reflexivity. }
  assert (EL : exec F (I2 (Lea W8) (MEM (- s_loc v) RBP) (R8 RDI)) s1 = Ok s2).
  { cbn [exec is_mem wr reg_of]. unfold s2, sa, slot_address. do 3 f_equal. }
  destruct VA as [VA|Z0].
  - assert (SA : sa = slot_address s v) by (apply wrap_small; exact VA).
    destruct (C34_copy F (s_size v) s2) as (s' & E' & C' & O' & G'); auto.
    + change (gpr s2 RDI) with sa. rewrite SA. unfold slot_address in *; lia.
    + change (gpr s2 RDI) with sa. change (gpr s2 RSI) with a. rewrite SA. lia.
    + change (gpr s2 RDI) with sa in *. change (gpr s2 RSI) with a in *. rewrite SA in *.
      exists s'. split; [reflexivity|]. split.
      * rewrite EX. cbn [app exec_all]. rewrite EL. exact E'.
      * split; [exact C'|]. split; [exact O'|]. split; apply G'; discriminate.
  - exists s2. split; [reflexivity|]. split.
    + rewrite EX. cbn [app exec_all]. rewrite EL. rewrite Z0. reflexivity.
    + split; [lia|]. split; [intros x _; reflexivity|split; reflexivity].
Qed.
Print Assumptions C34_store.

(** The code for a load through a pointer gives the slot of the value exactly
    the bytes of the object. *)
Theorem C34_load : forall F s p v,
  machine_ok s -> in_memory s p -> in_memory s v -> s_size p = 8 -> 0 < s_size v ->
  let a := slot_bits s p in
  a + s_size v <= 2 ^ 64 ->
  a + s_size v <= slot_address s v \/ slot_address s v + s_size v <= a \/ a = slot_address s v ->
  exists code s', codegen_load p v = Ok code /\ exec_all F code s = Ok s' /\
    (forall i, 0 <= i < s_size v -> mem s' (slot_address s v + i) = mem s (a + i)) /\
    only_changes s s' (slot_address s v) (s_size v) /\ keeps_frame s s'.
Proof.
  intros F s p v OK IP IV SP SV a H D.
  assert (AR : 0 <= a < 2 ^ 64) by (apply slot_bits_range; auto; lia).
  unfold codegen_load.
  destruct (scalar_to_reg_ok F s p RDI ([I2 (Lea W8) (MEM (- s_loc v) RBP) (R8 RSI)] ++ codegen_memcpy (s_size v)))
    as (lp & EP & EX); auto.
  { unfold scalar_size. rewrite SP. simpl. tauto. }
  rewrite EP. cbn [bind]. eexists. fold a in EX.
  set (s1 := set_gpr s RDI a) in *.
  assert (OK1 : machine_ok s1) by (apply set_gpr_ok; auto).
  destruct IV as [V0 VH].
  set (sa := wrap 64 (slot_address s v)).
  set (s2 := set_gpr s1 RSI sa).
  assert (SA : sa = slot_address s v) by (apply wrap_small; lia).
  assert (OK2 : machine_ok s2).
  { apply set_gpr_ok; auto. rewrite SA. lia. }
  assert (EL : exec F (I2 (Lea W8) (MEM (- s_loc v) RBP) (R8 RSI)) s1 = Ok s2).
  { cbn [exec is_mem wr reg_of]. unfold s2, sa, slot_address. do 3 f_equal. }
  destruct (C34_copy F (s_size v) s2) as (s' & E' & C' & O' & G'); auto; try lia.
  - change (gpr s2 RSI) with sa. lia.
  - change (gpr s2 RDI) with a. change (gpr s2 RSI) with sa. lia.
  - change (gpr s2 RDI) with a in *. change (gpr s2 RSI) with sa in *. rewrite SA in *.
    exists s'. split; [reflexivity|]. split.
    + rewrite EX. cbn [app exec_all]. rewrite EL. exact E'.
    + split; [exact C'|]. split; [exact O'|]. split; apply G'; discriminate.
Qed.
Print Assumptions C34_load.

(** The code that copies an object of [n] bytes between two addresses gives the
    destination exactly the bytes of the source. *)
Theorem C34_copy_object : forall F s p q n,
  machine_ok s -> in_memory s p -> in_memory s q -> s_size p = 8 -> s_size q = 8 -> 0 <= n ->
  let to := slot_bits s p in
  let from := slot_bits s q in
  to + n <= 2 ^ 64 -> from + n <= 2 ^ 64 ->
  to + n <= from \/ from + n <= to \/ to = from ->
  exists code s', codegen_copy_memory p q n = Ok code /\ exec_all F code s = Ok s' /\
    (forall i, 0 <= i < n -> mem s' (to + i) = mem s (from + i)) /\
    only_changes s s' to n /\ keeps_frame s s'.
Proof.
  intros F s p q n OK IP IQ SP SQ N to from HT HF D.
  assert (TR : 0 <= to < 2 ^ 64) by (apply slot_bits_range; auto; lia).
  assert (FR : 0 <= from < 2 ^ 64) by (apply slot_bits_range; auto; lia).
  unfold codegen_copy_memory.
  set (s1 := set_gpr s RSI to).
  assert (OK1 : machine_ok s1) by (apply set_gpr_ok; auto).
  destruct (scalar_to_reg_ok F s1 q RDI (codegen_memcpy n)) as (lq & EQ & EX2); auto.
  { unfold scalar_size. rewrite SQ. simpl. tauto. }
  destruct (scalar_to_reg_ok F s p RSI (lq ++ codegen_memcpy n)) as (lp & EP & EX1); auto.
  { unfold scalar_size. rewrite SP. simpl. tauto. }
  rewrite EP, EQ. cbn [bind]. change (slot_bits s1 q) with from in EX2. fold to in EX1. fold s1 in EX1.
  set (s2 := set_gpr s1 RDI from) in *.
  destruct (C34_copy F n s2) as (s' & E' & C' & O' & G').
  - apply set_gpr_ok; auto.
  - exact N.
  - exact HF.
  - exact HT.
  - change (from + n <= to \/ to + n <= from \/ from = to). lia.
  - exists (lp ++ lq ++ codegen_memcpy n), s'. split; [reflexivity|]. split; [rewrite EX1, EX2; exact E'|].
    split; [exact C'|]. split; [exact O'|]. split; apply G'; discriminate.
Qed.
Print Assumptions C34_copy_object.

(** The code that clears an object through its address. *)
Theorem C34_clear_object : forall F s p n,
  machine_ok s -> in_memory s p -> s_size p = 8 -> 0 <= n ->
  let a := slot_bits s p in
  a + n <= 2 ^ 64 ->
  exists code s', codegen_set_zero_ptr p n = Ok code /\ exec_all F code s = Ok s' /\
    (forall i, 0 <= i < n -> mem s' (a + i) = 0) /\ only_changes s s' a n /\ keeps_frame s s'.
Proof.
  intros F s p n OK IP SP N a H.
  assert (AR : 0 <= a < 2 ^ 64) by (apply slot_bits_range; auto; lia).
  unfold codegen_set_zero_ptr.
  destruct (scalar_to_reg_ok F s p RDI (codegen_memzero n)) as (lp & EP & EX); auto.
  { unfold scalar_size. rewrite SP. simpl. tauto. }
  rewrite EP. cbn [bind]. fold a in EX.
  destruct (C34_clear F n (set_gpr s RDI a)) as (s' & E' & C' & O' & G').
  - apply set_gpr_ok; auto.
  - exact N.
  - exact H.
  - exists (lp ++ codegen_memzero n), s'. split; [reflexivity|]. split; [rewrite EX; exact E'|].
    split; [exact C'|]. split; [exact O'|]. split; apply G'.
Qed.
Print Assumptions C34_clear_object.

(** Thirteen bytes are copied as 8 + 4 + 1, and a machine meets the premises. *)
Definition no_fpu : fpu :=
  {| fpu_arith32 := fun _ _ _ => 0; fpu_arith64 := fun _ _ _ => 0; fpu_int_to_32 := fun _ => 0;
     fpu_int_to_64 := fun _ => 0; fpu_32_to_int := fun _ => 0; fpu_64_to_int := fun _ => 0;
     fpu_32_to_64 := fun _ => 0; fpu_64_to_32 := fun _ => 0 |}.
Definition sample : machine :=
  {| gpr := fun r => match r with RDI => 4096 | RSI => 8192 | RBP => 16384 | RSP => 12288 | _ => 0 end;
     xmm := fun _ => 0; flag := None; mem := fun a => a mod 256 |}.

Lemma sample_ok : machine_ok sample.
Proof.
  split; [|split].
  - intros []; cbn; lia.
  - intros x; cbn; lia.
  - intros x. cbn [sample mem]. apply Z.mod_pos_bound. lia.
Qed.

Example C34_example :
  length (codegen_memcpy 13) = 6%nat /\ length (codegen_memzero 13) = 3%nat /\
  machine_ok sample /\ gpr sample RDI + 13 <= gpr sample RSI /\
  match exec_all no_fpu (codegen_memcpy 13) (set_mem sample (fun a => if a <? 8192 then 7 else 9)) with
  | Ok s' => mem s' (8192 - 1) = 7 /\ mem s' 8192 = 7 /\ mem s' (8192 + 12) = 7 /\ mem s' (8192 + 13) = 9
  | _ => False
  end.
Proof.
  split; [reflexivity|]. split; [reflexivity|]. split; [apply sample_ok|]. split; [cbn; lia|].
  vm_compute. repeat split.
Qed.

(** A copy whose blocks overlap is not a move: the premise is needed. *)
Example C34_overlap :
  let s := set_gpr sample RSI (4096 + 4) in
  match exec_all no_fpu (codegen_memcpy 12) s with
  | Ok s' => mem s' (4100 + 8) <> mem s (4096 + 8)
  | _ => False
  end.
Proof.
  vm_compute. congruence.
Qed.
