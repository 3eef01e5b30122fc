(** Copies between slots, objects and the stack. *)
From Verif Require Import Base Bytes Common Arch X86 Codegen AsmSpec X86Proofs X86Preserve CodegenProofs Frame FrameSpec FrameProofs SysV Passing PassingSpec.
Ltac Zify.zify_post_hook ::= idtac.

(** Byte [k] of a word. *)
Definition byte_of (v k : Z) : Z := (v / 256 ^ k) mod 256.

Lemma exec_lea F s off base r a : gpr s base + off = a -> 0 <= a < 2 ^ 64 ->
  exec F (I2 (Lea W8) (MEM off base) (R8 r)) s = Ok (set_gpr s r a).
Proof.
  intros E R. cbn [exec is_mem wr reg_of]. change (bits W8) with 64. rewrite E, wrap_small by exact R. reflexivity.
Qed.

(** [n] bytes are copied from [src] to [dst] and nothing else of note
    happens. *)
Definition copied (s s' : machine) (src dst n : Z) : Prop :=
  (forall x, mem s' x = if (dst <=? x) && (x <? dst + n) then mem s (x - dst + src) else mem s x) /\
  gpr s' RBP = gpr s RBP /\ gpr s' RSP = gpr s RSP /\ machine_ok s'.

Definition apart (a n b m : Z) : Prop := a + n <= b \/ b + m <= a.

Lemma memcpy_copied F s src dst n :
  machine_ok s -> gpr s RDI = src -> gpr s RSI = dst -> 0 <= n -> src + n <= 2 ^ 64 -> dst + n <= 2 ^ 64 ->
  apart src n dst n ->
  exists s', exec_all F (codegen_memcpy n) s = Ok s' /\ copied s s' src dst n.
Proof.
  intros M ES ED N HS HD A. unfold codegen_memcpy.
  destruct (memcpy_loop_ok F (Z.to_nat n) n 0 s src dst) as (s' & E & ME & GE & M'); auto; try lia.
  - subst src. apply (proj1 M).
  - subst dst. apply (proj1 M).
  - unfold apart in A. tauto.
  - exists s'. split; [exact E|]. split.
    + intros x. rewrite ME. rewrite Z.add_0_r. reflexivity.
    + split; [apply GE; discriminate|]. split; [apply GE; discriminate|exact M'].
Qed.

(** An address node: eight bytes, in memory, holding [a]. *)
Lemma address_to_reg F s p a r code : machine_ok s -> holds_address s p a -> scalar_to_reg p r = Ok code ->
  exec_all F code s = Ok (set_gpr s r a) /\ 0 <= a < 2 ^ 64.
Proof.
  intros M (S8 & IM & <-) E.
  destruct (scalar_to_reg_ok F s p r [] M IM) as (code' & E' & X).
  - unfold scalar_size. rewrite S8. cbn; tauto.
  - rewrite E in E'. injection E' as <-. rewrite app_nil_r in X. split; [exact X|].
    pose proof (load_range (mem s) (slot_address s p) (Z.to_nat (s_size p)) (proj2 (proj2 M))) as R.
    rewrite S8 in R. unfold slot_bits. rewrite S8. exact R.
Qed.

Lemma load_part_copied F s p v off a code :
  machine_ok s -> holds_address s p a -> in_memory s v -> 0 <= s_size v -> 0 <= off -> a + off + s_size v <= 2 ^ 64 ->
  a + off < 2 ^ 64 -> slot_address s v < 2 ^ 64 ->
  apart (a + off) (s_size v) (slot_address s v) (s_size v) ->
  codegen_load_part p v off = Ok code ->
  exists s', exec_all F code s = Ok s' /\ copied s s' (a + off) (slot_address s v) (s_size v).
Proof.
  intros M HA IM N O R1 R2 R3 AP. unfold codegen_load_part. intros E. apply bind_ok in E.
  destruct E as (lp & EL & E). injection E as <-.
  destruct (address_to_reg F s p a RDI lp M HA EL) as (X & AR).
  rewrite exec_all_app, X. cbn [bind app exec_all].
  assert (M1 := machine_gpr s RDI a M AR).
  rewrite (exec_lea F _ off RDI RDI (a + off)) by (rewrite ?gpr_same; lia). cbn [bind].
  set (s2 := set_gpr _ RDI (a + off)).
  assert (M2 : machine_ok s2) by (apply machine_gpr; [exact M1|lia]).
  assert (B2 : gpr s2 RBP = gpr s RBP) by (unfold s2; rewrite !gpr_other by discriminate; reflexivity).
  unfold in_memory in IM.
  rewrite (exec_lea F s2 (- s_loc v) RBP RSI (slot_address s v)) by (unfold slot_address in *; lia). cbn [bind].
  set (s3 := set_gpr s2 RSI _).
  assert (M3 : machine_ok s3) by (apply machine_gpr; [exact M2|lia]).
  destruct (memcpy_copied F s3 (a + off) (slot_address s v) (s_size v)) as (s' & X' & C); auto; try lia.
  exists s'. split; [exact X'|]. destruct C as (C1 & C2 & C3 & C4). split; [exact C1|].
  split; [rewrite C2; unfold s3; rewrite gpr_other by discriminate; exact B2|].
  split; [rewrite C3; unfold s3, s2; rewrite !gpr_other by discriminate; reflexivity|exact C4].
Qed.

Lemma store_part_copied F s p v off a code :
  machine_ok s -> holds_address s p a -> in_memory s v -> 0 <= s_size v -> 0 <= off -> a + off + s_size v <= 2 ^ 64 ->
  a + off < 2 ^ 64 -> slot_address s v < 2 ^ 64 ->
  apart (a + off) (s_size v) (slot_address s v) (s_size v) ->
  codegen_store_part p v off = Ok code ->
  exists s', exec_all F code s = Ok s' /\ copied s s' (slot_address s v) (a + off) (s_size v).
Proof.
  intros M HA IM N O R1 R2 R3 AP. unfold codegen_store_part. intros E. apply bind_ok in E.
  destruct E as (lp & EL & E). injection E as <-.
  destruct (address_to_reg F s p a RSI lp M HA EL) as (X & AR).
  rewrite exec_all_app, X. cbn [bind app exec_all].
  assert (M1 := machine_gpr s RSI a M AR).
  rewrite (exec_lea F _ off RSI RSI (a + off)) by (rewrite ?gpr_same; lia). cbn [bind].
  set (s2 := set_gpr _ RSI (a + off)).
  assert (M2 : machine_ok s2) by (apply machine_gpr; [exact M1|lia]).
  assert (B2 : gpr s2 RBP = gpr s RBP) by (unfold s2; rewrite !gpr_other by discriminate; reflexivity).
  unfold in_memory in IM.
  rewrite (exec_lea F s2 (- s_loc v) RBP RDI (slot_address s v)) by (unfold slot_address in *; lia). cbn [bind].
  set (s3 := set_gpr s2 RDI _).
  assert (M3 : machine_ok s3) by (apply machine_gpr; [exact M2|lia]).
  destruct (memcpy_copied F s3 (slot_address s v) (a + off) (s_size v)) as (s' & X' & C); auto; try lia.
  { unfold apart in *. lia. }
  exists s'. split; [exact X'|]. destruct C as (C1 & C2 & C3 & C4). split; [exact C1|].
  split; [rewrite C2; unfold s3; rewrite gpr_other by discriminate; exact B2|].
  split; [rewrite C3; unfold s3, s2; rewrite !gpr_other by discriminate; reflexivity|exact C4].
Qed.

Lemma store_stack_copied F s p off size a code :
  machine_ok s -> holds_address s p a -> 0 <= size -> 0 <= off -> a + size <= 2 ^ 64 ->
  gpr s RSP + off + size <= 2 ^ 64 -> gpr s RSP + off < 2 ^ 64 ->
  apart a size (gpr s RSP + off) size ->
  codegen_store_stack p off size = Ok code ->
  exists s', exec_all F code s = Ok s' /\ copied s s' a (gpr s RSP + off) size.
Proof.
  intros M HA N O R1 R2 R3 AP. unfold codegen_store_stack. intros E. apply bind_ok in E.
  destruct E as (lp & EL & E). injection E as <-.
  pose proof (proj1 M RSP) as GS. cbn [app exec_all].
  rewrite (exec_lea F s off RSP RSI (gpr s RSP + off)) by lia. cbn [bind].
  set (s1 := set_gpr s RSI _). assert (M1 : machine_ok s1) by (apply machine_gpr; [exact M|lia]).
  destruct (address_to_reg F s1 p a RDI lp M1) as (X & AR); [|exact EL|].
  { destruct HA as (A1 & A2 & A3). split; [exact A1|]. split; [exact A2|exact A3]. }
  rewrite exec_all_app, X. cbn [bind].
  set (s3 := set_gpr s1 RDI a). assert (M3 : machine_ok s3) by (apply machine_gpr; [exact M1|lia]).
  destruct (memcpy_copied F s3 a (gpr s RSP + off) size) as (s' & X' & C); auto; try lia.
  exists s'. split; [exact X'|]. destruct C as (C1 & C2 & C3 & C4). split; [exact C1|].
  split; [rewrite C2; unfold s3, s1; rewrite !gpr_other by discriminate; reflexivity|].
  split; [rewrite C3; unfold s3, s1; rewrite !gpr_other by discriminate; reflexivity|exact C4].
Qed.

Lemma load_base_copied F s p off size a code :
  machine_ok s -> holds_address s p a -> 0 <= size -> 0 <= off -> a + size <= 2 ^ 64 ->
  gpr s RBP + off + size <= 2 ^ 64 -> gpr s RBP + off < 2 ^ 64 ->
  apart a size (gpr s RBP + off) size ->
  codegen_load_base p off size = Ok code ->
  exists s', exec_all F code s = Ok s' /\ copied s s' (gpr s RBP + off) a size.
Proof.
  intros M HA N O R1 R2 R3 AP. unfold codegen_load_base. intros E. apply bind_ok in E.
  destruct E as (lp & EL & E). injection E as <-.
  pose proof (proj1 M RBP) as GS. cbn [app exec_all].
  rewrite (exec_lea F s off RBP RDI (gpr s RBP + off)) by lia. cbn [bind].
  set (s1 := set_gpr s RDI _). assert (M1 : machine_ok s1) by (apply machine_gpr; [exact M|lia]).
  destruct (address_to_reg F s1 p a RSI lp M1) as (X & AR); [|exact EL|].
  { destruct HA as (A1 & A2 & A3). split; [exact A1|]. split; [exact A2|exact A3]. }
  rewrite exec_all_app, X. cbn [bind].
  set (s3 := set_gpr s1 RSI a). assert (M3 : machine_ok s3) by (apply machine_gpr; [exact M1|lia]).
  destruct (memcpy_copied F s3 (gpr s RBP + off) a size) as (s' & X' & C); auto; try lia.
  { unfold apart in *. lia. }
  exists s'. split; [exact X'|]. destruct C as (C1 & C2 & C3 & C4). split; [exact C1|].
  split; [rewrite C2; unfold s3, s1; rewrite !gpr_other by discriminate; reflexivity|].
  split; [rewrite C3; unfold s3, s1; rewrite !gpr_other by discriminate; reflexivity|exact C4].
Qed.

(** ** Sequences of copies *)
Section Copies.
  Variable F : fpu.
  Variables (bp sp : Z) (m0 : Z -> Z).
  (** The addresses that may be written. *)
  Variable W : Z -> Prop.

  (** Everything that may not be written is as in [m0]. *)
  Definition stable (st : machine) : Prop :=
    machine_ok st /\ gpr st RBP = bp /\ gpr st RSP = sp /\ forall x, ~ W x -> mem st x = m0 x.

  Definition performs (code : list instr) (t : Z * Z * Z) : Prop :=
    let '(src, dst, n) := t in
    (forall x, dst <= x < dst + n -> W x) /\ (forall x, src <= x < src + n -> ~ W x) /\
    forall st, stable st -> exists st', exec_all F code st = Ok st' /\ copied st st' src dst n.

  Definition within (t : Z * Z * Z) (x : Z) : Prop := let '(_, dst, n) := t in dst <= x < dst + n.

  Lemma copies_ok codes l :
    Forall2 performs codes l ->
    ForallOrdPairs (fun t u => forall x, within t x -> within u x -> False) l ->
    forall st, stable st -> exists st', exec_all F (concat codes) st = Ok st' /\ stable st' /\
      (forall src dst n k, In (src, dst, n) l -> 0 <= k < n -> mem st' (dst + k) = m0 (src + k)) /\
      (forall x, (forall t, In t l -> ~ within t x) -> mem st' x = mem st x).
  Proof.
    induction 1 as [|code t codes l P _ IH]; intros OP st S0; cbn [concat].
    - exists st. split; [reflexivity|]. split; [exact S0|]. split; [intros ? ? ? ? []|reflexivity].
    - inversion OP as [|? ? HD TL]; subst. destruct t as [[src dst] n]. destruct P as (PW & PN & PX).
      destruct (PX st S0) as (st1 & X1 & C1 & CB & CS & M1). destruct S0 as (M & B & SP & K).
      assert (S1 : stable st1).
      { split; [exact M1|]. split; [congruence|]. split; [congruence|]. intros x NW. rewrite C1.
        destruct (Z.leb_spec dst x) as [L|L]; [|cbn [andb]; auto].
        destruct (Z.ltb_spec x (dst + n)) as [U|U]; [|cbn [andb]; auto].
        destruct NW. apply PW. lia. }
      destruct (IH TL st1 S1) as (st' & X' & S' & R & KP).
      exists st'. split; [rewrite exec_all_app, X1; exact X'|]. split; [exact S'|]. split.
      + intros src' dst' n' k [E|I] KR.
        * injection E as <- <- <-. rewrite KP.
          2: { intros t I W2. rewrite Forall_forall in HD. apply (HD t I (dst + k)); [cbn [within]; lia|exact W2]. }
          rewrite C1. destruct (Z.leb_spec dst (dst + k)); [|lia]. destruct (Z.ltb_spec (dst + k) (dst + n)); [|lia].
          cbn [andb]. replace (dst + k - dst + src) with (src + k) by lia. apply K. apply PN. lia.
        * apply (R src' dst' n' k I KR).
      + intros x NX. rewrite KP by (intros t I; apply NX; right; exact I). rewrite C1.
        assert (NW := NX _ (or_introl eq_refl)). cbn [within] in NW.
        destruct (Z.leb_spec dst x) as [L|L]; [|reflexivity].
        destruct (Z.ltb_spec x (dst + n)) as [U|U]; [|reflexivity]. lia.
  Qed.
End Copies.
