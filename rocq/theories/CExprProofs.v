(** The code for a typed tree computes its value and effect. *)
From Verif Require Import Base Bytes Arch CTypesSpec ConstConv ConstFold ConstFoldSpec ConstFoldProofs
  X86 X86Proofs X86Preserve Codegen CodegenProofs AsmSpec OpSelect CastSelect C30Props C33Props C34Props
  CExprSpec CExpr CExprElab CExprMachine.

Local Notation m := SYSV.

Lemma separate_app W k l : separate W (k ++ l) ->
  separate W k /\ separate W l /\ forall a b, In a k -> In b l -> clear (slot_area W a) (slot_area W b).
Proof.
  induction k as [|a k IH]; cbn [app separate]; intros H.
  - split; [exact I|]. split; [exact H|]. intros a b [].
  - destruct H as [H1 H2]. destruct (IH H2) as (S1 & S2 & S3). split; [|split; [exact S2|]].
    + split; [|exact S1]. intros b B. apply H1, in_or_app. auto.
    + intros c b [<-|C] B; [apply H1, in_or_app; auto|auto].
Qed.
Lemma slots_app W k l : slots_ok W (k ++ l) -> slots_ok W k.
Proof.
  intros [S A]. destruct (separate_app W k l S) as (S1 & _). split; [exact S1|]. intros a I. apply A, in_or_app. auto.
Qed.

Section Machine.
Variables (F : fpu) (W : world).
Hypothesis WOK : world_ok W.

Definition keeps (K : list slot) (s s' : machine) : Prop := forall k, In k K -> slot_bits s' k = slot_bits s k.

Lemma slot_addr st s sl : represents W st s -> slot_address s sl = fst (slot_area W sl).
Proof. intros (_ & B & _). unfold slot_address. rewrite B. reflexivity. Qed.
Lemma slot_in_memory st s sl : represents W st s -> in_space (slot_area W sl) -> in_memory s sl.
Proof. intros R [I1 I2]. unfold in_memory. rewrite (slot_addr st s sl R). auto. Qed.

Lemma same_bits s s' sl lo n : gpr s' RBP = gpr s RBP -> gpr s RBP = w_rbp W -> 0 <= s_size sl ->
  clear (slot_area W sl) (lo, n) -> only_changes s s' lo n -> slot_bits s' sl = slot_bits s sl.
Proof.
  intros B BW SZ C O. unfold slot_bits. unfold slot_address. rewrite B, BW. apply load_ext. intros x X. apply O.
  unfold clear in C. cbn [fst snd slot_area] in C. lia.
Qed.
Lemma same_var s s' x lo n : w_used W x -> clear (var_area W x) (lo, n) -> only_changes s s' lo n ->
  load (mem s') (w_addr W x) (Z.to_nat (object_bytes m (w_type W x))) = load (mem s) (w_addr W x) (Z.to_nat (object_bytes m (w_type W x))).
Proof.
  intros U C O. apply load_ext. intros a A. apply O. unfold clear in C. cbn [fst snd var_area] in C.
  assert (0 <= object_bytes m (w_type W x)).
  { destruct WOK as [K _]. destruct (K x U) as (I & _). destruct (object_size m _ I) as [_ S].
    destruct S as [<-|[<-|[<-|[<-|[]]]]]; lia. }
  lia.
Qed.

Definition sizes_ok (K : list slot) : Prop := forall k, In k K -> 0 <= s_size k <= 8.

(** Code that writes one new slot. *)
Lemma slot_step st s s' K out code :
  represents W st s -> slots_ok W (K ++ [out]) -> sizes_ok (K ++ [out]) -> exec_all F code s = Ok s' ->
  only_changes s s' (slot_address s out) (s_size out) -> keeps_frame s s' ->
  represents W st s' /\ keeps K s s' /\ quiet W [out] s s'.
Proof.
  intros R SO SZ E O [B SP]. pose proof R as (OK & BW & V). rewrite (slot_addr st s out R) in O.
  destruct SO as [SEP AL]. destruct (separate_app W K [out] SEP) as (_ & _ & CR).
  split; [|split].
  - split; [eapply exec_all_preserves; eauto|]. split; [congruence|]. intros x U. destruct (V x U) as (V1 & V2 & V3).
    destruct (AL out ltac:(apply in_or_app; right; left; reflexivity)) as [_ A]. destruct (A x U) as [A1 A2].
    destruct WOK as [WK _]. destruct (WK x U) as (_ & S8 & _).
    split; [|split; [|exact V3]].
    + rewrite <- V1. apply (same_bits s s' _ (fst (slot_area W out)) (s_size out)); auto; [lia|].
      unfold clear in A2 |- *. cbn [fst snd] in *. tauto.
    + rewrite <- V2. apply (same_var s s' x (fst (slot_area W out)) (s_size out)); auto.
      unfold clear in A1 |- *. cbn [fst snd] in *. tauto.
  - intros k IK. apply (same_bits s s' k (fst (slot_area W out)) (s_size out)); [exact B|exact BW| | |exact O].
    + assert (0 <= s_size k <= 8) by (apply SZ, in_or_app; auto). lia.
    + apply (CR k out IK). left. reflexivity.
  - split; [exact B|]. split; [exact SP|]. intros a N _. apply O. apply (N out). left. reflexivity.
Qed.

(** Code that writes the object of one variable. *)
Lemma var_step st s s' K x v code :
  represents W st s -> w_used W x -> representable m (w_type W x) v -> slots_ok W K -> sizes_ok K -> exec_all F code s = Ok s' ->
  only_changes s s' (w_addr W x) (object_bytes m (w_type W x)) ->
  load (mem s') (w_addr W x) (Z.to_nat (object_bytes m (w_type W x))) = v mod 2 ^ (8 * object_bytes m (w_type W x)) ->
  keeps_frame s s' ->
  represents W (update st x v) s' /\ keeps K s s' /\ quiet W [] s s'.
Proof.
  intros R U RV SO SZ E O L [B SP]. pose proof R as (OK & BW & V).
  destruct WOK as [WK WD].
  split; [|split].
  - split; [eapply exec_all_preserves; eauto|]. split; [congruence|]. intros y Y. destruct (V y Y) as (V1 & V2 & V3).
    destruct (WK y Y) as (_ & S8 & _). destruct (WD x y U Y) as [D1 D2].
    split; [|unfold update; destruct (Nat.eqb_spec y x) as [->|N]; [split; [exact L|exact RV]|split; [|exact V3]]].
    + rewrite <- V1. apply (same_bits s s' _ (w_addr W x) (object_bytes m (w_type W x))); auto; [lia|].
      unfold clear in D1 |- *. cbn [fst snd var_area] in *. tauto.
    + rewrite <- V2. apply (same_var s s' y (w_addr W x) (object_bytes m (w_type W x))); auto.
      specialize (D2 ltac:(auto)). unfold clear in D2 |- *. cbn [fst snd var_area] in *. tauto.
  - intros k IK. destruct SO as [_ AL]. destruct (AL k IK) as [_ A]. destruct (A x U) as [A1 _].
    apply (same_bits s s' k (w_addr W x) (object_bytes m (w_type W x))); auto. apply SZ. exact IK.
  - split; [exact B|]. split; [exact SP|]. intros a _ N. apply O. apply (N x U).
Qed.

Lemma quiet_app l k s s1 s2 : quiet W l s s1 -> quiet W k s1 s2 -> quiet W (l ++ k) s s2.
Proof.
  intros (B1 & S1 & Q1) (B2 & S2 & Q2). split; [congruence|]. split; [congruence|]. intros a N V.
  rewrite Q2, Q1; auto; intros sl I; apply N, in_or_app; auto.
Qed.

(** What a piece of emission does: it succeeds, and its code, run where the
    variables are [st] and [Pre] holds, ends where they are [st'] with [Post]. *)
Definition spec {A} (g : gen A) (n : nat) (S : A -> Prop) (st : nat -> Z) (Pre : list slot -> machine -> Prop)
  (st' : nat -> Z) (Post : A -> list slot -> machine -> Prop) : Prop :=
  exists a code L, g n = Ok (a, (code, L)) /\ S a /\ sizes_ok L /\
    forall K s, slots_ok W (K ++ L) -> sizes_ok K -> represents W st s -> Pre K s ->
      exists s', exec_all F code s = Ok s' /\ represents W st' s' /\ keeps K s s' /\ quiet W L s s' /\ Post a (K ++ L) s'.

Lemma spec_ret {A} (a : A) n (S : A -> Prop) st (Pre : list slot -> machine -> Prop) (Post : A -> list slot -> machine -> Prop) :
  S a -> (forall K s, represents W st s -> Pre K s -> Post a K s) -> spec (ret a) n S st Pre st Post.
Proof.
  intros SA P. exists a, [], []. split; [reflexivity|]. split; [exact SA|]. split; [intros k []|].
  intros K s _ _ R H. exists s. split; [reflexivity|]. split; [exact R|]. split; [intros k _; reflexivity|].
  split; [split; [reflexivity|]; split; [reflexivity|]; reflexivity|]. rewrite app_nil_r. auto.
Qed.
Lemma spec_bind {A B} (g : gen A) (f : A -> gen B) n S1 S2 st st1 st2 Pre Post1 Post2 :
  spec g n S1 st Pre st1 Post1 -> (forall a n', S1 a -> spec (f a) n' S2 st1 (Post1 a) st2 Post2) ->
  spec (gbind g f) n S2 st Pre st2 Post2.
Proof.
  intros (a & code & L & E & SA & ZL & RUN) NEXT.
  destruct (NEXT a (n + length L)%nat SA) as (b & code2 & L2 & E2 & SB & ZL2 & RUN2).
  exists b, (code ++ code2), (L ++ L2). unfold gbind. rewrite E. cbn [bind fst snd]. rewrite E2. cbn [bind fst snd].
  split; [reflexivity|]. split; [exact SB|]. split.
  { intros k IK. apply in_app_or in IK. destruct IK; auto. }
  intros K s SO SZ R P. rewrite app_assoc in SO.
  destruct (RUN K s (slots_app _ _ _ SO) SZ R P) as (s1 & X1 & R1 & K1 & Q1 & P1).
  assert (SZ1 : sizes_ok (K ++ L)) by (intros k IK; apply in_app_or in IK; destruct IK; auto).
  destruct (RUN2 (K ++ L) s1 SO SZ1 R1 P1) as (s2 & X2 & R2 & K2 & Q2 & P2).
  exists s2. rewrite exec_all_app, X1. cbn [bind]. split; [exact X2|]. split; [exact R2|].
  split; [|split; [apply (quiet_app _ _ _ s1); auto|rewrite app_assoc; exact P2]].
  intros k IK. rewrite K2 by (apply in_or_app; auto). apply K1. exact IK.
Qed.
Lemma spec_weaken {A} (g : gen A) n (S S' : A -> Prop) st st' (Pre Pre' : list slot -> machine -> Prop) (Post Post' : A -> list slot -> machine -> Prop) :
  spec g n S st Pre st' Post -> (forall a, S a -> S' a) -> (forall K s, Pre' K s -> Pre K s) ->
  (forall a K s, S a -> Post a K s -> Post' a K s) -> spec g n S' st Pre' st' Post'.
Proof.
  intros (a & code & L & E & SA & ZL & RUN) HS HP HQ. exists a, code, L. split; [exact E|]. split; [auto|]. split; [exact ZL|].
  intros K s SO SZ R P. destruct (RUN K s SO SZ R (HP _ _ P)) as (s' & X & R' & K' & Q & PO). exists s'. auto 6.
Qed.
(** What holds of old slots goes on holding. *)
Lemma spec_frame {A} (g : gen A) n S st st' Pre Post (I I' : list slot -> machine -> Prop) :
  spec g n S st Pre st' Post ->
  (forall K L s s', I K s -> keeps K s s' -> I' (K ++ L) s') ->
  spec g n S st (fun K s => Pre K s /\ I K s) st' (fun a K s => Post a K s /\ I' K s).
Proof.
  intros (a & code & L & E & SA & ZL & RUN) FR. exists a, code, L. split; [exact E|]. split; [exact SA|]. split; [exact ZL|].
  intros K s SO SZ R [P Q]. destruct (RUN K s SO SZ R P) as (s' & X & R' & K' & QU & PO).
  exists s'. split; [exact X|]. split; [exact R'|]. split; [exact K'|]. split; [exact QU|]. split; [exact PO|].
  apply (FR K L s s'); auto.
Qed.

(** A slot among [K] that holds [v]. *)
Definition hold (sl : slot) (v : Z) (K : list slot) (s : machine) : Prop := In sl K /\ holds_value s sl v.
Lemma hold_frame sl v K L s s' : hold sl v K s -> keeps K s s' -> hold sl v (K ++ L) s'.
Proof. intros [I H] KE. split; [apply in_or_app; auto|]. unfold holds_value in *. rewrite KE by auto. exact H. Qed.

(** The value an evaluated expression stands for; [R] are the variables it may
    refer to. *)
Definition stands (R : list nat) (st : nat -> Z) (e : evaluated) (v : Z) (K : list slot) (s : machine) : Prop :=
  match e with
  | EE_POINTER t p => exists x, In x R /\ w_used W x /\ p = w_ptr W x /\ t = w_type W x /\ v = st x
  | EE_VARIABLE t sl => hold sl v K s
  | EE_CONSTANT t b => b = wrap 64 v
  end.
(** ... and what is known of it beforehand. *)
Definition shaped (ty : simple_type) (e : evaluated) : Prop :=
  data_type e = ty /\
  match e with
  | EE_POINTER t p => exists x, w_used W x /\ p = w_ptr W x
  | EE_VARIABLE t sl => s_size sl = object_bytes m ty
  | EE_CONSTANT _ _ => True
  end.
Lemma stands_frame R st st' e v K L s s' : stands R st e v K s -> keeps K s s' -> (forall x, In x R -> st' x = st x) ->
  stands R st' e v (K ++ L) s'.
Proof.
  intros H KE A. destruct e; cbn [stands] in *; [|apply (hold_frame _ _ _ _ s); auto|exact H].
  destruct H as (x & I & U & P & T & ->). exists x. rewrite A by exact I. auto.
Qed.

Lemma scalar_total sl r : scalar_size (s_size sl) -> exists l, scalar_to_reg sl r = Ok l.
Proof. unfold scalar_to_reg. intros S. destruct S as [<-|[<-|[<-|[<-|[]]]]]; eexists; reflexivity. Qed.
Lemma obytes_scalar t : integer_type t -> scalar_size (object_bytes m t).
Proof. intros I. apply (object_size m t I). Qed.
Lemma obytes_pos t : integer_type t -> 0 < object_bytes m t <= 8.
Proof. intros I. destruct (obytes_scalar t I) as [<-|[<-|[<-|[<-|[]]]]]; lia. Qed.

(** Loading a constant. *)
Lemma constant_ok s out v t : integer_type t -> representable m t v -> machine_ok s -> s_size out = object_bytes m t ->
  in_memory s out ->
  exists code s', codegen_constant (wrap 64 v) out = Ok code /\ exec_all F code s = Ok s' /\
    holds_value s' out v /\ only_changes s s' (slot_address s out) (s_size out) /\ keeps_frame s s'.
Proof.
  intros I R OK SZ [M1 M2].
  assert (IMM32 : object_bytes m t <> 8 -> - 2 ^ 31 <= v < 2 ^ (8 * object_bytes m t) /\ signed 64 (wrap 64 v) = v).
  { intros N. assert (B : - 2 ^ 31 <= v < 2 ^ (8 * object_bytes m t)).
    { unfold representable, spec_min, spec_max in R. clear - I N R.
      do 12 (destruct I as [<-|I]; [cbv -[Z.le Z.lt] in N, R |- *; lia|]). destruct I. }
    split; [exact B|]. rewrite (ConstConvProofs.signed_wrap_le 64) by lia. apply signed_id; [lia|].
    assert (2 ^ (8 * object_bytes m t) <= 2 ^ 32).
    { apply Z.pow_le_mono_r; [lia|]. destruct (obytes_scalar t I) as [E|[E|[E|[E|[]]]]]; rewrite <- E in *; lia. }
    change (2 ^ (64 - 1)) with 9223372036854775808. change (2 ^ 31) with 2147483648 in B. change (2 ^ 32) with 4294967296 in H. lia. }
  assert (AD : gpr s RBP + - s_loc out = slot_address s out) by (unfold slot_address; lia).
  assert (AR : 0 <= slot_address s out < 2 ^ 64) by (pose proof (obytes_pos t I); lia).
  set (s1 := set_gpr s RDI (slot_address s out)).
  assert (LEA : exec F (I2 (Lea W8) (MEM (- s_loc out) RBP) (R8 RDI)) s = Ok s1).
  { cbn [exec is_mem wr reg_of]. change (bits W8) with 64. rewrite AD, wrap_small by exact AR. reflexivity. }
  assert (AD1 : address s1 0 RDI = slot_address s out).
  { apply address_in; [|exact AR]. unfold s1. rewrite gpr_same. lia. }
  assert (DONE : forall w s2, Z.of_nat (wbytes w) = object_bytes m t -> gpr s2 RBP = gpr s RBP -> gpr s2 RSP = gpr s RSP ->
    (forall x, mem s2 x = mem s x) -> forall u, u mod 2 ^ (8 * object_bytes m t) = v mod 2 ^ (8 * object_bytes m t) ->
    let s3 := set_mem s2 (store (mem s2) (slot_address s out) (wbytes w) u) in
    holds_value s3 out v /\ only_changes s s3 (slot_address s out) (s_size out) /\ keeps_frame s s3).
  { intros w s2 WB B SP ME u U s3. split; [|split].
    - unfold holds_value, slot_bits, slot_address. cbn [s3 set_mem mem gpr]. rewrite B. fold (slot_address s out).
      rewrite SZ. replace (Z.to_nat (object_bytes m t)) with (wbytes w) by lia. rewrite load_store.
      rewrite WB. rewrite <- U. change 256 with (2 ^ 8). rewrite <- Z.pow_mul_r by (pose proof (obytes_pos t I); lia). reflexivity.
    - intros x X. cbn [s3 set_mem mem]. rewrite store_out by lia. apply ME.
    - split; assumption. }
  assert (SMALL : forall w, Z.of_nat (wbytes w) = object_bytes m t -> object_bytes m t <> 8 ->
    exists s', exec_all F [I2 (Mov w) (IMM (signed 64 (wrap 64 v))) (MEM 0 RDI)] s1 = Ok s' /\
      holds_value s' out v /\ only_changes s s' (slot_address s out) (s_size out) /\ keeps_frame s s').
  { intros w WB N. destruct (IMM32 N) as [RNG SG]. rewrite SG.
    assert (BW : bits w = 8 * object_bytes m t) by (unfold bits; lia).
    assert (LE : 8 * object_bytes m t <= 32).
    { destruct (obytes_scalar t I) as [E|[E|[E|[E|[]]]]]; rewrite <- E in *; lia. }
    assert (RD : rd s1 w (IMM v) = Ok (wrap (bits w) v)).
    { unfold rd. rewrite BW, Z.min_r by lia. rewrite (proj2 (Z.leb_le _ _)), (proj2 (Z.ltb_lt _ _)) by lia. reflexivity. }
    assert (WR : wr s1 w (MEM 0 RDI) (wrap (bits w) v) = Ok (set_mem s1 (store (mem s1) (slot_address s out) (wbytes w) (wrap (bits w) v)))).
    { unfold wr. rewrite AD1. cbv zeta. rewrite (proj2 (Z.leb_le _ _)) by lia. reflexivity. }
    assert (EX : exec F (I2 (Mov w) (IMM v) (MEM 0 RDI)) s1 = wr s1 w (MEM 0 RDI) (wrap (bits w) v)).
    { destruct w; cbn [exec is_mem andb]; rewrite RD; reflexivity. }
    eexists. split; [cbn [exec_all]; rewrite EX, WR; reflexivity|].
    apply DONE; try reflexivity; auto. unfold wrap. rewrite BW. apply Z.mod_mod. apply Z.pow_nonzero; lia. }
  unfold codegen_constant. rewrite SZ.
  destruct (obytes_scalar t I) as [E|[E|[E|[E|[]]]]]; rewrite <- E; cbn [bind].
  - destruct (SMALL W1 E ltac:(lia)) as (s' & X & P). eexists _, s'. split; [reflexivity|].
    cbn [exec_all]. rewrite LEA. cbn [bind]. split; [exact X|]. rewrite E, <- SZ. exact P.
  - destruct (SMALL W2 E ltac:(lia)) as (s' & X & P). eexists _, s'. split; [reflexivity|].
    cbn [exec_all]. rewrite LEA. cbn [bind]. split; [exact X|]. rewrite E, <- SZ. exact P.
  - destruct (SMALL W4 E ltac:(lia)) as (s' & X & P). eexists _, s'. split; [reflexivity|].
    cbn [exec_all]. rewrite LEA. cbn [bind]. split; [exact X|]. rewrite E, <- SZ. exact P.
  - eexists _. eexists. split; [reflexivity|]. cbn [exec_all]. rewrite LEA. cbn [bind].
    cbn [exec]. cbn [exec is_mem andb rd reg_of bind]. rewrite gpr_same. unfold wr.
    assert (AD2 : forall u, address (set_gpr s1 RAX u) 0 RDI = slot_address s out).
    { intros u. apply address_in; [|exact AR]. rewrite gpr_other by discriminate. unfold s1. rewrite gpr_same. lia. }
    rewrite AD2. cbv zeta. rewrite (proj2 (Z.leb_le _ _)) by (cbn [wbytes]; lia). cbn [bind]. split; [reflexivity|].
    rewrite E, <- SZ. apply (DONE W8); try reflexivity; auto.
    rewrite <- E. change (8 * 8) with 64. change (bits W8) with 64. unfold wrap. rewrite !Z.mod_mod by discriminate.
    rewrite (signed_cong 64) by lia. apply Z.mod_mod. discriminate.
Qed.

Lemma constant_total bits out : scalar_size (s_size out) -> exists code, codegen_constant bits out = Ok code.
Proof. unfold codegen_constant. intros S. destruct S as [<-|[<-|[<-|[<-|[]]]]]; eexists; reflexivity. Qed.
Lemma load_total p out : s_size p = 8 -> exists code, codegen_load p out = Ok code.
Proof. intros S. unfold codegen_load. destruct (scalar_total p RDI) as [l ->]; [rewrite S; cbn; tauto|]. eexists. reflexivity. Qed.
Lemma store_total p v : s_size p = 8 -> exists code, codegen_store p v = Ok code.
Proof. intros S. unfold codegen_store. destruct (scalar_total p RSI) as [l ->]; [rewrite S; cbn; tauto|]. eexists. reflexivity. Qed.
Lemma binary_total t op a b out_loc : arithmetic_int m t -> s_size a = spec_width m t / 8 -> s_size b = spec_width m t / 8 ->
  exists code, compile_binary (KSimple t) op a b out_loc = Ok code.
Proof.
  intros A SA SB.
  assert (SEL : exists o, ir_from_type_and_op (KSimple t) op = Ok o).
  { destruct A as [I _]. clear - I. do 12 (destruct I as [<-|I]; [destruct op; eexists; reflexivity|]). destruct I. }
  destruct SEL as (o & SEL). unfold compile_binary. rewrite SEL. cbn [bind]. unfold codegen_binary.
  assert (Z48 : s_size a = 4 \/ s_size a = 8) by (rewrite SA; destruct A as [_ [-> | ->]]; [left|right]; reflexivity).
  assert (SS : scalar_size (s_size a)) by (unfold scalar_size; cbn [In]; lia).
  destruct (scalar_total a RAX SS) as [la ->]. destruct (scalar_total b RCX) as [lb ->]; [rewrite SB, <- SA; exact SS|].
  cbn [bind]. destruct Z48 as [-> | ->]; eexists; reflexivity.
Qed.
Lemma unary_total a out : scalar_size (s_size a) ->
  (exists code, codegen_binary_not a out = Ok code) /\ (exists code, codegen_negate_int a out = Ok code).
Proof.
  intros S. unfold codegen_binary_not, codegen_negate_int. destruct (scalar_total a RAX S) as [l ->]. split; eexists; reflexivity.
Qed.
Lemma cast_total from to a n : integer_type from -> integer_type to -> s_size a = object_bytes m from ->
  (compile_cast m from to a n = Ok (a, []) /\ object_bytes m to = object_bytes m from /\ (to = ST_BOOL -> from = ST_BOOL)) \/
  (exists i code, compile_cast m from to a n = Ok ({| s_size := object_bytes m to; s_loc := n |}, i :: code)).
Proof.
  intros I J SA. destruct (object_size m from I) as [ZF SF]. destruct (object_size m to J) as [ZT ST].
  assert (IF : st_is_integer from = true /\ st_is_integer to = true).
  { split; [clear - I; rename I into J|clear - J]; do 12 (destruct J as [<-|J]; [reflexivity|]); destruct J. }
  assert (SG : exists b, is_signed from = Ok b).
  { clear - I. do 12 (destruct I as [<-|I]; [eexists; reflexivity|]). destruct I. }
  assert (LD : exists i l, scalar_to_reg a RAX = Ok (i :: l)).
  { unfold scalar_to_reg. rewrite SA. destruct SF as [<-|[<-|[<-|[<-|[]]]]]; eexists _, _; reflexivity. }
  destruct LD as (i & l & LD).
  unfold compile_cast. destruct (st_eqb_spec from to) as [->|N]; [left; auto|].
  destruct (st_eqb_spec to ST_BOOL) as [->|NB].
  { right. rewrite ZT. unfold codegen_bool_cast. rewrite LD. cbn [bind app]. eexists _, _. reflexivity. }
  destruct IF as [-> ->]. cbn [andb]. destruct (Z.eqb_spec (sizeof_simple m to) (sizeof_simple m from)) as [E|E].
  - left. split; [reflexivity|]. split; [congruence|]. intros; contradiction.
  - right. destruct SG as [b ->]. cbn [bind]. rewrite ZT. unfold codegen_int_cast_sign, codegen_int_cast_zero.
    destruct b; rewrite LD; cbn [bind app]; eexists _, _; reflexivity.
Qed.

Variable loc : nat -> Z.

(** A piece that emits the code of one node. *)
Lemma spec_slot (g : gen slot) n size code st (Pre : list slot -> machine -> Prop) v :
  let out := {| s_size := size; s_loc := loc n |} in
  0 <= size <= 8 -> g n = Ok (out, (code, [out])) ->
  (forall K s, slots_ok W (K ++ [out]) -> represents W st s -> Pre K s -> in_memory s out ->
     (forall k, In k K -> in_memory s k) ->
     exists s', exec_all F code s = Ok s' /\ holds_value s' out v /\
       only_changes s s' (slot_address s out) (s_size out) /\ keeps_frame s s') ->
  spec g n (fun sl => s_size sl = size) st Pre st (fun sl => hold sl v).
Proof.
  intros out SZ E RUN. exists out, code, [out]. split; [exact E|]. split; [reflexivity|].
  assert (ZL : sizes_ok [out]) by (intros k [<-|[]]; exact SZ). split; [exact ZL|].
  intros K s SO ZK R P. pose proof SO as [_ AL].
  assert (IM : forall k, In k (K ++ [out]) -> in_memory s k).
  { intros k IK. apply (slot_in_memory st); auto. apply AL. exact IK. }
  assert (IO : In out (K ++ [out])) by (apply in_or_app; right; left; reflexivity).
  destruct (RUN K s SO R P (IM out IO)) as (s' & X & H & O & KF).
  { intros k IK. apply IM, in_or_app. auto. }
  exists s'. split; [exact X|].
  assert (ZKL : sizes_ok (K ++ [out])) by (intros k IK; apply in_app_or in IK; destruct IK; auto).
  destruct (slot_step st s s' K out code R SO ZKL X O KF) as (R' & KE & Q).
  split; [exact R'|]. split; [exact KE|]. split; [exact Q|]. split; [exact IO|exact H].
Qed.

Lemma load_shift m1 m2 a b n : (forall i, 0 <= i < Z.of_nat n -> m1 (a + i) = m2 (b + i)) -> load m1 a n = load m2 b n.
Proof.
  revert a b. induction n as [|n IH]; intros a b H; cbn [load]; [reflexivity|].
  f_equal; [specialize (H 0 ltac:(lia)); rewrite !Z.add_0_r in H; exact H|]. f_equal. apply IH. intros i I.
  replace (a + 1 + i) with (a + (1 + i)) by lia. replace (b + 1 + i) with (b + (1 + i)) by lia. apply H. lia.
Qed.
Lemma clear_sym a b : clear a b -> clear b a.
Proof. unfold clear. tauto. Qed.

Lemma to_var_spec e n st v ty R : integer_type ty -> representable m ty v -> shaped ty e ->
  spec (to_var m loc e) n (fun sl => s_size sl = object_bytes m ty) st (stands R st e v) st (fun sl => hold sl v).
Proof.
  intros I RV [TY SH]. pose proof (obytes_pos ty I) as OP. destruct (object_size m ty I) as [ZT ST].
  destruct e as [t p|t sl|t b]; cbn [data_type] in TY; subst t; cbn [to_var].
  - destruct SH as (x0 & U0 & ->). destruct WOK as [WK WD]. destruct (WK x0 U0) as (_ & S8 & _).
    rewrite ZT. set (out := {| s_size := object_bytes m ty; s_loc := loc n |}).
    destruct (load_total (w_ptr W x0) out S8) as [code EC].
    apply (spec_slot _ n (object_bytes m ty) code); [lia|unfold node; fold out; rewrite EC; reflexivity|].
    fold out. intros K s SO RE P IM _. destruct P as (x & _ & U & EP & ET & EV).
    pose proof RE as (OK & BW & V). destruct (V x U) as (V1 & V2 & V3).
    rewrite EP in EC, S8.
    destruct (WK x U) as (_ & _ & SP1 & SP2).
    destruct SO as [_ AL]. destruct (AL out ltac:(apply in_or_app; right; left; reflexivity)) as [_ A]. destruct (A x U) as [A1 _].
    subst ty.
    destruct (C34_load F s (w_ptr W x) out OK) as (code' & s' & E' & X & L & O & KF); auto.
    + apply (slot_in_memory st); auto.
    + cbn [out s_size]. lia.
    + rewrite V1. apply SP2.
    + rewrite V1. rewrite (slot_addr st s out RE). unfold clear in A1. cbn [fst snd var_area slot_area] in A1 |- *. cbn [out s_size] in A1 |- *. lia.
    + rewrite EC in E'. inversion E'; subst code'. exists s'. split; [exact X|]. split; [|auto].
      unfold holds_value. unfold slot_bits, slot_address. rewrite (proj1 KF). fold (slot_address s out). cbn [out s_size].
      rewrite EV, <- V2. apply load_shift. intros i II. rewrite <- V1. apply L. cbn [out s_size]. lia.
  - exists sl, [], []. split; [reflexivity|]. split; [exact SH|]. split; [intros k []|].
    intros K s _ _ RE H. exists s. split; [reflexivity|]. split; [exact RE|]. split; [intros k _; reflexivity|].
    split; [split; [reflexivity|]; split; reflexivity|]. rewrite app_nil_r. exact H.
  - rewrite ZT. set (out := {| s_size := object_bytes m ty; s_loc := loc n |}).
    destruct (constant_total b out) as [code EC]; [cbn [out s_size]; exact ST|].
    apply (spec_slot _ n (object_bytes m ty) code); [lia|unfold node; fold out; rewrite EC; reflexivity|].
    fold out. intros K s SO RE P IM _. cbn [stands] in P. subst b.
    destruct (constant_ok s out v ty I RV (proj1 RE) eq_refl IM) as (code' & s' & E' & H).
    rewrite EC in E'. inversion E'; subst code'. exists s'. exact H.
Qed.

Lemma conv_mod to v : integer_type to ->
  converted to v mod 2 ^ (8 * object_bytes m to) = convert m to v mod 2 ^ (8 * object_bytes m to).
Proof.
  intros I. destruct (st_eqb_spec to ST_BOOL) as [->|N]; [reflexivity|].
  assert (C : converted to v = v) by (destruct to; reflexivity || contradiction). rewrite C.
  assert (WB : 8 * object_bytes m to = spec_width m to /\ 0 < spec_width m to).
  { clear - I N. do 12 (destruct I as [<-|I]; [try contradiction; split; reflexivity|]). destruct I. }
  destruct WB as [-> WP].
  assert (CV : convert m to v = if spec_signed to then signed (spec_width m to) v else v mod 2 ^ spec_width m to)
    by (destruct to; reflexivity || contradiction).
  rewrite CV. destruct (spec_signed to).
  - rewrite signed_cong by exact WP. reflexivity.
  - rewrite Z.mod_mod; [reflexivity|]. apply Z.pow_nonzero; lia.
Qed.

Lemma variable_cast_spec a n st v from to : integer_type from -> integer_type to -> representable m from v ->
  s_size a = object_bytes m from ->
  spec (variable_cast m loc a from to) n (fun sl => s_size sl = object_bytes m to) st (hold a v) st
    (fun sl => hold sl (convert m to v)).
Proof.
  intros I J RV SA. destruct (cast_total from to a (loc n) I J SA) as [(E & OB & NB)|(i & code & E)].
  - exists a, [], []. unfold variable_cast. rewrite E. cbn [bind fst snd]. split; [reflexivity|]. split; [congruence|]. split; [intros k []|].
    intros K s _ _ RE [IK H]. exists s. split; [reflexivity|]. split; [exact RE|]. split; [intros k _; reflexivity|].
    split; [split; [reflexivity|]; split; reflexivity|]. rewrite app_nil_r. split; [exact IK|].
    unfold holds_value in *. rewrite H, SA, <- OB, <- conv_mod by exact J.
    destruct (st_eqb_spec to ST_BOOL) as [->|N].
    + specialize (NB eq_refl). subst from. unfold converted. unfold representable, spec_min, spec_max in RV. cbn in RV.
      assert (v = 0 \/ v = 1) as [-> | ->] by lia; reflexivity.
    + f_equal. destruct to; reflexivity || contradiction.
  - set (out := {| s_size := object_bytes m to; s_loc := loc n |}) in *.
    apply (spec_slot _ n (object_bytes m to) (i :: code)).
    + pose proof (obytes_pos to J). lia.
    + unfold variable_cast. rewrite E. reflexivity.
    + fold out. intros K s SO RE [IK H] IM IMK.
      destruct (C33_integer_to_integer F m from to v s a (loc n) I J RV (proj1 RE) SA (IMK a IK) IM H)
        as (o & c & s' & E' & X & _ & _ & HV & O & KF).
      rewrite E in E'. inversion E'; subst o c. exists s'. split; [exact X|]. split; [|auto].
      unfold holds_value in *. cbn [out s_size] in *. rewrite HV. apply conv_mod. exact J.
Qed.

Lemma evaluated_cast_spec e n st v ty to R : integer_type ty -> integer_type to -> representable m ty v -> shaped ty e ->
  spec (evaluated_cast m loc e to) n (shaped to) st (stands R st e v) st (fun c => stands R st c (convert m to v)).
Proof.
  intros I J RV SH. pose proof SH as [TY _]. unfold evaluated_cast. rewrite TY.
  destruct (st_eqb_spec ty to) as [<-|N].
  - rewrite convert_id by auto. apply spec_ret; auto.
  - eapply spec_bind; [apply (to_var_spec e n st v ty R); auto|]. intros a n' SA.
    eapply spec_bind; [apply (variable_cast_spec a n' st v ty to); auto|]. intros b n2 SB.
    apply spec_ret; [split; [reflexivity|exact SB]|]. auto.
Qed.

Lemma binary_spec t op a b n st va vb v : arithmetic_int m t -> (op = OP_DIV -> spec_signed t = true) ->
  s_size a = spec_width m t / 8 -> s_size b = spec_width m t / 8 ->
  representable m t va -> representable m t vb -> c_binop m t op va vb = Some v ->
  spec (binary_node loc t op a b) n (fun sl => s_size sl = spec_width m t / 8) st
    (fun K s => hold b vb K s /\ hold a va K s) st (fun sl => hold sl v).
Proof.
  intros A ND SA SB RA RB C. destruct (binary_total t op a b (loc n) A SA SB) as [code E].
  set (out := {| s_size := spec_width m t / 8; s_loc := loc n |}).
  apply (spec_slot _ n (spec_width m t / 8) code).
  - destruct A as [_ [-> | ->]]; split; discriminate.
  - unfold binary_node. rewrite E. cbn [bind]. unfold ir_binary_op_size. rewrite SA. reflexivity.
  - fold out. intros K s SO RE [[IB HB] [IA HA]] IM IMK.
    destruct (C30_operators_partial F m t op va vb v s a b (loc n) A ND (proj1 RE) SA SB (IMK a IA) (IMK b IB) IM RA RB HA HB C)
      as (c & s' & E' & H).
    rewrite E in E'. inversion E'; subst c. exists s'. exact H.
Qed.

Lemma unary_spec t op a n st va v : arithmetic_int m t -> s_size a = spec_width m t / 8 ->
  c_unop m t op va = Some v -> op <> UOP_PLUS ->
  spec (node loc (s_size a) (match op with UOP_BNOT => codegen_binary_not a | _ => codegen_negate_int a end)) n
    (fun sl => s_size sl = spec_width m t / 8) st (hold a va) st (fun sl => hold sl v).
Proof.
  intros A SA C NP. destruct (arith_wide m t A) as [I NB].
  set (out := {| s_size := spec_width m t / 8; s_loc := loc n |}).
  assert (SS : scalar_size (s_size a)).
  { rewrite SA. unfold scalar_size. cbn [In]. destruct A as [_ [-> | ->]]; cbn; lia. }
  assert (E : exists code, (match op with UOP_BNOT => codegen_binary_not a | _ => codegen_negate_int a end) out = Ok code).
  { destruct (unary_total a out SS). destruct op; auto. }
  destruct E as [code E]. apply (spec_slot _ n (spec_width m t / 8) code).
  - destruct A as [_ [-> | ->]]; split; discriminate.
  - unfold node. rewrite SA. fold out. rewrite E. reflexivity.
  - fold out. intros K s SO RE [IA HA] IM IMK.
    destruct (C30_unary F m t op va v s a out I NB (proj1 RE) SA eq_refl (IMK a IA) IM HA C NP) as (c & s' & E' & H).
    exists s'. replace code with c; [exact H|]. destruct op; congruence.
Qed.

Lemma assign_spec x a n st v : w_used W x -> representable m (w_type W x) v -> s_size a = object_bytes m (w_type W x) ->
  spec (assign_to (EE_POINTER (w_type W x) (w_ptr W x)) a) n (fun _ => True) st (hold a v) (update st x v) (fun _ => hold a v).
Proof.
  intros U RV SA. pose proof WOK as [WK WD]. destruct (WK x U) as (I & S8 & SP1 & SP2).
  pose proof (obytes_pos _ I) as OP.
  destruct (store_total (w_ptr W x) a S8) as [code E]. exists tt, code, [].
  unfold assign_to. rewrite E. split; [reflexivity|]. split; [exact Logic.I|]. split; [intros k []|].
  intros K s SO ZK RE [IA HA]. rewrite app_nil_r in *. pose proof RE as (OK & BW & V). destruct (V x U) as (V1 & V2 & V3).
  pose proof SO as [_ AL]. destruct (AL a IA) as [AS AC]. destruct (AC x U) as [A1 _].
  destruct (C34_store F s (w_ptr W x) a OK) as (code' & s' & E' & X & L & O & KF); auto.
  - apply (slot_in_memory st); auto.
  - apply (slot_in_memory st); auto.
  - apply ZK. exact IA.
  - rewrite V1, SA. apply SP2.
  - rewrite V1, (slot_addr st s a RE). unfold clear in A1. cbn [fst snd var_area slot_area] in A1 |- *. lia.
  - rewrite E in E'. inversion E'; subst code'. rewrite V1 in *. rewrite SA in O.
    destruct (var_step st s s' K x v code RE U RV SO ZK X O) as (R' & KE & Q); auto.
    + unfold holds_value in HA. rewrite SA in HA. rewrite <- HA. unfold slot_bits. rewrite SA. apply load_shift. intros i II. apply L. lia.
    + exists s'. split; [exact X|]. split; [exact R'|]. split; [exact KE|]. split; [exact Q|].
      split; [exact IA|]. unfold holds_value in *. rewrite KE by exact IA. exact HA.
Qed.

End Machine.
