(** C50: which way controlling expressions send the program. *)
From Verif Require Import Base Bytes CTypesSpec Arch X86 Codegen CastSelect AsmSpec X86Proofs X86Preserve CodegenProofs AsmIntProofs AsmCastProofs C34Props C33Props Condition.

Lemma test_decides F s a : machine_ok s -> in_memory s a -> scalar_size (s_size a) ->
  exists l, codegen_test a = Ok l /\
    exists s', exec_all F l s = Ok s' /\ branch s' = Ok (negb (slot_bits s a =? 0)) /\
      (forall x, mem s' x = mem s x) /\ keeps_frame s s'.
Proof.
  intros OK IA SA. unfold codegen_test.
  destruct (scalar_to_reg_ok F s a RDI [I2 (Test W8) (R8 RDI) (R8 RDI)] OK IA SA) as (l & E & X).
  rewrite E. cbn [bind]. eexists. split; [reflexivity|]. rewrite X.
  cbn [exec_all exec is_mem andb rd reg_of bind]. rewrite gpr_same. change (bits W8) with 64.
  rewrite (wrap_small 64 (slot_bits s a)) by (apply bits_bound; assumption). rewrite Z.land_diag.
  eexists. split; [reflexivity|]. split; [reflexivity|]. split; [reflexivity|]. split; reflexivity.
Qed.


Lemma then_test F m t s a loc out code s1 :
  machine_ok s -> compile_cast m t ST_INT a loc = Ok (out, code) -> exec_all F code s = Ok s1 ->
  s_size out = 4 -> in_memory s out -> keeps_frame s s1 ->
  exists s', decide F (loop_condition m t a loc) s = Ok (negb (slot_bits s1 out =? 0), s') /\
    (forall x, mem s' x = mem s1 x) /\ keeps_frame s s'.
Proof.
  intros OK E X SO IO [KB KS]. unfold loop_condition. rewrite E. cbn [bind fst snd].
  pose proof (exec_all_preserves F code s s1 OK X) as OK1.
  assert (IO1 : in_memory s1 out) by (unfold in_memory, slot_address in *; rewrite KB; exact IO).
  destruct (test_decides F s1 out OK1 IO1) as (l & E2 & s' & X2 & B & M & [K1 K2]).
  { rewrite SO. cbn. tauto. }
  rewrite E2. cbn [bind]. unfold decide. cbn [bind]. rewrite exec_all_app, X. cbn [bind]. rewrite X2. cbn [bind]. rewrite B. cbn [bind].
  exists s'. split; [reflexivity|]. split; [exact M|]. split; congruence.
Qed.

(** What a loop tests, for every integer type: the low 32 bits of the value. *)
Lemma loop_low32 F m t v s a loc :
  integer_type t -> representable m t v -> machine_ok s -> s_size a = object_bytes m t -> in_memory s a ->
  in_memory s {| s_size := 4; s_loc := loc |} -> holds_value s a v ->
  exists s', decide F (loop_condition m t a loc) s = Ok (negb (v mod 2 ^ 32 =? 0), s') /\
    only_changes s s' (gpr s RBP - loc) 4 /\ keeps_frame s s'.
Proof.
  intros IT R OK SA IA IO HA.
  assert (II : integer_type ST_INT) by (unfold integer_type, integer_types; simpl; tauto).
  destruct (C33_integer_to_integer F m t ST_INT v s a loc IT II R OK SA IA IO HA)
    as (out & code & s1 & E & X & SO & WH & HV & OC & KF).
  change (object_bytes m ST_INT) with 4 in SO. unfold holds_value in HV. rewrite SO in HV. change (8 * 4) with 32 in HV.
  assert (CV : converted ST_INT v = v) by reflexivity. rewrite CV in HV.
  assert (IM : in_memory s out).
  { destruct WH as [[-> _]|WH]; [exact IA|]. unfold in_memory, slot_address in *. rewrite WH, SO. exact IO. }
  destruct (then_test F m t s a loc out code s1 OK E X SO IM KF) as (s' & D & M & K).
  exists s'. rewrite <- HV. split; [exact D|]. split; [|exact K].
  intros x NX. rewrite M. destruct WH as [[-> ->]|WH]; [reflexivity|]. apply OC. unfold slot_address. rewrite WH, SO. exact NX.
Qed.

(** The specification: a statement goes on exactly when its controlling
    expression compares unequal to zero. *)
Definition goes_on (v : Z) : bool := negb (v =? 0).

(** while, for and do, conditions of integer type: right for the types of at
    most four bytes and, in the wider types, for the values between -2^32 and
    2^32. Missing: the others, below, and floating conditions. *)
Theorem C50_loop_partial : forall F m t v s a loc,
  integer_type t -> representable m t v -> - 2 ^ 32 < v < 2 ^ 32 ->
  machine_ok s -> s_size a = object_bytes m t -> in_memory s a ->
  in_memory s {| s_size := 4; s_loc := loc |} -> holds_value s a v ->
  exists s', decide F (loop_condition m t a loc) s = Ok (goes_on v, s') /\
    only_changes s s' (gpr s RBP - loc) 4 /\ keeps_frame s s'.
Proof.
  intros F m t v s a loc IT R V OK SA IA IO HA.
  destruct (loop_low32 F m t v s a loc IT R OK SA IA IO HA) as (s' & D & K). exists s'. split; [|exact K].
  rewrite D. unfold goes_on. do 3 f_equal.
  destruct (Z.eqb_spec v 0) as [-> |N]; [reflexivity|]. apply Z.eqb_neq. intros Z0.
  apply N. apply Z.mod_divide in Z0; [|lia]. destruct Z0 as (q & Q). change (2 ^ 32) with 4294967296 in *. lia.
Qed.
Print Assumptions C50_loop_partial.

(** Every type of at most four bytes is covered. *)
Lemma small_types m t v : integer_type t -> representable m t v -> object_bytes m t <= 4 -> - 2 ^ 32 < v < 2 ^ 32.
Proof.
  intros IT [R1 R2] S. revert R1 R2 S. unfold integer_type, integer_types in IT. cbn [In] in IT.
  repeat (destruct IT as [<-|IT]; [destruct m; cbn; lia|]). destruct IT.
Qed.

(** A loop stops although its condition is not zero whenever the condition is a
    multiple of 2^32. *)
Theorem C50_wide_condition_refuted : forall F m t v s a loc,
  integer_type t -> representable m t v -> v mod 2 ^ 32 = 0 ->
  machine_ok s -> s_size a = object_bytes m t -> in_memory s a ->
  in_memory s {| s_size := 4; s_loc := loc |} -> holds_value s a v ->
  exists s', decide F (loop_condition m t a loc) s = Ok (false, s').
Proof.
  intros F m t v s a loc IT R V OK SA IA IO HA.
  destruct (loop_low32 F m t v s a loc IT R OK SA IA IO HA) as (s' & D & _). exists s'. rewrite D, V. reflexivity.
Qed.
Print Assumptions C50_wide_condition_refuted.

(** A loop whose condition is floating tests the low 32 bits of the condition
    truncated to an integer: it stops at any condition between -1 and 1. *)
Theorem C50_floating_condition_refuted : forall F m t s a loc,
  t = ST_FLOAT \/ t = ST_DOUBLE ->
  machine_ok s -> s_size a = float_bytes t -> in_memory s a ->
  in_memory s {| s_size := 4; s_loc := loc |} ->
  exists s', decide F (loop_condition m t a loc) s =
    Ok (negb (float_to_int F (float_bytes t) (slot_bits s a) mod 2 ^ 32 =? 0), s').
Proof.
  intros F m t s a loc TF OK SA IA IO.
  assert (II : integer_type ST_INT) by (unfold integer_type, integer_types; simpl; tauto).
  destruct (C33_float_to_integer F m t ST_INT s a loc TF II ltac:(discriminate) OK SA IA IO)
    as (out & code & s1 & E & X & SO & WH & HV & OC & KF).
  change (object_bytes m ST_INT) with 4 in SO. unfold holds_value in HV. rewrite SO in HV. change (8 * 4) with 32 in HV.
  assert (IM : in_memory s out) by (unfold in_memory in *; rewrite WH, SO; exact IO).
  destruct (then_test F m t s a loc out code s1 OK E X SO IM KF) as (s' & D & _).
  exists s'. rewrite D, HV. reflexivity.
Qed.
Print Assumptions C50_floating_condition_refuted.

(** if and the operators && || ?: test the value as it is: right for every
    integer type. *)
Theorem C50_if_integer : forall F m t v s a,
  integer_type t -> representable m t v ->
  machine_ok s -> s_size a = object_bytes m t -> in_memory s a -> holds_value s a v ->
  exists s', decide F (if_condition a) s = Ok (goes_on v, s') /\
    (forall x, mem s' x = mem s x) /\ keeps_frame s s'.
Proof.
  intros F m t v s a IT R OK SA IA HA.
  destruct (object_size m t IT) as [_ SF].
  assert (SA' : scalar_size (s_size a)) by (rewrite SA; exact SF).
  destruct (test_decides F s a OK IA SA') as (l & E & s' & X & B & M & K).
  unfold if_condition, decide. rewrite E. cbn [bind]. rewrite X. cbn [bind]. rewrite B. cbn [bind].
  exists s'. split; [|split; [exact M|exact K]]. unfold goes_on. do 3 f_equal.
  unfold holds_value in HA. rewrite SA in HA. pose proof (value_back m t v IT R) as VB.
  destruct (Z.eqb_spec v 0) as [-> |N].
  - rewrite HA, Z.mod_0_l; [reflexivity|]. apply Z.pow_nonzero; [lia|]. destruct SF as [<-|[<-|[<-|[<-|[]]]]]; lia.
  - apply Z.eqb_neq. intros Z0. apply N. rewrite <- HA, Z0 in VB. rewrite <- VB.
    destruct (spec_signed t); [|reflexivity]. destruct SF as [<-|[<-|[<-|[<-|[]]]]]; reflexivity.
Qed.
Print Assumptions C50_if_integer.

(** For float and double they are right except that a zero with its sign bit
    set counts as true. *)
Theorem C50_if_floating_partial : forall F t s a,
  t = ST_FLOAT \/ t = ST_DOUBLE -> machine_ok s -> s_size a = float_bytes t -> in_memory s a ->
  let w := if st_eqb t ST_FLOAT then W4 else W8 in
  slot_bits s a <> 2 ^ (bits w - 1) ->
  exists s', decide F (if_condition a) s =
    Ok (match ieee_compare w (slot_bits s a) 0 with Some Eq => false | _ => true end, s') /\
    (forall x, mem s' x = mem s x) /\ keeps_frame s s'.
Proof.
  intros F t s a TF OK SA IA w NZ.
  assert (SA' : scalar_size (s_size a)) by (rewrite SA; destruct TF as [-> | ->]; cbn; tauto).
  destruct (test_decides F s a OK IA SA') as (l & E & s' & X & B & M & K).
  unfold if_condition, decide. rewrite E. cbn [bind]. rewrite X. cbn [bind]. rewrite B. cbn [bind].
  exists s'. split; [|split; [exact M|exact K]]. do 2 f_equal.
  assert (R : 0 <= slot_bits s a < 2 ^ bits w).
  { unfold slot_bits. rewrite SA. destruct TF as [-> | ->]; subst w; apply (load_range (mem s)); apply OK. }
  revert NZ R. generalize (slot_bits s a) as b. intros b NZ R.
  assert (G : forall e m, 0 < e -> 0 < m -> bits w = e + m + 1 ->
    negb (b =? 0) = match (match ieee_order e m b, ieee_order e m 0 with Some x, Some y => Some (x ?= y) | _, _ => None end) with Some Eq => false | _ => true end).
  { intros e m E0 M0 BW. rewrite BW in NZ, R. replace (e + m + 1 - 1) with (e + m) in NZ by lia.
    assert (P : 2 ^ (e + m + 1) = 2 * 2 ^ (e + m)) by (rewrite Z.pow_add_r by lia; lia).
    assert (P0 : 0 < 2 ^ (e + m)) by (apply Z.pow_pos_nonneg; lia).
    assert (Q : 0 <= (2 ^ e - 1) * 2 ^ m).
    { apply Z.mul_nonneg_nonneg; [|apply Z.pow_nonneg; lia]. assert (0 < 2 ^ e) by (apply Z.pow_pos_nonneg; lia). lia. }
    unfold ieee_order. rewrite (Z.mod_0_l (2 ^ (e + m))) by lia.
    destruct (Z.ltb_spec ((2 ^ e - 1) * 2 ^ m) 0); [lia|]. destruct (Z.ltb_spec 0 (2 ^ (e + m))); [|lia].
    destruct (Z.ltb_spec ((2 ^ e - 1) * 2 ^ m) (b mod 2 ^ (e + m))) as [N|N].
    - destruct (Z.eqb_spec b 0) as [-> |]; [|reflexivity]. rewrite Z.mod_0_l in N by lia. lia.
    - destruct (Z.ltb_spec b (2 ^ (e + m))) as [L|L].
      + rewrite Z.mod_small by lia. destruct (Z.eqb_spec b 0) as [-> |B0]; [reflexivity|].
        destruct (Z.compare_spec b 0); try lia; reflexivity.
      + assert (BM : b mod 2 ^ (e + m) = b - 2 ^ (e + m)).
        { symmetry. apply Z.mod_unique with (q := 1); [left; lia|lia]. }
        rewrite BM. destruct (Z.eqb_spec b 0); [lia|].
        destruct (Z.compare_spec (- (b - 2 ^ (e + m))) 0); try lia; reflexivity. }
  unfold ieee_compare. destruct TF as [-> | ->]; subst w; apply G; reflexivity.
Qed.
Print Assumptions C50_if_floating_partial.

Theorem C50_if_negative_zero_refuted : forall F t s a,
  t = ST_FLOAT \/ t = ST_DOUBLE -> machine_ok s -> s_size a = float_bytes t -> in_memory s a ->
  let w := if st_eqb t ST_FLOAT then W4 else W8 in
  slot_bits s a = 2 ^ (bits w - 1) ->
  ieee_compare w (slot_bits s a) 0 = Some Eq /\ exists s', decide F (if_condition a) s = Ok (true, s').
Proof.
  intros F t s a TF OK SA IA w NZ.
  assert (SA' : scalar_size (s_size a)) by (rewrite SA; destruct TF as [-> | ->]; cbn; tauto).
  destruct (test_decides F s a OK IA SA') as (l & E & s' & X & B & M & K).
  split; [rewrite NZ; destruct TF as [-> | ->]; reflexivity|].
  unfold if_condition, decide. rewrite E. cbn [bind]. rewrite X. cbn [bind]. rewrite B. cbn [bind].
  exists s'. rewrite NZ. destruct TF as [-> | ->]; reflexivity.
Qed.
Print Assumptions C50_if_negative_zero_refuted.

(** A long of 2^32 and an int of 5: the first stops a loop and not an if. *)
Definition wide_machine : machine :=
  {| gpr := fun r => match r with RBP => 4096 | RSP => 4000 | _ => 0 end;
     xmm := fun _ => 0; flag := None; mem := store (store (fun _ => 0) 4088 8 (2 ^ 32)) 4084 4 5 |}.
Example C50_example :
  let a := {| s_size := 8; s_loc := 8 |} in
  let b := {| s_size := 4; s_loc := 12 |} in
  in_memory wide_machine a /\ holds_value wide_machine a (2 ^ 32) /\ representable SYSV ST_LONG (2 ^ 32) /\
  in_memory wide_machine b /\ holds_value wide_machine b 5 /\ representable SYSV ST_INT 5 /\
  match decide no_fpu (loop_condition SYSV ST_LONG a 16) wide_machine with Ok (b, _) => b = false | _ => False end /\
  match decide no_fpu (if_condition a) wide_machine with Ok (b, _) => b = true | _ => False end /\
  match decide no_fpu (loop_condition SYSV ST_INT b 16) wide_machine with Ok (b, _) => b = true | _ => False end.
Proof.
  split; [split; vm_compute; congruence|]. split; [vm_compute; reflexivity|]. split; [split; vm_compute; congruence|].
  split; [split; vm_compute; congruence|]. split; [vm_compute; reflexivity|]. split; [split; vm_compute; congruence|].
  split; [vm_compute; reflexivity|]. split; vm_compute; reflexivity.
Qed.
