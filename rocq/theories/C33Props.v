(** C33: conversions between scalars in generated code. *)
From Verif Require Import Base Bytes Arch CTypesSpec X86 Codegen AsmSpec CastSelect
  X86Proofs CodegenProofs AsmIntProofs AsmOpProofs AsmCastProofs C34Props.

(** Bytes an object of integer type occupies. *)
Definition object_bytes (m : abi) (t : simple_type) : Z :=
  match t with ST_BOOL => 1 | _ => spec_width m t / 8 end.

(** The value of a converted integer, C11 6.3.1.2 and 6.3.1.3: 0 or 1 for
    _Bool; else the value itself, which the target object holds modulo two to
    the number of its bits. *)
Definition converted (to : simple_type) (v : Z) : Z :=
  match to with ST_BOOL => if v =? 0 then 0 else 1 | _ => v end.

Definition integer_types := [ST_BOOL; ST_CHAR; ST_SCHAR; ST_UCHAR; ST_SHORT; ST_USHORT; ST_INT; ST_UINT;
        ST_LONG; ST_ULONG; ST_LLONG; ST_ULLONG].

Lemma object_size m t : integer_type t -> sizeof_simple m t = object_bytes m t /\ scalar_size (object_bytes m t).
Proof.
  intros I. unfold scalar_size. repeat (destruct I as [<-|I]; [destruct m; cbn; tauto|]). destruct I.
Qed.
Lemma st_eqb_refl t : st_eqb t t = true.
Proof. destruct t; reflexivity. Qed.
Lemma st_eqb_eq a b : st_eqb a b = true -> a = b.
Proof. destruct (st_eqb_spec a b); congruence. Qed.

Lemma bits_bound s sc : machine_ok s -> scalar_size (s_size sc) -> 0 <= slot_bits s sc < 2 ^ 64.
Proof.
  intros OK S. pose proof (slot_range s sc OK) as R.
  assert (0 <= s_size sc <= 8) by (destruct S as [<-|[<-|[<-|[<-|[]]]]]; lia).
  specialize (R ltac:(lia)). assert (2 ^ (8 * s_size sc) <= 2 ^ 64) by (apply Z.pow_le_mono_r; lia). lia.
Qed.

(** A representable value read back from the bits it is stored as. *)
Lemma value_back m t v : integer_type t -> representable m t v ->
  (if spec_signed t then signed (8 * object_bytes m t) (v mod 2 ^ (8 * object_bytes m t))
   else v mod 2 ^ (8 * object_bytes m t)) = v.
Proof.
  intros I R. unfold representable, spec_min, spec_max in R. destruct (spec_signed t) eqn:S.
  - assert (W : 8 * object_bytes m t = spec_width m t /\ 0 < spec_width m t).
    { clear - I S. repeat (destruct I as [<-|I]; [try discriminate S; destruct m; cbn; lia|]). destruct I. }
    destruct W as [-> P]. fold (wrap (spec_width m t) v). rewrite signed_wrap by exact P. apply signed_id; lia.
  - apply Z.mod_small. split; [lia|].
    assert (W : spec_width m t <= 8 * object_bytes m t).
    { clear - I S. repeat (destruct I as [<-|I]; [try discriminate S; destruct m; cbn; lia|]). destruct I. }
    pose proof (Z.pow_le_mono_r 2 _ _ ltac:(lia) W). lia.
Qed.

Lemma same_node s sc v : in_memory s sc -> slot_bits s sc = v mod 2 ^ (8 * s_size sc) ->
  holds_value s sc v /\ only_changes s s (slot_address s sc) (s_size sc) /\ keeps_frame s s.
Proof. intros I H. split; [exact H|]. split; [intros x _; reflexivity|]. split; reflexivity. Qed.

(** The two extending sequences. *)
Lemma extend_low F s a n v (sg : bool) :
  machine_ok s -> gpr s RAX = v mod 2 ^ (8 * a) -> scalar_size a -> scalar_size n -> a <> n ->
  (if sg then signed (8 * a) (v mod 2 ^ (8 * a)) else v mod 2 ^ (8 * a)) = v ->
  leaves_low n s (v mod 2 ^ (8 * n))
    (exec_all F (if sg : bool then
       if a <? n then match a with
        | 1 => [I2 (Movs W1 W8) (R1 RAX) (R8 RAX)]
        | 2 => [I2 (Movs W2 W8) (R2 RAX) (R8 RAX)]
        | 4 => [I2 (Movs W4 W8) (R4 RAX) (R8 RAX)]
        | _ => [] end else [] else []) s).
Proof.
  intros OK E SA SN NE V.
  assert (ID : n <= a \/ sg = false -> leaves_low n s (v mod 2 ^ (8 * n)) (exec_all F [] s)).
  { intros H. exists s. split; [reflexivity|]. split; [|auto 6]. rewrite E.
    destruct H as [H| ->]; [|rewrite V; reflexivity].
    apply mod_mod_le. destruct SN as [<-|[<-|[<-|[<-|[]]]]]; lia. }
  destruct sg; [|apply ID; auto].
  assert (MV : forall w, Z.of_nat (wbytes w) = a -> w = W1 \/ w = W2 \/ w = W4 ->
    leaves_low n s (v mod 2 ^ (8 * n)) (exec_all F [I2 (Movs w W8) (sized w RAX) (R8 RAX)] s)).
  { intros w SW D. rewrite <- V at 1. replace (8 * a) with (bits w) by (unfold bits; lia).
    replace (8 * a) with (bits w) in E by (unfold bits; lia).
    apply movs_leaves; auto.
    - destruct D as [->|[->| ->]]; tauto.
    - destruct SN as [<-|[<-|[<-|[<-|[]]]]]; lia. }
  destruct (Z.ltb_spec a n) as [L|L]; [|apply ID; left; lia].
  destruct SA as [<-|[<-|[<-|[<-|[]]]]].
  - apply (MV W1); [reflexivity|tauto].
  - apply (MV W2); [reflexivity|tauto].
  - apply (MV W4); [reflexivity|tauto].
  - exfalso. destruct SN as [<-|[<-|[<-|[<-|[]]]]]; lia.
Qed.

(** Every integer type, _Bool included, to every integer type. *)
Theorem C33_integer_to_integer : forall F m from to v s a loc,
  integer_type from -> integer_type to -> representable m from v ->
  machine_ok s -> s_size a = object_bytes m from -> in_memory s a ->
  in_memory s {| s_size := object_bytes m to; s_loc := loc |} -> holds_value s a v ->
  exists out code s', compile_cast m from to a loc = Ok (out, code) /\ exec_all F code s = Ok s' /\
    s_size out = object_bytes m to /\ (out = a /\ s' = s \/ s_loc out = loc) /\
    holds_value s' out (converted to v) /\
    only_changes s s' (slot_address s out) (s_size out) /\ keeps_frame s s'.
Proof.
  intros F m from to v s a loc IF IT R OK SA IA IO HA.
  destruct (object_size m from IF) as [ZF SF]. destruct (object_size m to IT) as [ZT ST].
  set (out := {| s_size := object_bytes m to; s_loc := loc |}) in *.
  pose proof (value_back m from v IF R) as VB.
  assert (HA' : slot_bits s a = v mod 2 ^ (8 * object_bytes m from)) by (unfold holds_value in HA; rewrite SA in HA; exact HA).
  assert (SA' : scalar_size (s_size a)) by (rewrite SA; exact SF).
  assert (B64 : 0 <= slot_bits s a < 2 ^ 64) by (apply bits_bound; auto).
  assert (OKA : machine_ok (set_gpr s RAX (slot_bits s a))) by (apply set_gpr_ok; auto).
  assert (STR : 0 <= s_size out <= 8) by (cbn [out s_size]; destruct ST as [<-|[<-|[<-|[<-|[]]]]]; lia).
  unfold compile_cast. destruct (st_eqb from to) eqn:EQ.
  { apply st_eqb_eq in EQ. subst to. exists a, [], s. split; [reflexivity|]. split; [reflexivity|]. split; [exact SA|]. split; [left; split; reflexivity|].
    assert (CV : converted from v = v).
    { unfold converted. destruct from; try reflexivity.
      unfold representable, spec_min, spec_max in R. cbn in R. assert (v = 0 \/ v = 1) by lia.
      destruct H as [-> | ->]; reflexivity. }
    rewrite CV. apply same_node; auto. }
  destruct (st_eqb to ST_BOOL) eqn:TB.
  { apply st_eqb_eq in TB. subst to. cbn [converted].
    change (sizeof_simple m ST_BOOL) with 1. fold out. change {| s_size := 1; s_loc := loc |} with out.
    unfold codegen_bool_cast.
    destruct (unary_ok F a out s (if v =? 0 then 0 else 1) [I2 (Test W8) (R8 RAX) (R8 RAX); I1 (Set_ CNE) (R1 RAX)])
      as (la & s' & E1 & E2 & E3 & E4 & E5); auto.
    - cbn [exec_all exec is_mem andb rd reg_of bind flag set_flag]. rewrite gpr_same. change (bits W8) with 64.
      rewrite (wrap_small 64 (slot_bits s a)) by exact B64. rewrite Z.land_diag.
      cbn [bind flag set_flag holds logic_flags zf wr reg_of bind].
      assert (ZV : (slot_bits s a =? 0) = (v =? 0)).
      { rewrite HA'. destruct (Z.eqb_spec v 0) as [->|N].
        - rewrite Z.mod_0_l; [reflexivity|]. apply Z.pow_nonzero; [lia|]. destruct SF as [<-|[<-|[<-|[<-|[]]]]]; lia.
        - apply Z.eqb_neq. intros Z0. rewrite Z0 in VB. apply N. rewrite <- VB.
          destruct (spec_signed from); [|reflexivity].
          destruct SF as [<-|[<-|[<-|[<-|[]]]]]; reflexivity. }
      rewrite ZV. change (bits W1) with 8.
      change (gpr (set_flag (set_gpr s RAX (slot_bits s a)) (Some (logic_flags W8 (slot_bits s a)))) RAX)
        with (slot_bits s a).
      set (x := slot_bits s a) in *. set (h := v =? 0) in *.
      assert (D : x = 256 * (x / 256) + wrap 8 x) by (unfold wrap; change (2 ^ 8) with 256; apply Z.div_mod; lia).
      rewrite (wrap_small 8 (if negb h then 1 else 0)) by (destruct h; vm_compute; split; congruence).
      replace (x - wrap 8 x) with (x / 256 * 256) by lia.
      assert (Q : 0 <= x / 256 < 2 ^ 56).
      { split; [apply Z.div_pos; lia|]. apply Z.div_lt_upper_bound; [lia|]. change (256 * 2 ^ 56) with (2 ^ 64). lia. }
      eexists. split; [reflexivity|]. rewrite gpr_same.
      split; [|split; [reflexivity|split; [reflexivity|split; [reflexivity|apply set_gpr_ok; [exact OKA|]]]]].
      2: { change (2 ^ 64) with (2 ^ 56 * 256). destruct h; cbn [negb]; lia. }
      cbn [out s_size object_bytes]. change (2 ^ (8 * 1)) with 256. rewrite Z.add_comm, Z_mod_plus_full.
        destruct h; reflexivity.
    - rewrite E1. cbn [bind]. eexists out, _, s'. split; [reflexivity|]. split; [exact E2|]. split; [reflexivity|]. split; [right; reflexivity|].
      split; [|auto]. unfold holds_value. rewrite E3. destruct (v =? 0); reflexivity. }
  assert (CV : converted to v = v) by (destruct to; try reflexivity; discriminate TB).
  assert (II : st_is_integer to && st_is_integer from = true).
  { clear - IF IT. repeat (destruct IT as [<-|IT]; [repeat (destruct IF as [<-|IF]; [reflexivity|]); destruct IF|]). destruct IT. }
  rewrite II, CV, ZF, ZT. destruct (Z.eqb_spec (object_bytes m to) (object_bytes m from)) as [SE|SE].
  { exists a, [], s. split; [reflexivity|]. split; [reflexivity|]. split; [congruence|]. split; [left; split; reflexivity|]. apply same_node; auto. }
  fold out.
  assert (SG : is_signed from = Ok (spec_signed from)).
  { clear - IF. repeat (destruct IF as [<-|IF]; [reflexivity|]). destruct IF. }
  rewrite SG. cbn [bind].
  pose proof (extend_low F (set_gpr s RAX (slot_bits s a)) (object_bytes m from) (object_bytes m to) v (spec_signed from)
    OKA ltac:(rewrite gpr_same; exact HA') SF ST ltac:(congruence) VB) as L.
  match type of L with leaves_low _ _ _ (exec_all _ ?l _) => set (ext := l) in * end.
  assert (CODE : (if spec_signed from then codegen_int_cast_sign else codegen_int_cast_zero) a out
                 = let* la := scalar_to_reg a RAX in Ok (la ++ ext ++ reg_to_scalar RAX out)).
  { subst ext. destruct (spec_signed from); unfold codegen_int_cast_sign, codegen_int_cast_zero; [|reflexivity].
    rewrite SA. reflexivity. }
  rewrite CODE.
  destruct (unary_ok F a out s (v mod 2 ^ (8 * object_bytes m to)) ext)
    as (la & s' & E1 & E2 & E3 & E4 & E5); auto.
  rewrite E1. cbn [bind]. eexists out, _, s'. split; [reflexivity|]. split; [exact E2|]. split; [reflexivity|]. split; [right; reflexivity|]. split; auto.
Qed.
Print Assumptions C33_integer_to_integer.

(** What the processor's conversion of an integer to a floating type of [n]
    bytes gives; the rounding is the floating point unit's, whatever it is. *)
Definition int_to_float (F : fpu) (n : Z) (v : Z) : Z :=
  match n with 4 => fpu_int_to_32 F v mod 2 ^ 32 | _ => fpu_int_to_64 F v mod 2 ^ 64 end.

Definition float_target (m : abi) (t : simple_type) : Prop := t = ST_FLOAT \/ t = ST_DOUBLE.

Lemma set_xmm_ok s k v : machine_ok s -> 0 <= v < 2 ^ 64 -> machine_ok (set_xmm s k v).
Proof.
  intros (G & X & M) V. split; [exact G|]. split; [|exact M]. intros q. cbn [set_xmm xmm].
  destruct (q =? k); auto.
Qed.

Lemma leaves_after n s s1 v r :
  machine_ok s1 -> (forall x, mem s1 x = mem s x) -> gpr s1 RBP = gpr s RBP -> gpr s1 RSP = gpr s RSP ->
  0 <= v < 2 ^ 64 -> v mod 2 ^ (8 * n) = r -> leaves_low n s r (Ok (set_gpr s1 RAX v)).
Proof.
  intros OK M B S V R. eexists. split; [reflexivity|]. rewrite gpr_same.
  split; [exact R|]. split; [exact M|]. split; [exact B|]. split; [exact S|]. apply set_gpr_ok; auto.
Qed.

Lemma to_float_leaves F n s v :
  machine_ok s -> n = 4 \/ n = 8 -> signed 64 (gpr s RAX) = v ->
  exists conv, to_float n = Ok conv /\ leaves_low n s (int_to_float F n v) (exec_all F conv s).
Proof.
  intros OK N V. destruct N as [->| ->]; (eexists; split; [reflexivity|]).
  - cbn [exec_all exec bind set_xmm xmm Z.eqb Pos.eqb]. rewrite V.
    assert (P : 0 <= low32 (fpu_int_to_32 F v) < 2 ^ 32) by (apply Z.mod_pos_bound; reflexivity).
    assert (X : 0 <= xmm s 0 < 2 ^ 64) by apply OK.
    assert (HI : low32 (xmm s 0 - low32 (xmm s 0) + low32 (fpu_int_to_32 F v)) = low32 (fpu_int_to_32 F v)).
    { unfold low32, wrap. rewrite Zplus_mod, Zminus_mod_idemp_r, Z.sub_diag. change (0 mod 2 ^ 32) with 0.
      rewrite Z.add_0_l, !Z.mod_mod by (vm_compute; discriminate). reflexivity. }
    rewrite HI. apply leaves_after; try reflexivity.
    + apply (set_xmm_ok s 0 (xmm s 0 - low32 (xmm s 0) + low32 (fpu_int_to_32 F v))); [exact OK|].
      assert (D : xmm s 0 = 2 ^ 32 * (xmm s 0 / 2 ^ 32) + low32 (xmm s 0)) by (apply Z.div_mod; vm_compute; discriminate).
      assert (Q : 0 <= xmm s 0 / 2 ^ 32 < 2 ^ 32).
      { split; [apply Z.div_pos; [lia|reflexivity]|]. apply Z.div_lt_upper_bound; [reflexivity|].
        change (2 ^ 32 * 2 ^ 32) with (2 ^ 64). lia. }
      change (2 ^ 64) with (2 ^ 32 * 2 ^ 32). change (2 ^ 32) with 4294967296 in *. lia.
    + assert (2 ^ 32 < 2 ^ 64) by reflexivity. lia.
    + cbn [int_to_float]. change (8 * 4) with 32. unfold low32, wrap.
      rewrite Z.mod_mod by (vm_compute; discriminate). reflexivity.
  - cbn [exec_all exec bind set_xmm xmm Z.eqb Pos.eqb]. rewrite V. apply leaves_after; try reflexivity.
    + apply (set_xmm_ok s 0 (wrap 64 (fpu_int_to_64 F v))); [exact OK|]. apply mod64_range.
    + apply mod64_range.
    + cbn [int_to_float]. change (8 * 8) with 64. unfold wrap.
      rewrite Z.mod_mod by (vm_compute; discriminate). reflexivity.
Qed.

(** What reaches the converter: the signed 64-bit contents of rax after the
    extension chosen for the source. *)
Definition extension (sg : bool) (n : Z) : list instr :=
  if sg then
    match n with
    | 1 => [I2 (Movs W1 W4) (R1 RAX) (R4 RAX)]
    | 2 => [I2 (Movs W2 W4) (R2 RAX) (R4 RAX)]
    | 4 => [I2 (Movs W4 W8) (R4 RAX) (R8 RAX)]
    | _ => []
    end
  else
    match n with
    | 1 => [I2 (Movz W1 W4) (R1 RAX) (R4 RAX)]
    | 2 => [I2 (Movz W2 W4) (R2 RAX) (R4 RAX)]
    | _ => []
    end.
Definition extended (sg : bool) (n v : Z) : Z :=
  if sg then
    match n with 1 | 2 => v mod 2 ^ 32 | _ => v end
  else
    match n with 8 => signed 64 v | _ => v end.


Lemma extension_leaves F s n v (sg : bool) :
  machine_ok s -> gpr s RAX = v mod 2 ^ (8 * n) -> scalar_size n ->
  (if sg then signed (8 * n) (v mod 2 ^ (8 * n)) else v mod 2 ^ (8 * n)) = v ->
  exists s1, exec_all F (extension sg n) s = Ok s1 /\ signed 64 (gpr s1 RAX) = extended sg n v /\
    (forall x, mem s1 x = mem s x) /\ gpr s1 RBP = gpr s RBP /\ gpr s1 RSP = gpr s RSP /\ machine_ok s1.
Proof.
  intros OK E SN V.
  assert (SET : forall x, 0 <= x < 2 ^ 64 -> signed 64 x = extended sg n v ->
    exec_all F (extension sg n) s = Ok (set_gpr s RAX x) ->
    exists s1, exec_all F (extension sg n) s = Ok s1 /\ signed 64 (gpr s1 RAX) = extended sg n v /\
    (forall x, mem s1 x = mem s x) /\ gpr s1 RBP = gpr s RBP /\ gpr s1 RSP = gpr s RSP /\ machine_ok s1).
  { intros x X SX EX. eexists. split; [exact EX|]. rewrite gpr_same. split; [exact SX|].
    split; [reflexivity|]. split; [reflexivity|]. split; [reflexivity|]. apply set_gpr_ok; auto. }
  assert (NOP : extension sg n = [] -> signed 64 (gpr s RAX) = extended sg n v ->
    exists s1, exec_all F (extension sg n) s = Ok s1 /\ signed 64 (gpr s1 RAX) = extended sg n v /\
    (forall x, mem s1 x = mem s x) /\ gpr s1 RBP = gpr s RBP /\ gpr s1 RSP = gpr s RSP /\ machine_ok s1).
  { intros -> H. exists s. auto 8. }
  assert (SMALL : forall x, 0 <= x < 2 ^ 32 -> signed 64 x = x /\ 0 <= x < 2 ^ 64).
  { intros x X. assert (2 ^ 32 < 2 ^ (64 - 1)) by reflexivity. assert (2 ^ (64 - 1) < 2 ^ 64) by reflexivity.
    split; [|lia]. apply signed_id; lia. }
  assert (M32 : forall x, 0 <= x mod 2 ^ 32 < 2 ^ 32) by (intros; apply Z.mod_pos_bound; reflexivity).
  destruct sg; destruct SN as [<-|[<-|[<-|[<-|[]]]]].
  - apply (SET (v mod 2 ^ 32)); [apply SMALL, M32|cbn [extended]; apply SMALL, M32|].
    cbn [extension exec_all exec is_mem rd wr reg_of bind]. rewrite E. change (bits W1) with (8 * 1). change (bits W4) with 32.
    fold (wrap (8 * 1) v). rewrite !wrap_wrap by lia. unfold wrap at 2. rewrite V. reflexivity.
  - apply (SET (v mod 2 ^ 32)); [apply SMALL, M32|cbn [extended]; apply SMALL, M32|].
    cbn [extension exec_all exec is_mem rd wr reg_of bind]. rewrite E. change (bits W2) with (8 * 2). change (bits W4) with 32.
    fold (wrap (8 * 2) v). rewrite !wrap_wrap by lia. unfold wrap at 2. rewrite V. reflexivity.
  - apply (SET (wrap 64 v)); [apply mod64_range| |].
    + rewrite signed_wrap by lia. cbn [extended]. apply signed_id; [lia|].
      pose proof (signed_range (8 * 4) (v mod 2 ^ (8 * 4)) ltac:(lia)) as R. rewrite V in R.
      change (8 * 4 - 1) with 31 in R. assert (2 ^ 31 < 2 ^ (64 - 1)) by reflexivity. lia.
    + cbn [extension exec_all exec is_mem rd wr reg_of bind]. rewrite E. change (bits W4) with (8 * 4). change (bits W8) with 64.
      fold (wrap (8 * 4) v). rewrite !wrap_wrap by lia. unfold wrap at 2. rewrite V. reflexivity.
  - apply NOP; [reflexivity|]. rewrite E. exact V.
  - assert (V8 : 0 <= v < 2 ^ 8) by (rewrite <- V; apply Z.mod_pos_bound; reflexivity).
    assert (V32 : 0 <= v < 2 ^ 32) by (assert (2 ^ 8 < 2 ^ 32) by reflexivity; lia).
    apply (SET v); [apply SMALL; auto|cbn [extended]; apply SMALL; auto|].
    cbn [extension exec_all exec is_mem rd wr reg_of bind]. rewrite E, V. change (bits W1) with 8. change (bits W4) with 32.
    rewrite (wrap_small 8 v), (wrap_small 32 v) by assumption. reflexivity.
  - assert (V8 : 0 <= v < 2 ^ 16) by (rewrite <- V; apply Z.mod_pos_bound; reflexivity).
    assert (V32 : 0 <= v < 2 ^ 32) by (assert (2 ^ 16 < 2 ^ 32) by reflexivity; lia).
    apply (SET v); [apply SMALL; auto|cbn [extended]; apply SMALL; auto|].
    cbn [extension exec_all exec is_mem rd wr reg_of bind]. rewrite E, V. change (bits W2) with 16. change (bits W4) with 32.
    rewrite (wrap_small 16 v), (wrap_small 32 v) by assumption. reflexivity.
  - apply NOP; [reflexivity|]. rewrite E, V. cbn [extended]. apply SMALL. rewrite <- V. apply Z.mod_pos_bound. reflexivity.
  - apply NOP; [reflexivity|]. rewrite E, V. reflexivity.
Qed.

(** What the emitted code converts, for every source. *)
Lemma to_float_code F m from to v s a loc :
  integer_type from -> to = ST_FLOAT \/ to = ST_DOUBLE -> representable m from v ->
  machine_ok s -> s_size a = object_bytes m from -> in_memory s a ->
  in_memory s {| s_size := sizeof_simple m to; s_loc := loc |} -> holds_value s a v ->
  exists out code s', compile_cast m from to a loc = Ok (out, code) /\ exec_all F code s = Ok s' /\
    s_size out = sizeof_simple m to /\
    slot_bits s' out = int_to_float F (sizeof_simple m to) (extended (spec_signed from) (object_bytes m from) v) /\
    only_changes s s' (slot_address s out) (s_size out) /\ keeps_frame s s'.
Proof.
  intros IF IT R OK SA IA IO HA.
  destruct (object_size m from IF) as [ZF SF].
  set (out := {| s_size := sizeof_simple m to; s_loc := loc |}) in *.
  assert (N48 : s_size out = 4 \/ s_size out = 8) by (destruct IT as [->| ->]; [left|right]; reflexivity).
  pose proof (value_back m from v IF R) as VB.
  assert (HA' : slot_bits s a = v mod 2 ^ (8 * object_bytes m from)) by (unfold holds_value in HA; rewrite SA in HA; exact HA).
  assert (SA' : scalar_size (s_size a)) by (rewrite SA; exact SF).
  assert (B64 : 0 <= slot_bits s a < 2 ^ 64) by (apply bits_bound; auto).
  set (st := set_gpr s RAX (slot_bits s a)) in *.
  assert (OKA : machine_ok st) by (apply set_gpr_ok; auto).
  destruct (extension_leaves F st (object_bytes m from) v (spec_signed from)) as (s1 & X1 & V1 & M1 & P1 & Q1 & OK1); auto.
  destruct (to_float_leaves F (s_size out) s1 _ OK1 N48 V1) as (conv & EC & s2 & X2 & V2 & M2 & P2 & Q2 & OK2).
  assert (SEL : compile_cast m from to a loc =
    let* code := (let* la := scalar_to_reg a RAX in
                  let* conv := to_float (s_size out) in
                  Ok (la ++ extension (spec_signed from) (object_bytes m from) ++ conv ++ reg_to_scalar RAX out)) in
    Ok (out, code)).
  { clear - IF IT SA. rewrite <- SA.
    unfold integer_type in IF.
    destruct IT as [->| ->];
      (repeat (destruct IF as [<-|IF]; [reflexivity|])); destruct IF. }
  rewrite SEL, EC.
  destruct (unary_ok F a out s (int_to_float F (s_size out) (extended (spec_signed from) (object_bytes m from) v))
              (extension (spec_signed from) (object_bytes m from) ++ conv)) as (la & s' & E1 & E2 & E3 & E4 & E5); auto.
  { destruct N48; lia. }
  { fold st. rewrite exec_all_app, X1. cbn [bind]. exists s2. split; [exact X2|]. split; [exact V2|].
    split; [intros x; rewrite M2; apply M1|]. split; [congruence|]. split; [congruence|exact OK2]. }
  rewrite E1. cbn [bind]. exists out. eexists _, s'. split; [reflexivity|].
  rewrite <- (app_assoc (extension _ _)) in E2. split; [exact E2|]. split; [reflexivity|]. auto.
Qed.

(** Integer to floating: the value delivered to the floating point unit's
    conversion is the source's, for signed sources of four or eight bytes,
    unsigned ones of at most four, and otherwise for the values that are
    neither negative nor at least 2^63.  Missing: the two cases below. *)
Theorem C33_integer_to_float_partial : forall F m from to v s a loc,
  integer_type from -> to = ST_FLOAT \/ to = ST_DOUBLE -> representable m from v ->
  (0 <= v < 2 ^ 63 \/ (spec_signed from = true /\ 32 <= spec_width m from)) ->
  machine_ok s -> s_size a = object_bytes m from -> in_memory s a ->
  in_memory s {| s_size := sizeof_simple m to; s_loc := loc |} -> holds_value s a v ->
  exists out code s', compile_cast m from to a loc = Ok (out, code) /\ exec_all F code s = Ok s' /\
    s_size out = sizeof_simple m to /\ slot_bits s' out = int_to_float F (s_size out) v /\
    only_changes s s' (slot_address s out) (s_size out) /\ keeps_frame s s'.
Proof.
  intros F m from to v s a loc IF IT R C OK SA IA IO HA.
  destruct (to_float_code F m from to v s a loc) as (out & code & s' & E1 & E2 & E3 & E4 & E5); auto.
  exists out, code, s'. rewrite E3 in *. rewrite E4. do 3 (split; [assumption || reflexivity|]). split; [|exact E5].
  f_equal. unfold representable, spec_min, spec_max in R. unfold extended.
  clear - IF R C. destruct (spec_signed from) eqn:SG.
  - assert (H : v mod 2 ^ 32 = v \/ object_bytes m from = 4 \/ object_bytes m from = 8).
    { destruct C as [C|[_ C]].
      - assert (2 ^ (spec_width m from - 1) <= 2 ^ 32 \/ object_bytes m from = 8).
        { clear - IF SG. repeat (destruct IF as [<-|IF]; [try discriminate SG; destruct m; cbn;
            (right; reflexivity) || (left; lia)|]). destruct IF. }
        destruct H; [left; apply Z.mod_small; lia|tauto].
      - right. clear - IF SG C. repeat (destruct IF as [<-|IF]; [try discriminate SG; destruct m; cbn in *; lia|]). destruct IF. }
    destruct H as [H|[->| ->]]; [|reflexivity|reflexivity].
    rewrite H. clear. destruct (object_bytes m from) as [|[[]|[]|]|]; reflexivity.
  - destruct C as [C|[C _]]; [|discriminate].
    assert (S : signed 64 v = v) by (apply signed_id; [lia|]; change (64 - 1) with 63; lia).
    rewrite S. clear. destruct (object_bytes m from) as [|[|[|[|[]|]|]|]|]; reflexivity.
Qed.
Print Assumptions C33_integer_to_float_partial.

(** A negative signed char or short is delivered as the value plus 2^32,
    whatever the floating point unit. *)
Theorem C33_negative_small_source_refuted : forall F m from to v s a loc,
  In from [ST_CHAR; ST_SCHAR; ST_SHORT] -> to = ST_FLOAT \/ to = ST_DOUBLE -> representable m from v -> v < 0 ->
  machine_ok s -> s_size a = object_bytes m from -> in_memory s a ->
  in_memory s {| s_size := sizeof_simple m to; s_loc := loc |} -> holds_value s a v ->
  exists out code s', compile_cast m from to a loc = Ok (out, code) /\ exec_all F code s = Ok s' /\
    slot_bits s' out = int_to_float F (s_size out) (v + 4294967296).
Proof.
  intros F m from to v s a loc IF IT R NEG OK SA IA IO HA.
  assert (I : integer_type from) by (unfold integer_type; simpl in *; tauto).
  destruct (to_float_code F m from to v s a loc) as (out & code & s' & E1 & E2 & E3 & E4 & E5); auto.
  exists out, code, s'. split; [exact E1|]. split; [exact E2|]. rewrite E3, E4. f_equal.
  assert (B : - 2 ^ 32 <= v < 0).
  { split; [|exact NEG]. unfold representable, spec_min in R.
    destruct IF as [<-|[<-|[<-|[]]]]; cbn in R; destruct m; lia. }
  assert (X : v mod 2 ^ 32 = v + 4294967296).
  { rewrite <- (Z_mod_plus_full v 1 (2 ^ 32)). rewrite Z.mul_1_l. apply Z.mod_small. change (2 ^ 32) with 4294967296 in *. lia. }
  destruct IF as [<-|[<-|[<-|[]]]]; exact X.
Qed.
Print Assumptions C33_negative_small_source_refuted.

(** An unsigned 64-bit value of 2^63 or more is delivered as a negative one. *)
Theorem C33_large_unsigned_source_refuted : forall F m from to v s a loc,
  integer_type from -> spec_signed from = false -> to = ST_FLOAT \/ to = ST_DOUBLE ->
  representable m from v -> 2 ^ 63 <= v ->
  machine_ok s -> s_size a = object_bytes m from -> in_memory s a ->
  in_memory s {| s_size := sizeof_simple m to; s_loc := loc |} -> holds_value s a v ->
  exists out code s', compile_cast m from to a loc = Ok (out, code) /\ exec_all F code s = Ok s' /\
    slot_bits s' out = int_to_float F (s_size out) (v - 2 ^ 64).
Proof.
  intros F m from to v s a loc IF SG IT R BIG OK SA IA IO HA.
  destruct (to_float_code F m from to v s a loc) as (out & code & s' & E1 & E2 & E3 & E4 & E5); auto.
  exists out, code, s'. split; [exact E1|]. split; [exact E2|]. rewrite E3, E4. f_equal.
  unfold representable, spec_max in R. rewrite SG in R.
  assert (W : object_bytes m from = 8 /\ spec_width m from = 64).
  { assert (2 ^ 63 < 2 ^ spec_width m from) by lia. apply Z.pow_lt_mono_r_iff in H; [|lia|].
    - clear - IF SG H. repeat (destruct IF as [<-|IF]; [try discriminate SG; destruct m; cbn in *; lia|]). destruct IF.
    - clear - IF. repeat (destruct IF as [<-|IF]; [destruct m; cbn; lia|]). destruct IF. }
  destruct W as [W W2]. rewrite W2 in R. rewrite W, SG. cbn [extended].
  rewrite <- (signed_wrap 64 v) by lia. unfold wrap.
  replace (v mod 2 ^ 64) with ((v - 2 ^ 64) mod 2 ^ 64).
  - fold (wrap 64 (v - 2 ^ 64)). rewrite signed_wrap by lia. apply signed_id; [lia|].
    change (64 - 1) with 63. change (2 ^ 64) with (2 * 2 ^ 63) in *. lia.
  - rewrite <- (Z_mod_plus_full (v - 2 ^ 64) 1 (2 ^ 64)). f_equal. lia.
Qed.
Print Assumptions C33_large_unsigned_source_refuted.

(** Floating to floating and to integer: what the floating point unit's
    conversion gives, whatever it is. *)
Definition float_to_float (F : fpu) (n1 n2 : Z) (b : Z) : Z :=
  if (n1 =? 4) && (n2 =? 8) then fpu_32_to_64 F b mod 2 ^ 64
  else if (n1 =? 8) && (n2 =? 4) then fpu_64_to_32 F b mod 2 ^ 32 else b.
Definition float_to_int (F : fpu) (n : Z) (b : Z) : Z :=
  if n =? 4 then fpu_32_to_int F b else fpu_64_to_int F b.
Definition float_bytes (t : simple_type) : Z := if st_eqb t ST_FLOAT then 4 else 8.

Lemma low32_replace x y : low32 (x - low32 x + low32 y) = low32 y.
Proof.
  unfold low32, wrap. rewrite Zplus_mod, Zminus_mod_idemp_r, Z.sub_diag. change (0 mod 2 ^ 32) with 0.
  rewrite Z.add_0_l, !Z.mod_mod by (vm_compute; discriminate). reflexivity.
Qed.
Lemma replace_range x y : 0 <= x < 2 ^ 64 -> 0 <= x - low32 x + low32 y < 2 ^ 64.
Proof.
  intros X. assert (D : x = 2 ^ 32 * (x / 2 ^ 32) + low32 x) by (apply Z.div_mod; vm_compute; discriminate).
  assert (P : 0 <= low32 y < 2 ^ 32) by (apply Z.mod_pos_bound; reflexivity).
  assert (Q : 0 <= x / 2 ^ 32 < 2 ^ 32).
  { split; [apply Z.div_pos; [lia|reflexivity]|]. apply Z.div_lt_upper_bound; [reflexivity|].
    change (2 ^ 32 * 2 ^ 32) with (2 ^ 64). lia. }
  change (2 ^ 64) with (2 ^ 32 * 2 ^ 32) in *. change (2 ^ 32) with 4294967296 in *. lia.
Qed.

(** Between float and double the slot of the result gets what the processor's
    conversion of the operand's bits gives. *)
Theorem C33_float_to_float : forall F m from to s a loc,
  from = ST_FLOAT \/ from = ST_DOUBLE -> to = ST_FLOAT \/ to = ST_DOUBLE ->
  machine_ok s -> s_size a = float_bytes from -> in_memory s a ->
  in_memory s {| s_size := float_bytes to; s_loc := loc |} ->
  exists out code s', compile_cast m from to a loc = Ok (out, code) /\ exec_all F code s = Ok s' /\
    s_size out = float_bytes to /\
    slot_bits s' out = float_to_float F (float_bytes from) (float_bytes to) (slot_bits s a) /\
    (from = to \/ slot_address s out = gpr s RBP - loc) /\
    only_changes s s' (slot_address s out) (s_size out) /\ keeps_frame s s'.
Proof.
  intros F m from to s a loc IF IT OK SA IA IO.
  assert (SAME : from = to -> compile_cast m from to a loc = Ok (a, []) /\
                 float_to_float F (float_bytes from) (float_bytes to) (slot_bits s a) = slot_bits s a).
  { intros <-. split; [unfold compile_cast; rewrite st_eqb_refl; reflexivity|]. destruct IF as [-> | ->]; reflexivity. }
  set (out := {| s_size := float_bytes to; s_loc := loc |}) in *.
  assert (SA' : scalar_size (s_size a)) by (rewrite SA; destruct IF as [-> | ->]; cbn; tauto).
  assert (B64 : 0 <= slot_bits s a < 2 ^ 64) by (apply bits_bound; auto).
  pose proof (set_gpr_ok s RAX (slot_bits s a) OK B64) as OKA.
  set (st := set_gpr s RAX (slot_bits s a)) in *.
  assert (X0 : 0 <= xmm st 0 < 2 ^ 64) by apply OKA.
  destruct IF as [EF|EF], IT as [ET|ET]; subst from to.
  - destruct (SAME eq_refl) as [E1 E2]. exists a, [], s. rewrite E2. repeat split; auto.
  - destruct (unary_ok F a out s (float_to_float F 4 8 (slot_bits s a))
              [I2 Movd (R4 RAX) (XMM 0); I2 Cvtss2sd (XMM 0) (XMM 0); I2 (Mov W8) (XMM 0) (R8 RAX)])
      as (la & s' & E1 & E2 & E3 & E4 & E5); auto.
    { cbn; lia. }
    { fold st. cbn [exec_all exec bind set_xmm xmm Z.eqb Pos.eqb]. change (gpr st RAX) with (slot_bits s a).
      assert (SB : slot_bits s a < 2 ^ 32).
      { unfold slot_bits. rewrite SA. apply (load_range (mem s) (slot_address s a) (Z.to_nat 4)). apply OK. }
      assert (L : low32 (slot_bits s a) = slot_bits s a) by (apply Z.mod_small; lia).
      rewrite !L. apply leaves_after; try reflexivity.
      - apply set_xmm_ok; [apply set_xmm_ok|]; [exact OKA|lia|apply mod64_range].
      - apply mod64_range.
      - change (8 * s_size out) with 64. unfold wrap. rewrite Z.mod_mod by (vm_compute; discriminate). reflexivity. }
    exists out, (la ++ [I2 Movd (R4 RAX) (XMM 0); I2 Cvtss2sd (XMM 0) (XMM 0); I2 (Mov W8) (XMM 0) (R8 RAX)] ++ reg_to_scalar RAX out), s'.
    split. { cbn [float_bytes st_eqb] in SA. unfold compile_cast, codegen_float_cast. cbn [st_eqb st_is_integer st_is_floating andb]. rewrite E1, SA. reflexivity. }
    split; [exact E2|]. split; [reflexivity|]. split; [exact E3|]. split; [right; reflexivity|]. auto.
  - destruct (unary_ok F a out s (float_to_float F 8 4 (slot_bits s a))
              [I2 (Mov W8) (R8 RAX) (XMM 0); I2 Cvtsd2ss (XMM 0) (XMM 0); I2 Movd (XMM 0) (R4 RAX)])
      as (la & s' & E1 & E2 & E3 & E4 & E5); auto.
    { cbn; lia. }
    { fold st. cbn [exec_all exec bind set_xmm xmm Z.eqb Pos.eqb]. change (gpr st RAX) with (slot_bits s a).
      rewrite low32_replace. apply leaves_after; try reflexivity.
      - apply set_xmm_ok; [apply set_xmm_ok|]; [exact OKA|exact B64|apply replace_range; exact B64].
      - assert (P : 0 <= low32 (fpu_64_to_32 F (slot_bits s a)) < 2 ^ 32) by (apply Z.mod_pos_bound; reflexivity).
        assert (2 ^ 32 < 2 ^ 64) by reflexivity. lia.
      - change (8 * s_size out) with 32. unfold low32, wrap. rewrite Z.mod_mod by (vm_compute; discriminate). reflexivity. }
    exists out, (la ++ [I2 (Mov W8) (R8 RAX) (XMM 0); I2 Cvtsd2ss (XMM 0) (XMM 0); I2 Movd (XMM 0) (R4 RAX)] ++ reg_to_scalar RAX out), s'.
    split. { cbn [float_bytes st_eqb] in SA. unfold compile_cast, codegen_float_cast. cbn [st_eqb st_is_integer st_is_floating andb]. rewrite E1, SA. reflexivity. }
    split; [exact E2|]. split; [reflexivity|]. split; [exact E3|]. split; [right; reflexivity|]. auto.
  - destruct (SAME eq_refl) as [E1 E2]. exists a, [], s. rewrite E2. repeat split; auto.
Qed.
Print Assumptions C33_float_to_float.

(** Floating to integer: the slot of the result gets the low bytes of what the
    processor's truncation to a 64-bit integer gives; so any truncated value
    the integer type represents is delivered. *)
Theorem C33_float_to_integer : forall F m from to s a loc,
  from = ST_FLOAT \/ from = ST_DOUBLE -> integer_type to -> to <> ST_BOOL ->
  machine_ok s -> s_size a = float_bytes from -> in_memory s a ->
  in_memory s {| s_size := object_bytes m to; s_loc := loc |} ->
  exists out code s', compile_cast m from to a loc = Ok (out, code) /\ exec_all F code s = Ok s' /\
    s_size out = object_bytes m to /\ slot_address s out = gpr s RBP - loc /\
    holds_value s' out (float_to_int F (float_bytes from) (slot_bits s a)) /\
    only_changes s s' (slot_address s out) (s_size out) /\ keeps_frame s s'.
Proof.
  intros F m from to s a loc IF IT NB OK SA IA IO.
  destruct (object_size m to IT) as [ZT ST].
  set (out := {| s_size := object_bytes m to; s_loc := loc |}) in *.
  assert (SO : 0 <= s_size out <= 8) by (cbn [out s_size]; destruct ST as [<-|[<-|[<-|[<-|[]]]]]; lia).
  assert (SA' : scalar_size (s_size a)) by (rewrite SA; destruct IF as [-> | ->]; cbn; tauto).
  assert (B64 : 0 <= slot_bits s a < 2 ^ 64) by (apply bits_bound; auto).
  pose proof (set_gpr_ok s RAX (slot_bits s a) OK B64) as OKA.
  set (st := set_gpr s RAX (slot_bits s a)) in *.
  assert (SEL : forall conv, (match s_size a with
              | 4 => [I2 Movd (R4 RAX) (XMM 0); I2 (Cvtt2si W4) (XMM 0) (R8 RAX)]
              | 8 => [I2 Movd (R8 RAX) (XMM 0); I2 (Cvtt2si W8) (XMM 0) (R8 RAX)]
              | _ => [] end) = conv ->
     compile_cast m from to a loc = let* code := (let* la := scalar_to_reg a RAX in Ok (la ++ conv ++ reg_to_scalar RAX out)) in Ok (out, code)).
  { intros conv <-. subst out. rewrite <- ZT. clear - IF IT NB.
    destruct IF as [-> | ->]; (repeat (destruct IT as [<-|IT]; [try congruence; reflexivity|])); destruct IT. }
  assert (TR : forall v, wrap 64 v mod 2 ^ (8 * s_size out) = v mod 2 ^ (8 * s_size out)).
  { intros v. apply mod_mod_le. lia. }
  set (v := float_to_int F (float_bytes from) (slot_bits s a)) in *.
  assert (M : exists conv, (match s_size a with
              | 4 => [I2 Movd (R4 RAX) (XMM 0); I2 (Cvtt2si W4) (XMM 0) (R8 RAX)]
              | 8 => [I2 Movd (R8 RAX) (XMM 0); I2 (Cvtt2si W8) (XMM 0) (R8 RAX)]
              | _ => [] end) = conv /\ leaves_low (s_size out) st (v mod 2 ^ (8 * s_size out)) (exec_all F conv st)).
  { rewrite SA. destruct IF as [EF|EF]; subst from;
      [exists [I2 Movd (R4 RAX) (XMM 0); I2 (Cvtt2si W4) (XMM 0) (R8 RAX)]|exists [I2 Movd (R8 RAX) (XMM 0); I2 (Cvtt2si W8) (XMM 0) (R8 RAX)]];
      (split; [reflexivity|]); cbn [exec_all exec bind set_xmm xmm Z.eqb Pos.eqb]; change (gpr st RAX) with (slot_bits s a).
    - assert (SB : slot_bits s a < 2 ^ 32).
      { unfold slot_bits. rewrite SA. apply (load_range (mem s) (slot_address s a) (Z.to_nat 4)). apply OK. }
      assert (L : low32 (slot_bits s a) = slot_bits s a) by (apply Z.mod_small; lia).
      rewrite !L. apply leaves_after; try reflexivity; [apply set_xmm_ok; [exact OKA|lia]|apply mod64_range|apply TR].
    - apply leaves_after; try reflexivity; [apply set_xmm_ok; [exact OKA|lia]|apply mod64_range|apply TR]. }
  destruct M as (conv & EC & LV). rewrite (SEL conv EC).
  destruct (unary_ok F a out s (v mod 2 ^ (8 * s_size out)) conv) as (la & s' & E1 & E2 & E3 & E4 & E5); auto.
  rewrite E1. cbn [bind]. exists out, (la ++ conv ++ reg_to_scalar RAX out), s'.
  split; [reflexivity|]. split; [exact E2|]. split; [reflexivity|]. split; [reflexivity|]. split; [exact E3|]. auto.
Qed.
Print Assumptions C33_float_to_integer.

(** A double that compares equal to zero converts to _Bool as 1 when its sign
    bit is set. *)
Definition zero_machine : machine :=
  {| gpr := fun r => match r with RBP => 4096 | RSP => 4000 | _ => 0 end;
     xmm := fun _ => 0; flag := None;
     mem := store (fun _ => 0) 4088 8 (2 ^ 63) |}.
Theorem C33_negative_zero_to_bool_refuted :
  let a := {| s_size := 8; s_loc := 8 |} in
  ieee_compare W8 (slot_bits zero_machine a) 0 = Some Eq /\
  match compile_cast SYSV ST_DOUBLE ST_BOOL a 12 with
  | Ok (out, code) => match exec_all no_fpu code zero_machine with
                      | Ok s' => slot_bits s' out = 1
                      | _ => False
                      end
  | _ => False
  end.
Proof. split; vm_compute; reflexivity. Qed.
Print Assumptions C33_negative_zero_to_bool_refuted.

(** A signed char -5 widened to long, and the hypotheses of the conversion to
    double. *)
Definition char_machine : machine :=
  {| gpr := fun r => match r with RBP => 4096 | RSP => 4000 | _ => 0 end;
     xmm := fun _ => 0; flag := None;
     mem := store (fun _ => 0) 4095 1 (-5) |}.
Example C33_example :
  let a := {| s_size := 1; s_loc := 1 |} in
  representable SYSV ST_SCHAR (-5) /\ in_memory char_machine a /\ holds_value char_machine a (-5) /\
  match compile_cast SYSV ST_SCHAR ST_ULONG a 16 with
  | Ok (out, code) => match exec_all no_fpu code char_machine with
                      | Ok s' => slot_bits s' out = 2 ^ 64 - 5
                      | _ => False
                      end
  | _ => False
  end.
Proof.
  split; [split; vm_compute; congruence|]. split; [split; vm_compute; congruence|].
  split; vm_compute; reflexivity.
Qed.
