(** va_start and va_arg on the machine. *)
From Verif Require Import Base Bytes Common CommonProofs Arch X86 Codegen AsmSpec X86Proofs X86Preserve CodegenProofs Frame FrameSpec FrameProofs SysV SysVSpec Passing PassingSpec PassingProofs PassingRegs PassingLayout PassingCall PassingEntry Returning ReturningSpec ReturningProofs VaArg.
Ltac Zify.zify_post_hook ::= idtac.

Lemma run_ins F l : forall rest s, run F (map Ins l ++ rest) None s = (let* s' := exec_all F l s in run F rest None s').
Proof.
  induction l as [|i l IH]; intros rest s; cbn [map app run exec_all]; [reflexivity|].
  destruct (exec F i s) as [s'| |]; cbn [bind]; [apply IH|reflexivity|reflexivity].
Qed.
Lemma run_skip F l : forall rest s k, run F (map Ins l ++ rest) (Some k) s = run F rest (Some k) s.
Proof. induction l as [|i l IH]; intros rest s k; cbn [map app run]; [reflexivity|apply IH]. Qed.

(** The fields of the va_list at [V]. *)
Record va_fields (m : Z -> Z) (V g ov sv : Z) : Prop := {
  vf_gp : load m V 4 = g;
  vf_overflow : load m (V + 8) 8 = ov;
  vf_save : load m (V + 16) 8 = sv
}.

Lemma va_start_ok F s r V gp ov pos code :
  machine_ok s -> holds_address s r V -> V + 24 <= 2 ^ 64 -> 0 <= gp <= 48 ->
  0 <= gpr s RBP + ov < 2 ^ 64 -> 0 <= gpr s RBP - pos < 2 ^ 64 ->
  emit_va_start r gp ov pos = Ok code ->
  exists s', exec_all F code s = Ok s' /\ machine_ok s' /\ gpr s' RBP = gpr s RBP /\ gpr s' RSP = gpr s RSP /\
    va_fields (mem s') V gp (gpr s RBP + ov) (gpr s RBP - pos) /\
    (forall x, ~ V <= x < V + 24 -> mem s' x = mem s x).
Proof.
  intros M HA VT GP OV SV E. unfold emit_va_start in E. apply bind_ok in E. destruct E as (lr & EL & E). injection E as <-.
  destruct (address_to_reg F s r V RAX lr M HA EL) as (X & VR).
  unfold gp_offset_offset, fp_offset_offset, overflow_arg_area_offset, reg_save_area_offset.
  rewrite exec_all_app, X. cbn [bind exec_all].
  set (s0 := set_gpr s RAX V). assert (M0 : machine_ok s0) by (apply machine_gpr; assumption).
  assert (A0 : gpr s0 RAX = V) by apply gpr_same.
  assert (B0 : gpr s0 RBP = gpr s RBP) by (apply gpr_other; discriminate).
  assert (S1 : exec F (I2 (Mov W4) (IMM gp) (MEM 0 RAX)) s0 = Ok (set_mem s0 (store (mem s0) V 4 gp))).
  { cbn [exec is_mem andb]. unfold rd. destruct (Z.leb_spec (- 2 ^ 31) gp); [|lia].
    destruct (Z.ltb_spec gp (2 ^ Z.min 32 (bits W4))) as [_|B]; [|change (2 ^ Z.min 32 (bits W4)) with 4294967296 in B; lia].
    cbn [andb bind]. rewrite (wrap_small (bits W4)) by (change (bits W4) with 32; lia).
    apply (wr_mem s0 W4 0 RAX V gp); cbn [wbytes]; lia. }
  rewrite S1. cbn [bind]. set (s1 := set_mem s0 _).
  assert (M1 : machine_ok s1) by (apply machine_mem; exact M0).
  assert (A1 : gpr s1 RAX = V) by exact A0.
  assert (S2 : exec F (I2 (Mov W4) (IMM 0) (MEM 4 RAX)) s1 = Ok (set_mem s1 (store (mem s1) (V + 4) 4 0))).
  { cbn [exec is_mem andb]. change (rd s1 W4 (IMM 0)) with (Ok 0). cbn [bind].
    apply (wr_mem s1 W4 4 RAX (V + 4) 0); cbn [wbytes]; lia. }
  rewrite S2. cbn [bind]. set (s2 := set_mem s1 _).
  assert (M2 : machine_ok s2) by (apply machine_mem; exact M1).
  rewrite (exec_lea F s2 ov RBP RDI (gpr s RBP + ov)) by (try (change (gpr s2 RBP) with (gpr s0 RBP)); lia). cbn [bind].
  set (s3 := set_gpr s2 RDI _). assert (M3 : machine_ok s3) by (apply machine_gpr; assumption).
  assert (A3 : gpr s3 RAX = V) by (unfold s3; rewrite gpr_other by discriminate; exact A0).
  assert (D3 : gpr s3 RDI = gpr s RBP + ov) by apply gpr_same.
  change (I2 (Mov W8) (R8 RDI) (MEM 8 RAX)) with (I2 (Mov W8) (sized W8 RDI) (MEM 8 RAX)).
  rewrite (exec_store F s3 W8 RDI 8 RAX (V + 8)) by (cbn [wbytes]; lia). cbn [bind].
  rewrite D3. change (bits W8) with 64. rewrite (wrap_small 64) by exact OV. change (wbytes W8) with 8%nat.
  set (s4 := set_mem s3 _). assert (M4 : machine_ok s4) by (apply machine_mem; exact M3).
  assert (B4 : gpr s4 RBP = gpr s RBP).
  { change (gpr s4 RBP) with (gpr s3 RBP). unfold s3. rewrite gpr_other by discriminate. exact B0. }
  rewrite (exec_lea F s4 (- pos) RBP RDI (gpr s RBP - pos)) by lia. cbn [bind].
  set (s5 := set_gpr s4 RDI _). assert (M5 : machine_ok s5) by (apply machine_gpr; assumption).
  assert (A5 : gpr s5 RAX = V).
  { unfold s5. rewrite gpr_other by discriminate. exact A3. }
  assert (D5 : gpr s5 RDI = gpr s RBP - pos) by apply gpr_same.
  change (I2 (Mov W8) (R8 RDI) (MEM 16 RAX)) with (I2 (Mov W8) (sized W8 RDI) (MEM 16 RAX)).
  rewrite (exec_store F s5 W8 RDI 16 RAX (V + 16)) by (cbn [wbytes]; lia). cbn [bind].
  rewrite D5. change (bits W8) with 64. rewrite (wrap_small 64) by exact SV. change (wbytes W8) with 8%nat.
  set (s6 := set_mem s5 _).
  assert (EM : mem s6 = store (store (store (store (mem s) V 4 gp) (V + 4) 4 0) (V + 8) 8 (gpr s RBP + ov)) (V + 16) 8 (gpr s RBP - pos)) by reflexivity.
  exists s6. split; [reflexivity|]. split; [apply machine_mem; exact M5|].
  split; [change (gpr s6 RBP) with (gpr s5 RBP); unfold s5; rewrite gpr_other by discriminate; exact B4|].
  split; [change (gpr s6 RSP) with (gpr s5 RSP); unfold s5; rewrite gpr_other by discriminate; change (gpr s4 RSP) with (gpr s3 RSP);
          unfold s3; rewrite gpr_other by discriminate; change (gpr s2 RSP) with (gpr s0 RSP); apply gpr_other; discriminate|].
  split.
  - rewrite EM. clear EM. constructor.
    + rewrite (load_ext (store (mem s) V 4 gp)).
      * rewrite load_store. apply Z.mod_small. change (256 ^ Z.of_nat 4) with 4294967296. lia.
      * intros x XR. change (Z.of_nat 4) with 4 in XR. do 3 (rewrite store_out by (cbn; lia)). reflexivity.
    + rewrite (load_ext (store (store (store (mem s) V 4 gp) (V + 4) 4 0) (V + 8) 8 (gpr s RBP + ov))).
      * rewrite load_store. apply Z.mod_small. exact OV.
      * intros x XR. change (Z.of_nat 8) with 8 in XR. rewrite store_out; [reflexivity|cbn; lia].
    + rewrite load_store. apply Z.mod_small. exact SV.
  - rewrite EM. intros x XR. rewrite !store_out; [reflexivity| | | |]; cbn; lia.
Qed.

(** Fetching from the address in rax. *)
Lemma fetch_ok F s p d a n la : machine_ok s -> gpr s RAX = a -> holds_address s p d -> scalar_to_reg p RSI = Ok la ->
  0 <= n -> a + n <= 2 ^ 64 -> d + n <= 2 ^ 64 -> apart a n d n ->
  exists s', run F (Ins (I2 (Mov W8) (R8 RAX) (R8 RDI)) :: map Ins la ++ map Ins (codegen_memcpy n)) None s = Ok s' /\ copied s s' a d n.
Proof.
  intros M A HD EL N AT DT AP. cbn [run exec is_mem andb rd wr reg_of bind]. change (bits W8) with 64.
  pose proof (proj1 M RAX) as GA. rewrite !(wrap_small 64 (gpr s RAX)) by exact GA. rewrite A in *.
  set (s1 := set_gpr s RDI a). assert (M1 : machine_ok s1) by (apply machine_gpr; assumption).
  assert (B1 : gpr s1 RBP = gpr s RBP) by (apply gpr_other; discriminate).
  assert (HD1 : holds_address s1 p d) by (apply (address_ext s); [exact HD|exact B1|reflexivity]).
  destruct (address_to_reg F s1 p d RSI la M1 HD1 EL) as (X & DR).
  rewrite run_ins, X. cbn [bind]. set (s2 := set_gpr s1 RSI d). assert (M2 : machine_ok s2) by (apply machine_gpr; assumption).
  destruct (memcpy_copied F s2 a d n M2) as (s' & XM & C1 & C2 & C3 & C4); try assumption.
  { unfold s2. rewrite gpr_other by discriminate. apply gpr_same. }
  { apply gpr_same. }
  exists s'. split.
  - rewrite <- (app_nil_r (map Ins _)), run_ins, XM. reflexivity.
  - split; [exact C1|]. split; [rewrite C2; unfold s2; rewrite gpr_other by discriminate; exact B1|].
    split; [|exact C4]. rewrite C3. unfold s2, s1. rewrite !gpr_other by discriminate. reflexivity.
Qed.

(** One va_arg: the source [src] and the new fields. *)
Lemma num_gp_ok classes : Forall (eq CLASS_INTEGER) classes -> num_gp classes = Ok (Z.of_nat (length classes)).
Proof.
  induction 1 as [|c l <- _ IH]; [reflexivity|]. cbn [num_gp class_eqb]. rewrite IH. cbn [bind length]. f_equal. lia.
Qed.

Lemma va_arg_ok F s t classes va p V d g ov sv up src g' ov' :
  machine_ok s -> holds_address s va V -> holds_address s p d -> V + 24 <= 2 ^ 64 -> 0 <= g <= 48 ->
  (forall x, in_slot s p x -> ~ V <= x < V + 24) ->
  va_fields (mem s) V g ov sv ->
  classify t = Ok classes -> (classes = [CLASS_MEMORY] \/ Forall (eq CLASS_INTEGER) classes) -> (1 <= length classes <= 6)%nat ->
  0 <= a_size t -> round_up_to_nearest (a_size t) 8 = Ok up -> 0 <= up -> sv + g < 2 ^ 64 ->
  (** in registers or not *)
  (classes <> [CLASS_MEMORY] /\ g + 8 * Z.of_nat (length classes) <= 48 /\ src = sv + g /\ g' = g + 8 * Z.of_nat (length classes) /\ ov' = ov \/
   (classes = [CLASS_MEMORY] \/ 48 < g + 8 * Z.of_nat (length classes)) /\ src = ov /\ g' = g /\ ov' = ov + up /\ ov + up < 2 ^ 64) ->
  src + a_size t <= 2 ^ 64 -> d + a_size t <= 2 ^ 64 -> apart src (a_size t) d (a_size t) ->
  apart src (a_size t) V 24 -> apart d (a_size t) V 24 ->
  exists code s', emit_va_arg p va t = Ok code /\ run F code None s = Ok s' /\ machine_ok s' /\
    gpr s' RBP = gpr s RBP /\ gpr s' RSP = gpr s RSP /\
    va_fields (mem s') V g' ov' sv /\
    (forall j, 0 <= j < a_size t -> mem s' (d + j) = mem s (src + j)) /\
    (forall x, ~ V <= x < V + 24 -> ~ d <= x < d + a_size t -> mem s' x = mem s x).
Proof.
  intros M HV HD VT GR PS [VG VO VS] EC CK LC SZ EU U0 ST SRC SE DE AP AV DV.
  destruct (scalar8_total va RDI (proj1 HV)) as (lv & EV). destruct (scalar8_total p RSI (proj1 HD)) as (la & EA).
  destruct (address_to_reg F s va V RDI lv M HV EV) as (XV & VR).
  unfold emit_va_arg. rewrite EC. cbn [bind]. rewrite EV. cbn [bind].
  unfold gp_offset_offset, fp_offset_offset, overflow_arg_area_offset, reg_save_area_offset.
  set (s0 := set_gpr s RDI V) in *. assert (M0 : machine_ok s0) by (apply machine_gpr; assumption).
  assert (D0 : gpr s0 RDI = V) by apply gpr_same.
  assert (B0 : gpr s0 RBP = gpr s RBP) by (apply gpr_other; discriminate).
  assert (P0 : gpr s0 RSP = gpr s RSP) by (apply gpr_other; discriminate).
  assert (OVR : 0 <= ov < 2 ^ 64) by (rewrite <- VO; apply (load_range (mem s) (V + 8) 8 (proj2 (proj2 M)))).
  assert (SVR : 0 <= sv < 2 ^ 64) by (rewrite <- VS; apply (load_range (mem s) (V + 16) 8 (proj2 (proj2 M)))).
  (* from the stack, at label 0 *)
  assert (STACK : forall st f, machine_ok st -> gpr st RDI = V -> gpr st RBP = gpr s RBP -> gpr st RSP = gpr s RSP ->
     mem st = mem s -> src = ov -> g' = g -> ov' = ov + up -> ov + up < 2 ^ 64 -> (f = None \/ f = Some 0%nat) ->
     exists s', run F ([Lbl 0; Ins (I2 (Mov W8) (MEM 8 RDI) (R8 RAX)); Ins (I2 (Lea W8) (MEM up RAX) (R8 RDX));
                  Ins (I2 (Mov W8) (R8 RDX) (MEM 8 RDI)); Lbl 1; Ins (I2 (Mov W8) (R8 RAX) (R8 RDI))] ++ map Ins la ++ map Ins (codegen_memcpy (a_size t))) f st = Ok s' /\
       machine_ok s' /\ gpr s' RBP = gpr s RBP /\ gpr s' RSP = gpr s RSP /\ va_fields (mem s') V g' ov' sv /\
       (forall j, 0 <= j < a_size t -> mem s' (d + j) = mem s (src + j)) /\
       (forall x, ~ V <= x < V + 24 -> ~ d <= x < d + a_size t -> mem s' x = mem s x)).
  { intros st f MS DS BS PSS ME -> -> -> OT FF.
    assert (RF : forall l, run F (Lbl 0 :: l) f st = run F l None st) by (intros l; destruct FF as [-> | ->]; reflexivity).
    cbn [app]. rewrite RF. cbn [run].
    assert (X1 : exec F (I2 (Mov W8) (MEM 8 RDI) (R8 RAX)) st = Ok (set_gpr st RAX ov)).
    { cbn [exec is_mem andb]. rewrite (rd_mem st W8 8 RDI (V + 8)) by (cbn [wbytes]; lia). cbn [bind wr reg_of].
      change (wbytes W8) with 8%nat. rewrite ME, VO. change (bits W8) with 64. rewrite (wrap_small 64) by exact OVR. reflexivity. }
    rewrite X1. cbn [bind]. set (s1 := set_gpr st RAX ov). assert (M1 : machine_ok s1) by (apply machine_gpr; assumption).
    rewrite (exec_lea F s1 up RAX RDX (ov + up)) by (try (unfold s1; rewrite gpr_same); lia). cbn [bind].
    set (s2 := set_gpr s1 RDX (ov + up)). assert (M2 : machine_ok s2) by (apply machine_gpr; [exact M1|lia]).
    assert (D2 : gpr s2 RDI = V) by (unfold s2, s1; rewrite !gpr_other by discriminate; exact DS).
    change (I2 (Mov W8) (R8 RDX) (MEM 8 RDI)) with (I2 (Mov W8) (sized W8 RDX) (MEM 8 RDI)).
    rewrite (exec_store F s2 W8 RDX 8 RDI (V + 8)) by (cbn [wbytes]; lia). cbn [bind].
    replace (wrap (bits W8) (gpr s2 RDX)) with (ov + up)
      by (unfold s2; rewrite gpr_same; change (bits W8) with 64; symmetry; apply wrap_small; lia).
    change (wbytes W8) with 8%nat. set (s3 := set_mem s2 _). assert (M3 : machine_ok s3) by (apply machine_mem; exact M2).
    assert (EM : mem s3 = store (mem s) (V + 8) 8 (ov + up)) by (rewrite <- ME; reflexivity).
    assert (B3 : gpr s3 RBP = gpr s RBP).
    { change (gpr s3 RBP) with (gpr s2 RBP). unfold s2, s1. rewrite !gpr_other by discriminate. exact BS. }
    assert (P3 : gpr s3 RSP = gpr s RSP).
    { change (gpr s3 RSP) with (gpr s2 RSP). unfold s2, s1. rewrite !gpr_other by discriminate. exact PSS. }
    assert (K3 : forall x, ~ V <= x < V + 24 -> mem s3 x = mem s x).
    { intros x X. rewrite EM. apply store_out. cbn. lia. }
    assert (HD3 : holds_address s3 p d).
    { apply (address_ext s); [exact HD|exact B3|]. intros x X. apply K3. apply PS. exact X. }
    destruct (fetch_ok F s3 p d ov (a_size t) la M3) as (s' & X & C1 & C2 & C3 & C4); try assumption.
    { change (gpr s3 RAX) with (gpr s2 RAX). unfold s2, s1. rewrite gpr_other by discriminate. apply gpr_same. }
    exists s'. split; [exact X|]. split; [exact C4|]. split; [congruence|]. split; [congruence|].
    assert (KV : forall x, V <= x < V + 24 -> mem s' x = mem s3 x).
    { intros x XR. rewrite C1. destruct (Z.leb_spec d x); [|reflexivity]. destruct (Z.ltb_spec x (d + a_size t)); [|reflexivity].
      unfold apart in DV. lia. }
    split; [|split].
    - constructor.
      + rewrite (load_ext (mem s)); [exact VG|]. intros x XR. change (Z.of_nat 4) with 4 in XR. rewrite KV by lia. rewrite EM. apply store_out. cbn; lia.
      + rewrite (load_ext (mem s3)) by (intros x XR; change (Z.of_nat 8) with 8 in XR; apply KV; lia).
        rewrite EM, load_store. apply Z.mod_small. change (256 ^ Z.of_nat 8) with (2 ^ 64). lia.
      + rewrite (load_ext (mem s)); [exact VS|]. intros x XR. change (Z.of_nat 8) with 8 in XR. rewrite KV by lia. rewrite EM. apply store_out. cbn; lia.
    - intros j J. rewrite C1. destruct (Z.leb_spec d (d + j)); [|lia]. destruct (Z.ltb_spec (d + j) (d + a_size t)); [|lia]. cbn [andb].
      replace (d + j - d + ov) with (ov + j) by lia. apply K3. unfold apart in AV. lia.
    - intros x NV ND. rewrite C1. destruct (Z.leb_spec d x); [|apply K3; exact NV].
      destruct (Z.ltb_spec x (d + a_size t)); [lia|]. apply K3. exact NV. }
  destruct classes as [|c0 cl] eqn:ECL; [cbn in LC; lia|].
  destruct (class_eqb c0 CLASS_MEMORY) eqn:CM.
  - (* MEMORY *)
    assert (MEMO : c0 :: cl = [CLASS_MEMORY]).
    { destruct CK as [E|FA]; [exact E|]. exfalso. pose proof (Forall_inv FA) as FI. rewrite <- FI in CM. discriminate. }
    destruct SRC as [(N & _)|(_ & E1 & E2 & E3 & E4)]; [contradiction|].
    cbn [bind]. rewrite EU. cbn [bind]. rewrite EA. cbn [bind].
    destruct (STACK s0 None M0 D0 B0 P0 eq_refl E1 E2 E3 E4 (or_introl eq_refl)) as (s' & X & REST).
    eexists. exists s'. split; [reflexivity|]. split; [|exact REST]. rewrite run_ins, XV. cbn [bind app]. exact X.
  - (* INTEGER *)
    assert (FA : Forall (eq CLASS_INTEGER) (c0 :: cl)).
    { destruct CK as [E|FA]; [injection E as -> ->; discriminate|exact FA]. }
    assert (NM : c0 :: cl <> [CLASS_MEMORY]) by (intros E; injection E as -> ->; discriminate).
    rewrite (num_gp_ok _ FA). cbn [bind]. set (n := Z.of_nat (length (c0 :: cl))) in *.
    assert (N16 : 1 <= n <= 6) by (unfold n; lia).
    rewrite EU. cbn [bind]. rewrite EA. cbn [bind].
    eexists. 
    assert (X1 : exec F (I2 (Mov W4) (MEM 0 RDI) (R4 RAX)) s0 = Ok (set_gpr s0 RAX g)).
    { cbn [exec is_mem andb]. rewrite (rd_mem s0 W4 0 RDI V) by (cbn [wbytes]; lia). cbn [bind wr reg_of].
      change (mem s0) with (mem s). change (wbytes W4) with 4%nat. rewrite VG. change (bits W4) with 32. rewrite (wrap_small 32) by lia. reflexivity. }
    set (s1 := set_gpr s0 RAX g) in *. assert (M1 : machine_ok s1) by (apply machine_gpr; [exact M0|lia]).
    assert (X2 : exec F (I2 (Cmp W4) (IMM (48 - 8 * n)) (R4 RAX)) s1 = Ok (set_flag s1 (Some (sub_flags W4 g (48 - 8 * n))))).
    { cbn [exec is_mem andb]. unfold rd at 1. destruct (Z.leb_spec (- 2 ^ 31) (48 - 8 * n)); [|lia].
      destruct (Z.ltb_spec (48 - 8 * n) (2 ^ Z.min 32 (bits W4))) as [_|B]; [|change (2 ^ Z.min 32 (bits W4)) with 4294967296 in B; lia].
      cbn [andb bind rd reg_of]. change (bits W4) with 32. rewrite (wrap_small 32 (48 - 8 * n)) by lia.
      replace (gpr s1 RAX) with g by (symmetry; apply gpr_same). rewrite (wrap_small 32 g) by lia. reflexivity. }
    set (s2 := set_flag s1 _) in *. assert (M2 : machine_ok s2) by (apply machine_flag; exact M1).
    assert (D2 : gpr s2 RDI = V) by (change (gpr s2 RDI) with (gpr s1 RDI); unfold s1; rewrite gpr_other by discriminate; exact D0).
    assert (B2 : gpr s2 RBP = gpr s RBP) by (change (gpr s2 RBP) with (gpr s1 RBP); unfold s1; rewrite gpr_other by discriminate; exact B0).
    assert (P2 : gpr s2 RSP = gpr s RSP) by (change (gpr s2 RSP) with (gpr s1 RSP); unfold s1; rewrite gpr_other by discriminate; exact P0).
    assert (A2 : gpr s2 RAX = g) by (change (gpr s2 RAX) with (gpr s1 RAX); apply gpr_same).
    assert (HC : holds CA (sub_flags W4 g (48 - 8 * n)) = (48 - 8 * n <? g)).
    { cbn [holds sub_flags cf zf]. change (bits W4) with 32.
      destruct (Z.ltb_spec g (48 - 8 * n)) as [L|G]; cbn [orb negb].
      - destruct (Z.ltb_spec (48 - 8 * n) g); [lia|reflexivity].
      - rewrite (wrap_small 32) by lia. destruct (Z.eqb_spec (g - (48 - 8 * n)) 0); destruct (Z.ltb_spec (48 - 8 * n) g); cbn [negb]; try reflexivity; lia. }
    assert (HEAD : forall rest, run F (map Ins lv ++ (Ins (I2 (Mov W4) (MEM 0 RDI) (R4 RAX)) :: Ins (I2 (Cmp W4) (IMM (48 - 8 * n)) (R4 RAX)) :: Jcc CA 0 :: rest)) None s =
        run F rest (if 48 - 8 * n <? g then Some 0%nat else None) s2).
    { intros rest. rewrite run_ins, XV. cbn [bind]. cbn [run]. rewrite X1. cbn [bind]. rewrite X2. cbn [bind]. change (flag s2) with (Some (sub_flags W4 g (48 - 8 * n))).
      cbv iota. rewrite HC. reflexivity. }
    destruct (Z.ltb_spec (48 - 8 * n) g) as [LT|GE].
    + destruct SRC as [(_ & L & _)|(_ & E1 & E2 & E3 & E4)]; [lia|].
      destruct (STACK s2 (Some 0%nat) M2 D2 B2 P2 eq_refl E1 E2 E3 E4 (or_intror eq_refl)) as (s' & X & REST).
      exists s'. split; [reflexivity|]. split; [|exact REST].
      cbn [app]. rewrite HEAD. cbn [run]. exact X.
    + destruct SRC as [(_ & L & E1 & E2 & E3)|([E|L] & _)]; [|contradiction|lia].
      assert (X3 : exec F (I2 (Lea W4) (MEM (n * 8) RAX) (R4 RDX)) s2 = Ok (set_gpr s2 RDX g')).
      { cbn [exec is_mem wr reg_of]. change (bits W4) with 32. rewrite A2, (wrap_small 32) by lia. do 2 f_equal. lia. }
      set (s3 := set_gpr s2 RDX g') in *. assert (M3 : machine_ok s3) by (apply machine_gpr; [exact M2|lia]).
      assert (D3 : gpr s3 RDI = V) by (unfold s3; rewrite gpr_other by discriminate; exact D2).
      assert (A3 : gpr s3 RAX = g) by (unfold s3; rewrite gpr_other by discriminate; exact A2).
      assert (X4 : exec F (I2 (Add W8) (MEM 16 RDI) (R8 RAX)) s3 = Ok (set_flag (set_gpr s3 RAX src) None)).
      { cbn [exec]. unfold alu. cbn [is_mem andb]. rewrite (rd_mem s3 W8 16 RDI (V + 16)) by (cbn [wbytes]; lia). cbn [bind rd reg_of wr].
        change (wbytes W8) with 8%nat. change (mem s3) with (mem s). rewrite VS, A3. change (bits W8) with 64.
        rewrite (wrap_small 64 g) by lia. rewrite (wrap_small 64 (g + sv)) by lia. rewrite (wrap_small 64 (g + sv)) by lia.
        do 3 f_equal. lia. }
      set (s4 := set_flag _ None) in *.
      assert (M4 : machine_ok s4) by (apply machine_flag; apply machine_gpr; [exact M3|lia]).
      assert (O4 : forall r, r <> RAX -> gpr s4 r = gpr s3 r) by (intros r R; change (gpr s4 r) with (gpr (set_gpr s3 RAX src) r); apply gpr_other; exact R).
      assert (X5 : exec F (I2 (Mov W4) (R4 RDX) (MEM 0 RDI)) s4 = Ok (set_mem s4 (store (mem s) V 4 g'))).
      { change (I2 (Mov W4) (R4 RDX) (MEM 0 RDI)) with (I2 (Mov W4) (sized W4 RDX) (MEM 0 RDI)).
        rewrite (exec_store F s4 W4 RDX 0 RDI V) by (try rewrite O4 by discriminate; cbn [wbytes]; lia).
        rewrite O4 by discriminate. change (gpr s3 RDX) with (gpr (set_gpr s2 RDX g') RDX). rewrite gpr_same.
        change (bits W4) with 32. rewrite (wrap_small 32) by lia. reflexivity. }
      set (s5 := set_mem s4 _) in *. assert (M5 : machine_ok s5) by (unfold s5; change (mem s) with (mem s4); apply machine_mem; exact M4).
      assert (EM : mem s5 = store (mem s) V 4 g') by reflexivity.
      assert (B5 : gpr s5 RBP = gpr s RBP).
      { change (gpr s5 RBP) with (gpr s4 RBP). rewrite O4 by discriminate. unfold s3. rewrite gpr_other by discriminate. exact B2. }
      assert (P5 : gpr s5 RSP = gpr s RSP).
      { change (gpr s5 RSP) with (gpr s4 RSP). rewrite O4 by discriminate. unfold s3. rewrite gpr_other by discriminate. exact P2. }
      assert (K5 : forall x, ~ V <= x < V + 24 -> mem s5 x = mem s x).
      { intros x X. rewrite EM. apply store_out. cbn. lia. }
      assert (HD5 : holds_address s5 p d).
      { apply (address_ext s); [exact HD|exact B5|]. intros x X. apply K5. apply PS. exact X. }
      destruct (fetch_ok F s5 p d src (a_size t) la M5) as (s' & X & C1 & C2 & C3 & C4); try assumption.
      { change (gpr s5 RAX) with (gpr (set_gpr s3 RAX src) RAX). apply gpr_same. }
      exists s'. split; [reflexivity|].
      split.
      { cbn [app]. rewrite HEAD. cbn [run]. rewrite X3. cbn [bind]. rewrite X4. cbn [bind]. rewrite X5. cbn [bind Nat.eqb]. exact X. }
      split; [exact C4|]. split; [congruence|]. split; [congruence|].
      assert (KV : forall x, V <= x < V + 24 -> mem s' x = mem s5 x).
      { intros x XR. rewrite C1. destruct (Z.leb_spec d x); [|reflexivity]. destruct (Z.ltb_spec x (d + a_size t)); [|reflexivity].
        unfold apart in DV. lia. }
      split; [|split].
      * constructor.
        -- rewrite (load_ext (mem s5)) by (intros x XR; change (Z.of_nat 4) with 4 in XR; apply KV; lia).
           rewrite EM, load_store. apply Z.mod_small. change (256 ^ Z.of_nat 4) with 4294967296. lia.
        -- rewrite (load_ext (mem s)); [congruence|]. intros x XR. change (Z.of_nat 8) with 8 in XR. rewrite KV by lia. rewrite EM. apply store_out. cbn; lia.
        -- rewrite (load_ext (mem s)); [exact VS|]. intros x XR. change (Z.of_nat 8) with 8 in XR. rewrite KV by lia. rewrite EM. apply store_out. cbn; lia.
      * intros j J. rewrite C1. destruct (Z.leb_spec d (d + j)); [|lia]. destruct (Z.ltb_spec (d + j) (d + a_size t)); [|lia]. cbn [andb].
        replace (d + j - d + src) with (src + j) by lia. apply K5. unfold apart in AV. lia.
      * intros x NV ND. rewrite C1. destruct (Z.leb_spec d x); [|apply K5; exact NV].
        destruct (Z.ltb_spec x (d + a_size t)); [lia|]. apply K5. exact NV.
Qed.
