(** Where the unnamed arguments are, and the walk over them. *)
From Verif Require Import Base Bytes Common CommonProofs Arch X86 Codegen AsmSpec X86Proofs X86Preserve CodegenProofs Frame FrameSpec FrameProofs SysV SysVSpec SysVProofs C37Props Passing PassingSpec PassingProofs PassingRegs PassingLayout PassingCall PassingEntry Returning ReturningSpec ReturningProofs VaArg VaArgProofs VaArgSpec.
Ltac Zify.zify_post_hook ::= idtac.

Lemma convention_nth gp q : 0 <= gp -> convention calling_convention gp = Ok q -> nth_error abi_gp (Z.to_nat gp) = Some q /\ gp < 6.
Proof.
  intros G. unfold convention. change calling_convention with abi_gp. destruct (nth_error abi_gp (Z.to_nat gp)) as [r|] eqn:E; [|discriminate].
  intros X; injection X as <-. split; [reflexivity|].
  assert (Z.to_nat gp < length abi_gp)%nat by (apply nth_error_Some; congruence). cbn in H. lia.
Qed.

(** The pieces of an integer argument. *)
Lemma integer_pieces i size l : Forall (eq CLASS_INTEGER) l -> forall pos gp sse mine gp' sse', 0 <= gp ->
  assign_parts i size l pos gp sse = Ok (mine, gp', sse') ->
  gp' = gp + Z.of_nat (length l) /\ sse' = sse /\
  forall q, (q < length l)%nat -> exists r reg, In r mine /\ r_place r = GP reg /\ nth_error abi_gp (Z.to_nat gp + q) = Some reg /\
    r_merged r = Some (i, pos + 8 * Z.of_nat q) /\ r_size r = Z.min (size - (pos + 8 * Z.of_nat q)) 8.
Proof.
  induction 1 as [|c l <- _ IH]; intros pos gp sse mine gp' sse' G; cbn [assign_parts is_vec class_eqb orb].
  - intros E; injection E as <- <- <-. cbn [length]. split; [lia|]. split; [reflexivity|]. intros q Q. lia.
  - intros E. apply bind_ok in E. destruct E as (reg & EC & E). apply bind_ok in E. destruct E as ([[rest g1] s1] & EA & E).
    injection E as <- <- <-. destruct (convention_nth _ _ G EC) as (NR & _).
    destruct (IH (pos + 8) (gp + 1) sse rest g1 s1 ltac:(lia) EA) as (-> & -> & H). cbn [length]. split; [lia|]. split; [reflexivity|].
    intros [|q] Q.
    + eexists _, reg. split; [left; reflexivity|]. cbn [r_place r_merged r_size]. split; [reflexivity|].
      rewrite Nat.add_0_r. split; [exact NR|]. split; [do 2 f_equal; lia|f_equal; lia].
    + destruct (H q ltac:(lia)) as (r & reg' & I & EP & EN & EM & ES). exists r, reg'. split; [right; exact I|]. split; [exact EP|].
      replace (Z.to_nat (gp + 1) + q)%nat with (Z.to_nat gp + S q)%nat in EN by lia.
      replace (pos + 8 + 8 * Z.of_nat q) with (pos + 8 * Z.of_nat (S q)) in EM, ES by lia. auto.
Qed.

(** One unnamed argument. *)
Lemma count_integers l : Forall (eq CLASS_INTEGER) l -> forall gp sse, count_parts l gp sse = Ok (gp + Z.of_nat (length l), sse).
Proof.
  induction 1 as [|c l <- _ IH]; intros gp sse; cbn [count_parts class_eqb is_vec orb length]; [do 2 f_equal; lia|].
  rewrite IH. do 2 f_equal. lia.
Qed.
Lemma next_argument i t post gp sse regs st gp' sse' classes : 0 <= gp <= 6 -> 0 <= sse <= 8 ->
  assign_arguments i (t :: post) gp sse = Ok (regs, st, gp', sse') ->
  classify t = Ok classes -> (classes = [CLASS_MEMORY] \/ Forall (eq CLASS_INTEGER) classes) -> classes <> [] ->
  let n := Z.of_nat (length classes) in
  (classes <> [CLASS_MEMORY] /\ gp + n <= 6 /\
   exists mine rest, regs = mine ++ rest /\ assign_arguments (S i) post (gp + n) sse = Ok (rest, st, gp', sse') /\
     (forall q, (q < length classes)%nat -> exists r reg, In r mine /\ r_place r = GP reg /\ nth_error abi_gp (Z.to_nat gp + q) = Some reg /\
        r_merged r = Some (i, 8 * Z.of_nat q) /\ r_size r = Z.min (a_size t - 8 * Z.of_nat q) 8)) \/
  ((classes = [CLASS_MEMORY] \/ 6 < gp + n) /\
   exists st', st = i :: st' /\ assign_arguments (S i) post gp sse = Ok (regs, st', gp', sse')).
Proof.
  intros G SS E EC CK NE. cbv zeta. cbn [assign_arguments] in E. rewrite EC in E. cbn [bind] in E.
  destruct CK as [->|FA].
  - cbn [count_parts class_eqb bind orb] in E. apply bind_ok in E. destruct E as ([[[a b] c] e] & EA & E). injection E as <- <- <- <-.
    right. split; [left; reflexivity|]. exists b. auto.
  - rewrite (count_integers _ FA) in E. cbn [bind] in E. destruct classes as [|c0 cl] eqn:ECL; [contradiction|]. rewrite <- ECL in *.
    assert (C0 : c0 = CLASS_INTEGER) by (rewrite ECL in FA; symmetry; apply (Forall_inv FA)).
    assert (NM : classes <> [CLASS_MEMORY]) by (rewrite ECL, C0; discriminate).
    rewrite C0 in E at 1. cbn [class_eqb orb] in E. set (n := Z.of_nat (length classes)) in *. rewrite Z.add_0_l, Z.add_0_r in E.
    destruct (Z.ltb_spec 8 sse) as [B|_]; [lia|]. rewrite Bool.orb_false_r in E.
    destruct (Z.ltb_spec 6 (gp + n)) as [L|L].
    + apply bind_ok in E. destruct E as ([[[a b] c] e] & EA & E). injection E as <- <- <- <-.
      right. split; [right; exact L|]. exists b. auto.
    + apply bind_ok in E. destruct E as ([[mine g1] s1] & EP & E). apply bind_ok in E. destruct E as ([[[a b] c] e] & EA & E).
      injection E as <- <- <- <-. destruct (integer_pieces _ _ _ FA _ _ _ _ _ _ (proj1 G) EP) as (-> & -> & H).
      left. split; [exact NM|]. split; [exact L|]. exists mine, a. split; [reflexivity|]. split; [exact EA|].
      intros q Q. destruct (H q Q) as (r & reg & I & A1 & A2 & A3 & A4). exists r, reg. rewrite Z.add_0_l in A3, A4. auto.
Qed.

Lemma points_apart a n b m : 0 < n -> 0 < m -> (forall x, a <= x < a + n -> ~ b <= x < b + m) -> apart a n b m.
Proof.
  intros N M H. unfold apart. destruct (Z.le_gt_cases (a + n) b) as [|L]; [auto|]. destruct (Z.le_gt_cases (b + m) a) as [|L2]; [auto|].
  exfalso. destruct (Z.le_gt_cases a b).
  - apply (H b); lia.
  - apply (H a); lia.
Qed.

Lemma integer_classes t : integer_argument t -> exists classes, classify t = Ok classes /\
  (classes = [CLASS_MEMORY] \/ Forall (eq CLASS_INTEGER) classes /\ Z.of_nat (length classes) = (a_size t + 7) / 8) /\
  (1 <= length classes <= 2)%nat /\ 0 < a_size t.
Proof.
  intros (C & p & AC & PI). pose proof (conf_size t C) as SZ. destruct (C37_classes_partial t C) as (p' & AC' & E).
  assert (p' = p) by (apply (C37_abi_unique t); assumption). subst p'. exists (match p with Some l => map class_of l | None => [CLASS_MEMORY] end).
  split; [exact E|]. destruct p as [l|].
  - destruct AC as (NM & LL & _). assert (S16 : a_size t <= 16) by (destruct (Z.le_gt_cases (a_size t) 16); [assumption|exfalso; apply NM; left; lia]).
    rewrite map_length. split; [right; split|].
    + clear -PI. induction PI as [|e l <- _ IH]; constructor; auto.
    + exact LL.
    + split; [|exact SZ]. assert (1 <= (a_size t + 7) / 8 <= 2) by (Z.div_mod_to_equations; lia). lia.
  - split; [left; reflexivity|]. cbn. split; [lia|exact SZ].
Qed.

(** The walk. [rp] is the memory of the caller, in state [s]; [sp] is the stack
    pointer at the call, [sv] the save area. *)
Section Walk.
  Variables (F : fpu) (types : list atype) (c : call_info) (s s2 : machine) (args : list Z)
            (layout : list (nat * Z * Z)) (total sub sv sp V : Z).
  Hypothesis POS : Forall (fun t => 0 < a_size t) types.
  Hypothesis REGS : forall r reg q i pos a j, In r (c_regs c) -> r_place r = GP reg -> nth_error abi_gp q = Some reg ->
    r_merged r = Some (i, pos) -> nth_error args i = Some a -> 0 <= j < r_size r ->
    mem s2 (sv + 8 * Z.of_nat q + j) = mem s (a + pos + j).
  Hypothesis STACK : forall i off size a j, In (i, off, size) layout -> nth_error args i = Some a -> 0 <= j < size ->
    mem s2 (sp + off + j) = mem s (a + j).
  Hypothesis SV : 0 <= sv /\ sv + 48 <= sp.
  Hypothesis SP : total <= sub /\ sp + sub < 2 ^ 64.
  Hypothesis VT : V + 24 <= 2 ^ 64.
  Local Notation live := (fun x => sv <= x < sv + 48 \/ sp <= x < sp + sub).
  Hypothesis VL : forall x, V <= x < V + 24 -> ~ (sv <= x < sv + 48 \/ sp <= x < sp + sub).

  Lemma walk_ok post : forall fetched i gp sse regs stk gp' sse' l2 cur st pre,
    Forall integer_argument fetched -> 0 <= gp <= 6 -> 0 <= sse <= 8 -> 0 <= cur ->
    types = pre ++ fetched ++ post -> length pre = i ->
    assign_arguments i (fetched ++ post) gp sse = Ok (regs, stk, gp', sse') ->
    (forall r, In r regs -> In r (c_regs c)) ->
    stack_layout types stk cur = Ok (l2, total) -> (forall q, In q l2 -> In q layout) ->
    (forall x, live x -> mem st x = mem s2 x) ->
    va_fields (mem st) V (8 * gp) (sp + cur) sv ->
    forall al, length al = length fetched -> (forall j a, nth_error al j = Some a -> nth_error args (i + j) = Some a) ->
    serves F live V s st (combine fetched al).
  Proof.
    induction fetched as [|t fetched IH]; intros i gp sse regs stk gp' sse' l2 cur st pre FI G SS CU ET EI EA RI EL LI LV VF al LA AL;
      [exact Logic.I|].
    destruct al as [|a al]; [discriminate|]. cbn [combine serves].
    intros st0 va p d M0 K0 HV HD DT DL PL.
    destruct VF as [VF1 VF2 VF3].
    assert (VF0 : va_fields (mem st0) V (8 * gp) (sp + cur) sv).
    { constructor; [rewrite <- VF1|rewrite <- VF2|rewrite <- VF3]; apply load_ext; intros x X; apply K0; right; cbn in X; lia. }
    assert (L0 : forall x, live x -> mem st0 x = mem s2 x) by (intros x X; rewrite K0 by (left; exact X); apply LV; exact X).
    inversion FI as [|? ? IT FI']; subst x l.
    destruct (integer_classes t IT) as (classes & EC & CK & LC & SZ).
    assert (CK' : classes = [CLASS_MEMORY] \/ Forall (eq CLASS_INTEGER) classes) by (destruct CK as [|[]]; auto).
    assert (NE : classes <> []) by (intros ->; cbn in LC; lia).
    assert (NA : nth_error args i = Some a) by (rewrite <- (Nat.add_0_r i); apply AL; reflexivity).
    cbn [app] in EA. assert (NT : nth_error types i = Some t).
    { rewrite ET, nth_error_app2 by lia. rewrite EI, Nat.sub_diag. reflexivity. }
    assert (ET' : types = (pre ++ [t]) ++ fetched ++ post) by (rewrite <- app_assoc; exact ET).
    assert (EI' : length (pre ++ [t]) = S i) by (rewrite app_length; cbn; lia).
    assert (AL' : forall j b, nth_error al j = Some b -> nth_error args (S i + j) = Some b).
    { intros j b E. replace (S i + j)%nat with (i + S j)%nat by lia. apply AL. exact E. }
    assert (LA' : length al = length fetched) by (cbn in LA; lia).
    pose proof (layout_gives types stk cur l2 total POS EL) as LF. pose proof (lf_total _ _ _ _ _ LF) as CT. clear LF.
    destruct (next_argument i t (fetched ++ post) gp sse regs stk gp' sse' classes G SS EA EC CK' NE) as
      [(NM & GN & mine & rest & ER & EA' & MP)|(WH & stk' & ES & EA')].
    - (* registers *)
      assert (CL : Z.of_nat (length classes) = (a_size t + 7) / 8) by (destruct CK as [|[]]; [contradiction|assumption]).
      set (n := Z.of_nat (length classes)) in *. assert (N1 : 1 <= n <= 2) by (unfold n; lia).
      assert (SN : a_size t <= 8 * n) by (rewrite CL; Z.div_mod_to_equations; lia).
      destruct (round_up_eq (a_size t) 8) as (up & EU & _); [lia|lia|unfold INT_MAX; lia|unfold INT_MAX; lia|].
      destruct (round8_eq _ _ SZ EU) as (U1 & U2).
      destruct (va_arg_ok F st0 t classes va p V d (8 * gp) (sp + cur) sv up (sv + 8 * gp) (8 * gp + 8 * n) (sp + cur)) as (code & st' & E1 & X & M' & B' & S' & VF' & BY & KP);
        try assumption; try (clear -G LC SZ U1 SV SP CU CT GN SN N1; lia).
      { left. split; [exact NM|]. split; [fold n; clear -GN; lia|]. split; [reflexivity|]. split; reflexivity. }
      { apply points_apart; [exact SZ|exact SZ|]. intros x X Y. apply (proj1 (DL x Y)). left. clear -X G GN SN; lia. }
      { apply points_apart; [exact SZ|reflexivity|]. intros x X Y. apply (VL x Y). left. clear -X G GN SN; lia. }
      { apply points_apart; [exact SZ|reflexivity|]. intros x X Y. apply (proj2 (DL x X)). exact Y. }
      exists code, st'. split; [exact E1|]. split; [exact X|]. split.
      { intros j J. rewrite BY by exact J. rewrite L0 by (left; clear -J G GN SN; lia).
        destruct (MP (Z.to_nat (j / 8))) as (r & reg & I & EP & EN & EM & ESZ).
        { apply Nat2Z.inj_lt. rewrite Z2Nat.id by (apply Z.div_pos; [apply J|reflexivity]). fold n. clear -J SN. Z.div_mod_to_equations; lia. }
        assert (J8 : 0 <= j / 8) by (apply Z.div_pos; [apply J|reflexivity]). rewrite Z2Nat.id in EM, ESZ by exact J8.
        replace (sv + 8 * gp + j) with (sv + 8 * Z.of_nat (Z.to_nat gp + Z.to_nat (j / 8)) + (j - 8 * (j / 8)))
          by (rewrite Nat2Z.inj_add, !Z2Nat.id by (exact J8 || apply G); clear; lia).
        rewrite (REGS r reg _ i (8 * (j / 8)) a); [f_equal; clear; lia| |exact EP|exact EN|exact EM|exact NA|rewrite ESZ; clear -J; Z.div_mod_to_equations; lia].
        apply RI. rewrite ER. apply in_or_app. left. exact I. }
      split; [exact KP|]. split; [exact B'|]. split; [exact S'|]. split; [exact M'|].
      apply (IH (S i) (gp + n) sse rest stk gp' sse' l2 cur st' (pre ++ [t])); try assumption; try (clear -G GN N1; lia).
      + intros r I. apply RI. rewrite ER. apply in_or_app. right. exact I.
      + intros x XL. rewrite KP; [apply L0; exact XL| |].
        * intros Y. apply (VL x Y). exact XL.
        * intros Y. apply (proj1 (DL x Y)). exact XL.
      + replace (8 * (gp + n)) with (8 * gp + 8 * n) by (clear; lia). exact VF'.
    - (* stack *)
      rewrite ES in EL. cbn [stack_layout] in EL. rewrite NT in EL. apply bind_ok in EL. destruct EL as (up & EU & EL).
      apply bind_ok in EL. destruct EL as (next & EN & EL). apply add_int_ok in EN. destruct EN as (-> & _).
      apply bind_ok in EL. destruct EL as ([l3 tot] & EL & E). injection E as <- ->.
      destruct (round8_eq _ _ SZ EU) as (U1 & U2).
      pose proof (lf_total _ _ _ _ _ (layout_gives types stk' (cur + up) l3 total POS EL)) as CT2.
      assert (UT : 0 <= cur /\ cur + up <= total) by (clear -CU CT2; lia).
      destruct (va_arg_ok F st0 t classes va p V d (8 * gp) (sp + cur) sv up (sp + cur) (8 * gp) (sp + cur + up))
        as (code & st' & E1 & X & M' & B' & S' & VF' & BY & KP); try assumption; try (clear -G LC SZ U1 SV SP UT; lia).
      { right. split; [destruct WH as [WH|WH]; [left; exact WH|right; clear -WH; lia]|]. split; [reflexivity|]. split; [reflexivity|]. split; [reflexivity|clear -SP UT; lia]. }
      { apply points_apart; [exact SZ|exact SZ|]. intros x X Y. apply (proj1 (DL x Y)). right. clear -X UT U1 SP; lia. }
      { apply points_apart; [exact SZ|reflexivity|]. intros x X Y. apply (VL x Y). right. clear -X UT U1 SP; lia. }
      { apply points_apart; [exact SZ|reflexivity|]. intros x X Y. apply (proj2 (DL x X)). exact Y. }
      exists code, st'. split; [exact E1|]. split; [exact X|]. split.
      { intros j J. rewrite BY by exact J. rewrite L0 by (right; clear -J UT U1 SP; lia).
        apply (STACK i cur (a_size t) a j); [apply LI; left; reflexivity|exact NA|exact J]. }
      split; [exact KP|]. split; [exact B'|]. split; [exact S'|]. split; [exact M'|].
      apply (IH (S i) gp sse regs stk' gp' sse' l3 (cur + up) st' (pre ++ [t])); try assumption; try (clear -UT U1 SZ; lia).
      + intros q I. apply LI. right. exact I.
      + intros x XL. rewrite KP; [apply L0; exact XL| |].
        * intros Y. apply (VL x Y). exact XL.
        * intros Y. apply (proj1 (DL x Y)). exact XL.
      + rewrite Z.add_assoc. exact VF'.
  Qed.
End Walk.
