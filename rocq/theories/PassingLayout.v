(** The pieces of the arguments and the stack layout. *)
From Verif Require Import Base Common CommonProofs Arch X86 Codegen Frame FrameProofs SysV SysVSpec SysVProofs C37Props AsmSpec FrameSpec Passing PassingSpec.
From Coq Require Import Sorted.
Ltac Zify.zify_post_hook ::= idtac.

Record convention_facts (types : list atype) (c : call_info) : Prop := {
  cf_nodup : NoDup (map r_place (c_regs c));
  cf_gp : forall q, In (GP q) (map r_place (c_regs c)) -> In q abi_gp;
  cf_size : forall r, In r (c_regs c) -> 1 <= r_size r <= 8;
  cf_hidden : forall r, In r (c_regs c) -> r_merged r = None -> r_size r = 8;
  cf_merged : forall r i pos, In r (c_regs c) -> r_merged r = Some (i, pos) ->
    exists t, nth_error types i = Some t /\ 0 <= pos /\ pos + r_size r <= a_size t;
  cf_cover : forall i t, nth_error types i = Some t ->
    In i (c_stack c) \/
    forall k, 0 <= k < a_size t -> exists r pos, In r (c_regs c) /\ r_merged r = Some (i, pos) /\ pos <= k < pos + r_size r;
  cf_apart : ForallOrdPairs (fun r r' => forall i p p', r_merged r = Some (i, p) -> r_merged r' = Some (i, p') ->
    p + r_size r <= p') (c_regs c);
  cf_either : forall i r pos, In i (c_stack c) -> In r (c_regs c) -> r_merged r = Some (i, pos) -> False;
  cf_sorted : StronglySorted lt (c_stack c);
  cf_bound : forall i, In i (c_stack c) -> (i < length types)%nat
}.

Lemma pieces_in i size ps : forall pos r, In r (pieces i size pos ps) ->
  exists j, (j < length ps)%nat /\ r_merged r = Some (i, pos + 8 * Z.of_nat j) /\
    r_size r = Z.min (size - (pos + 8 * Z.of_nat j)) 8.
Proof.
  induction ps as [|p ps IH]; intros pos r; cbn [pieces]; [intros []|]. intros [<-|I].
  - exists 0%nat. cbn [length r_merged r_size]. split; [lia|]. split; [do 2 f_equal; lia|f_equal; lia].
  - destruct (IH _ _ I) as (j & L & E & Q). exists (S j). cbn [length]. split; [lia|].
    replace (pos + 8 * Z.of_nat (S j)) with (pos + 8 + 8 * Z.of_nat j) by lia. split; [exact E|exact Q].
Qed.
Lemma pieces_nth i size ps : forall pos j, (j < length ps)%nat -> exists r, In r (pieces i size pos ps) /\
  r_merged r = Some (i, pos + 8 * Z.of_nat j) /\ r_size r = Z.min (size - (pos + 8 * Z.of_nat j)) 8.
Proof.
  induction ps as [|p ps IH]; intros pos j L; cbn [length] in L; [lia|]. cbn [pieces]. destruct j as [|j].
  - eexists. split; [left; reflexivity|]. cbn [r_merged r_size]. split; [do 2 f_equal; lia|f_equal; lia].
  - destruct (IH (pos + 8) j ltac:(lia)) as (r & I & E & Q). exists r. split; [right; exact I|].
    replace (pos + 8 * Z.of_nat (S j)) with (pos + 8 + 8 * Z.of_nat j) by lia. split; [exact E|exact Q].
Qed.
Lemma pieces_ordered i size ps : forall pos,
  ForallOrdPairs (fun r r' => forall j p p', r_merged r = Some (j, p) -> r_merged r' = Some (j, p') -> p + r_size r <= p')
    (pieces i size pos ps).
Proof.
  induction ps as [|p ps IH]; intros pos; cbn [pieces]; constructor; [|apply IH].
  apply Forall_forall. intros r I j p0 p' E E'. cbn [r_merged r_size] in *.
  destruct (pieces_in _ _ _ _ _ I) as (m & L & E2 & Q). rewrite E2 in E'. injection E as <- <-. injection E' as <-. lia.
Qed.

Lemma ordpairs_app {A} (R : A -> A -> Prop) l1 : forall l2, ForallOrdPairs R l1 -> ForallOrdPairs R l2 ->
  (forall a b, In a l1 -> In b l2 -> R a b) -> ForallOrdPairs R (l1 ++ l2).
Proof.
  induction l1 as [|a l1 IH]; intros l2 O1 O2 C; cbn [app]; [exact O2|].
  inversion O1 as [|? ? F1 O1']; subst. constructor.
  - apply Forall_app. split; [exact F1|]. apply Forall_forall. intros b I. apply C; [left; reflexivity|exact I].
  - apply IH; auto. intros a' b I. apply C. right. exact I.
Qed.

(** [w] has for each argument in registers one place per eightbyte. *)
Definition counted (types : list atype) (w : list (option (list place))) : Prop :=
  length w = length types /\
  forall i t ps, nth_error types i = Some t -> nth_error w i = Some (Some ps) -> Z.of_nat (length ps) = (a_size t + 7) / 8.

Lemma counted_cons t types o w : counted (t :: types) (o :: w) -> counted types w.
Proof. intros (L & H). split; [cbn in L; lia|]. intros i. apply (H (S i)). Qed.

Lemma rp_in types : forall w i r, counted types w -> Forall (fun t => 0 < a_size t) types ->
  In r (register_pieces i types w) ->
  exists j t ps pos, nth_error types j = Some t /\ nth_error w j = Some (Some ps) /\ r_merged r = Some ((i + j)%nat, pos) /\
    0 <= pos < a_size t /\ r_size r = Z.min (a_size t - pos) 8.
Proof.
  induction types as [|t types IH]; intros w i r C P; [destruct w as [|[?|] ?]; intros []|].
  destruct w as [|o w]; [intros []|]. inversion P as [|? ? P0 P']; subst.
  assert (GO : In r (register_pieces (S i) types w) -> exists j t0 ps pos, nth_error (t :: types) j = Some t0 /\
     nth_error (o :: w) j = Some (Some ps) /\ r_merged r = Some ((i + j)%nat, pos) /\ 0 <= pos < a_size t0 /\
     r_size r = Z.min (a_size t0 - pos) 8).
  { intros I. destruct (IH w (S i) r (counted_cons _ _ _ _ C) P' I) as (j & t0 & ps & pos & A & B & E & Q).
    exists (S j), t0, ps, pos. split; [exact A|]. split; [exact B|]. split; [|exact Q].
    rewrite E. do 2 f_equal. lia. }
  destruct o as [ps|]; cbn [register_pieces]; [|exact GO]. intros I. apply in_app_iff in I. destruct I as [I|I]; [|exact (GO I)].
  destruct (pieces_in _ _ _ _ _ I) as (j & L & E & Q). exists 0%nat, t, ps, (8 * Z.of_nat j). rewrite Z.add_0_l in *.
  split; [reflexivity|]. split; [reflexivity|]. split; [rewrite E; do 2 f_equal; lia|]. split; [|exact Q].
  pose proof (proj2 C 0%nat t ps eq_refl eq_refl) as N. split; [lia|]. Z.div_mod_to_equations. lia.
Qed.

Lemma rp_cover types : forall w i j t ps k, counted types w -> nth_error types j = Some t -> nth_error w j = Some (Some ps) ->
  0 <= k < a_size t ->
  exists r pos, In r (register_pieces i types w) /\ r_merged r = Some ((i + j)%nat, pos) /\ pos <= k < pos + r_size r.
Proof.
  induction types as [|t0 types IH]; intros w i j t ps k C ET EW K; [destruct j; discriminate|].
  destruct w as [|o w]; [destruct j; discriminate|]. destruct j as [|j]; cbn [nth_error] in *.
  - injection ET as ->. injection EW as ->. pose proof (proj2 C 0%nat t ps eq_refl eq_refl) as N.
    destruct (pieces_nth i (a_size t) ps 0 (Z.to_nat (k / 8))) as (r & I & E & Q).
    { apply Nat2Z.inj_lt. rewrite Z2Nat.id by (apply Z.div_pos; lia). rewrite N. Z.div_mod_to_equations. lia. }
    rewrite Z2Nat.id in E, Q by (apply Z.div_pos; lia).
    exists r, (0 + 8 * (k / 8)). split; [cbn [register_pieces]; apply in_app_iff; left; exact I|]. rewrite Nat.add_0_r.
    split; [exact E|]. rewrite Q. Z.div_mod_to_equations. lia.
  - destruct (IH w (S i) j t ps k (counted_cons _ _ _ _ C) ET EW K) as (r & pos & I & E & Q).
    exists r, pos. split.
    + destruct o; cbn [register_pieces]; [apply in_app_iff; right|]; exact I.
    + split; [rewrite E; do 2 f_equal; lia|exact Q].
Qed.

Lemma rp_ordered types : forall w i, counted types w -> Forall (fun t => 0 < a_size t) types ->
  ForallOrdPairs (fun r r' => forall j p p', r_merged r = Some (j, p) -> r_merged r' = Some (j, p') -> p + r_size r <= p')
    (register_pieces i types w).
Proof.
  induction types as [|t types IH]; intros w i C P; [destruct w as [|[?|] ?]; constructor|].
  destruct w as [|o w]; [constructor|]. inversion P as [|? ? P0 P']; subst.
  assert (R := IH w (S i) (counted_cons _ _ _ _ C) P').
  destruct o as [ps|]; cbn [register_pieces]; [|exact R].
  apply ordpairs_app; [apply pieces_ordered|exact R|]. intros a b IA IB j p p' EA EB.
  destruct (pieces_in _ _ _ _ _ IA) as (m & _ & E & _).
  destruct (rp_in types w (S i) b (counted_cons _ _ _ _ C) P' IB) as (j' & ? & ? & ? & _ & _ & E' & _).
  rewrite E in EA. rewrite E' in EB. injection EA as <- _. injection EB as EB _. lia.
Qed.

Lemma sa_in w : forall i j, In j (stack_arguments i w) <-> exists m, (j = i + m)%nat /\ nth_error w m = Some None.
Proof.
  induction w as [|o w IH]; intros i j; cbn [stack_arguments].
  - split; [intros []|]. intros (m & _ & E). destruct m; discriminate.
  - assert (T : (exists m, (j = S i + m)%nat /\ nth_error w m = Some None) <->
                (exists m, (j = i + S m)%nat /\ nth_error (o :: w) (S m) = Some None)).
    { cbn [nth_error]. split; intros (m & A & B); exists m; split; auto; lia. }
    destruct o as [ps|]; [|cbn [In]]; rewrite IH, T; split.
    + intros (m & A & B). exists (S m). auto.
    + intros ([|m] & A & B); [discriminate|]. exists m. auto.
    + intros [<-|(m & A & B)]; [exists 0%nat; split; [lia|reflexivity]|exists (S m); auto].
    + intros ([|m] & A & B); [left; lia|right; exists m; auto].
Qed.
Lemma sa_sorted w : forall i, StronglySorted lt (stack_arguments i w).
Proof.
  induction w as [|[ps|] w IH]; intros i; cbn [stack_arguments]; [constructor|apply IH|]. constructor; [apply IH|].
  apply Forall_forall. intros j I. apply sa_in in I. destruct I as (m & -> & _). lia.
Qed.

Lemma convention_gives ret types c : get_calling_convention ret types = Ok c -> Forall (fun t => 0 < a_size t) types ->
  convention_facts types c.
Proof.
  intros E P. destruct (C37_distinct_registers ret types c E) as (ND & ps & w & EW & LW & ER & ES & CN).
  assert (C : counted types w).
  { split; [exact LW|]. intros i t pl A B. apply (CN i t pl A B). rewrite Forall_forall in P. apply P.
    eapply nth_error_In. exact A. }
  set (hid := if c_returns_address c then [{| r_place := GP RDI; r_merged := None; r_size := 8 |}] else []) in *.
  assert (HI : forall r, In r hid -> r = {| r_place := GP RDI; r_merged := None; r_size := 8 |}).
  { unfold hid. destruct (c_returns_address c); intros r []; [auto|contradiction]. }
  constructor.
  - exact ND.
  - intros q. rewrite ER, map_app. intros I. apply in_app_iff in I. destruct I as [I|I].
    + apply in_map_iff in I. destruct I as (r & E1 & I). rewrite (HI r I) in E1. cbn in E1. injection E1 as <-. cbn; tauto.
    + rewrite register_pieces_places in I by exact LW. rewrite EW in I.
      destruct (abi_assign_nodup ps (if c_returns_address c then tl abi_gp else abi_gp) abi_vec) as (_ & N & _).
      { destruct (c_returns_address c); repeat constructor; cbn; intuition discriminate. }
      { repeat constructor; cbn; intuition discriminate. }
      apply N in I. destruct (c_returns_address c); [right|]; exact I.
  - intros r. rewrite ER. intros I. apply in_app_iff in I. destruct I as [I|I]; [rewrite (HI r I); cbn; lia|].
    destruct (rp_in types w 0 r C P I) as (j & t & pl & pos & _ & _ & _ & Q & ->). lia.
  - intros r. rewrite ER. intros I. apply in_app_iff in I. destruct I as [I|I]; [rewrite (HI r I); reflexivity|].
    destruct (rp_in types w 0 r C P I) as (j & t & pl & pos & _ & _ & -> & _). discriminate.
  - intros r i pos. rewrite ER. intros I EM. apply in_app_iff in I. destruct I as [I|I]; [rewrite (HI r I) in EM; discriminate|].
    destruct (rp_in types w 0 r C P I) as (j & t & pl & pos' & A & _ & E' & Q & ->). rewrite EM in E'. injection E' as -> ->.
    exists t. split; [exact A|]. lia.
  - intros i t A. destruct (nth_error w i) as [[pl|]|] eqn:EI.
    + right. intros k K. destruct (rp_cover types w 0 i t pl k C A EI K) as (r & pos & I & E' & Q).
      exists r, pos. split; [rewrite ER; apply in_app_iff; right; exact I|]. split; [exact E'|exact Q].
    + left. rewrite ES. apply sa_in. exists i. split; [lia|exact EI].
    + apply nth_error_None in EI. assert (i < length types)%nat by (apply nth_error_Some; congruence). lia.
  - rewrite ER. apply ordpairs_app.
    + unfold hid. destruct (c_returns_address c); repeat constructor.
    + apply rp_ordered; assumption.
    + intros a b IA _ i p p' EA. rewrite (HI a IA) in EA. discriminate.
  - intros i r pos. rewrite ES, ER. intros IS I EM. apply sa_in in IS. destruct IS as (m & -> & N).
    apply in_app_iff in I. destruct I as [I|I]; [rewrite (HI r I) in EM; discriminate|].
    destruct (rp_in types w 0 r C P I) as (j & t & pl & pos' & _ & B & E' & _). rewrite EM in E'. injection E' as E' _.
    cbn in E'. subst j. congruence.
  - rewrite ES. apply sa_sorted.
  - intros i. rewrite ES. intros I. apply sa_in in I. destruct I as (m & -> & N). rewrite <- LW. apply nth_error_Some. cbn. congruence.
Qed.

(** ** Arguments of a longer list *)
Lemma assign_app l1 : forall i l2 gp sse r, assign_arguments i (l1 ++ l2) gp sse = Ok r ->
  exists regs1 st1 gp1 sse1 regs2 st2 gp2 sse2, assign_arguments i l1 gp sse = Ok (regs1, st1, gp1, sse1) /\
    assign_arguments (i + length l1) l2 gp1 sse1 = Ok (regs2, st2, gp2, sse2) /\
    r = (regs1 ++ regs2, st1 ++ st2, gp2, sse2).
Proof.
  induction l1 as [|t l1 IH]; intros i l2 gp sse r; cbn [app assign_arguments].
  - intros E. destruct r as [[[regs st] gp2] sse2]. exists [], [], gp, sse, regs, st, gp2, sse2.
    split; [reflexivity|]. cbn [length]. rewrite Nat.add_0_r. auto.
  - destruct (classify t) as [classes| |]; cbn [bind]; try discriminate.
    destruct (count_parts classes 0 0) as [[ngp nsse]| |]; cbn [bind]; try discriminate.
    destruct classes as [|c0 cs]; try discriminate.
    destruct (class_eqb c0 CLASS_MEMORY || (6 <? gp + ngp) || (8 <? sse + nsse)).
    + destruct (assign_arguments (S i) (l1 ++ l2) gp sse) as [[[[a b] c] d]| |] eqn:E; cbn [bind]; try discriminate.
      intros E'; injection E' as <-. destruct (IH _ _ _ _ _ E) as (r1 & s1 & g1 & e1 & r2 & s2 & g2 & e2 & A & B & C).
      rewrite A. cbn [bind]. injection C as -> -> -> ->.
      exists r1, (i :: s1), g1, e1, r2, s2, g2, e2. split; [reflexivity|]. cbn [length].
      replace (i + S (length l1))%nat with (S i + length l1)%nat by lia. split; [exact B|reflexivity].
    + destruct (assign_parts i (a_size t) (c0 :: cs) 0 gp sse) as [[[mine g] e]| |]; cbn [bind]; try discriminate.
      destruct (assign_arguments (S i) (l1 ++ l2) g e) as [[[[a b] c] d]| |] eqn:E; cbn [bind]; try discriminate.
      intros E'; injection E' as <-. destruct (IH _ _ _ _ _ E) as (r1 & s1 & g1 & e1 & r2 & s2 & g2 & e2 & A & B & C).
      rewrite A. cbn [bind]. injection C as -> -> -> ->.
      exists (mine ++ r1), s1, g1, e1, r2, s2, g2, e2. split; [reflexivity|]. cbn [length].
      replace (i + S (length l1))%nat with (S i + length l1)%nat by lia. split; [exact B|]. rewrite app_assoc. reflexivity.
Qed.

(** The first arguments are passed alike whether or not others follow. *)
Lemma convention_prefix ret l1 l2 c : get_calling_convention ret (l1 ++ l2) = Ok c ->
  exists c1 regs stack, get_calling_convention ret l1 = Ok c1 /\ c_regs c = c_regs c1 ++ regs /\ c_stack c = c_stack c1 ++ stack.
Proof.
  unfold get_calling_convention. intros E.
  destruct (match ret with ASimple ST_VOID => _ | _ => _ end) as [[[[hidden ret_regs] address] gp]| |]; cbn [bind] in E |- *; try discriminate.
  destruct (assign_arguments 0 (l1 ++ l2) gp 0) as [[[[a b] d] e]| |] eqn:EA; cbn [bind] in E; try discriminate.
  injection E as <-. destruct (assign_app _ _ _ _ _ _ EA) as (r1 & s1 & g1 & e1 & r2 & s2 & g2 & e2 & A & B & C).
  injection C as -> -> -> ->. rewrite A. cbn [bind]. eexists. exists r2, s2. split; [reflexivity|]. cbn [c_regs c_stack].
  split; [rewrite app_assoc; reflexivity|reflexivity].
Qed.

(** ** The stack *)
Record layout_facts (types : list atype) (idx : list nat) (cur : Z) (l : list (nat * Z * Z)) (total : Z) : Prop := {
  lf_idx : map (fun a => fst (fst a)) l = idx;
  lf_in : forall i off size, In (i, off, size) l -> cur <= off /\ off + size <= total /\ off mod 8 = cur mod 8 /\
    exists t, nth_error types i = Some t /\ size = a_size t;
  lf_apart : ForallOrdPairs (fun a b => snd (fst a) + snd a <= snd (fst b)) l;
  lf_total : cur <= total;
  lf_mod : total mod 8 = cur mod 8
}.

Lemma round8_eq n r : 0 < n -> round_up_to_nearest n 8 = Ok r -> n <= r < n + 8 /\ r mod 8 = 0.
Proof.
  intros N. unfold round_up_to_nearest. change (8 =? 0) with false. change ((8 =? -1) && (n =? -2147483648)) with false.
  cbv zeta. cbn [andb]. change (8 =? -1) with false. cbn [andb]. rewrite Z.rem_mod_nonneg by lia.
  pose proof (Z.mod_pos_bound n 8 ltac:(lia)).
  destruct (Z.eqb_spec (n mod 8) 0) as [E|E]; [intros X; injection X as <-; lia|].
  destruct (int_ok _ && int_ok _); [|discriminate]. intros X; injection X as <-. split; [lia|].
  replace (n + (8 - n mod 8)) with ((n / 8 + 1) * 8) by (Z.div_mod_to_equations; lia). apply Z.mod_mul. lia.
Qed.

Lemma layout_gives types idx : forall cur l total, Forall (fun t => 0 < a_size t) types ->
  stack_layout types idx cur = Ok (l, total) -> layout_facts types idx cur l total.
Proof.
  induction idx as [|i idx IH]; intros cur l total P; cbn [stack_layout].
  - intros E; injection E as <- <-. constructor; [reflexivity| |constructor|lia|reflexivity]. intros i off size [].
  - destruct (nth_error types i) as [t|] eqn:ET; [|discriminate].
    destruct (round_up_to_nearest (a_size t) 8) as [up| |] eqn:EU; cbn [bind]; try discriminate.
    destruct (add_int cur up) as [next| |] eqn:EN; cbn [bind]; try discriminate. apply add_int_ok in EN. destruct EN as (-> & _).
    destruct (stack_layout types idx (cur + up)) as [[l' tot]| |] eqn:EL; cbn [bind]; try discriminate.
    intros E; injection E as <- <-. destruct (IH _ _ _ P EL) as [A B C D M].
    assert (T : 0 < a_size t) by (rewrite Forall_forall in P; apply P; eapply nth_error_In; exact ET).
    destruct (round8_eq _ _ T EU) as (U1 & U2).
    assert (MU : (cur + up) mod 8 = cur mod 8) by (rewrite Z.add_mod, U2, Z.add_0_r, Z.mod_mod by lia; reflexivity).
    constructor.
    + cbn [map fst]. congruence.
    + intros j off size [I|I].
      * injection I as <- <- <-. split; [lia|]. split; [lia|]. split; [reflexivity|]. exists t. auto.
      * destruct (B _ _ _ I) as (B1 & B2 & B3 & B4). split; [lia|]. split; [lia|]. split; [congruence|exact B4].
    + constructor; [|exact C]. apply Forall_forall. intros [[j off] size] I. cbn [fst snd].
      destruct (B _ _ _ I) as (B1 & _). lia.
    + lia.
    + congruence.
Qed.

Lemma layout_app types idx1 : forall idx2 cur l total, stack_layout types (idx1 ++ idx2) cur = Ok (l, total) ->
  exists l1 l2 mid, stack_layout types idx1 cur = Ok (l1, mid) /\ stack_layout types idx2 mid = Ok (l2, total) /\ l = l1 ++ l2.
Proof.
  induction idx1 as [|i idx1 IH]; intros idx2 cur l total; cbn [app stack_layout].
  - intros E. exists [], l, cur. auto.
  - destruct (nth_error types i) as [t|]; [|discriminate].
    destruct (round_up_to_nearest (a_size t) 8) as [up| |]; cbn [bind]; try discriminate.
    destruct (add_int cur up) as [next| |]; cbn [bind]; try discriminate.
    destruct (stack_layout types (idx1 ++ idx2) next) as [[l' tot]| |] eqn:EL; cbn [bind]; try discriminate.
    intros E; injection E as <- <-. destruct (IH _ _ _ _ EL) as (l1 & l2 & mid & A & B & ->).
    exists ((i, cur, a_size t) :: l1), l2, mid. rewrite A. auto.
Qed.
Lemma layout_types l1 l2 idx : (forall i, In i idx -> (i < length l1)%nat) -> forall cur,
  stack_layout (l1 ++ l2) idx cur = stack_layout l1 idx cur.
Proof.
  induction idx as [|i idx IH]; intros H cur; cbn [stack_layout]; [reflexivity|].
  rewrite nth_error_app1 by (apply H; left; reflexivity). destruct (nth_error l1 i) as [t|]; [|reflexivity].
  destruct (round_up_to_nearest (a_size t) 8) as [z| |]; cbn [bind]; try reflexivity. destruct (add_int cur z); cbn [bind]; try reflexivity.
  rewrite IH by (intros j I; apply H; right; exact I). reflexivity.
Qed.

(** The layout exists when the arguments are not too large. *)
Definition index_bytes (types : list atype) (idx : list nat) : Z :=
  fold_right (fun i n => match nth_error types i with Some t => a_size t + 8 | None => 0 end + n) 0 idx.
Lemma index_bytes_le types : Forall (fun t => 0 < a_size t) types -> forall idx, StronglySorted lt idx ->
  (forall i, In i idx -> (i < length types)%nat) -> 0 <= index_bytes types idx <= argument_bytes types.
Proof.
  assert (GEN : forall types, Forall (fun t => 0 < a_size t) types -> forall k pre idx, length pre = k -> StronglySorted lt idx ->
    (forall i, In i idx -> (k <= i < k + length types)%nat) -> 0 <= index_bytes (pre ++ types) idx <= argument_bytes types).
  { clear. induction 1 as [|t types T _ IH]; intros k pre idx LP SS B.
    - destruct idx as [|i idx]; [cbn; lia|]. specialize (B i (or_introl eq_refl)). cbn in B. lia.
    - cbn [argument_bytes fold_right]. fold (argument_bytes types).
      assert (EP : pre ++ t :: types = (pre ++ [t]) ++ types) by (rewrite <- app_assoc; reflexivity).
      destruct idx as [|i idx].
      + cbn [index_bytes fold_right]. specialize (IH (S k) (pre ++ [t]) []).
        rewrite app_length in IH. cbn [length] in IH. specialize (IH ltac:(lia) ltac:(constructor) ltac:(intros ? [])). lia.
      + inversion SS as [|? ? SS' LT]; subst. rewrite Forall_forall in LT.
        destruct (Nat.eq_dec i (length pre)) as [->|NE].
        * cbn [index_bytes fold_right]. fold (index_bytes (pre ++ t :: types) idx).
          rewrite nth_error_app2, Nat.sub_diag by lia. cbn [nth_error].
          specialize (IH (S (length pre)) (pre ++ [t]) idx ltac:(rewrite app_length; cbn; lia) SS').
          rewrite <- EP in IH. assert (0 <= index_bytes (pre ++ t :: types) idx <= argument_bytes types); [|lia].
          apply IH. intros j I. specialize (B j (or_intror I)). specialize (LT j I). cbn [length] in B. lia.
        * specialize (IH (S (length pre)) (pre ++ [t]) (i :: idx) ltac:(rewrite app_length; cbn; lia) SS).
          rewrite <- EP in IH. assert (0 <= index_bytes (pre ++ t :: types) (i :: idx) <= argument_bytes types); [|lia].
          apply IH. intros j I. assert (BJ := B j I). cbn [length] in BJ.
          assert (BI := B i (or_introl eq_refl)). destruct I as [<-|I]; [lia|]. specialize (LT j I). lia. }
  intros P idx SS B. apply (GEN types P 0%nat [] idx); auto. intros i I. specialize (B i I). lia.
Qed.

Lemma layout_total types : Forall (fun t => 0 < a_size t) types -> forall idx cur,
  (forall i, In i idx -> (i < length types)%nat) -> 0 <= cur -> cur + index_bytes types idx < 2 ^ 31 ->
  exists l total, stack_layout types idx cur = Ok (l, total) /\ total <= cur + index_bytes types idx.
Proof.
  intros P. assert (NN : forall idx, 0 <= index_bytes types idx).
  { induction idx as [|i idx IH]; cbn [index_bytes fold_right]; [lia|]. fold (index_bytes types idx).
    destruct (nth_error types i) as [t|] eqn:E; [|lia].
    assert (0 < a_size t) by (rewrite Forall_forall in P; apply P; eapply nth_error_In; exact E). lia. }
  induction idx as [|i idx IH]; intros cur B C S; cbn [stack_layout].
  - exists [], cur. split; [reflexivity|]. cbn [index_bytes fold_right] in *. lia.
  - cbn [index_bytes fold_right] in S |- *. fold (index_bytes types idx) in *.
    destruct (nth_error types i) as [t|] eqn:E; [|apply nth_error_None in E; specialize (B i (or_introl eq_refl)); lia].
    assert (T : 0 < a_size t) by (rewrite Forall_forall in P; apply P; eapply nth_error_In; exact E).
    specialize (NN idx).
    destruct (round_up_eq (a_size t) 8) as (up & EU & _); [lia|lia|unfold INT_MAX; lia|unfold INT_MAX; lia|].
    rewrite EU. destruct (round8_eq _ _ T EU) as (U1 & U2). cbn [bind].
    rewrite add_int_fits by lia. cbn [bind].
    destruct (IH (cur + up)) as (l & total & EL & LE); [intros j I; apply B; right; exact I|lia|lia|].
    rewrite EL. cbn [bind]. eexists _, _. split; [reflexivity|]. lia.
Qed.
