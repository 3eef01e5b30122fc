(** The frame allocator hands out disjoint memory. *)
From Verif Require Import Base Bytes Common CommonProofs X86 Codegen X86Proofs X86Preserve CodegenProofs Frame FrameSpec.

Notation entry := (owner * Z * Z)%type.

(** Entries in the order of allocation, each above (in depth) the one before. *)
Fixpoint chain (lo : Z) (es : list entry) (hi : Z) : Prop :=
  match es with
  | [] => lo <= hi
  | (_, loc, n) :: es => 0 <= n /\ lo <= loc - n /\ chain loc es hi
  end.

Lemma chain_app a e1 : forall b e2 c lo, chain lo e1 a -> chain b e2 c -> a <= b -> chain lo (e1 ++ e2) c.
Proof.
  induction e1 as [|[[o loc] n] e1 IH]; cbn [chain app]; intros b e2 c lo H1 H2 AB.
  - assert (lo <= b) by lia. clear H1 AB. destruct e2 as [|[[o' loc'] n'] e2]; cbn [chain] in *; [lia|].
    destruct H2 as (N & L & C). repeat split; auto. lia.
  - destruct H1 as (N & L & C). split; [exact N|]. split; [exact L|]. eapply IH; eauto.
Qed.
Lemma chain_le lo es hi : chain lo es hi -> lo <= hi.
Proof.
  revert lo. induction es as [|[[o loc] n] es IH]; cbn [chain]; intros lo H; [exact H|].
  destruct H as (N & L & C). apply IH in C. lia.
Qed.
Lemma chain_in lo es hi o loc n : chain lo es hi -> In (o, loc, n) es -> 0 <= n /\ lo <= loc - n /\ loc <= hi.
Proof.
  revert lo. induction es as [|[[o' loc'] n'] es IH]; cbn [chain]; intros lo H I; [destruct I|].
  destruct H as (N & L & C). destruct I as [I|I].
  - inversion I; subst. apply chain_le in C. lia.
  - apply IH in C; auto. lia.
Qed.
Lemma chain_two lo es hi o1 loc1 n1 o2 loc2 n2 :
  chain lo es hi -> In (o1, loc1, n1) es -> In (o2, loc2, n2) es -> o1 <> o2 -> disjoint loc1 n1 loc2 n2.
Proof.
  revert lo. induction es as [|[[o' loc'] n'] es IH]; cbn [chain]; intros lo H I1 I2 NE; [destruct I1|].
  destruct H as (N & L & C). unfold disjoint. destruct I1 as [I1|I1], I2 as [I2|I2].
  - congruence.
  - inversion I1; subst. pose proof (chain_in _ _ _ _ _ _ C I2). lia.
  - inversion I2; subst. pose proof (chain_in _ _ _ _ _ _ C I1). lia.
  - eapply IH; eauto.
Qed.

Lemma add_int_ok a b c : add_int a b = Ok c -> c = a + b /\ c < 2 ^ 31.
Proof.
  unfold add_int. destruct (Z.leb_spec (- 2 ^ 31) (a + b)); [|discriminate].
  destruct (Z.ltb_spec (a + b) (2 ^ 31)); [|discriminate]. intros E; inversion E. lia.
Qed.
Lemma add_int_fits a b : 0 <= a -> 0 <= b -> a + b < 2 ^ 31 -> add_int a b = Ok (a + b).
Proof.
  intros A B H. unfold add_int. destruct (Z.leb_spec (- 2 ^ 31) (a + b)); [|lia].
  destruct (Z.ltb_spec (a + b) (2 ^ 31)); [reflexivity|lia].
Qed.

Fixpoint slot_entries (k : nat) (l : list frame_ins) (locs : list (option Z)) : list entry :=
  match l, locs with
  | r :: l, Some loc :: locs => (Slot k, loc, f_size r) :: slot_entries (S k) l locs
  | _ :: l, None :: locs => slot_entries (S k) l locs
  | _, _ => []
  end.
Fixpoint object_entries (k : nat) (l : list frame_ins) (locs : list (option Z)) : list entry :=
  match l, locs with
  | r :: l, Some loc :: locs =>
      match f_alloc r with
      | Some (size, _) => (Object k, loc, size) :: object_entries (S k) l locs
      | None => object_entries (S k) l locs
      end
  | _ :: l, None :: locs => object_entries (S k) l locs
  | _, _ => []
  end.
Fixpoint vla_entries (c : nat) (off : Z) : list entry :=
  match c with
  | O => []
  | S c => (VlaSlot c, off - 8 * Z.of_nat c, 8) :: vla_entries c off
  end.

Lemma place_slots_ok l : Forall request_ok l -> forall k perm locs last,
  place_slots l perm = Ok (locs, last) ->
  length locs = length l /\ chain perm (slot_entries k l locs) last /\
  (forall i r, nth_error l i = Some r -> f_size r <> 0 -> exists loc, nth_error locs i = Some (Some loc)).
Proof.
  intros H. induction H as [|r l R H IH]; intros k perm locs last E; cbn [place_slots] in E.
  - inversion E; subst. cbn. split; [reflexivity|]. split; [lia|]. intros [|i] r; discriminate.
  - destruct (Z.eqb_spec (f_size r) 0) as [Z0|NZ].
    + destruct (place_slots l perm) as [[lo p]| |] eqn:P; try discriminate. inversion E; subst.
      destruct (IH (S k) _ _ _ P) as (L & C & T). cbn [length slot_entries]. split; [congruence|]. split; [exact C|].
      intros [|i] q; cbn [nth_error]; [intros Q; inversion Q; congruence|apply T].
    + destruct (add_int perm (f_size r)) as [p1| |] eqn:A; try discriminate. cbn [bind] in E.
      destruct (place_slots l p1) as [[lo p]| |] eqn:P; try discriminate. inversion E; subst.
      apply add_int_ok in A as [A _]. destruct (IH (S k) _ _ _ P) as (L & C & T).
      cbn [length slot_entries chain]. split; [congruence|]. split.
      * destruct R as [R _]. split; [exact R|]. split; [lia|exact C].
      * intros [|i] q; cbn [nth_error]; [intros _ _; eauto|apply T].
Qed.

Lemma slot_in l : forall k locs i r loc, nth_error l i = Some r -> nth_error locs i = Some (Some loc) ->
  In (Slot (k + i), loc, f_size r) (slot_entries k l locs).
Proof.
  induction l as [|q l IH]; intros k locs i r loc N M; [destruct i; discriminate|].
  destruct locs as [|[x|] locs]; [destruct i; discriminate| |]; destruct i as [|i]; cbn [nth_error] in N, M.
  - inversion N; inversion M; subst. left. rewrite Nat.add_0_r. reflexivity.
  - right. rewrite <- plus_n_Sm. apply (IH (S k)); auto.
  - discriminate.
  - cbn [slot_entries]. rewrite <- plus_n_Sm. apply (IH (S k)); auto.
Qed.
Lemma object_in l : forall k locs i r loc n a, nth_error l i = Some r -> f_alloc r = Some (n, a) ->
  nth_error locs i = Some (Some loc) -> In (Object (k + i), loc, n) (object_entries k l locs).
Proof.
  induction l as [|q l IH]; intros k locs i r loc n a N A M; [destruct i; discriminate|].
  destruct locs as [|[x|] locs]; [destruct i; discriminate| |]; destruct i as [|i]; cbn [nth_error] in N, M.
  - inversion N; inversion M; subst. cbn [object_entries]. rewrite A. left. rewrite Nat.add_0_r. reflexivity.
  - cbn [object_entries]. rewrite <- plus_n_Sm.
    destruct (f_alloc q) as [[? ?]|]; [right|]; eapply (IH (S k)); eauto.
  - discriminate.
  - cbn [object_entries]. rewrite <- plus_n_Sm. eapply (IH (S k)); eauto.
Qed.
Lemma vla_in c off j : (j < c)%nat -> In (VlaSlot j, off - 8 * Z.of_nat j, 8) (vla_entries c off).
Proof.
  induction c; intros H; [lia|]. cbn [vla_entries]. destruct (Nat.eq_dec j c) as [->|N]; [left; reflexivity|].
  right. apply IHc. lia.
Qed.
Lemma vla_chain c off : chain (off - 8 * Z.of_nat c) (vla_entries c off) off.
Proof.
  induction c; cbn [vla_entries chain]; [lia|]. split; [lia|]. split; [lia|]. exact IHc.
Qed.
Lemma count_vlas_filter l : count_vlas l = Z.of_nat (length (filter f_vla l)).
Proof. induction l as [|r l IH]; cbn [count_vlas filter]; [reflexivity|]. destruct (f_vla r); cbn [length]; lia. Qed.

Lemma align_object_ok p1 align a p2 al2 :
  0 <= p1 < 2 ^ 31 -> (a = 0 \/ exists k, 0 <= k <= 30 /\ a = 2 ^ k) -> align_object p1 align a = Ok (p2, al2) ->
  p1 <= p2 < 2 ^ 31 /\ align <= al2 /\ (a <> 0 -> (a | p2) /\ a <= al2) /\
  (al2 = align \/ exists k, 0 <= k <= 30 /\ al2 = 2 ^ k).
Proof.
  intros P AO E. unfold align_object in E. destruct (Z.eqb_spec a 0) as [Z0|NZ].
  - inversion E; subst. split; [lia|]. split; [lia|]. split; [congruence|auto].
  - destruct AO as [AO|(j & J & AO)]; [contradiction|].
    assert (AP : 0 < a) by (rewrite AO; apply Z.pow_pos_nonneg; lia).
    cbv zeta in E. rewrite Z.rem_mod_nonneg in E by lia.
    assert (AL2 : Z.max align a = align \/ exists k, 0 <= k <= 30 /\ Z.max align a = 2 ^ k).
    { destruct (Z.max_spec align a) as [[_ ->]|[_ ->]]; [right; exists j; auto|left; reflexivity]. }
    pose proof (Z.mod_pos_bound p1 a AP) as MB. pose proof (Z.div_mod p1 a ltac:(lia)) as DM.
    destruct (Z.eqb_spec (p1 mod a) 0) as [M0|M0].
    + cbn [bind] in E. inversion E; subst p2 al2. split; [lia|]. split; [lia|]. split; [|exact AL2].
      intros _. split; [|lia]. apply Z.mod_divide; lia.
    + destruct (add_int p1 (a - p1 mod a)) as [q| |] eqn:A2; try (cbn [bind] in E; discriminate).
      apply add_int_ok in A2 as [A2 B2]. cbn [bind] in E. inversion E; subst p2 al2.
      split; [lia|]. split; [lia|]. split; [|exact AL2]. intros _. split; [|lia].
      exists (p1 / a + 1). lia.
Qed.

(** Objects: as slots, with rounding. *)
Lemma place_objects_ok l : Forall request_ok l -> forall k perm align locs last align',
  0 <= perm < 2 ^ 31 ->
  place_objects l perm align = Ok (locs, last, align') ->
  length locs = length l /\ chain perm (object_entries k l locs) last /\ 0 <= last < 2 ^ 31 /\ align <= align' /\
  (forall i r n a, nth_error l i = Some r -> f_alloc r = Some (n, a) ->
     exists loc, nth_error locs i = Some (Some loc) /\ (a <> 0 -> (a | loc) /\ a <= align')) /\
  (align' = align \/ exists k, 0 <= k <= 30 /\ align' = 2 ^ k).
Proof.
  intros H. induction H as [|r l R H IH]; intros k perm align locs last align' PB E; cbn [place_objects] in E.
  - inversion E; subst. cbn. split; [reflexivity|]. split; [lia|]. split; [lia|]. split; [lia|].
    split; [intros [|i] r; discriminate|auto].
  - destruct (f_alloc r) as [[size a]|] eqn:FA.
    2: { destruct (place_objects l perm align) as [[[lo p] al]| |] eqn:P; try discriminate. inversion E; subst.
         destruct (IH (S k) _ _ _ _ _ PB P) as (L & C & B & AL & T & Q). cbn [length object_entries].
         split; [congruence|]. split; [exact C|]. split; [exact B|]. split; [exact AL|]. split; [|exact Q].
         intros [|i] q; cbn [nth_error]; [intros ? ? Q1 Q2; inversion Q1; congruence|apply T]. }
    destruct R as [_ R]. rewrite FA in R. destruct R as [S0 AO].
    destruct (add_int perm size) as [p1| |] eqn:A; try discriminate. cbn [bind] in E.
    apply add_int_ok in A as [A A31].
    destruct (align_object p1 align a) as [[p2 al2]| |] eqn:ES; try discriminate. cbn [bind] in E.
    destruct (align_object_ok p1 align a p2 al2 ltac:(lia) AO ES) as (P2 & L2 & D2 & Q2).
    destruct (place_objects l p2 al2) as [[[lo p] al]| |] eqn:P; try discriminate. inversion E; subst.
    destruct (IH (S k) p2 al2 lo last align' ltac:(lia) P) as (L & C & B & AL & T & Q).
    cbn [length object_entries chain]. rewrite FA. split; [congruence|].
    split; [cbn [chain]; split; [exact S0|split; [lia|exact C]]|]. split; [exact B|]. split; [lia|]. split.
    + intros [|i] q n b; cbn [nth_error].
      * intros Q1 Q3. inversion Q1; subst. rewrite FA in Q3. inversion Q3; subst. exists p2. split; [reflexivity|].
        intros NZ. destruct (D2 NZ). split; [assumption|lia].
      * intros Q1 Q3. eapply T; eauto.
    + destruct Q as [->|Q]; [exact Q2|right; exact Q].
Qed.

(** The whole frame. *)
Definition entries (l : list frame_ins) (preamble : Z) (fr : frame) : list entry :=
  slot_entries 0 l (fr_slots fr) ++ vla_entries (length (filter f_vla l)) (fr_vla_offset fr) ++
  object_entries 0 l (fr_objects fr) ++
  match fr_preamble fr with Some loc => [(SaveArea, loc, preamble)] | None => [] end ++
  match fr_save fr with Some loc => [(SavedFrame, loc, 8)] | None => [] end.

Lemma frame_chain l preamble fr :
  Forall request_ok l -> 0 <= preamble -> allocate_frame l preamble = Ok fr ->
  chain 0 (entries l preamble fr) (fr_sub fr) /\ (16 | fr_sub fr) /\ fr_sub fr < 2 ^ 31 /\
  (forall i r, nth_error l i = Some r -> f_size r <> 0 -> exists loc, nth_error (fr_slots fr) i = Some (Some loc)) /\
  (forall i r n a, nth_error l i = Some r -> f_alloc r = Some (n, a) ->
     exists loc, nth_error (fr_objects fr) i = Some (Some loc) /\ (a <> 0 -> (a | loc) /\ a <= fr_align fr)) /\
  (preamble <> 0 -> exists loc, fr_preamble fr = Some loc) /\
  (fr_align fr = 0 \/ exists k, 0 <= k <= 30 /\ fr_align fr = 2 ^ k) /\
  (fr_save fr = None <-> fr_align fr <= 16).
Proof.
  intros R PP E. unfold allocate_frame in E.
  destruct (place_slots l 0) as [[slots p0]| |] eqn:P0; try discriminate. cbn [bind] in E.
  destruct (place_slots_ok l R 0%nat _ _ _ P0) as (_ & C0 & T0). pose proof (chain_le _ _ _ C0) as Q0.
  destruct (add_int p0 (count_vlas l * 8)) as [p1| |] eqn:A1; try discriminate. cbn [bind] in E.
  apply add_int_ok in A1 as [A1 B1]. rewrite count_vlas_filter in A1.
  destruct (place_objects l p1 0) as [[[objects p2] align]| |] eqn:P2; try discriminate. cbn [bind] in E.
  destruct (place_objects_ok l R 0%nat p1 0 _ _ _ ltac:(lia) P2) as (_ & C2 & B2 & _ & T2 & AL2).
  pose proof (chain_le _ _ _ C2) as Q2.
  assert (PRE : exists pre p3, (if preamble =? 0 then Ok (None, p2)
      else let* perm := add_int p2 preamble in Ok (Some perm, perm)) = Ok (pre, p3) /\
      chain p2 match pre with Some loc => [(SaveArea, loc, preamble)] | None => [] end p3 /\ p2 <= p3 < 2 ^ 31 /\
      (preamble <> 0 -> exists loc, pre = Some loc)).
  { destruct (Z.eqb_spec preamble 0) as [Z0|NZ].
    - exists None, p2. split; [reflexivity|]. split; [cbn; lia|]. split; [lia|contradiction].
    - destruct (add_int p2 preamble) as [p3| |] eqn:A3; try (cbn [bind] in E; discriminate).
      apply add_int_ok in A3 as [A3 B3]. exists (Some p3), p3. cbn [bind]. split; [reflexivity|].
      split; [cbn [chain]; lia|]. split; [lia|eauto]. }
  destruct PRE as (pre & p3 & E3 & C3 & B3 & T3). rewrite E3 in E. cbn [bind] in E.
  assert (SAVE : exists save p4, (if 16 <? align then let* perm := add_int p3 8 in Ok (Some perm, perm)
      else Ok (None, p3)) = Ok (save, p4) /\
      chain p3 match save with Some loc => [(SavedFrame, loc, 8)] | None => [] end p4 /\ p3 <= p4 < 2 ^ 31 /\
      (save = None <-> align <= 16)).
  { destruct (Z.ltb_spec 16 align) as [LT|GE].
    - destruct (add_int p3 8) as [p4| |] eqn:A4; try (cbn [bind] in E; discriminate).
      apply add_int_ok in A4 as [A4 B4]. exists (Some p4), p4. cbn [bind]. split; [reflexivity|].
      split; [cbn [chain]; lia|]. split; [lia|]. split; [discriminate|lia].
    - exists None, p3. split; [reflexivity|]. split; [cbn; lia|]. split; [lia|]. split; [lia|reflexivity]. }
  destruct SAVE as (save & p4 & E4 & C4 & B4 & T4). rewrite E4 in E. cbn [bind] in E.
  destruct (round_up_to_nearest p4 16) as [sub| |] eqn:RU; try discriminate. inversion E; subst fr. clear E.
  cbn [fr_slots fr_vla_offset fr_objects fr_preamble fr_save fr_align fr_sub].
  assert (SUB : p4 <= sub /\ (16 | sub) /\ sub < 2 ^ 31).
  { unfold round_up_to_nearest, int_ok, INT_MIN, INT_MAX in RU. cbn [Z.eqb andb] in RU. cbv zeta in RU.
    rewrite Z.rem_mod_nonneg in RU by lia.
    pose proof (Z.mod_pos_bound p4 16 ltac:(lia)) as MB. pose proof (Z.div_mod p4 16 ltac:(lia)) as DM.
    destruct (Z.eqb_spec (p4 mod 16) 0) as [M0|M0].
    - inversion RU; subst. split; [lia|]. split; [apply Z.mod_divide; lia|lia].
    - destruct (_ && _) eqn:OKB in RU; [|discriminate]. inversion RU; subst.
      apply andb_prop in OKB as [_ OKB]. apply andb_prop in OKB as [_ OKB]. apply Z.leb_le in OKB.
      split; [lia|]. split; [exists (p4 / 16 + 1); lia|]. change (2 ^ 31) with 2147483648. lia. }
  destruct SUB as (SU1 & SU2 & SU3).
  split; [|split; [exact SU2|split; [exact SU3|split; [exact T0|split; [exact T2|split; [exact T3|split; [exact AL2|exact T4]]]]]]].
  unfold entries. cbn [fr_slots fr_vla_offset fr_objects fr_preamble fr_save].
  assert (C5 : chain p3 match save with Some loc => [(SavedFrame, loc, 8)] | None => [] end sub).
  { rewrite <- (app_nil_r match save with Some _ => _ | None => _ end). apply chain_app with (a := p4) (b := p4); [exact C4|cbn; lia|lia]. }
  eapply chain_app; [exact C0| |].
  - eapply chain_app; [apply vla_chain| |apply Z.le_refl].
    eapply chain_app; [exact C2| |apply Z.le_refl].
    eapply chain_app; [exact C3|exact C5|apply Z.le_refl].
  - lia.
Qed.

Lemma region_entry l preamble fr o loc n : region l preamble fr o loc n -> In (o, loc, n) (entries l preamble fr).
Proof.
  unfold entries. rewrite !in_app_iff. destruct o; cbn [region].
  - intros (r & N & _ & -> & M). left. apply (slot_in l 0%nat); auto.
  - intros (J & -> & ->). right. left. apply vla_in. exact J.
  - intros (r & a & N & A & M). do 2 right. left. eapply (object_in l 0%nat); eauto.
  - intros (_ & -> & ->). do 3 right. left. left. reflexivity.
  - intros (-> & ->). do 4 right. left. reflexivity.
Qed.

(** Masking with minus a power of two rounds down. *)
Lemma land_align x k : 0 <= k <= 63 -> 0 <= x < 2 ^ 64 -> Z.land x (wrap 64 (- 2 ^ k)) = x - x mod 2 ^ k.
Proof.
  intros K X. assert (P : 0 < 2 ^ k) by (apply Z.pow_pos_nonneg; lia).
  replace (x - x mod 2 ^ k) with (Z.shiftl (Z.shiftr x k) k).
  2: { rewrite Z.shiftl_mul_pow2, Z.shiftr_div_pow2 by lia. pose proof (Z.div_mod x (2 ^ k) ltac:(lia)). lia. }
  replace (- 2 ^ k) with (Z.shiftl (-1) k) by (rewrite Z.shiftl_mul_pow2 by lia; lia).
  apply Z.bits_inj'. intros i I. rewrite Z.land_spec. unfold wrap.
  destruct (Z.lt_ge_cases i 64) as [L|L].
  - rewrite Z.mod_pow2_bits_low by lia. rewrite !Z.shiftl_spec by lia.
    destruct (Z.lt_ge_cases i k) as [LK|LK].
    + rewrite !(Z.testbit_neg_r _ (i - k)) by lia. apply andb_false_r.
    + rewrite Z.bits_m1 by lia. rewrite Z.shiftr_spec by lia. rewrite andb_true_r. f_equal. lia.
  - rewrite Z.mod_pow2_bits_high by lia. rewrite andb_false_r.
    rewrite Z.shiftl_spec, Z.shiftr_spec by lia. replace (i - k + k) with i by lia.
    destruct (Z.eq_dec x 0) as [->|NZ]; [rewrite Z.bits_0; reflexivity|].
    symmetry. apply Z.bits_above_log2; [lia|]. assert (Z.log2 x < 64); [|lia]. apply Z.log2_lt_pow2; lia.
Qed.

(** The instructions of the prologue. *)
Lemma exec_mov_rr F s a b : machine_ok s -> exec F (I2 (Mov W8) (R8 a) (R8 b)) s = Ok (set_gpr s b (gpr s a)).
Proof.
  intros (G & _ & _). cbn. change (bits W8) with 64. rewrite !(wrap_small 64); try apply G; [reflexivity|].
  rewrite wrap_small; apply G.
Qed.
Lemma exec_push F s r : machine_ok s -> 8 <= gpr s RSP ->
  exec F (I1 Push (R8 r)) s =
  Ok (set_mem (set_gpr s RSP (gpr s RSP - 8)) (store (mem s) (gpr s RSP - 8) 8 (gpr s r))).
Proof.
  intros (G & _ & _) L. pose proof (G RSP) as GR. cbn [exec]. cbv zeta. rewrite (wrap_small 64) by lia.
  destruct (Z.leb_spec (gpr s RSP - 8 + 8) (2 ^ 64)); [reflexivity|lia].
Qed.
Lemma exec_and F s k r : machine_ok s -> 0 <= k <= 30 ->
  exec F (I2 (And W8) (IMM (- 2 ^ k)) (R8 r)) s =
  Ok (set_flag (set_gpr s r (gpr s r - gpr s r mod 2 ^ k))
        (Some (logic_flags W8 (gpr s r - gpr s r mod 2 ^ k)))).
Proof.
  intros (G & _ & _) K. pose proof (G r) as GR. cbn [exec]. unfold alu. cbn [is_mem andb rd reg_of].
  assert (P : 0 < 2 ^ k) by (apply Z.pow_pos_nonneg; lia).
  assert (PM : 2 ^ k <= 2 ^ 30) by (apply Z.pow_le_mono_r; lia).
  destruct (Z.leb_spec (- 2 ^ 31) (- 2 ^ k)); [|lia].
  destruct (Z.ltb_spec (- 2 ^ k) (2 ^ Z.min 32 (bits W8))) as [_|B]; [|change (2 ^ Z.min 32 (bits W8)) with 4294967296 in B; lia].
  cbn [andb bind]. change (bits W8) with 64. rewrite (wrap_small 64 (gpr s r)) by exact GR.
  rewrite land_align by (split; lia).
  pose proof (Z.mod_pos_bound (gpr s r) (2 ^ k) P) as MB.
  pose proof (Z.mod_le (gpr s r) (2 ^ k) ltac:(lia) P) as ML.
  cbn [wr reg_of bind]. change (bits W8) with 64.
  assert (RG : 0 <= gpr s r - gpr s r mod 2 ^ k < 2 ^ 64) by lia.
  rewrite !(wrap_small 64 _ RG). reflexivity.
Qed.
Lemma exec_sub F s n r : machine_ok s -> 0 <= n < 2 ^ 31 -> n <= gpr s r ->
  exists f, exec F (I2 (Sub W8) (IMM n) (R8 r)) s = Ok (set_flag (set_gpr s r (gpr s r - n)) f).
Proof.
  intros (G & _ & _) K L. pose proof (G r) as GR. cbn [exec]. unfold alu. cbn [is_mem andb rd reg_of].
  destruct (Z.leb_spec (- 2 ^ 31) n); [|lia].
  destruct (Z.ltb_spec n (2 ^ Z.min 32 (bits W8))) as [_|B]; [|change (2 ^ Z.min 32 (bits W8)) with 4294967296 in B; lia].
  cbn [andb bind]. change (bits W8) with 64. rewrite (wrap_small 64 (gpr s r)) by exact GR.
  rewrite (wrap_small 64 n) by lia.
  cbn [wr reg_of bind]. change (bits W8) with 64.
  assert (RG : 0 <= gpr s r - n < 2 ^ 64) by lia.
  rewrite !(wrap_small 64 _ RG). eexists; reflexivity.
Qed.

(** What the prologue leaves behind. *)
Record entered (fr : frame) (s s' : machine) : Prop := {
  en_ok : machine_ok s';
  en_rsp : gpr s' RSP = gpr s' RBP - fr_sub fr;
  en_rbp : gpr s' RBP = if fr_save fr then (gpr s RSP - 8) - (gpr s RSP - 8) mod fr_align fr else gpr s RSP - 8;
  en_gpr : forall r, r <> RBP -> r <> RSP -> gpr s' r = gpr s r;
  en_xmm : forall x, xmm s' x = xmm s x;
  en_old : load (mem s') (gpr s RSP - 8) 8 = gpr s RBP;
  en_save : forall off, fr_save fr = Some off -> load (mem s') (gpr s' RBP - off) 8 = gpr s RSP - 8;
  en_mem : forall x, gpr s RSP <= x -> mem s' x = mem s x
}.

Lemma prologue_enters F s fr :
  machine_ok s -> fr_sub fr + fr_align fr + 16 <= gpr s RSP -> 0 <= fr_sub fr < 2 ^ 31 -> 0 <= fr_align fr ->
  (forall off, fr_save fr = Some off -> 8 <= off <= fr_sub fr /\ exists k, 0 <= k <= 30 /\ fr_align fr = 2 ^ k) ->
  exists s', exec_all F (prologue fr) s = Ok s' /\ entered fr s s'.
Proof.
  intros M ROOM SUB AL SV. assert (G := proj1 M RSP). unfold prologue. cbn [app exec_all].
  rewrite exec_push by (auto; lia). cbn [bind].
  set (s1 := set_mem _ _).
  assert (M1 : machine_ok s1) by (eapply (exec_preserves F); [exact M|apply exec_push; [exact M|lia]]).
  assert (SP1 : gpr s1 RSP = gpr s RSP - 8) by reflexivity.
  assert (OLD1 : load (mem s1) (gpr s RSP - 8) 8 = gpr s RBP).
  { unfold s1. cbn [mem set_mem]. rewrite load_store. change (256 ^ Z.of_nat 8) with (2 ^ 64).
    apply Z.mod_small. apply (proj1 M). }
  assert (MEM1 : forall x, gpr s RSP <= x -> mem s1 x = mem s x).
  { intros x X. unfold s1. cbn [mem set_mem]. apply store_out. lia. }
  assert (MID : exists s2, exec_all F (match fr_save fr with
     | Some offset => [I2 (Mov W8) (R8 RSP) (R8 RBP); I2 (And W8) (IMM (- fr_align fr)) (R8 RSP);
                       I2 (Mov W8) (R8 RBP) (MEM (- offset) RSP)]
     | None => [] end) s1 = Ok s2 /\ machine_ok s2 /\
     gpr s2 RSP = (if fr_save fr then (gpr s RSP - 8) - (gpr s RSP - 8) mod fr_align fr else gpr s RSP - 8) /\
     (forall r, r <> RBP -> r <> RSP -> gpr s2 r = gpr s r) /\ (forall x, xmm s2 x = xmm s x) /\
     load (mem s2) (gpr s RSP - 8) 8 = gpr s RBP /\
     (forall off, fr_save fr = Some off -> load (mem s2) (gpr s2 RSP - off) 8 = gpr s RSP - 8) /\
     (forall x, gpr s RSP <= x -> mem s2 x = mem s x)).
  { destruct (fr_save fr) as [off|] eqn:FS.
    2: { exists s1. split; [reflexivity|]. split; [exact M1|]. split; [exact SP1|]. split.
         { intros r N1 N2. unfold s1. cbn [gpr set_mem]. apply gpr_other. exact N2. }
         split; [reflexivity|]. split; [exact OLD1|]. split; [discriminate|exact MEM1]. }
    destruct (SV off eq_refl) as (OFF & k & K & AK). rewrite AK in *. cbn [exec_all].
    rewrite exec_mov_rr by exact M1. cbn [bind].
    set (s2 := set_gpr s1 RBP _).
    assert (M2 : machine_ok s2) by (eapply (exec_preserves F); [exact M1|apply exec_mov_rr; exact M1]).
    rewrite exec_and by auto. cbn [bind].
    set (s3 := set_flag _ _).
    assert (M3 : machine_ok s3) by (eapply (exec_preserves F); [exact M2|apply exec_and; auto]).
    assert (SP2 : gpr s2 RSP = gpr s RSP - 8) by reflexivity.
    assert (P : 0 < 2 ^ k) by (apply Z.pow_pos_nonneg; lia).
    pose proof (Z.mod_pos_bound (gpr s RSP - 8) (2 ^ k) P) as MB.
    pose proof (Z.mod_le (gpr s RSP - 8) (2 ^ k) ltac:(lia) P) as ML.
    assert (SP3 : gpr s3 RSP = (gpr s RSP - 8) - (gpr s RSP - 8) mod 2 ^ k) by (rewrite <- SP2; reflexivity).
    assert (BP3 : gpr s3 RBP = gpr s RSP - 8) by reflexivity.
    assert (E4 : exec F (I2 (Mov W8) (R8 RBP) (MEM (- off) RSP)) s3 =
                 Ok (set_mem s3 (store (mem s3) (gpr s3 RSP - off) 8 (gpr s RSP - 8)))).
    { cbn [exec]. cbn [is_mem andb rd reg_of bind]. change (bits W8) with 64.
      rewrite (wrap_small 64) by apply (proj1 M3). rewrite BP3.
      rewrite (wr_mem s3 W8 (- off) RSP (gpr s3 RSP - off)); [reflexivity|lia|lia|].
      change (Z.of_nat (wbytes W8)) with 8. lia. }
    assert (M4 := exec_preserves F _ _ _ M3 E4).
    rewrite E4. cbn [bind]. eexists. split; [reflexivity|].
    split; [exact M4|]. split; [cbn [gpr set_mem]; exact SP3|]. split.
    { intros r N1 N2. cbn [gpr set_mem]. unfold s3, s2, s1. cbn [gpr set_flag set_mem].
      rewrite !gpr_other by assumption. cbn [gpr set_mem]. apply gpr_other. exact N2. }
    split; [reflexivity|]. split.
    { cbn [mem set_mem]. rewrite <- OLD1. apply load_ext. intros x X. change (Z.of_nat 8) with 8 in X.
      rewrite store_out by (change (Z.of_nat 8) with 8; lia). reflexivity. }
    split.
    { intros o O. inversion O; subst o. cbn [mem gpr set_mem]. rewrite load_store.
      change (256 ^ Z.of_nat 8) with (2 ^ 64). apply Z.mod_small. lia. }
    intros x X. cbn [mem set_mem]. rewrite store_out by (change (Z.of_nat 8) with 8; lia).
    rewrite <- MEM1 by exact X. reflexivity. }
  destruct MID as (s2 & E2 & M2 & SP2 & G2 & X2 & O2 & S2 & MM2).
  rewrite exec_all_app, E2. cbn [bind exec_all]. rewrite exec_mov_rr by exact M2. cbn [bind].
  set (s3 := set_gpr s2 RBP _).
  assert (M3 : machine_ok s3) by (eapply (exec_preserves F); [exact M2|apply exec_mov_rr; exact M2]).
  assert (BP3 : gpr s3 RBP = gpr s2 RSP) by reflexivity.
  assert (SP3 : gpr s3 RSP = gpr s2 RSP) by reflexivity.
  assert (LOW : fr_sub fr <= gpr s2 RSP).
  { rewrite SP2. destruct (fr_save fr) as [off|] eqn:FS; [|lia].
    destruct (SV off eq_refl) as (OFF & k & K & AK). rewrite AK in *.
    assert (P : 0 < 2 ^ k) by (apply Z.pow_pos_nonneg; lia).
    pose proof (Z.mod_pos_bound (gpr s RSP - 8) (2 ^ k) P). lia. }
  assert (G3 : forall r, r <> RBP -> r <> RSP -> gpr s3 r = gpr s r).
  { intros r N1 N2. unfold s3. rewrite gpr_other by exact N1. apply G2; assumption. }
  destruct (Z.eqb_spec (fr_sub fr) 0) as [Z0|NZ].
  - cbn [exec_all]. exists s3. split; [reflexivity|]. constructor; auto.
    rewrite SP3, BP3. lia.
  - destruct (exec_sub F s3 (fr_sub fr) RSP M3 SUB) as (f & E4); [rewrite SP3; exact LOW|].
    cbn [exec_all]. rewrite E4. cbn [bind]. assert (M4 := exec_preserves F _ _ _ M3 E4).
    eexists. split; [reflexivity|]. constructor; auto.
    intros r N1 N2. cbn [gpr set_flag]. rewrite gpr_other by exact N2. apply G3; assumption.
Qed.

(** And the epilogue undoes it. *)
Lemma epilogue_leaves F fr s s' s2 :
  machine_ok s -> fr_sub fr + fr_align fr + 16 <= gpr s RSP -> 0 <= fr_sub fr < 2 ^ 31 -> 0 <= fr_align fr ->
  (forall off, fr_save fr = Some off -> 8 <= off <= fr_sub fr /\ exists k, 0 <= k <= 30 /\ fr_align fr = 2 ^ k) ->
  entered fr s s' -> machine_ok s2 -> gpr s2 RBP = gpr s' RBP ->
  (forall x, gpr s RSP - 8 <= x < gpr s RSP -> mem s2 x = mem s' x) ->
  (forall off x, fr_save fr = Some off -> gpr s' RBP - off <= x < gpr s' RBP - off + 8 -> mem s2 x = mem s' x) ->
  exists s3, exec_all F (epilogue fr) s2 = Ok s3 /\
    gpr s3 RBP = gpr s RBP /\ gpr s3 RSP = gpr s RSP /\ (forall x, mem s3 x = mem s2 x) /\
    (forall r, r <> RBP -> r <> RSP -> gpr s3 r = gpr s2 r) /\ (forall x, xmm s3 x = xmm s2 x).
Proof.
  intros M ROOM SUB AL SV EN M2 BP2 OLD SAVE. pose proof (proj1 M RSP) as G. destruct EN.
  assert (LEAVE : forall t, machine_ok t -> gpr t RBP = gpr s RSP - 8 -> (forall x, mem t x = mem s2 x) ->
    (forall r, r <> RBP -> r <> RSP -> gpr t r = gpr s2 r) -> (forall x, xmm t x = xmm s2 x) ->
    exists s3, exec F (I0 Leave) t = Ok s3 /\
    gpr s3 RBP = gpr s RBP /\ gpr s3 RSP = gpr s RSP /\ (forall x, mem s3 x = mem s2 x) /\
    (forall r, r <> RBP -> r <> RSP -> gpr s3 r = gpr s2 r) /\ (forall x, xmm s3 x = xmm s2 x)).
  { intros t T BT ME GE XE. cbn [exec]. cbv zeta. rewrite BT.
    destruct (Z.leb_spec (gpr s RSP - 8 + 8) (2 ^ 64)); [|lia].
    eexists. split; [reflexivity|]. split.
    { rewrite gpr_other by discriminate. rewrite gpr_same. rewrite <- en_old0. apply load_ext.
      intros x X. change (Z.of_nat 8) with 8 in X. rewrite ME. apply OLD. lia. }
    split. { rewrite gpr_same. replace (gpr s RSP - 8 + 8) with (gpr s RSP) by lia. apply wrap_small. exact G. }
    split; [exact ME|]. split; [|exact XE]. intros r N1 N2. rewrite !gpr_other by assumption. apply GE; assumption. }
  unfold epilogue. destruct (fr_save fr) as [off|] eqn:FS.
  - destruct (SV off eq_refl) as (OFF & k & K & AK). rewrite AK in *.
    assert (P : 0 < 2 ^ k) by (apply Z.pow_pos_nonneg; lia).
    pose proof (Z.mod_pos_bound (gpr s RSP - 8) (2 ^ k) P) as MB.
    assert (V : load (mem s2) (gpr s2 RBP - off) 8 = gpr s RSP - 8).
    { rewrite <- (en_save0 off eq_refl), BP2. apply load_ext. intros x X. change (Z.of_nat 8) with 8 in X.
      apply (SAVE off); [reflexivity|lia]. }
    assert (E1 : exec F (I2 (Mov W8) (MEM (- off) RBP) (R8 RBP)) s2 = Ok (set_gpr s2 RBP (gpr s RSP - 8))).
    { cbn [exec]. cbn [is_mem andb]. rewrite (rd_mem s2 W8 (- off) RBP (gpr s2 RBP - off)); [|lia|rewrite BP2; lia|].
      2: { change (Z.of_nat (wbytes W8)) with 8. rewrite BP2; lia. }
      change (wbytes W8) with 8%nat. rewrite V. cbn [bind wr reg_of]. change (bits W8) with 64.
      rewrite (wrap_small 64) by lia. reflexivity. }
    assert (M3 := exec_preserves F _ _ _ M2 E1).
    cbn [app exec_all]. rewrite E1. cbn [bind].
    destruct (LEAVE _ M3 ltac:(apply gpr_same) ltac:(reflexivity)
                ltac:(intros r N1 N2; apply gpr_other; exact N1) ltac:(reflexivity)) as (s3 & E3 & R).
    rewrite E3. cbn [bind]. exists s3. split; [reflexivity|exact R].
  - cbn [app exec_all].
    destruct (LEAVE s2 M2 ltac:(rewrite BP2; exact en_rbp0) ltac:(reflexivity) ltac:(reflexivity) ltac:(reflexivity))
      as (s3 & E3 & R).
    rewrite E3. cbn [bind]. exists s3. split; [reflexivity|exact R].
Qed.

(** The allocator succeeds when the requests are not too large. *)
Definition total_slots (l : list frame_ins) : Z := fold_right (fun r n => f_size r + n) 0 l.
Definition total_objects (l : list frame_ins) : Z :=
  fold_right (fun r n => match f_alloc r with Some (size, a) => size + a | None => 0 end + n) 0 l.
Lemma total_nonneg l : Forall request_ok l -> 0 <= total_slots l /\ 0 <= total_objects l.
Proof.
  induction 1 as [|r l R H [I1 I2]]; cbn [total_slots total_objects fold_right] in *; [lia|].
  fold (total_slots l) in *. fold (total_objects l) in *. destruct R as [R1 R2].
  split; [lia|]. destruct (f_alloc r) as [[size a]|]; [|lia]. destruct R2 as [S [->|(k & K & ->)]]; [lia|].
  pose proof (Z.pow_pos_nonneg 2 k ltac:(lia) ltac:(lia)). lia.
Qed.
Lemma demand_split l preamble :
  demand l preamble = total_slots l + 8 * count_vlas l + total_objects l + preamble + 24.
Proof.
  unfold demand. assert (fold_right (fun r n => request_bytes r + n) 0 l = total_slots l + 8 * count_vlas l + total_objects l); [|lia].
  induction l as [|r l IH]; [reflexivity|]. cbn [fold_right total_slots total_objects count_vlas] in *.
  fold (total_slots l) in *. fold (total_objects l) in *. rewrite IH. unfold request_bytes. destruct (f_vla r); lia.
Qed.
Lemma place_slots_total l : Forall request_ok l -> forall perm, 0 <= perm -> perm + total_slots l < 2 ^ 31 ->
  exists locs, place_slots l perm = Ok (locs, perm + total_slots l).
Proof.
  induction 1 as [|r l R H IH]; intros perm P B; cbn [place_slots total_slots fold_right] in *.
  - exists []. rewrite Z.add_0_r. reflexivity.
  - fold (total_slots l) in *. pose proof (proj1 (total_nonneg l H)) as NN. pose proof (proj1 R) as R1.
    destruct (Z.eqb_spec (f_size r) 0) as [Z0|NZ].
    + destruct (IH perm P ltac:(lia)) as (locs & E). rewrite E. cbn [bind]. eexists. rewrite Z0. reflexivity.
    + rewrite add_int_fits by lia. cbn [bind]. destruct (IH (perm + f_size r) ltac:(lia) ltac:(lia)) as (locs & E).
      rewrite E. cbn [bind]. eexists. rewrite Z.add_assoc. reflexivity.
Qed.
Lemma place_objects_total l : Forall request_ok l -> forall perm align, 0 <= perm -> perm + total_objects l < 2 ^ 31 ->
  exists locs last align', place_objects l perm align = Ok (locs, last, align') /\ perm <= last <= perm + total_objects l.
Proof.
  induction 1 as [|r l R H IH]; intros perm align P B; cbn [place_objects total_objects fold_right] in *.
  - exists [], perm, align. split; [reflexivity|lia].
  - fold (total_objects l) in *. pose proof (proj2 (total_nonneg l H)) as NN. destruct R as [_ R].
    destruct (f_alloc r) as [[size a]|].
    2: { destruct (IH perm align P ltac:(lia)) as (locs & last & al & E & L). rewrite E. cbn [bind].
         do 3 eexists. split; [reflexivity|lia]. }
    destruct R as [S0 AO].
    assert (A0 : 0 <= a) by (destruct AO as [->|(k & K & ->)]; [lia|apply Z.pow_nonneg; lia]).
    rewrite add_int_fits by lia. cbn [bind].
    assert (ST : exists p2 al2, align_object (perm + size) align a = Ok (p2, al2) /\ perm + size <= p2 <= perm + size + a).
    { unfold align_object. destruct (Z.eqb_spec a 0) as [->|NZ]; [do 2 eexists; split; [reflexivity|lia]|].
      cbv zeta. rewrite Z.rem_mod_nonneg by lia. pose proof (Z.mod_pos_bound (perm + size) a ltac:(lia)) as MB.
      destruct (Z.eqb_spec ((perm + size) mod a) 0); cbn [bind]; [do 2 eexists; split; [reflexivity|lia]|].
      rewrite add_int_fits by lia. cbn [bind]. do 2 eexists; split; [reflexivity|lia]. }
    destruct ST as (p2 & al2 & E2 & B2). rewrite E2. cbn [bind].
    destruct (IH p2 al2 ltac:(lia) ltac:(lia)) as (locs & last & al & E & L). rewrite E. cbn [bind].
    do 3 eexists. split; [reflexivity|lia].
Qed.
Lemma allocate_total l preamble : Forall request_ok l -> 0 <= preamble -> demand l preamble <= 2 ^ 31 ->
  exists fr, allocate_frame l preamble = Ok fr.
Proof.
  intros R PP D. rewrite demand_split in D. destruct (total_nonneg l R) as [N1 N2].
  assert (NV : 0 <= count_vlas l) by (rewrite count_vlas_filter; lia).
  unfold allocate_frame. destruct (place_slots_total l R 0 ltac:(lia) ltac:(lia)) as (slots & E0). rewrite E0. cbn [bind].
  rewrite add_int_fits by lia. cbn [bind].
  destruct (place_objects_total l R (0 + total_slots l + count_vlas l * 8) 0 ltac:(lia) ltac:(lia)) as (objs & p2 & al & E2 & B2).
  rewrite E2. cbn [bind].
  assert (E3 : exists pre p3, (if preamble =? 0 then Ok (None, p2)
      else let* perm := add_int p2 preamble in Ok (Some perm, perm)) = Ok (pre, p3) /\ p2 <= p3 <= p2 + preamble).
  { destruct (Z.eqb_spec preamble 0); [do 2 eexists; split; [reflexivity|lia]|].
    rewrite add_int_fits by lia. cbn [bind]. do 2 eexists; split; [reflexivity|lia]. }
  destruct E3 as (pre & p3 & E3 & B3). rewrite E3. cbn [bind].
  assert (E4 : exists save p4, (if 16 <? al then let* perm := add_int p3 8 in Ok (Some perm, perm)
      else Ok (None, p3)) = Ok (save, p4) /\ p3 <= p4 <= p3 + 8).
  { destruct (16 <? al); [|do 2 eexists; split; [reflexivity|lia]].
    rewrite add_int_fits by lia. cbn [bind]. do 2 eexists; split; [reflexivity|lia]. }
  destruct E4 as (save & p4 & E4 & B4). rewrite E4. cbn [bind].
  assert (E5 : exists sub, round_up_to_nearest p4 16 = Ok sub).
  { unfold round_up_to_nearest, int_ok, INT_MIN, INT_MAX. cbn [Z.eqb andb]. cbv zeta.
    change (2 ^ 31) with 2147483648 in *.
    rewrite Z.rem_mod_nonneg by lia. pose proof (Z.mod_pos_bound p4 16 ltac:(lia)) as MB.
    destruct (p4 mod 16 =? 0) eqn:M0; [eauto|]. apply Z.eqb_neq in M0.
    rewrite (proj2 (Z.leb_le (-2147483648) (16 - p4 mod 16))) by lia.
    rewrite (proj2 (Z.leb_le (16 - p4 mod 16) 2147483647)) by lia.
    rewrite (proj2 (Z.leb_le (-2147483648) (p4 + (16 - p4 mod 16)))) by lia.
    rewrite (proj2 (Z.leb_le (p4 + (16 - p4 mod 16)) 2147483647)) by lia. cbn [andb]. eauto. }
  destruct E5 as (sub & E5). rewrite E5. cbn [bind]. eauto.
Qed.

(** The frame's parameters suit the prologue. *)
Lemma frame_suits l preamble fr : Forall request_ok l -> 0 <= preamble -> allocate_frame l preamble = Ok fr ->
  0 <= fr_sub fr < 2 ^ 31 /\ 0 <= fr_align fr /\
  (forall off, fr_save fr = Some off -> 8 <= off <= fr_sub fr /\ 16 < fr_align fr /\
     exists k, 0 <= k <= 30 /\ fr_align fr = 2 ^ k).
Proof.
  intros R P E. destruct (frame_chain _ _ _ R P E) as (C & _ & B & _ & _ & _ & AL & SV).
  pose proof (chain_le _ _ _ C). split; [lia|]. split.
  - destruct AL as [->|(k & K & ->)]; [lia|apply Z.pow_nonneg; lia].
  - intros off O. assert (I : In (SavedFrame, off, 8) (entries l preamble fr)).
    { apply region_entry. cbn. auto. }
    pose proof (chain_in _ _ _ _ _ _ C I). split; [lia|].
    assert (16 < fr_align fr). { destruct (Z.lt_ge_cases 16 (fr_align fr)); [assumption|]. apply SV in H1. congruence. }
    split; [assumption|]. destruct AL as [A|A]; [lia|exact A].
Qed.
