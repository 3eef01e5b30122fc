(** Moving slots into registers and registers into slots. *)
From Verif Require Import Base Bytes Common Arch X86 Codegen AsmSpec X86Proofs X86Preserve CodegenProofs Frame FrameSpec FrameProofs SysV Passing PassingSpec PassingProofs.
Ltac Zify.zify_post_hook ::= idtac.

Definition content (s : machine) (p : place) : Z := match p with GP r => gpr s r | VEC x => xmm s x end.
Definition place_eq_dec (p q : place) : {p = q} + {p <> q}.
Proof. repeat decide equality. Defined.
Definition set_place (s : machine) (p : place) (v : Z) : machine :=
  match p with GP r => set_gpr s r v | VEC x => set_xmm s x v end.
Lemma content_same s p v : content (set_place s p v) p = v.
Proof. destruct p; cbn [content set_place]; [apply gpr_same|]. cbn. rewrite Z.eqb_refl. reflexivity. Qed.
Lemma content_other s p q v : q <> p -> content (set_place s p v) q = content s q.
Proof.
  destruct p as [r|x], q as [r'|x']; cbn [content set_place]; intros N; try reflexivity.
  - apply gpr_other. congruence.
  - cbn. destruct (Z.eqb_spec x' x); [congruence|reflexivity].
Qed.
Lemma set_place_mem s p v : mem (set_place s p v) = mem s.
Proof. destruct p; reflexivity. Qed.
Lemma set_place_ok s p v : machine_ok s -> 0 <= v < 2 ^ 64 -> machine_ok (set_place s p v).
Proof. destruct p; cbn [set_place]; [apply machine_gpr|apply machine_xmm]. Qed.

Lemma load_byte m a n k : (forall y, 0 <= m y < 256) -> 0 <= k < Z.of_nat n -> byte_of (load m a n) k = m (a + k).
Proof.
  intros B K. unfold byte_of. rewrite <- (digit_load m a n (a + k)) by (auto; lia).
  replace (a + k - a) with k by lia. reflexivity.
Qed.

Lemma rd_byte s w off a v k : machine_ok s -> gpr s RBP + off = a -> 0 <= a -> a + Z.of_nat (wbytes w) <= 2 ^ 64 ->
  rd s w (MEM off RBP) = Ok v -> 0 <= k < Z.of_nat (wbytes w) -> byte_of v k = mem s (a + k).
Proof.
  intros M E L H R K. rewrite (rd_mem s w off RBP a) in R by auto. injection R as <-. apply load_byte; [apply M|exact K].
Qed.

(** codegen_set_reg loads the bytes of the slot. *)
Lemma set_reg_ok F s v p code : machine_ok s -> readable s v -> 1 <= s_size v <= 8 ->
  codegen_set_reg v p = Ok code ->
  exists w, exec_all F code s = Ok (set_place s p w) /\ 0 <= w < 2 ^ 64 /\
    (forall k, 0 <= k < s_size v -> byte_of w k = mem s (slot_address s v + k)) /\
    (In (s_size v) [1; 2; 4; 8] -> forall r, p = GP r -> w = slot_bits s v).
Proof.
  intros M (L & H) SZ E. assert (G := M). destruct G as (G & X & B).
  assert (AD : gpr s RBP + - s_loc v = slot_address s v) by (unfold slot_address; lia).
  destruct p as [r|x]; cbn [codegen_set_reg] in E.
  - assert (BIG : forall n, (n <= 8)%nat -> 0 <= load (mem s) (slot_address s v) n < 2 ^ 64).
    { intros n N. pose proof (load_range (mem s) (slot_address s v) n B) as R. split; [apply R|].
      eapply Z.lt_le_trans; [apply R|]. apply pow_small. lia. }
    assert (GO : forall n, (Z.to_nat (s_size v) <= n <= 8)%nat ->
        exec_all F code s = Ok (set_gpr s r (load (mem s) (slot_address s v) n)) ->
        (In (s_size v) [1; 2; 4; 8] -> n = Z.to_nat (s_size v)) ->
        exists w, exec_all F code s = Ok (set_place s (GP r) w) /\ 0 <= w < 2 ^ 64 /\
          (forall k, 0 <= k < s_size v -> byte_of w k = mem s (slot_address s v + k)) /\
          (In (s_size v) [1; 2; 4; 8] -> forall r0, GP r = GP r0 -> w = slot_bits s v)).
    { intros n N EX SC. exists (load (mem s) (slot_address s v) n). split; [exact EX|]. split; [apply BIG; lia|].
      split; [intros k K; apply load_byte; [exact B|lia]|].
      intros I r0 _. unfold slot_bits. rewrite (SC I). reflexivity. }
    unfold scalar_to_reg in E.
    assert (D : s_size v = 1 \/ s_size v = 2 \/ s_size v = 3 \/ s_size v = 4 \/ s_size v = 5 \/ s_size v = 6 \/ s_size v = 7 \/ s_size v = 8) by lia.
    assert (EXZ : forall w, In w [W1; W2] -> exec_all F [I2 (Movz w W4) (MEM (- s_loc v) RBP) (R4 r)] s
       = Ok (set_gpr s r (load (mem s) (slot_address s v) (wbytes w)))).
    { intros w I. cbn [exec_all exec is_mem].
      rewrite (rd_mem s w _ _ (slot_address s v)) by (auto; destruct I as [<-|[<-|[]]]; cbn [wbytes]; lia).
      cbn [bind wr reg_of]. rewrite wrap_small; [reflexivity|].
      pose proof (load_range (mem s) (slot_address s v) (wbytes w) B) as R. split; [apply R|].
      eapply Z.lt_le_trans; [apply R|]. rewrite bits_pow. apply Z.pow_le_mono_r; [lia|].
      destruct I as [<-|[<-|[]]]; cbn [wbytes]; lia. }
    assert (EXM : forall w, In w [W4; W8] -> exec_all F [I2 (Mov w) (MEM (- s_loc v) RBP) (sized w r)] s
       = Ok (set_gpr s r (load (mem s) (slot_address s v) (wbytes w)))).
    { intros w I. pose proof (load_range (mem s) (slot_address s v) (wbytes w) B) as R. rewrite <- bits_pow in R.
      destruct I as [<-|[<-|[]]]; cbn [exec_all exec is_mem sized andb];
      (rewrite (rd_mem s _ _ _ (slot_address s v)) by (auto; cbn [wbytes]; lia));
      cbn [bind wr reg_of]; (rewrite wrap_small by exact R); reflexivity. }
    destruct D as [D|[D|[D|[D|[D|[D|[D|D]]]]]]]; rewrite D in E; injection E as <-; rewrite D in GO |- *.
    + apply (GO 1%nat); [cbn; lia| |reflexivity]. apply (EXZ W1). cbn; tauto.
    + apply (GO 2%nat); [cbn; lia| |reflexivity]. apply (EXZ W2). cbn; tauto.
    + apply (GO 4%nat); [cbn; lia| |]. apply (EXM W4); cbn; tauto. intros [I|[I|[I|[I|[]]]]]; discriminate.
    + apply (GO 4%nat); [cbn; lia| |reflexivity]. apply (EXM W4). cbn; tauto.
    + apply (GO 8%nat); [cbn; lia| |]. apply (EXM W8); cbn; tauto. intros [I|[I|[I|[I|[]]]]]; discriminate.
    + apply (GO 8%nat); [cbn; lia| |]. apply (EXM W8); cbn; tauto. intros [I|[I|[I|[I|[]]]]]; discriminate.
    + apply (GO 8%nat); [cbn; lia| |]. apply (EXM W8); cbn; tauto. intros [I|[I|[I|[I|[]]]]]; discriminate.
    + apply (GO 8%nat); [cbn; lia| |reflexivity]. apply (EXM W8). cbn; tauto.
  - injection E as <-. exists (load (mem s) (slot_address s v) 8). split.
    { cbn [exec_all exec]. rewrite (rd_mem s W8 _ _ (slot_address s v)) by (auto; cbn [wbytes]; lia). reflexivity. }
    split. { exact (load_range (mem s) (slot_address s v) 8 B). }
    split; [|discriminate]. intros k K. apply load_byte; [exact B|lia].
Qed.

Lemma set_reg_total v p : 1 <= s_size v <= 8 -> exists code, codegen_set_reg v p = Ok code.
Proof.
  intros S. destruct p; cbn [codegen_set_reg]; [|eauto]. unfold scalar_to_reg.
  assert (D : s_size v = 1 \/ s_size v = 2 \/ s_size v = 3 \/ s_size v = 4 \/ s_size v = 5 \/ s_size v = 6 \/ s_size v = 7 \/ s_size v = 8) by lia.
  destruct D as [D|[D|[D|[D|[D|[D|[D|D]]]]]]]; rewrite D; eauto.
Qed.

(** A chain of them. *)
Lemma set_regs_ok F (l : list (slot * place)) : forall codes s,
  machine_ok s -> Forall (fun q => readable s (fst q) /\ 1 <= s_size (fst q) <= 8) l ->
  NoDup (map snd l) -> ~ In (GP RBP) (map snd l) ->
  all_code (fun q => codegen_set_reg (fst q) (snd q)) l = Ok codes ->
  exists s', exec_all F (concat codes) s = Ok s' /\ machine_ok s' /\ mem s' = mem s /\
    (forall p, ~ In p (map snd l) -> content s' p = content s p) /\
    (forall v p k, In (v, p) l -> 0 <= k < s_size v -> byte_of (content s' p) k = mem s (slot_address s v + k)).
Proof.
  induction l as [|[v p] l IH]; intros codes s M FA ND NB E; cbn [all_code] in E.
  - injection E as <-. exists s. split; [reflexivity|]. split; [exact M|]. split; [reflexivity|]. split; [reflexivity|].
    intros ? ? ? [].
  - apply bind_ok in E. destruct E as (code & E1 & E). apply bind_ok in E. destruct E as (codes' & E2 & E). injection E as <-.
    inversion FA as [|? ? (RD & SZ) FA']; subst. inversion ND as [|? ? NI ND']; subst. cbn [fst snd] in *.
    destruct (set_reg_ok F s v p code M RD SZ E1) as (w & X & WR & WB & _).
    assert (M1 : machine_ok (set_place s p w)) by (apply set_place_ok; assumption).
    assert (BP : gpr (set_place s p w) RBP = gpr s RBP).
    { change (content (set_place s p w) (GP RBP) = content s (GP RBP)). apply content_other.
      intros <-. apply NB. left. reflexivity. }
    destruct (IH codes' (set_place s p w) M1) as (s' & X' & M' & ME & K & B).
    + revert FA'. apply Forall_impl. intros [v' p'] (R & SS). cbn [fst] in *. split; [|exact SS].
      unfold readable, slot_address in *. rewrite BP. exact R.
    + exact ND'.
    + intros I. apply NB. right. exact I.
    + exact E2.
    + exists s'. split; [cbn [concat]; rewrite exec_all_app, X; exact X'|]. split; [exact M'|].
      split; [rewrite ME; apply set_place_mem|]. split.
      * intros q NQ. cbn [map snd In] in NQ. rewrite K by tauto. apply content_other. intros ->. tauto.
      * intros v' p' k [I|I] KR.
        -- injection I as <- <-. rewrite K by exact NI. rewrite content_same. apply WB. exact KR.
        -- rewrite (B v' p' k I KR). rewrite set_place_mem. unfold slot_address. rewrite BP. reflexivity.
Qed.

(** codegen_get_reg stores the low bytes of the register. *)
Lemma get_reg_ok F s p v : machine_ok s -> in_memory s v -> 1 <= s_size v <= 8 -> p <> GP RBP -> p <> GP RSP ->
  (forall x, p = VEC x -> s_size v = 4 \/ s_size v = 8) ->
  exists s', exec_all F (codegen_get_reg p v) s = Ok s' /\ machine_ok s' /\
    (forall x, ~ slot_address s v <= x < slot_address s v + s_size v -> mem s' x = mem s x) /\
    (forall k, 0 <= k < s_size v -> mem s' (slot_address s v + k) = byte_of (content s p) k) /\
    (forall q, q <> p -> content s' q = content s q).
Proof.
  intros M IM SZ NB NS SV. destruct p as [r|x]; cbn [codegen_get_reg].
  - destruct (reg_to_scalar_ok F s r v M IM) as (s' & X & ME & GE & XE); [lia|congruence|].
    exists s'. split; [exact X|]. split; [eapply exec_all_preserves; eauto|].
    split; [intros x NX; rewrite ME; apply store_out; lia|]. split.
    + intros k K. rewrite ME, store_in by lia. unfold byte_of. cbn [content].
      replace (slot_address s v + k - slot_address s v) with k by lia. reflexivity.
    + intros [q|q] NQ; cbn [content]; [apply GE; congruence|apply XE].
  - destruct IM as (L & H). destruct (SV x eq_refl) as [E4|E8].
    + rewrite E4. change (4 =? 4) with true. cbv iota. cbn [exec_all exec].
      assert (AD : gpr s RBP + - s_loc v = slot_address s v) by (unfold slot_address; lia).
      rewrite (wr_mem s W4 _ _ (slot_address s v)) by (auto; cbn [wbytes]; lia). cbn [bind].
      eexists. split; [reflexivity|]. split; [apply machine_mem; exact M|]. cbn [mem set_mem].
      split; [intros y NY; apply store_out; cbn [wbytes]; lia|]. split; [|intros [q|q] _; reflexivity].
      intros k K. rewrite store_in by (cbn [wbytes]; lia). replace (slot_address s v + k - slot_address s v) with k by lia.
      unfold low32. change 32 with (bits W4). apply digit_wrap. cbn [wbytes]. lia.
    + rewrite E8. change (8 =? 4) with false. cbv iota. cbn [exec_all exec].
      assert (AD : gpr s RBP + - s_loc v = slot_address s v) by (unfold slot_address; lia).
      rewrite (wr_mem s W8 _ _ (slot_address s v)) by (auto; cbn [wbytes]; lia). cbn [bind].
      eexists. split; [reflexivity|]. split; [apply machine_mem; exact M|]. cbn [mem set_mem].
      split; [intros y NY; apply store_out; cbn [wbytes]; lia|]. split; [|intros [q|q] _; reflexivity].
      intros k K. rewrite store_in by (cbn [wbytes]; lia). replace (slot_address s v + k - slot_address s v) with k by lia.
      reflexivity.
Qed.

Lemma get_regs_ok F (l : list (place * slot)) : forall s,
  machine_ok s -> Forall (fun q => in_memory s (snd q) /\ 1 <= s_size (snd q) <= 8 /\
     (forall x, fst q = VEC x -> s_size (snd q) = 4 \/ s_size (snd q) = 8)) l ->
  NoDup (map fst l) -> ~ In (GP RBP) (map fst l) -> ~ In (GP RSP) (map fst l) ->
  ForallOrdPairs (fun a b => forall x, in_slot s (snd a) x -> in_slot s (snd b) x -> False) l ->
  exists s', exec_all F (concat (map (fun q => codegen_get_reg (fst q) (snd q)) l)) s = Ok s' /\ machine_ok s' /\
    gpr s' RBP = gpr s RBP /\ gpr s' RSP = gpr s RSP /\
    (forall x, (forall p v, In (p, v) l -> ~ in_slot s v x) -> mem s' x = mem s x) /\
    (forall p v k, In (p, v) l -> 0 <= k < s_size v -> mem s' (slot_address s v + k) = byte_of (content s p) k).
Proof.
  induction l as [|[p v] l IH]; intros s M FA ND NB NS OP; cbn [map concat].
  - exists s. split; [reflexivity|]. split; [exact M|]. split; [reflexivity|]. split; [reflexivity|].
    split; [reflexivity|]. intros ? ? ? [].
  - inversion FA as [|? ? (IM & SZ & SV) FA']; subst. inversion ND as [|? ? NI ND']; subst.
    inversion OP as [|? ? HD TL]; subst. cbn [fst snd map] in *.
    destruct (get_reg_ok F s p v M IM SZ) as (s1 & X1 & M1 & K1 & B1 & G1); auto.
    { intros ->. apply NB. left. reflexivity. } { intros ->. apply NS. left. reflexivity. }
    assert (BP : gpr s1 RBP = gpr s RBP) by (apply (G1 (GP RBP)); intros <-; apply NB; left; reflexivity).
    assert (SP : gpr s1 RSP = gpr s RSP) by (apply (G1 (GP RSP)); intros <-; apply NS; left; reflexivity).
    assert (SA : forall u, slot_address s1 u = slot_address s u) by (intros u; unfold slot_address; rewrite BP; reflexivity).
    destruct (IH s1 M1) as (s' & X' & M' & BP' & SP' & K' & B').
    + revert FA'. apply Forall_impl. intros [q u] (I & J). cbn [fst snd] in *. split; [|exact J]. unfold in_memory in *. rewrite SA. exact I.
    + exact ND'.
    + intros I. apply NB. right. exact I.
    + intros I. apply NS. right. exact I.
    + revert TL. clear -SA. induction 1 as [|a l FO _ IH]; constructor; [|exact IH].
      revert FO. apply Forall_impl. intros b H x. unfold in_slot in *. rewrite !SA. apply H.
    + exists s'. split; [rewrite exec_all_app, X1; exact X'|]. split; [exact M'|]. split; [congruence|]. split; [congruence|]. split.
      * intros x NX. rewrite K'.
        -- apply K1. apply (NX p v). left. reflexivity.
        -- intros q u I. unfold in_slot. rewrite SA. apply (NX q u). right. exact I.
      * intros q u k [I|I] KR.
        -- injection I as <- <-. rewrite K'; [apply B1; exact KR|].
           intros q u I. rewrite Forall_forall in HD. unfold in_slot at 1. rewrite SA. intros IN.
           apply (HD (q, u) I (slot_address s v + k)); [unfold in_slot; cbn [snd]; lia|exact IN].
        -- rewrite <- SA. rewrite (B' q u k I KR). f_equal. apply G1.
           intros ->. apply NI. apply (in_map fst) in I. exact I.
Qed.
