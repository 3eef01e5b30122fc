(** Classification and register assignment against the ABI. *)
From Verif Require Import Base Common Arch X86 SysV SysVSpec.

Lemma atype_ind' (P : atype -> Prop) :
  (forall s, P (ASimple s)) -> P APointer ->
  (forall n fs, Forall (fun om => P (snd om)) fs -> P (AStruct n fs)) ->
  (forall n m, P m -> P (AArray n m)) ->
  (forall m, P (AIncompleteArray m)) ->
  forall t, P t.
Proof.
  intros HS HP HF HA HI. fix IH 1. intros [s| |n fs|n m|m].
  - apply HS.
  - apply HP.
  - apply HF. induction fs as [|[o m] fs IHfs]; constructor; [apply IH|exact IHfs].
  - apply HA, IH.
  - apply HI.
Qed.

Lemma wf_struct n fs : wf (AStruct n fs) <-> 0 <= n /\ Forall (fun om => 0 <= fst om /\ fst om + a_size (snd om) <= n /\ wf (snd om)) fs.
Proof.
  cbn [wf]. apply and_iff_compat_l. induction fs as [|[o m] fs IH].
  - split; constructor.
  - rewrite IH. split.
    + intros (A & B & C & D). constructor; [cbn; auto|exact D].
    + intros H. inversion H as [|? ? (A & B & C) D]; subst. cbn in *. auto.
Qed.

Lemma scalar_size s : 0 <= sizeof_simple SYSV s.
Proof. destruct s; vm_compute; congruence. Qed.

(** Scalars lie inside the object. *)
Lemma scalar_inside t o s : wf t -> scalar_at t o s -> 0 <= o /\ o + a_size s <= a_size t /\ 0 <= a_size s.
Proof.
  intros W H. induction H.
  - cbn. pose proof (scalar_size s). lia.
  - cbn. lia.
  - apply wf_struct in W as (N & F). rewrite Forall_forall in F. specialize (F _ H). cbn [fst snd] in F.
    destruct F as (A & B & C). specialize (IHscalar_at C). cbn [a_size]. lia.
  - cbn [wf] in W. destruct W as (S & W). specialize (IHscalar_at W). cbn [a_size]. nia.
Qed.

Definition plain (c : parameter_class) : Prop := c = CLASS_INTEGER \/ c = CLASS_SSE \/ c = CLASS_NO_CLASS.
Definition rank (c : parameter_class) : nat := match c with CLASS_INTEGER => 2 | CLASS_SSE => 1 | _ => 0 end.
Definition erank (c : eightbyte) : nat := match c with INTEGER => 2 | SSE => 1 end.
Definition scalars_ok (t : atype) : Prop := forall o s, scalar_at t o s -> scalar_class s <> None.

(** What classify_recursively counts: a scalar that ends exactly at [lower]
    is taken to be inside. *)
Definition touches (lo hi o : Z) (s : atype) : Prop := lo <= o + a_size s /\ o < hi.
Definition reached (t : atype) (lo hi : Z) (k : nat) : Prop :=
  exists o s c, scalar_at t o s /\ touches lo hi o s /\ scalar_class s = Some c /\ (k <= erank c)%nat.
Definition merged (cur c : parameter_class) (R : nat -> Prop) : Prop :=
  plain c /\ forall k, (0 < k)%nat -> ((k <= rank c)%nat <-> (k <= rank cur)%nat \/ R k).

Lemma combine_rank a b : plain a -> plain b -> plain (combine_class a b) /\ rank (combine_class a b) = Nat.max (rank a) (rank b).
Proof. intros [-> | [-> | ->]] [-> | [-> | ->]]; vm_compute; split; auto; unfold plain; auto. Qed.

(** One member or element. *)
Definition visit (m : atype) (cur : parameter_class) (lo hi offset : Z) : res parameter_class :=
  if (offset + a_size m <? lo) || (hi <=? offset) then Ok cur
  else let* c := classify_non_recursive m in
       match c with
       | Some c => Ok (combine_class cur c)
       | None => classify_recursively m cur (lo - offset) (hi - offset)
       end.
Definition is_scalar (t : atype) : bool := match t with ASimple _ | APointer => true | _ => false end.
Definition Rec (t : atype) : Prop :=
  wf t -> scalars_ok t -> is_scalar t = false ->
  forall cur lo hi, plain cur -> exists c, classify_recursively t cur lo hi = Ok c /\ merged cur c (reached t lo hi).

Definition part (m : atype) (offset lo hi : Z) (k : nat) : Prop := reached m (lo - offset) (hi - offset) k.

Lemma scalar_self m : is_scalar m = true -> scalar_at m 0 m.
Proof. destruct m; try discriminate; constructor. Qed.
Lemma scalar_only m o s : is_scalar m = true -> scalar_at m o s -> o = 0 /\ s = m.
Proof. destruct m; try discriminate; intros _ H; inversion H; auto. Qed.
Lemma non_recursive_scalar m : is_scalar m = true -> scalar_class m <> None ->
  exists c, classify_non_recursive m = Ok (Some c) /\ plain c /\
            exists e, scalar_class m = Some e /\ rank c = erank e.
Proof.
  destruct m as [s| | | |]; try discriminate; intros _ H.
  - destruct s; cbn in *; try congruence; eexists; (split; [reflexivity|]); (split; [unfold plain; auto|]); eauto.
  - eexists; split; [reflexivity|]. split; [unfold plain; auto|]. cbn. eauto.
Qed.
Lemma non_recursive_other m : is_scalar m = false -> classify_non_recursive m = Ok None.
Proof. destruct m; try discriminate; reflexivity. Qed.

Lemma visit_spec m : Rec m -> wf m -> scalars_ok m -> forall cur lo hi offset, plain cur -> 
  exists c, visit m cur lo hi offset = Ok c /\ merged cur c (part m offset lo hi).
Proof.
  intros HR W SO cur lo hi offset P. unfold visit.
  destruct ((offset + a_size m <? lo) || (hi <=? offset)) eqn:E.
  - exists cur. split; [reflexivity|]. split; [exact P|]. intros k K. split; [auto|]. intros [H|H]; [exact H|].
    destruct H as (o & s & c & A & (B & C) & _). destruct (scalar_inside _ _ _ W A). exfalso.
    apply orb_prop in E as [E|E]; [apply Z.ltb_lt in E|apply Z.leb_le in E]; lia.
  - apply orb_false_elim in E as (E1 & E2). apply Z.ltb_ge in E1. apply Z.leb_gt in E2.
    destruct (is_scalar m) eqn:SC.
    + destruct (non_recursive_scalar m SC (SO _ _ (scalar_self m SC))) as (c & -> & PC & e & EE & RE). cbn [bind].
      exists (combine_class cur c). split; [reflexivity|]. destruct (combine_rank cur c P PC) as (PP & RR).
      split; [exact PP|]. intros k K. rewrite RR, RE. split.
      * intros H. destruct (Nat.le_gt_cases k (rank cur)); [auto|right]. exists 0, m, e.
        split; [apply scalar_self; exact SC|]. split; [unfold touches; lia|]. split; [exact EE|]. lia.
      * intros [H|(o & s & e' & A & _ & B & C)]; [lia|]. apply scalar_only in A as (-> & ->); [|exact SC].
        rewrite EE in B. injection B as <-. lia.
    + rewrite non_recursive_other by exact SC. cbn [bind]. apply HR; assumption.
Qed.

Lemma merged_step cur c c' (R1 R2 : nat -> Prop) : merged cur c R1 -> merged c c' R2 -> merged cur c' (fun k => R1 k \/ R2 k).
Proof.
  intros (P1 & H1) (P2 & H2). split; [exact P2|]. intros k K. rewrite H2, H1 by exact K. tauto.
Qed.
Lemma merged_ext cur c (R R' : nat -> Prop) : merged cur c R -> (forall k, R k <-> R' k) -> merged cur c R'.
Proof. intros (P & H) E. split; [exact P|]. intros k K. rewrite H, E by exact K. tauto. Qed.
Lemma merged_none cur (R : nat -> Prop) : plain cur -> (forall k, ~ R k) -> merged cur cur R.
Proof. intros P N. split; [exact P|]. intros k K. split; [auto|]. intros [H|H]; [exact H|destruct (N _ H)]. Qed.

Lemma part_touches m offset lo hi k :
  part m offset lo hi k <-> exists o s c, scalar_at m o s /\ touches lo hi (offset + o) s /\ scalar_class s = Some c /\ (k <= erank c)%nat.
Proof.
  unfold part, reached, touches. split; intros (o & s & c & A & B & C & D); exists o, s, c;
    (split; [exact A|]); (split; [lia|]); auto.
Qed.

Lemma classify_rec t : Rec t.
Proof.
  induction t as [s| |n fs IH|n m IH|m] using atype_ind'; intros W SO SC; try discriminate.
  - (* struct *)
    apply wf_struct in W as (_ & WF).
    assert (SF : forall o m, In (o, m) fs -> scalars_ok m).
    { intros o m I o' s' H. eapply SO. econstructor; eauto. }
    cbn [classify_recursively].
    assert (L : forall l cur lo hi, incl l fs -> plain cur ->
              exists c, (fix members (l : list (Z * atype)) (current : parameter_class) : res parameter_class :=
                 match l with
                 | [] => Ok current
                 | (offset, m) :: l => let* current := visit m current lo hi offset in members l current
                 end) l cur = Ok c /\
               merged cur c (fun k => exists o m, In (o, m) l /\ part m o lo hi k)).
    { induction l as [|[o m] l IHl]; intros cur lo hi I P.
      - exists cur. split; [reflexivity|]. apply merged_none; [exact P|]. intros k (o & m & [] & _).
      - assert (IM : In (o, m) fs) by (apply I; left; reflexivity).
        rewrite Forall_forall in IH, WF.
        destruct (visit_spec m (IH _ IM) (proj2 (proj2 (WF _ IM))) (SF _ _ IM) cur lo hi o P) as (c & -> & M).
        cbn [bind]. destruct (IHl c lo hi) as (c' & -> & M').
        { intros x X. apply I. right. exact X. }
        { apply M. }
        exists c'. split; [reflexivity|]. eapply merged_ext; [eapply merged_step; eassumption|].
        intros k. split.
        + intros [H|(o' & m' & A & B)]; [exists o, m; split; [left; reflexivity|exact H]|exists o', m'; split; [right; exact A|exact B]].
        + intros (o' & m' & [A|A] & B); [injection A as <- <-; auto|right; eauto]. }
    intros cur lo hi P. destruct (L fs cur lo hi (incl_refl _) P) as (c & E & M). exists c. split; [exact E|].
    eapply merged_ext; [exact M|]. intros k. split.
    + intros (o & m & I & H). apply part_touches in H as (o' & s & c' & A & B & C). exists (o + o'), s, c'.
      split; [econstructor; eauto|auto].
    + intros (o & s & c' & A & B & C). inversion A; subst. exists o0, m. split; [assumption|]. apply part_touches.
      exists o', s, c'. auto.
  - (* array *)
    cbn [wf] in W. destruct W as (S0 & W).
    cbn [classify_recursively].
    assert (L : forall k i cur lo hi, (Z.of_nat n = i + Z.of_nat k) -> 0 <= i -> plain cur ->
              exists c, (fix elements (k : nat) (i : Z) (current : parameter_class) : res parameter_class :=
                match k with
                | O => Ok current
                | S k => let offset := a_size m * i in let* current := visit m current lo hi offset in elements k (i + 1) current
                end) k i cur = Ok c /\
               merged cur c (fun r => exists j, i <= j < i + Z.of_nat k /\ part m (a_size m * j) lo hi r)).
    { induction k as [|k IHk]; intros i cur lo hi N I P.
      - exists cur. split; [reflexivity|]. apply merged_none; [exact P|]. intros r (j & J & _). lia.
      - cbv zeta.
        assert (SM : scalars_ok m).
        { intros o' s' H. eapply SO. apply scalar_element with (i := i); [lia|exact H]. }
        destruct (visit_spec m IH W SM cur lo hi (a_size m * i) P) as (c & -> & M). cbn [bind].
        destruct (IHk (i + 1) c lo hi ltac:(lia) ltac:(lia) (proj1 M)) as (c' & E & M').
        cbv zeta in E. rewrite E. exists c'. split; [reflexivity|]. eapply merged_ext; [eapply merged_step; eassumption|].
        intros r. split.
        + intros [H|(j & A & B)]; [exists i; split; [lia|exact H]|exists j; split; [lia|exact B]].
        + intros (j & A & B). destruct (Z.eq_dec j i) as [->|NE]; [auto|]. right. exists j. split; [lia|exact B]. }
    intros cur lo hi P. destruct (L n 0 cur lo hi ltac:(lia) ltac:(lia) P) as (c & E & M). exists c. split; [exact E|].
    eapply merged_ext; [exact M|]. intros k. split.
    + intros (j & I & H). apply part_touches in H as (o' & s & c' & A & B & C). exists (j * a_size m + o'), s, c'.
      split; [constructor; [lia|exact A]|]. rewrite Z.mul_comm in B. auto.
    + intros (o & s & c' & A & B & C). inversion A; subst. exists i. split; [lia|]. apply part_touches.
      exists o', s, c'. rewrite Z.mul_comm. auto.
  - intros cur lo hi P. exists cur. split; [reflexivity|]. apply merged_none; [exact P|].
    intros k (o & s & c & A & _). inversion A.
Qed.

(** ** Eightbytes *)
Definition counted (t : atype) (i : Z) (e : eightbyte) : Prop :=
  exists o s, scalar_at t o s /\ scalar_class s = Some e /\ o < 8 * i + 8 /\ 8 * i <= o + a_size s.

Lemma reached_counted t i k : (0 < k <= 2)%nat ->
  reached t (i * 8) ((i + 1) * 8) k <-> counted t i INTEGER \/ ((k <= 1)%nat /\ counted t i SSE).
Proof.
  intros K. split.
  - intros (o & s & c & A & (B & B') & C & D). destruct c; [left|right; split; [cbn in D; lia|]]; exists o, s; repeat split; auto; lia.
  - intros [(o & s & A & B & C & D)|(K1 & o & s & A & B & C & D)];
      (exists o, s; eexists; split; [exact A|]; split; [split; lia|]; split; [exact B|cbn; lia]).
Qed.

Definition code_class (t : atype) (i : Z) (c : parameter_class) : Prop :=
  (c = CLASS_INTEGER /\ counted t i INTEGER) \/
  (c = CLASS_SSE /\ ~ counted t i INTEGER /\ counted t i SSE) \/
  (c = CLASS_NO_CLASS /\ ~ counted t i INTEGER /\ ~ counted t i SSE).

Lemma eightbytes_spec t : wf t -> scalars_ok t -> is_scalar t = false ->
  forall k i, exists l, eightbytes t k i = Ok l /\ length l = k /\
    forall j c, nth_error l j = Some c -> code_class t (i + Z.of_nat j) c.
Proof.
  intros W SO SC. induction k as [|k IH]; intros i; cbn [eightbytes].
  - exists []. split; [reflexivity|]. split; [reflexivity|]. intros [|j] c; discriminate.
  - destruct (classify_rec t W SO SC CLASS_NO_CLASS (i * 8) ((i + 1) * 8)) as (c & -> & P & M);
      [unfold plain; auto|]. cbn [bind].
    destruct (IH (i + 1)) as (l & -> & L & H). cbn [bind]. exists (c :: l). split; [reflexivity|].
    split; [cbn; lia|]. intros [|j] c'; cbn [nth_error].
    + intros E. injection E as <-. rewrite Z.add_0_r.
      pose proof (M 1%nat ltac:(lia)) as M1. pose proof (M 2%nat ltac:(lia)) as M2.
      rewrite reached_counted in M1, M2 by lia. cbn [rank] in M1, M2.
      assert (Q2 : (2 <= rank c)%nat <-> counted t i INTEGER) by (rewrite M2; intuition lia).
      assert (Q1 : (1 <= rank c)%nat <-> counted t i INTEGER \/ counted t i SSE) by (rewrite M1; intuition lia).
      destruct P as [-> | [-> | ->]]; cbn [rank] in Q1, Q2.
      * left. split; [reflexivity|]. apply Q2. lia.
      * right; left. assert (N : ~ counted t i INTEGER) by (rewrite <- Q2; lia).
        split; [reflexivity|]. split; [exact N|]. destruct (proj1 Q1 ltac:(lia)); [contradiction|assumption].
      * right; right. split; [reflexivity|]. split; intros H'; [assert (2 <= 0)%nat by (apply Q2; exact H')|
          assert (1 <= 0)%nat by (apply Q1; auto)]; lia.
    + intros E. apply H in E. replace (i + Z.of_nat (S j)) with (i + 1 + Z.of_nat j) by lia. exact E.
Qed.

Definition class_of (e : eightbyte) : parameter_class := match e with INTEGER => CLASS_INTEGER | SSE => CLASS_SSE end.

Lemma class_size s : scalar_class s <> None -> a_size s = 1 \/ a_size s = 2 \/ a_size s = 4 \/ a_size s = 8.
Proof. destruct s as [s| | | |]; try (intros; cbn; auto; fail); try (cbn; congruence). destruct s; cbn; auto; congruence. Qed.

(** A scalar at an aligned offset occupies one eightbyte. *)
Lemma aligned_fits o n : (n = 1 \/ n = 2 \/ n = 4 \/ n = 8) -> o mod n = 0 -> o / 8 = (o + n - 1) / 8.
Proof.
  intros N M. assert (n <> 0) by lia. apply Z.div_exact in M; [|exact H].
  set (q := o / n) in *. destruct N as [-> | [-> | [-> | ->]]]; Z.div_mod_to_equations; lia.
Qed.

Lemma counted_occupies t i e : conforming t -> 0 <= i ->
  (counted t i e <-> occupies t i e \/ exists o s, scalar_at t o s /\ scalar_class s = Some e /\ o + a_size s = 8 * i).
Proof.
  intros C I. split.
  - intros (o & s & A & B & D & E). destruct (Z.eq_dec (o + a_size s) (8 * i)); [right; eauto|].
    left. exists o, s. repeat split; auto. lia.
  - intros [(o & s & A & B & D & E)|(o & s & A & B & E)]; exists o, s; repeat split; auto; try lia.
    destruct (scalar_inside _ _ _ (conf_wf t C) A). lia.
Qed.

Lemma round8 size : 0 < size <= 32 -> round_up_to_nearest size 8 = Ok (8 * ((size + 7) / 8)).
Proof.
  intros S. unfold round_up_to_nearest. cbn [Z.eqb]. replace (8 =? 0) with false by reflexivity.
  replace ((8 =? -1) && _) with false by reflexivity. cbv zeta.
  rewrite Z.rem_mod_nonneg by lia. destruct (Z.eqb_spec (size mod 8) 0) as [E|E].
  - f_equal. Z.div_mod_to_equations. lia.
  - unfold int_ok, INT_MIN, INT_MAX. assert (B := Z.mod_pos_bound size 8 ltac:(lia)).
    repeat (rewrite (proj2 (Z.leb_le _ _)) by lia). cbn [andb]. f_equal. Z.div_mod_to_equations. lia.
Qed.

Lemma plain_not_mem l before : Forall plain l -> should_be_mem before l = false.
Proof.
  intros F. revert before. induction F as [|c l P F IH]; intros before; cbn [should_be_mem]; [reflexivity|].
  rewrite IH. destruct P as [-> | [-> | ->]]; reflexivity.
Qed.

Lemma classify_conforming t : conforming t ->
  exists p, abi_classes t p /\
    classify t = Ok (match p with None => [CLASS_MEMORY] | Some l => map class_of l end) /\
    match p with Some [] => False | _ => True end.
Proof.
  intros C. unfold classify. destruct (is_scalar t) eqn:SC.
  - pose proof (scalar_self t SC) as SS. pose proof (conf_scalars t C _ _ SS) as SN.
    destruct (non_recursive_scalar t SC SN) as (c & -> & PC & e & EE & RE). cbn [bind].
    exists (Some [e]). assert (N : ~ in_memory_class t).
    { intros [H|(o & s & H & M)].
      - destruct (class_size t SN); lia.
      - apply M. apply (conf_aligned t C). exact H. }
    assert (SZ := class_size t SN).
    split; [split; [exact N|split]|].
    + cbn [length]. destruct SZ as [-> | [-> | [-> | ->]]]; reflexivity.
    + intros [|[|i]] c' E; cbn in E; try discriminate. injection E as <-.
      assert (O : occupies t 0 e) by (exists 0, t; repeat split; auto; lia).
      destruct e; cbn [eightbyte_class]; [exact O|]. split; [exact O|].
      intros (o & s & A & B & _). apply scalar_only in A as (_ & ->); [|exact SC]. congruence.
    + split; [|exact Logic.I]. cbn [map class_of]. do 2 f_equal.
      destruct PC as [-> | [-> | ->]], e; cbn in RE; try reflexivity; lia.
  - rewrite non_recursive_other by exact SC. cbn [bind].
    destruct t as [s| |size fs|n m|m]; try discriminate; try destruct (conf_kind _ C).
    set (t := AStruct size fs) in *.
    pose proof (conf_size t C) as S0. change (a_size t) with size in S0.
    destruct (Z.ltb_spec 32 size) as [L|L].
    { exists None. split; [left; cbn; lia|]. split; [reflexivity|exact Logic.I]. }
    rewrite round8 by lia. cbn [bind]. replace (8 * ((size + 7) / 8) / 8) with ((size + 7) / 8) by (rewrite Z.mul_comm, Z.div_mul; lia).
    set (k := Z.to_nat ((size + 7) / 8)).
    assert (K : Z.of_nat k = (size + 7) / 8) by (subst k; rewrite Z2Nat.id; [reflexivity|apply Z.div_pos; lia]).
    destruct (eightbytes_spec t (conf_wf t C) (conf_scalars t C) SC k 0) as (l & -> & LL & H). cbn [bind].
    assert (PL : Forall plain l).
    { apply Forall_forall. intros c I. apply In_nth_error in I as (j & E). apply H in E.
      destruct E as [(-> & _)|[(-> & _)|(-> & _)]]; unfold plain; auto. }
    rewrite plain_not_mem by exact PL. cbn [orb].
    assert (END0 : forall e, counted t 0 e <-> occupies t 0 e).
    { intros e. rewrite counted_occupies by (exact C || lia). split; [|auto]. intros [O|(o & s & A & B & E)]; [exact O|].
      pose proof (scalar_inside _ _ _ (conf_wf t C) A) as (O0 & _). pose proof (class_size s) as CS. rewrite B in CS.
      specialize (CS ltac:(discriminate)). lia. }
    destruct (Z.lt_ge_cases 16 size) as [G|G].
    + (* more than two eightbytes *)
      exists None. split; [left; cbn; lia|]. split; [|exact Logic.I].
      assert (K2 : (2 < k)%nat) by (apply Nat2Z.inj_lt; rewrite K; change (Z.of_nat 2) with 2; Z.div_mod_to_equations; lia).
      rewrite LL. replace (2 <? Z.of_nat k) with true by (symmetry; apply Z.ltb_lt; lia).
      destruct l as [|c l]; [cbn in LL; lia|].
      pose proof (H O c eq_refl) as CC. change (0 + Z.of_nat 0) with 0 in CC.
      assert (CI : counted t 0 INTEGER) by (apply END0, (conf_large t C); cbn; lia).
      destruct CC as [(-> & _)|[(-> & N & _)|(-> & N & _)]]; [reflexivity|contradiction|contradiction].
    + replace (2 <? Z.of_nat (length l)) with false.
      2:{ symmetry. apply Z.ltb_ge. rewrite LL, K. Z.div_mod_to_equations. lia. }
      cbn [andb].
      assert (NM : ~ in_memory_class t).
      { intros [M|(o & s & M & N)]; [cbn in M; lia|]. apply N, (conf_aligned t C). exact M. }
      (* each class is the right one *)
      assert (HC : forall j c, nth_error l j = Some c -> exists e, c = class_of e /\ eightbyte_class t (Z.of_nat j) e).
      { intros j c E. assert (J : (j < length l)%nat) by (apply nth_error_Some; congruence).
        assert (J8 : 8 * Z.of_nat j < size). { rewrite LL in J. assert (Z.of_nat j < (size + 7) / 8) by lia. Z.div_mod_to_equations. lia. }
        apply H in E. rewrite Z.add_0_l in E.
        assert (IJ : counted t (Z.of_nat j) INTEGER <-> occupies t (Z.of_nat j) INTEGER).
        { destruct j as [|j]; [apply END0|]. rewrite counted_occupies by (exact C || lia). split; [|auto].
          intros [O|(o & s & A & B & E')]; [exact O|]. assert (j = O) by lia. subst j.
          change (Z.of_nat 1) with 1 in *. apply (conf_boundary t C) with (o := o) (s := s); [change (a_size t) with size; lia|exact A|exact B|lia]. }
        pose proof (conf_padding t C (Z.of_nat j) ltac:(lia) J8) as OCC.
        destruct E as [(-> & I1)|[(-> & N1 & S1)|(-> & N1 & N2)]].
        - exists INTEGER. split; [reflexivity|]. apply IJ. exact I1.
        - exists SSE. split; [reflexivity|]. rewrite IJ in N1. split; [|exact N1]. destruct OCC; [contradiction|assumption].
        - exfalso. rewrite IJ in N1. destruct OCC as [O|O]; [contradiction|]. apply N2. apply counted_occupies; [exact C|lia|auto]. }
      assert (EX : exists el, l = map class_of el /\ forall j e, nth_error el j = Some e -> eightbyte_class t (Z.of_nat j) e).
      { clear -HC.
        assert (Q : forall l (P : nat -> eightbyte -> Prop),
                  (forall j c, nth_error l j = Some c -> exists e, c = class_of e /\ P j e) ->
                  exists el, l = map class_of el /\ forall j e, nth_error el j = Some e -> P j e).
        { induction l0 as [|c l0 IH]; intros P HP.
          - exists []. split; [reflexivity|]. intros [|j] e; discriminate.
          - destruct (HP O c eq_refl) as (e & -> & PE). destruct (IH (fun j => P (S j))) as (el & -> & PL).
            { intros j c' E. apply (HP (S j) c'). exact E. }
            exists (e :: el). split; [reflexivity|]. intros [|j] e' E; [injection E as <-; exact PE|apply PL; exact E]. }
        apply (Q l (fun j e => eightbyte_class t (Z.of_nat j) e) HC). }
      destruct EX as (el & -> & HE). exists (Some el). rewrite map_length in LL. split; [|split].
      * split; [exact NM|]. split; [cbn [a_size t]; rewrite LL; exact K|exact HE].
      * reflexivity.
      * destruct el; [|exact Logic.I]. cbn in LL. assert (1 <= (size + 7) / 8) by (Z.div_mod_to_equations; lia). lia.
Qed.

(** ** Register assignment *)
Definition represents (l : list parameter_class) (p : option (list eightbyte)) : Prop :=
  match p with None => l = [CLASS_MEMORY] | Some el => l = map class_of el /\ el <> [] end.

Definition gps (el : list eightbyte) : Z := Z.of_nat (length (filter (fun e => match e with INTEGER => true | SSE => false end) el)).
Definition vecs (el : list eightbyte) : Z := Z.of_nat (length (filter (fun e => match e with INTEGER => false | SSE => true end) el)).

Lemma gps_i el : gps (INTEGER :: el) = 1 + gps el.
Proof. unfold gps. cbn [filter length]. lia. Qed.
Lemma gps_s el : gps (SSE :: el) = gps el.
Proof. reflexivity. Qed.
Lemma vecs_i el : vecs (INTEGER :: el) = vecs el.
Proof. reflexivity. Qed.
Lemma vecs_s el : vecs (SSE :: el) = 1 + vecs el.
Proof. unfold vecs. cbn [filter length]. lia. Qed.

Lemma count_parts_spec el : forall gp sse, count_parts (map class_of el) gp sse = Ok (gp + gps el, sse + vecs el).
Proof.
  unfold gps, vecs. induction el as [|[|] el IH]; intros gp sse; cbn [map class_of count_parts class_eqb is_vec orb filter length].
  - rewrite !Z.add_0_r. reflexivity.
  - rewrite IH. do 2 f_equal; lia.
  - rewrite IH. do 2 f_equal; lia.
Qed.

(** The registers left after [gp] and [sse] have been taken. *)
Definition gp_left (gp : Z) : list reg := skipn (Z.to_nat gp) abi_gp.
Definition vec_left (sse : Z) : list Z := skipn (Z.to_nat sse) abi_vec.

Lemma gp_left_step gp : 0 <= gp < 6 -> exists r, convention calling_convention gp = Ok r /\ gp_left gp = r :: gp_left (gp + 1).
Proof.
  intros G. assert (gp = 0 \/ gp = 1 \/ gp = 2 \/ gp = 3 \/ gp = 4 \/ gp = 5) as C by lia.
  destruct C as [-> | [-> | [-> | [-> | [-> | ->]]]]]; eexists; split; reflexivity.
Qed.
Lemma vec_left_step sse : 0 <= sse < 8 -> vec_left sse = sse :: vec_left (sse + 1).
Proof.
  intros G. assert (sse = 0 \/ sse = 1 \/ sse = 2 \/ sse = 3 \/ sse = 4 \/ sse = 5 \/ sse = 6 \/ sse = 7) as C by lia.
  destruct C as [-> | [-> | [-> | [-> | [-> | [-> | [-> | ->]]]]]]]; reflexivity.
Qed.
Lemma gp_left_none gp : 6 <= gp -> gp_left gp = [].
Proof. intros G. unfold gp_left. apply skipn_all2. cbn. lia. Qed.
Lemma vec_left_none gp : 8 <= gp -> vec_left gp = [].
Proof. intros G. unfold vec_left. apply skipn_all2. cbn. lia. Qed.

(** Enough registers. *)
Lemma take_ok i size el : forall pos gp sse, 0 <= gp -> 0 <= sse -> gp + gps el <= 6 -> sse + vecs el <= 8 ->
  exists ps, take el (gp_left gp) (vec_left sse) = Some (ps, gp_left (gp + gps el), vec_left (sse + vecs el)) /\
    assign_parts i size (map class_of el) pos gp sse = Ok (pieces i size pos ps, gp + gps el, sse + vecs el).
Proof.
  assert (P : forall el, 0 <= gps el /\ 0 <= vecs el) by (intros; unfold gps, vecs; lia).
  induction el as [|[|] el IH]; intros pos gp sse G V A B;
    cbn [map class_of assign_parts is_vec class_eqb orb take].
  - exists []. change (gps []) with 0. change (vecs []) with 0. rewrite !Z.add_0_r. split; reflexivity.
  - rewrite gps_i, vecs_i in *. specialize (P el). destruct (gp_left_step gp) as (r & E & L); [lia|]. rewrite E, L. cbn [bind].
    destruct (IH (pos + 8) (gp + 1) sse) as (ps & -> & ->); try lia. cbn [bind].
    exists (GP r :: ps). rewrite Z.add_assoc. split; reflexivity.
  - rewrite gps_s, vecs_s in *. specialize (P el). rewrite (vec_left_step sse) by lia.
    destruct (IH (pos + 8) gp (sse + 1)) as (ps & -> & ->); try lia. cbn [bind].
    exists (VEC sse :: ps). rewrite Z.add_assoc. split; reflexivity.
Qed.

(** Not enough. *)
Lemma take_none el : forall gp sse, 0 <= gp -> 0 <= sse -> 6 < gp + gps el \/ 8 < sse + vecs el ->
  gp <= 6 -> sse <= 8 -> take el (gp_left gp) (vec_left sse) = None.
Proof.
  induction el as [|[|] el IH]; intros gp sse G V A GB SB; cbn [take].
  - change (gps []) with 0 in A. change (vecs []) with 0 in A. lia.
  - rewrite gps_i, vecs_i in *. destruct (Z.eq_dec gp 6) as [->|N]; [reflexivity|].
    destruct (gp_left_step gp) as (r & E & L); [lia|]. rewrite L. rewrite IH; [reflexivity|lia..].
  - rewrite gps_s, vecs_s in *. destruct (Z.eq_dec sse 8) as [->|N]; [reflexivity|].
    rewrite vec_left_step by lia. rewrite IH; [reflexivity|lia..].
Qed.

Definition vec_of (ps : list place) : Z := Z.of_nat (length (filter (fun p => match p with VEC _ => true | GP _ => false end) ps)).
Lemma take_vecs el : forall gp vec ps gp' vec', take el gp vec = Some (ps, gp', vec') -> vec_of ps = vecs el.
Proof.
  unfold vec_of, vecs. induction el as [|[|] el IH]; intros gp vec ps gp' vec'; cbn [take].
  - intros E. injection E as <- <- <-. reflexivity.
  - destruct gp as [|r gp]; [discriminate|]. destruct (take el gp vec) as [[[? ?] ?]|] eqn:E; [|discriminate].
    intros F. injection F as <- <- <-. cbn [filter length]. apply (IH _ _ _ _ _ E).
  - destruct vec as [|x vec]; [discriminate|]. destruct (take el gp vec) as [[[? ?] ?]|] eqn:E; [|discriminate].
    intros F. injection F as <- <- <-. cbn [filter length]. rewrite !Nat2Z.inj_succ. rewrite (IH _ _ _ _ _ E). reflexivity.
Qed.

Lemma assign_spec args ps : Forall2 (fun t p => exists l, classify t = Ok l /\ represents l p) args ps ->
  forall i gp sse, 0 <= gp <= 6 -> 0 <= sse <= 8 ->
  exists gp', let w := abi_assign ps (gp_left gp) (vec_left sse) in
    assign_arguments i args gp sse = Ok (register_pieces i args w, stack_arguments i w, gp', sse + vec_count w) /\
    0 <= gp' <= 6 /\ sse + vec_count w <= 8.
Proof.
  induction 1 as [|t p args ps (l & CL & RP) _ IH]; intros i gp sse G S; cbv zeta.
  - exists gp. cbn. unfold vec_count. cbn. rewrite Z.add_0_r. split; [reflexivity|lia].
  - cbn [assign_arguments abi_assign]. rewrite CL. cbn [bind].
    destruct p as [el|]; cbn [represents] in RP.
    + destruct RP as (-> & NE). rewrite count_parts_spec. cbn [bind]. rewrite !Z.add_0_l.
      destruct el as [|e el]; [congruence|]. set (ee := e :: el) in *.
      destruct (map class_of ee) as [|c0 rest] eqn:EM; [discriminate|].
      assert (ME : class_eqb c0 CLASS_MEMORY = false) by (cbn in EM; injection EM as <- _; destruct e; reflexivity).
      rewrite ME, <- EM. cbn [orb]. clear ME EM.
      destruct (Z.ltb_spec 6 (gp + gps ee)) as [A|A]; [|destruct (Z.ltb_spec 8 (sse + vecs ee)) as [B|B]]; cbn [orb].
      * rewrite take_none by (auto; lia). destruct (IH (Datatypes.S i) gp sse G S) as (gp' & -> & X & Y). cbn [bind].
        exists gp'. cbn [register_pieces stack_arguments]. split; [reflexivity|]. split; [exact X|exact Y].
      * rewrite take_none by (auto; lia). destruct (IH (Datatypes.S i) gp sse G S) as (gp' & -> & X & Y). cbn [bind].
        exists gp'. cbn [register_pieces stack_arguments]. split; [reflexivity|]. split; [exact X|exact Y].
      * destruct (take_ok i (a_size t) ee 0 gp sse) as (pl & T & ->); try lia. rewrite T. cbn [bind].
        assert (0 <= gps ee /\ 0 <= vecs ee) by (unfold gps, vecs; lia).
        destruct (IH (Datatypes.S i) (gp + gps ee) (sse + vecs ee)) as (gp' & -> & X & Y); [lia|lia|]. cbn [bind].
        exists gp'. cbn [register_pieces stack_arguments].
        assert (V : forall w, vec_count (Some pl :: w) = vecs ee + vec_count w).
        { intros w. unfold vec_count. cbn [map concat]. rewrite filter_app, app_length, Nat2Z.inj_add.
          f_equal. apply (take_vecs _ _ _ _ _ _ T). }
        rewrite V, Z.add_assoc. split; [reflexivity|]. split; [exact X|exact Y].
    + subst l. cbn [count_parts class_eqb bind orb].
      destruct (IH (Datatypes.S i) gp sse G S) as (gp' & -> & X & Y). cbn [bind]. exists gp'.
      cbn [register_pieces stack_arguments]. split; [reflexivity|]. split; [exact X|exact Y].
Qed.

(** Results in registers. *)
Lemma return_spec el : el <> [] -> (length el <= 2)%nat ->
  exists ps, abi_result (Some el) = Some ps /\
    return_parts (map class_of el) 0 0 = Ok (map (fun p => {| r_place := p; r_merged := None; r_size := 8 |}) ps).
Proof.
  intros N L. destruct el as [|a [|b [|]]]; [congruence| | |cbn in L; lia].
  - destruct a; eexists; split; reflexivity.
  - destruct a, b; eexists; split; reflexivity.
Qed.

(** ** Without conditions on the types *)
Lemma non_recursive_plain m c : classify_non_recursive m = Ok (Some c) -> plain c.
Proof.
  unfold classify_non_recursive, plain. destruct m as [[]| | | |]; intros E; try discriminate; injection E as <-; auto.
Qed.

Lemma rec_plain t : forall cur lo hi c, plain cur -> classify_recursively t cur lo hi = Ok c -> plain c.
Proof.
  assert (V : forall m, (forall cur lo hi c, plain cur -> classify_recursively m cur lo hi = Ok c -> plain c) ->
            forall cur lo hi o c, plain cur -> visit m cur lo hi o = Ok c -> plain c).
  { intros m H cur lo hi o c P. unfold visit. destruct (_ || _); [intros E; injection E as <-; exact P|].
    destruct (classify_non_recursive m) as [[c0|]| |] eqn:E; cbn [bind]; try discriminate.
    - intros F. injection F as <-. apply combine_rank; [exact P|]. eapply non_recursive_plain; eauto.
    - apply H. exact P. }
  induction t as [s| |n fs IH|n m IH|m] using atype_ind'; intros cur lo hi c P; cbn [classify_recursively]; try discriminate.
  - revert cur P. induction IH as [|[o m] l H _ IHl]; intros cur P.
    + intros E. injection E as <-. exact P.
    + cbn [snd] in H. fold (visit m cur lo hi o). destruct (visit m cur lo hi o) as [c0| |] eqn:E; cbn [bind]; try discriminate.
      apply IHl. eapply V; eauto.
  - generalize 0 as i. revert cur P. induction n as [|n IHn]; intros cur P i.
    + intros E. injection E as <-. exact P.
    + cbv zeta. fold (visit m cur lo hi (a_size m * i)). destruct (visit m cur lo hi (a_size m * i)) as [c0| |] eqn:E; cbn [bind]; try discriminate.
      apply IHn. eapply V; eauto.
  - intros E. injection E as <-. exact P.
Qed.

Lemma eightbytes_plain t : forall k i l, eightbytes t k i = Ok l -> Forall plain l /\ length l = k.
Proof.
  induction k as [|k IH]; intros i l; cbn [eightbytes].
  - intros E. injection E as <-. auto.
  - destruct (classify_recursively t CLASS_NO_CLASS (i * 8) ((i + 1) * 8)) as [c| |] eqn:E; cbn [bind]; try discriminate.
    destruct (eightbytes t k (i + 1)) as [l0| |] eqn:E0; cbn [bind]; try discriminate.
    intros F. injection F as <-. apply IH in E0 as (A & B). split; [|cbn; lia]. constructor; [|exact A].
    eapply rec_plain; [|exact E]. unfold plain; auto.
Qed.

(** Every successful classification is memory, or one plain class per eightbyte. *)
Lemma classify_shape t l : classify t = Ok l ->
  l = [CLASS_MEMORY] \/ (Forall plain l /\ (is_scalar t = true /\ length l = 1%nat \/ 0 < a_size t -> Z.of_nat (length l) = (a_size t + 7) / 8)).
Proof.
  unfold classify. destruct (classify_non_recursive t) as [[c|]| |] eqn:E; cbn [bind]; try discriminate.
  - intros F. injection F as <-. right. split; [constructor; [eapply non_recursive_plain; eauto|constructor]|].
    intros _. destruct t as [s| | | |]; try discriminate; [|reflexivity]. destruct s; try discriminate; reflexivity.
  - destruct t as [s| |size fs|n m|m]; try discriminate.
    destruct (Z.ltb_spec 32 size) as [L|L]; [intros F; injection F as <-; auto|].
    destruct (round_up_to_nearest size 8) as [n| |] eqn:R; cbn [bind]; try discriminate.
    destruct (eightbytes _ _ 0) as [l0| |] eqn:EB; cbn [bind]; try discriminate.
    destruct (_ || _); intros F; injection F as <-; auto. right.
    apply eightbytes_plain in EB as (A & B). split; [exact A|].
    intros [(X & _)|S0]; [discriminate|]. cbn [a_size] in *. rewrite round8 in R by lia. injection R as <-.
    rewrite B, Z.mul_comm, Z.div_mul by lia. rewrite Z2Nat.id; [reflexivity|]. apply Z.div_pos; lia.
Qed.


Lemma count_represents l : Forall plain l -> forall gp sse r, count_parts l gp sse = Ok r -> exists el, l = map class_of el.
Proof.
  induction 1 as [|c l P F IH]; intros gp sse r; cbn [count_parts].
  - intros _. exists []. reflexivity.
  - destruct P as [-> | [-> | ->]]; cbn [class_eqb is_vec orb]; [| |discriminate]; intros E; apply IH in E as (el & ->).
    + exists (INTEGER :: el). reflexivity.
    + exists (SSE :: el). reflexivity.
Qed.

Lemma assign_represents args : forall i gp sse r, assign_arguments i args gp sse = Ok r ->
  exists ps, Forall2 (fun t p => exists l, classify t = Ok l /\ represents l p) args ps.
Proof.
  induction args as [|t args IH]; intros i gp sse r; cbn [assign_arguments].
  - exists []. constructor.
  - destruct (classify t) as [l| |] eqn:E; cbn [bind]; try discriminate.
    destruct (count_parts l 0 0) as [[n_gp n_sse]| |] eqn:CP; cbn [bind]; try discriminate.
    destruct l as [|c0 rest]; [discriminate|].
    assert (exists p, represents (c0 :: rest) p) as (p & RP).
    { destruct (classify_shape _ _ E) as [->|(F & _)]; [exists None; reflexivity|].
      destruct (count_represents _ F _ _ _ CP) as (el & EL). exists (Some el). split; [exact EL|]. destruct el; discriminate. }
    assert (Q : (exists ps, Forall2 (fun t p => exists l, classify t = Ok l /\ represents l p) args ps) ->
                exists ps, Forall2 (fun t p => exists l, classify t = Ok l /\ represents l p) (t :: args) ps).
    { intros (ps & F). exists (p :: ps). constructor; [eauto|exact F]. }
    destruct (_ || _).
    + destruct (assign_arguments _ args _ _) eqn:A; cbn [bind]; try discriminate. intros _. apply Q. eapply IH; eauto.
    + destruct (assign_parts _ _ _ _ _ _) as [[[mine gp1] sse1]| |]; cbn [bind]; try discriminate.
      destruct (assign_arguments _ args _ _) eqn:A; cbn [bind]; try discriminate. intros _. apply Q. eapply IH; eauto.
Qed.

(** The registers handed out are taken from the lists in order, so none twice. *)
Lemma take_split el : forall gp vec ps gp' vec', take el gp vec = Some (ps, gp', vec') ->
  exists g v, gp = g ++ gp' /\ vec = v ++ vec' /\
    (forall r, In (GP r) ps <-> In r g) /\ (forall x, In (VEC x) ps <-> In x v) /\
    (NoDup gp -> NoDup vec -> NoDup ps) /\ length ps = length el.
Proof.
  induction el as [|[|] el IH]; intros gp vec ps gp' vec'; cbn [take].
  - intros E. injection E as <- <- <-. exists [], []. repeat (split; [tauto|] || split; auto); try constructor; cbn; tauto.
  - destruct gp as [|r gp]; [discriminate|]. destruct (take el gp vec) as [[[ps0 g0] v0]|] eqn:E; [|discriminate].
    intros F. injection F as <- <- <-. destruct (IH _ _ _ _ _ E) as (g & v & -> & -> & A & B & C & L).
    exists (r :: g), v. split; [reflexivity|]. split; [reflexivity|]. split; [|split; [|split]].
    + intros q. cbn [In]. rewrite A. split; intros [H|H]; auto; left; congruence.
    + intros x. cbn [In]. rewrite B. split; [intros [H|H]; [discriminate|exact H]|auto].
    + intros N1 N2. cbn in N1. apply NoDup_cons_iff in N1 as (N1 & N3). constructor; [|auto].
      rewrite A. intros H. apply N1. apply in_or_app. auto.
    + cbn. lia.
  - destruct vec as [|x vec]; [discriminate|]. destruct (take el gp vec) as [[[ps0 g0] v0]|] eqn:E; [|discriminate].
    intros F. injection F as <- <- <-. destruct (IH _ _ _ _ _ E) as (g & v & -> & -> & A & B & C & L).
    exists g, (x :: v). split; [reflexivity|]. split; [reflexivity|]. split; [|split; [|split]].
    + intros q. cbn [In]. rewrite A. split; [intros [H|H]; [discriminate|exact H]|auto].
    + intros q. cbn [In]. rewrite B. split; intros [H|H]; auto; left; congruence.
    + intros N1 N2. cbn in N2. apply NoDup_cons_iff in N2 as (N2 & N3). constructor; [|auto].
      rewrite B. intros H. apply N2. apply in_or_app. auto.
    + cbn. lia.
Qed.

Definition used (w : list (option (list place))) : list place :=
  concat (map (fun o => match o with Some ps => ps | None => [] end) w).

Lemma nodup_app_l {A} (l m : list A) : NoDup (l ++ m) -> NoDup l /\ NoDup m /\ forall x, In x l -> In x m -> False.
Proof.
  induction l as [|a l IH]; cbn.
  - intros H. split; [constructor|]. split; [exact H|tauto].
  - intros H. apply NoDup_cons_iff in H as (N & H). apply IH in H as (A1 & B & C). split.
    + constructor; [|exact A1]. intros I. apply N. apply in_or_app. auto.
    + split; [exact B|]. intros x [->|I] J; [apply N; apply in_or_app; auto|eauto].
Qed.
Lemma nodup_app_r {A} (l m : list A) : NoDup l -> NoDup m -> (forall x, In x l -> In x m -> False) -> NoDup (l ++ m).
Proof.
  induction 1 as [|a l N H IH]; cbn; intros M D; [exact M|]. constructor.
  - intros I. apply in_app_or in I as [I|I]; [contradiction|]. apply (D a); [left; reflexivity|exact I].
  - apply IH; [exact M|]. intros x I J. apply (D x); [right; exact I|exact J].
Qed.

Lemma abi_assign_nodup ps : forall gp vec, NoDup gp -> NoDup vec ->
  NoDup (used (abi_assign ps gp vec)) /\
  (forall r, In (GP r) (used (abi_assign ps gp vec)) -> In r gp) /\
  (forall x, In (VEC x) (used (abi_assign ps gp vec)) -> In x vec).
Proof.
  induction ps as [|[el|] ps IH]; intros gp vec N1 N2; cbn [abi_assign].
  - split; [constructor|]. split; intros ? [].
  - destruct (take el gp vec) as [[[p g'] v']|] eqn:E.
    + destruct (take_split _ _ _ _ _ _ E) as (g & v & -> & -> & A & B & C & _).
      destruct (nodup_app_l _ _ N1) as (G1 & G2 & G3). destruct (nodup_app_l _ _ N2) as (V1 & V2 & V3).
      destruct (IH g' v' G2 V2) as (I1 & I2 & I3). change (used (Some p :: ?w)) with (p ++ used w).
      unfold used at 1 2 3. cbn [map concat]. fold (used (abi_assign ps g' v')). split; [|split].
      * apply nodup_app_r; [auto|exact I1|]. intros [r|x] X Y.
        -- apply (G3 r); [apply A; exact X|apply I2; exact Y].
        -- apply (V3 x); [apply B; exact X|apply I3; exact Y].
      * intros r H. apply in_app_or in H as [H|H]; apply in_or_app; [left; apply A; exact H|right; apply I2; exact H].
      * intros r H. apply in_app_or in H as [H|H]; apply in_or_app; [left; apply B; exact H|right; apply I3; exact H].
    + apply IH; assumption.
  - apply IH; assumption.
Qed.

Lemma pieces_places i size : forall ps pos, map r_place (pieces i size pos ps) = ps.
Proof. induction ps; intros; cbn; f_equal; auto. Qed.
Lemma register_pieces_places args : forall i w, length w = length args -> map r_place (register_pieces i args w) = used w.
Proof.
  unfold used. induction args as [|t args IH]; intros i [|[ps|] w] L; try discriminate; cbn [register_pieces map concat]; [reflexivity| |].
  - rewrite map_app, pieces_places, IH by (cbn in L; lia). reflexivity.
  - apply IH. cbn in L. lia.
Qed.
Lemma abi_assign_length ps : forall gp vec, length (abi_assign ps gp vec) = length ps.
Proof.
  induction ps as [|[el|] ps IH]; intros gp vec; cbn [abi_assign length]; [reflexivity| |].
  - destruct (take el gp vec) as [[[? ?] ?]|]; cbn [length]; rewrite IH; reflexivity.
  - rewrite IH. reflexivity.
Qed.
