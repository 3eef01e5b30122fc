From Verif Require Import Base Common CommonProofs Arch Layout LayoutSpec LayoutProofs.

Definition R (p q : placed * Z) : Prop :=
  bit_end (snd p) (fst p) <= bit_start (fst q) /\
  (p_bitfield (fst p) = -1 -> p_offset (fst p) + snd p <= p_offset (fst q)).

(** [sorted D]: D lists placed members, latest first; each follows all earlier ones. *)
Fixpoint sorted (D : list (placed * Z)) : Prop :=
  match D with
  | [] => True
  | q :: D' => Forall (fun p => R p q) D' /\ sorted D'
  end.

Definition inside (c S : Z) (x : placed * Z) : Prop :=
  let (p, s) := x in
  0 <= s /\ p_offset p + s <= c /\ bit_end s p <= 8 * c /\ 0 <= p_offset p /\
  (p_bitfield p <> -1 -> s <= S /\ 0 < p_bitfield p /\ 0 <= p_bit_offset p /\ p_bit_offset p + p_bitfield p <= 8 * s) /\
  (p_bitfield p = -1 -> p_bit_offset p = 0).

Definition sized (m : abi) (D : list (placed * Z)) : Prop :=
  Forall (fun x => calculate_size m (p_type (fst x)) = Ok (snd x)) D.

Record Inv (S : Z) (st : lstate) (D : list (placed * Z)) : Prop := {
  i_done : done st = map fst D;
  i_cur : 0 <= cur st;
  i_max : max_offset st = cur st;
  i_al : 1 <= alignment st;
  i_inside : Forall (inside (cur st) S) D;
  i_sorted : sorted D;
  i_last : last_bit st = 0 \/
    exists q s D', D = (q, s) :: D' /\ p_bitfield q <> -1 /\ last_bit st = p_bit_offset q + p_bitfield q /\
      cur st = p_offset q + s
}.

Lemma inside_mono c S c' S' x : c <= c' -> S <= S' -> inside c S x -> inside c' S' x.
Proof.
  destruct x as [p s]. intros HC HS (A & B & C & D & E & F). repeat split; auto; try lia;
  destruct (E H) as (E1 & E2 & E3 & E4); lia.
Qed.

Lemma R_top p q s c : bit_end s p <= 8 * c -> p_offset p + s <= c -> c <= p_offset (fst q) -> 0 <= p_bit_offset (fst q) -> R (p, s) q.
Proof. intros. unfold R, bit_start. cbn [fst snd]. lia. Qed.

Lemma step_inv_ordinary m packing last S st D f s a :
  Inv S st D -> member_ok m last f s a -> f_bitfield f = -1 -> 0 <= packing -> cur st + a + s <= INT_MAX ->
  exists st' o, layout_step m false packing last st f = Ok st' /\
    Inv S st' (({| p_type := f_type f; p_bitfield := -1; p_offset := o; p_bit_offset := 0 |}, s) :: D) /\
    cur st' <= cur st + a + s /\ alignment st' = Z.max (alignment st) (packed_align packing a).
Proof.
  intros [I1 I2 I3 I4 I5 I6 I7] HM HB HP HI.
  destruct (member_facts _ _ _ _ _ HM) as (EA & PA & PS & _).
  destruct (step_ordinary m packing last st f s a HM HB HP I2 HI) as (o & (L1 & L2 & L3) & BO & E).
  pose proof (packed_range packing a HP PA) as RP.
  eexists; exists o. split; [exact E|]. split; [|cbn; split; [lia|auto]]. split; cbn [done cur max_offset alignment last_bit].
  - cbn [map fst]. congruence.
  - lia.
  - lia.
  - lia.
  - constructor.
    + unfold inside, bit_end, bit_start. cbn [p_offset p_bitfield p_bit_offset]. change (-1 =? -1) with true. cbn iota.
      split; [lia|]. split; [lia|]. split; [lia|]. split; [lia|]. split; [congruence|auto].
    + eapply Forall_impl; [|exact I5]. intros x. apply inside_mono; lia.
  - cbn [sorted]. split; auto. eapply Forall_impl; [|exact I5]. intros [p s'] (A & B & C & _).
    apply (R_top p _ s' (cur st)); cbn; auto; lia.
  - left; auto.
Qed.

Lemma find_fit_fail m last w po D S sz : 0 < last -> 0 < w -> sized m D -> S <= sz -> 8 * sz < last + w ->
  (forall p s, In (p, s) D -> p_offset p = po -> p_bitfield p = -1 -> s <= 0) ->
  Forall (fun x => p_bitfield (fst x) <> -1 -> snd x <= S) D ->
  find_fit m last w po (map fst D) = Ok None.
Proof.
  intros HL HW HS HSz HF HO HB. induction D as [|[p s] D IH]; cbn [map find_fit]; auto.
  inversion HS as [|? ? E1 HS']; inversion HB as [|? ? B1 HB']; subst. cbn [fst snd] in *.
  rewrite (proj2 (Z.eqb_neq last 0)) by lia. cbn [orb].
  assert (IHD : find_fit m last w po (map fst D) = Ok None).
  { apply IH; auto. intros p' s' HI. apply HO. right; auto. }
  destruct (Z.eqb_spec (p_offset p) po) as [Eo|No]; cbn [negb]; auto.
  rewrite E1. cbn [bind]. rewrite (proj2 (Z.leb_gt _ _)); auto.
  destruct (Z.eq_dec (p_bitfield p) (-1)) as [Eb|Nb].
  - specialize (HO p s (or_introl eq_refl) Eo Eb). lia.
  - specialize (B1 Nb). lia.
Qed.

Lemma step_inv_bitfield m packing last S st D f s a :
  Inv S st D -> sized m D -> has_type m (f_type f) s a -> 0 < f_bitfield f <= 8 * s -> S <= s -> 0 <= packing ->
  cur st + a + s <= INT_MAX ->
  exists st' p, layout_step m false packing last st f = Ok st' /\
    p_type p = f_type f /\ p_bitfield p = f_bitfield f /\
    Inv s st' ((p, s) :: D) /\
    cur st' <= cur st + a + s /\ alignment st' = Z.max (alignment st) (packed_align packing a).
Proof.
  intros [I1 I2 I3 I4 I5 I6 I7] HSz HT HW HSs HP HI.
  assert (HM : member_ok m last f s a) by (left; auto).
  destruct (member_facts _ _ _ _ _ HM) as (EA & PA & PS & ES).
  destruct (has_type_facts _ _ _ _ HT) as (ESz & _ & _ & _ & _).
  pose proof (packed_range packing a HP PA) as RP.
  destruct (round_up_least (cur st) (packed_align packing a)) as (o & EO & (LO1 & _ & _) & BO); try lia.
  assert (Nm : f_bitfield f =? -1 = false) by (apply Z.eqb_neq; lia).
  assert (Nz : f_bitfield f =? 0 = false) by (apply Z.eqb_neq; lia).
  assert (UNIT : forall st', layout_step m false packing last st f = Ok st' ->
     st' = {| cur := o + s; max_offset := Z.max (max_offset st) (o + s);
          alignment := Z.max (alignment st) (packed_align packing a); last_bit := f_bitfield f;
          done := {| p_type := f_type f; p_bitfield := f_bitfield f; p_offset := o; p_bit_offset := 0 |} :: done st |} ->
     exists st' p, layout_step m false packing last st f = Ok st' /\
     p_type p = f_type f /\ p_bitfield p = f_bitfield f /\
     Inv s st' ((p, s) :: D) /\
     cur st' <= cur st + a + s /\ alignment st' = Z.max (alignment st) (packed_align packing a)).
  { intros st' E ->. eexists; eexists. split; [exact E|].
    instantiate (1 := {| p_type := f_type f; p_bitfield := f_bitfield f; p_offset := o; p_bit_offset := 0 |}).
    split; [reflexivity|]. split; [reflexivity|]. split; [|cbn; split; [lia|auto]].
    split; cbn [done cur max_offset alignment last_bit]; try lia.
    - cbn [map fst]. congruence.
    - constructor.
      + unfold inside, bit_end, bit_start. cbn [p_offset p_bitfield p_bit_offset]. rewrite Nm.
           split; [lia|]. split; [lia|]. split; [lia|]. split; [lia|]. split; [intros _; repeat split; lia|lia].
      + eapply Forall_impl; [|exact I5]. intros x. apply inside_mono; lia.
    - cbn [sorted]. split; auto. eapply Forall_impl; [|exact I5]. intros [p s'] (A & B & C & _).
      apply (R_top p _ s' (cur st)); cbn; auto; lia.
    - right. eexists; exists s, D. split; [reflexivity|]. cbn. repeat split; lia. }
  assert (NEW : forall po pb, 
     (if last_bit st =? 0 then Ok (0, 0)
            else match done st with p :: _ => Ok (p_offset p, p_bitfield p) | [] => Undef end) = Ok (po, pb) ->
     find_fit m (last_bit st) (f_bitfield f) po
       ({| p_type := f_type f; p_bitfield := f_bitfield f;
           p_offset := if negb (last_bit st =? 0) && negb (pb =? 0) then po else o; p_bit_offset := 0 |} :: done st) = Ok None ->
     layout_step m false packing last st f = Ok {| cur := o + s; max_offset := Z.max (max_offset st) (o + s);
          alignment := Z.max (alignment st) (packed_align packing a); last_bit := f_bitfield f;
          done := {| p_type := f_type f; p_bitfield := f_bitfield f; p_offset := o; p_bit_offset := 0 |} :: done st |}).
  { intros po pb EP EF. unfold layout_step. rewrite (awm_packed _ _ _ _ EA), EO. cbn [bind]. rewrite Nz, Nm. cbn [negb].
    rewrite EP. cbn [bind]. rewrite EF. cbn [bind]. rewrite I3, EO. cbn [bind]. rewrite ES. cbn [bind].
    rewrite add_int_ok by lia. cbn [bind]. rewrite !if_max. reflexivity. }
  destruct I7 as [L0|(q & sq & D' & -> & Nq & EL & EC)].
  - eapply UNIT; [|reflexivity]. apply (NEW 0 0).
    + rewrite L0. reflexivity.
    + rewrite L0. apply find_fit_none.
  - pose proof (Forall_inv I5) as Iq. pose proof (Forall_inv_tail I5) as I5''. destruct Iq as (Q1 & Q2 & Q3 & Q4 & Q5 & _).
    destruct (Q5 Nq) as (Q6 & Q7 & Q8 & Q9). pose proof (Forall_inv HSz) as ESq. pose proof (Forall_inv_tail HSz) as HSz'. cbn [fst snd] in ESq.
    assert (LN : last_bit st =? 0 = false) by (apply Z.eqb_neq; lia).
    assert (PN : p_bitfield q =? 0 = false) by (apply Z.eqb_neq; lia).
    destruct I6 as [I6 I6'].
    destruct (Z.leb_spec (last_bit st + f_bitfield f) (8 * s)) as [FIT|NOFIT].
    + (* fits *)
      eexists. exists {| p_type := f_type f; p_bitfield := f_bitfield f; p_offset := p_offset q; p_bit_offset := last_bit st |}.
      split.
      { unfold layout_step. rewrite (awm_packed _ _ _ _ EA), EO. cbn [bind]. rewrite Nz, Nm, LN. cbn [negb].
        rewrite I1. cbn [map fst bind]. rewrite PN. cbn [negb andb find_fit p_offset p_type]. rewrite LN, Z.eqb_refl. cbn [negb orb].
        rewrite ESz. cbn [bind]. rewrite (proj2 (Z.leb_le _ _)) by lia. cbn [bind]. rewrite ES. cbn [bind].
        rewrite add_int_ok by lia. cbn [bind]. rewrite !if_max. reflexivity. }
      split; [reflexivity|]. split; [reflexivity|]. split; [|cbn; split; [lia|auto]].
      split; cbn [done cur max_offset alignment last_bit]; try lia.
      * reflexivity.
      * constructor.
        -- unfold inside, bit_end, bit_start. cbn [p_offset p_bitfield p_bit_offset]. rewrite Nm.
           split; [lia|]. split; [lia|]. split; [lia|]. split; [lia|]. split; [intros _; repeat split; lia|lia].
           -- eapply Forall_impl; [|exact I5]. intros x. apply inside_mono; lia.
      * assert (NQ : p_bitfield q =? -1 = false) by (apply Z.eqb_neq; auto).
        cbn [sorted]. split; [|split; auto]. constructor.
        -- unfold R, bit_end, bit_start. cbn [fst snd p_offset p_bit_offset]. rewrite NQ. split; [lia|congruence].
        -- eapply Forall_impl; [|exact I6]. intros [p s'] (A & B). unfold R, bit_start in *. cbn [fst snd p_offset p_bit_offset] in *.
           split; [lia|auto].
      * right. eexists; exists s, ((q, sq) :: D'). split; [reflexivity|]. cbn. repeat split; lia.
    + (* does not fit *)
      eapply UNIT; [|reflexivity]. apply (NEW (p_offset q) (p_bitfield q)).
      * rewrite LN, I1. reflexivity.
      * rewrite LN, PN. cbn [negb andb]. cbn [find_fit p_offset p_type]. rewrite LN, Z.eqb_refl. cbn [negb orb].
        rewrite ESz. cbn [bind]. rewrite (proj2 (Z.leb_gt _ _)) by lia. rewrite I1.
        apply (find_fit_fail m _ _ _ _ S s); auto; try lia.
        -- intros p s' [Hin|Hin] Ho Hb.
           ++ inversion Hin; subst. congruence.
           ++ apply (proj1 (Forall_forall _ _) I6) in Hin. destruct Hin as (_ & X). cbn [fst snd] in X. specialize (X Hb). lia.
        -- eapply Forall_impl; [|exact I5]. intros [p s'] (_ & _ & _ & _ & X & _) Hb. cbn [fst snd] in *. apply (X Hb).
Qed.

(** What holds of the finished list, latest member first. *)
Definition Fin (c S : Z) (D : list (placed * Z)) : Prop := Forall (inside c S) D /\ sorted D.

Lemma grow_cons S f fs s a ms : bitfields_grow S (f :: fs) ((s, a) :: ms) ->
  (f_bitfield f = -1 /\ bitfields_grow S fs ms) \/
  (f_bitfield f <> -1 /\ 0 < f_bitfield f <= 8 * s /\ S <= s /\ bitfields_grow s fs ms).
Proof. cbn. destruct (Z.eqb_spec (f_bitfield f) (-1)); auto. Qed.

Lemma loop_bitfields m packing : 0 <= packing -> forall fs ms st S D,
  Inv S st D -> sized m D -> members m fs ms -> bitfields_grow S fs ms -> cur st + room ms <= INT_MAX ->
  exists st' D' S', layout_loop m false packing st fs = Ok st' /\
    done st' = map fst (rev D' ++ D) /\ Fin (cur st') S' (rev D' ++ D) /\ cur st' = max_offset st' /\
    0 <= cur st' <= cur st + room ms /\
    alignment st' = Z.max (alignment st) (max_align packing ms) /\
    map snd D' = map fst ms /\
    map (fun x => (p_type (fst x), p_bitfield (fst x))) D' = map (fun f => (f_type f, f_bitfield f)) fs.
Proof.
  intros HP. induction fs as [|f fs IH]; intros [|[s a] ms] st S D HI HS HM HG HR; try contradiction.
  - exists st, [], S. destruct HI as [I1 I2 I3 I4 I5 I6 I7].
    assert (max_align packing [] = 1) by reflexivity. assert (room [] = 0) by reflexivity.
    unfold Fin. cbn [layout_loop rev app map]. repeat split; auto; try lia.
  - apply members_cons in HM. destruct HM as [H1 H2]. rewrite room_cons in HR.
    pose proof (room_nonneg _ _ _ H2) as RN. destruct (member_facts _ _ _ _ _ H1) as (EA & PA & PS & _).
    cbn [layout_loop].
    apply grow_cons in HG. destruct HG as [[HB HG]|[NB [HW [HSs HG]]]].
    + destruct (step_inv_ordinary m packing _ S st D f s a HI H1 HB HP ltac:(lia)) as (st' & o & E & HI' & HC & HA).
      set (p := {| p_type := f_type f; p_bitfield := -1; p_offset := o; p_bit_offset := 0 |}) in *.
      rewrite E. cbn [bind].
      destruct H1 as [HT|(HL & _ & Hs & t & s' & ET & HT)].
      * destruct (IH ms st' S ((p, s) :: D)) as (st2 & D2 & S2 & E2 & F1 & F2 & F3 & F4 & F5 & F6 & F7); auto; try lia.
        { constructor; auto. apply (has_type_facts _ _ _ _ HT). }
        exists st2, ((p, s) :: D2), S2. split; auto. cbn [rev]. rewrite <- app_assoc. cbn [app].
        split; auto. split; auto. split; auto. split; [rewrite room_cons; lia|].
        split; [rewrite F5, HA, max_align_cons; lia|]. cbn [map fst snd]. split; [congruence|].
        rewrite F7, HB. reflexivity.
      * destruct fs as [|g fs]; [|discriminate]. destruct ms as [|[? ?] ms]; [|destruct H2].
        cbn [layout_loop]. exists st', [(p, s)], S. destruct HI' as [I1 I2 I3 I4 I5 I6 I7].
        split; auto. cbn [rev app]. split; auto. split; [split; auto|]. split; auto.
        split; [rewrite room_cons; cbn [room fold_right]; lia|].
        split; [rewrite HA, max_align_cons; assert (max_align packing [] = 1) by reflexivity; destruct HI; lia|].
        cbn [map fst snd]. rewrite HB. auto.
    + destruct H1 as [HT|(_ & HB & _)]; [|congruence].
      destruct (step_inv_bitfield m packing (match fs with [] => true | _ => false end) S st D f s a HI HS HT HW HSs HP ltac:(lia)) as (st' & p & E & ET & EB & HI' & HC & HA).
      rewrite E. cbn [bind].
      destruct (IH ms st' s ((p, s) :: D)) as (st2 & D2 & S2 & E2 & F1 & F2 & F3 & F4 & F5 & F6 & F7); auto; try lia.
      { constructor; auto. cbn [fst snd]. rewrite ET. apply (has_type_facts _ _ _ _ HT). }
      exists st2, ((p, s) :: D2), S2. split; auto. cbn [rev]. rewrite <- app_assoc. cbn [app].
      split; auto. split; auto. split; auto. split; [rewrite room_cons; lia|].
      split; [rewrite F5, HA, max_align_cons; lia|]. cbn [map fst snd]. split; [congruence|].
      rewrite F7, ET, EB. reflexivity.
Qed.

Lemma sorted_nth D : sorted D -> forall i j p q, (i < j)%nat ->
  nth_error (rev D) i = Some p -> nth_error (rev D) j = Some q -> R p q.
Proof.
  induction D as [|x D IH]; cbn [sorted rev]; intros HS i j p q Hij E1 E2.
  - destruct i; discriminate.
  - destruct HS as [HF HS].
    assert (LJ : (j < length (rev D ++ [x]))%nat) by (apply nth_error_Some; congruence).
    rewrite app_length in LJ. cbn in LJ.
    rewrite nth_error_app1 in E1 by lia.
    destruct (Nat.eq_dec j (length (rev D))) as [->|Nj].
    + rewrite nth_error_app2, Nat.sub_diag in E2 by lia. cbn in E2. inversion E2; subst.
      apply nth_error_In in E1. apply in_rev in E1. apply (proj1 (Forall_forall _ _) HF). auto.
    + rewrite nth_error_app1 in E2 by lia. apply (IH HS i j); auto.
Qed.

Theorem bitfield_layout m packing fs ms :
  0 <= packing -> members m fs ms -> bitfields_grow 0 fs ms -> fits_int ms ->
  exists L, calculate_offsets m false packing fs = Ok L /\
    map (fun p => (p_type p, p_bitfield p)) (l_fields L) = map (fun f => (f_type f, f_bitfield f)) fs /\
    l_alignment L = max_align packing ms /\
    (forall i j p q s a, (i < j)%nat -> nth_error (l_fields L) i = Some p -> nth_error (l_fields L) j = Some q ->
       nth_error ms i = Some (s, a) -> bit_end s p <= bit_start q) /\
    (forall i p s a, nth_error (l_fields L) i = Some p -> nth_error ms i = Some (s, a) ->
       0 <= p_offset p /\ p_offset p + s <= l_size L /\
       (p_bitfield p <> -1 -> 0 <= p_bit_offset p /\ p_bit_offset p + p_bitfield p <= 8 * s) /\
       (p_bitfield p = -1 -> p_bit_offset p = 0)).
Proof.
  intros HP HM HG HI. unfold fits_int in HI. pose proof (room_nonneg _ _ _ HM) as RN.
  destruct (loop_bitfields m packing HP fs ms {| cur := 0; max_offset := 0; alignment := 1; last_bit := 0; done := [] |} 0 [])
    as (st & D & S & E & ED & (F1 & F2) & EM & BC & EA & ES & ET); auto; cbn [cur alignment] in *; try lia.
  { split; cbn; auto; lia. }
  { constructor. }
  rewrite app_nil_r in *. unfold calculate_offsets. rewrite E. cbn [bind].
  pose proof (max_align_bound packing m fs HP ms HM). pose proof (max_align_pos packing ms).
  rewrite (final_align packing ms HP) by lia. rewrite <- EM.
  destruct (round_up_least (cur st) (max_align packing ms)) as (size & ESz & (LS & _) & _); try lia.
  rewrite ESz. cbn [bind]. eexists; split; [reflexivity|]. cbn [l_fields l_alignment l_size].
  assert (EF : rev (done st) = map fst D) by (rewrite ED, map_rev, rev_involutive; auto).
  rewrite EF.
  assert (NT : forall i p s a, nth_error (map fst D) i = Some p -> nth_error ms i = Some (s, a) -> nth_error D i = Some (p, s)).
  { intros i p s a A B.
    assert (C : nth_error (map snd D) i = Some s) by (rewrite ES; rewrite (map_nth_error fst _ _ B); auto).
    rewrite nth_error_map in A, C. destruct (nth_error D i) as [[p' s']|]; cbn in *; congruence. }
  split; [rewrite map_map; auto|]. split; auto. split.
  - intros i j p q s a Hij A B C.
    pose proof (NT _ _ _ _ A C) as NA.
    assert (exists s', nth_error D j = Some (q, s')) as (s' & NB).
    { rewrite nth_error_map in B. destruct (nth_error D j) as [[q' s']|]; cbn in B; inversion B; subst; eauto. }
    assert (RR : R (p, s) (q, s')).
    { apply (sorted_nth _ F2 i j); auto; rewrite rev_involutive; auto. }
    apply RR.
  - intros i p s a A C. pose proof (NT _ _ _ _ A C) as NA.
    assert (In (p, s) (rev D)) by (apply in_rev; rewrite rev_involutive; eapply nth_error_In; eauto).
    apply (proj1 (Forall_forall _ _) F1) in H1. destruct H1 as (A1 & A2 & A3 & A4 & A5 & A6).
    split; [lia|]. split; [lia|]. split; auto. intros Hb. destruct (A5 Hb) as (B1 & B2 & B3 & B4). split; lia.
Qed.
