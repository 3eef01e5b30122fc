From Verif Require Import Base Common CommonProofs Arch Layout LayoutSpec.

Lemma has_type_facts m t : forall s a, has_type m t s a ->
  calculate_size m t = Ok s /\ calculate_alignment m t = a /\ 0 < a /\ 0 <= s /\ (a | s).
Proof.
  induction t as [st|s0 a0| | |n t IH|t IH|t IH]; cbn [has_type calculate_size calculate_alignment]; intros s a H; try contradiction.
  - destruct H as (-> & -> & H). repeat split; auto; try lia. apply Z.divide_refl.
  - destruct H as (-> & -> & H1 & H2 & H3). auto.
  - destruct H as (-> & ->). destruct m; cbn; repeat split; try lia; exists 1; lia.
  - destruct H as (s' & H & -> & Hn & HB). destruct (IH _ _ H) as (E1 & E2 & E3 & E4 & E5).
    rewrite E1. cbn [bind]. unfold INT_MAX in HB.
    assert (0 <= n * s') by (apply Z.mul_nonneg_nonneg; auto).
    rewrite signed_id; [| lia | change (2 ^ (32 - 1)) with 2147483648; lia].
    repeat split; auto. destruct E5 as (k & ->). exists (n * k). lia.
Qed.

Lemma has_type_not_inc m t s a : has_type m t s a -> match t with TIncompleteArray _ => False | _ => True end.
Proof. destruct t; cbn; auto. Qed.

Lemma awm_packed m t a packing : calculate_alignment m t = a ->
  calculate_alignment_with_max m t packing = packed_align packing a.
Proof.
  intros <-. unfold calculate_alignment_with_max, packed_align. destruct (packing =? 0); auto.
  destruct (Z.ltb_spec packing (calculate_alignment m t)); lia.
Qed.

Lemma packed_range packing a : 0 <= packing -> 0 < a -> 0 < packed_align packing a <= a.
Proof. intros. unfold packed_align. destruct (Z.eqb_spec packing 0); lia. Qed.

Lemma round_up_least num div : 0 <= num -> 0 < div -> num + div <= INT_MAX ->
  exists r, round_up_to_nearest num div = Ok r /\ least_multiple div num r /\ r < num + div.
Proof.
  intros. destruct (round_up_eq num div) as (r & E & A & B & C); unfold INT_MAX in *; try lia.
  exists r. repeat split; auto. eapply least_unique; eauto.
Qed.

Lemma least_multiple_id a n : (a | n) -> least_multiple a n n.
Proof. intros. repeat split; auto; lia. Qed.
Lemma least_multiple_unique a lo r r' : least_multiple a lo r -> least_multiple a lo r' -> r = r'.
Proof. intros (A1 & A2 & A3) (B1 & B2 & B3). apply Z.le_antisymm; auto. Qed.

Lemma add_int_ok a b : 0 <= a -> 0 <= b -> a + b <= INT_MAX -> add_int a b = Ok (a + b).
Proof.
  intros. unfold add_int, int_ok. rewrite (proj2 (Z.leb_le _ _)) by (unfold INT_MIN; lia).
  rewrite (proj2 (Z.leb_le _ _)) by lia. reflexivity.
Qed.

Definition member_ok (m : abi) (last : bool) (f : field) (s a : Z) : Prop :=
  has_type m (f_type f) s a \/
  (last = true /\ f_bitfield f = -1 /\ s = 0 /\ exists t s', f_type f = TIncompleteArray t /\ has_type m t s' a).

Lemma member_facts m last f s a : member_ok m last f s a ->
  calculate_alignment m (f_type f) = a /\ 0 < a /\ 0 <= s /\
  (match f_type f with
   | TIncompleteArray _ => if last then Ok 0 else Fail
   | t => let* s := calculate_size m t in if s =? -1 then Fail else Ok s
   end) = Ok s.
Proof.
  intros [H|(-> & _ & -> & t & s' & E & H)].
  - pose proof (has_type_not_inc _ _ _ _ H). destruct (has_type_facts _ _ _ _ H) as (E1 & E2 & E3 & E4 & _).
    repeat split; auto. destruct (f_type f); try contradiction; rewrite E1; cbn [bind];
    rewrite (proj2 (Z.eqb_neq _ _)) by lia; auto.
  - destruct (has_type_facts _ _ _ _ H) as (E1 & E2 & E3 & E4 & _). rewrite E. cbn [calculate_alignment]. repeat split; auto; lia.
Qed.

Lemma members_cons m f fs s a ms : members m (f :: fs) ((s, a) :: ms) ->
  member_ok m (match fs with [] => true | _ => false end) f s a /\ members m fs ms.
Proof.
  intros [H1 H2]. split; auto. destruct H1 as [H|(-> & H)]; [left|right]; auto.
Qed.

Lemma if_max (a b : Z) : (if a <? b then b else a) = Z.max a b.
Proof. destruct (Z.ltb_spec a b); lia. Qed.

(** ** An ordinary member of a struct *)
Lemma step_ordinary m packing last st f s a :
  member_ok m last f s a -> f_bitfield f = -1 -> 0 <= packing -> 0 <= cur st -> cur st + a + s <= INT_MAX ->
  exists o, least_multiple (packed_align packing a) (cur st) o /\ o < cur st + packed_align packing a /\
    layout_step m false packing last st f =
    Ok {| cur := o + s; max_offset := Z.max (max_offset st) (o + s);
          alignment := Z.max (alignment st) (packed_align packing a); last_bit := 0;
          done := {| p_type := f_type f; p_bitfield := -1; p_offset := o; p_bit_offset := 0 |} :: done st |}.
Proof.
  intros HM HB HP HC HI. destruct (member_facts _ _ _ _ _ HM) as (EA & PA & PS & ES).
  pose proof (packed_range packing a HP PA) as R.
  destruct (round_up_least (cur st) (packed_align packing a)) as (o & EO & LO & BO); try lia.
  exists o. split; auto. split; auto. unfold layout_step.
  rewrite (awm_packed _ _ _ _ EA), EO, HB. cbn [bind]. change (-1 =? 0) with false. change (-1 =? -1) with true.
  cbn [negb bind]. rewrite ES. cbn [bind]. destruct LO as (LO & _).
  rewrite add_int_ok by lia. cbn [bind]. rewrite !if_max. reflexivity.
Qed.

Definition place0 (fo : field * Z) : placed :=
  {| p_type := f_type (fst fo); p_bitfield := -1; p_offset := snd fo; p_bit_offset := 0 |}.

Lemma room_nonneg m fs : forall ms, members m fs ms -> 0 <= room ms.
Proof.
  induction fs as [|f fs IH]; intros [|[s a] ms] H; try contradiction; cbn [room fold_right]; [lia|].
  apply members_cons in H. destruct H as [H1 H2]. destruct (member_facts _ _ _ _ _ H1) as (_ & A & B & _).
  cbn [fst snd]. apply IH in H2. change (fold_right (fun sa n => fst sa + snd sa + n) 0 ms) with (room ms). lia.
Qed.
Lemma room_cons s a ms : room ((s, a) :: ms) = s + a + room ms.
Proof. reflexivity. Qed.
Lemma max_align_cons p s a ms : max_align p ((s, a) :: ms) = Z.max (packed_align p a) (max_align p ms).
Proof. reflexivity. Qed.
Lemma max_size_cons s a ms : max_size ((s, a) :: ms) = Z.max s (max_size ms).
Proof. reflexivity. Qed.
Lemma max_align_pos p ms : 1 <= max_align p ms.
Proof. induction ms as [|[s a] ms IH]; [cbn; lia|]. rewrite max_align_cons. lia. Qed.

Lemma loop_ordinary m packing : 0 <= packing -> forall fs ms st,
  members m fs ms -> no_bitfields fs -> 0 <= cur st -> max_offset st = cur st -> 1 <= alignment st ->
  cur st + room ms <= INT_MAX ->
  exists os e, laid_out packing (cur st) ms os e /\ e <= cur st + room ms /\ length os = length fs /\
  exists lb, layout_loop m false packing st fs =
    Ok {| cur := e; max_offset := e; alignment := Z.max (alignment st) (max_align packing ms);
          last_bit := lb; done := rev (map place0 (combine fs os)) ++ done st |}.
Proof.
  intros HP. induction fs as [|f fs IH]; intros [|[s a] ms] st HM HN HC HX HA HI; try contradiction.
  - exists [], (cur st). split; [constructor|]. split; [cbn; lia|]. split; auto. exists (last_bit st).
    destruct st as [c x al lb d]; cbn in *. subst. f_equal. f_equal. lia.
  - apply members_cons in HM. destruct HM as [H1 H2]. inversion HN as [|? ? Hb HN']; subst.
    rewrite room_cons in HI. pose proof (room_nonneg _ _ _ H2) as RN.
    destruct (member_facts _ _ _ _ _ H1) as (EA & PA & PS & _).
    destruct (step_ordinary m packing _ st f s a H1 Hb HP HC ltac:(lia)) as (o & LO & BO & ES).
    pose proof (packed_range packing a HP PA) as R. pose proof LO as (LO1 & _).
    cbn [layout_loop]. rewrite ES. cbn [bind].
    match goal with |- context [layout_loop m false packing ?s fs] => set (st' := s) end.
    destruct (IH ms st') as (os & e & L & E & LL & lb & EL); cbn [cur max_offset alignment st']; auto; try lia.
    exists (o :: os), e. split; [econstructor; eauto|]. cbn [cur st'] in E. split; [rewrite room_cons; lia|].
    split; [cbn; lia|]. exists lb. rewrite EL. f_equal. cbn [alignment st' done].
    rewrite max_align_cons, Z.max_assoc. f_equal.
    cbn [combine map rev]. rewrite <- app_assoc. f_equal.
Qed.

Lemma max_align_bound packing m fs : 0 <= packing -> forall ms, members m fs ms -> max_align packing ms <= 1 + room ms.
Proof.
  intros HP. induction fs as [|f fs IH]; intros [|[s a] ms] H; try contradiction.
  - cbn. lia.
  - apply members_cons in H. destruct H as [H1 H2]. destruct (member_facts _ _ _ _ _ H1) as (_ & A & B & _).
    pose proof (packed_range packing a HP A). rewrite max_align_cons, room_cons.
    pose proof (IH _ H2). pose proof (room_nonneg _ _ _ H2). lia.
Qed.
Lemma max_align_packing packing ms : 0 < packing -> max_align packing ms <= packing.
Proof.
  intros HP. induction ms as [|[s a] ms IH]; [cbn; lia|]. rewrite max_align_cons.
  unfold packed_align. rewrite (proj2 (Z.eqb_neq _ _)) by lia. lia.
Qed.

Lemma final_align packing ms : 0 <= packing -> forall al, al = max_align packing ms ->
  (if (0 <? packing) && (packing <? al) then packing else al) = max_align packing ms.
Proof.
  intros HP al ->. destruct (Z.ltb_spec 0 packing) as [L|L]; cbn [andb]; auto.
  pose proof (max_align_packing packing ms L).
  rewrite (proj2 (Z.ltb_ge _ _)) by lia. auto.
Qed.

(** Facts about the specification: members do not overlap and lie inside. *)
Lemma laid_out_bounds packing e ms os e' :
  (Forall (fun sa => 0 <= fst sa) ms) -> laid_out packing e ms os e' ->
  e <= e' /\ forall i o s a, nth_error os i = Some o -> nth_error ms i = Some (s, a) ->
    e <= o /\ o + s <= e' /\ (packed_align packing a | o).
Proof.
  intros HF L. induction L as [e|e s a ms o os e' LM L IH].
  - split; [lia|]. intros [|i] ? ? ? H; discriminate.
  - inversion HF; subst. cbn [fst] in *. destruct (IH ltac:(assumption)) as (I1 & I2). destruct LM as (M1 & M2 & _).
    split; [lia|]. intros [|i] o' s' a' E1 E2; cbn in *.
    + inversion E1; inversion E2; subst. repeat split; auto; lia.
    + destruct (I2 i o' s' a' E1 E2) as (J1 & J2 & J3). repeat split; auto; lia.
Qed.
Lemma laid_out_disjoint packing e ms os e' :
  (Forall (fun sa => 0 <= fst sa) ms) -> laid_out packing e ms os e' ->
  forall i j o s a o', (i < j)%nat -> nth_error os i = Some o -> nth_error ms i = Some (s, a) ->
    nth_error os j = Some o' -> o + s <= o'.
Proof.
  intros HF L. induction L as [e|e s a ms o os e' LM L IH]; intros i j o1 s1 a1 o2 Hij E1 E2 E3.
  - destruct i; discriminate.
  - inversion HF; subst. destruct j as [|j]; [lia|]. destruct i as [|i]; cbn in *.
    + inversion E1; inversion E2; subst. destruct (laid_out_bounds _ _ _ _ _ H2 L) as (_ & B).
      destruct (nth_error ms j) as [[s' a']|] eqn:E4.
      * apply (B j o2 s' a'); auto.
      * exfalso. assert (length os = length ms) by (clear -L; induction L; cbn; congruence).
        apply nth_error_None in E4. assert (j < length os)%nat by (apply nth_error_Some; congruence). lia.
    + apply (IH H2 i j o1 s1 a1 o2); auto. lia.
Qed.

Lemma members_sizes m fs : forall ms, members m fs ms -> Forall (fun sa => 0 <= fst sa) ms.
Proof.
  induction fs as [|f fs IH]; intros [|[s a] ms] H; try contradiction; auto.
  apply members_cons in H. destruct H as [H1 H2]. destruct (member_facts _ _ _ _ _ H1) as (_ & _ & B & _).
  constructor; auto.
Qed.

Theorem struct_layout m packing fs ms :
  0 <= packing -> members m fs ms -> no_bitfields fs -> fits_int ms ->
  exists os e size,
    calculate_offsets m false packing fs =
      Ok {| l_fields := map place0 (combine fs os); l_size := size; l_alignment := max_align packing ms |} /\
    length os = length fs /\
    laid_out packing 0 ms os e /\ least_multiple (max_align packing ms) e size.
Proof.
  intros HP HM HN HI. unfold fits_int in HI. pose proof (room_nonneg _ _ _ HM) as RN.
  destruct (loop_ordinary m packing HP fs ms {| cur := 0; max_offset := 0; alignment := 1; last_bit := 0; done := [] |})
    as (os & e & L & E & LL & lb & EL); cbn [cur max_offset alignment]; auto; try lia.
  cbn [cur] in *. pose proof (max_align_bound packing m fs HP ms HM) as MB. pose proof (max_align_pos packing ms) as MP.
  assert (E0 : 0 <= e).
  { apply (laid_out_bounds _ _ _ _ _ (members_sizes _ _ _ HM) L). }
  unfold calculate_offsets. rewrite EL. cbn [bind max_offset alignment done].
  rewrite (final_align packing ms HP) by lia.
  destruct (round_up_least e (max_align packing ms)) as (size & ES & LS & _); try lia.
  exists os, e, size. rewrite ES. cbn [bind]. rewrite app_nil_r, rev_involutive. auto.
Qed.

(** ** Unions *)
Lemma round_up_0 d : 0 < d -> round_up_to_nearest 0 d = Ok 0.
Proof.
  intros. unfold round_up_to_nearest. rewrite (proj2 (Z.eqb_neq _ _)) by lia.
  rewrite (proj2 (Z.eqb_neq d (-1))) by lia. cbn [andb]. rewrite Z.rem_0_l by lia. reflexivity.
Qed.

Lemma find_fit_none m w po l : find_fit m 0 w po l = Ok None.
Proof. induction l; cbn; auto. Qed.

Lemma step_union m packing last st f s a :
  member_ok m last f s a -> f_bitfield f <> 0 -> 0 <= packing -> cur st = 0 -> last_bit st = 0 ->
  layout_step m true packing last st f =
    Ok {| cur := 0; max_offset := Z.max (max_offset st) s;
          alignment := Z.max (alignment st) (packed_align packing a); last_bit := 0;
          done := {| p_type := f_type f; p_bitfield := f_bitfield f; p_offset := 0; p_bit_offset := 0 |} :: done st |}.
Proof.
  intros HM HB HP HC HL. destruct (member_facts _ _ _ _ _ HM) as (EA & PA & PS & ES).
  pose proof (packed_range packing a HP PA) as R. unfold layout_step.
  rewrite (awm_packed _ _ _ _ EA), HC, HL, round_up_0 by lia. cbn [bind].
  rewrite (proj2 (Z.eqb_neq _ _)) by auto. change (0 =? 0) with true. cbn [negb andb bind].
  rewrite find_fit_none. cbn [bind].
  destruct (Z.eqb_spec (f_bitfield f) (-1)) as [E|E]; cbn [negb bind]; rewrite ES; cbn [bind]; rewrite !if_max, ?E; reflexivity.
Qed.

Definition place_u (f : field) : placed :=
  {| p_type := f_type f; p_bitfield := f_bitfield f; p_offset := 0; p_bit_offset := 0 |}.

Lemma loop_union m packing : 0 <= packing -> forall fs ms st,
  members m fs ms -> Forall (fun f => f_bitfield f <> 0) fs -> cur st = 0 -> last_bit st = 0 ->
  layout_loop m true packing st fs =
    Ok {| cur := 0; max_offset := Z.max (max_offset st) (max_size ms);
          alignment := Z.max (alignment st) (max_align packing ms); last_bit := 0;
          done := rev (map place_u fs) ++ done st |} \/ 
  (max_offset st < 0 \/ alignment st < 1).
Proof.
  intros HP. induction fs as [|f fs IH]; intros [|[s a] ms] st HM HN HC HL; try contradiction.
  - destruct (Z.lt_ge_cases (max_offset st) 0); auto. destruct (Z.lt_ge_cases (alignment st) 1); auto.
    left. destruct st as [c x al lb d]; cbn in *. subst. f_equal. f_equal; lia.
  - apply members_cons in HM. destruct HM as [H1 H2]. inversion HN; subst.
    cbn [layout_loop]. rewrite (step_union m packing _ st f s a) by auto. cbn [bind].
    destruct (IH ms {| cur := 0; max_offset := Z.max (max_offset st) s;
          alignment := Z.max (alignment st) (packed_align packing a); last_bit := 0;
          done := place_u f :: done st |} H2 ltac:(assumption) eq_refl eq_refl) as [E|E]; cbn [max_offset alignment done] in *.
    + left. unfold place_u at 1 in E. rewrite E. rewrite max_align_cons, max_size_cons, !Z.max_assoc. f_equal. f_equal.
      cbn [map rev]. rewrite <- app_assoc. reflexivity.
    + right. lia.
Qed.

Lemma max_size_bound m fs : forall ms, members m fs ms -> 0 <= max_size ms <= room ms.
Proof.
  induction fs as [|f fs IH]; intros [|[s a] ms] H; try contradiction.
  - cbn. lia.
  - apply members_cons in H. destruct H as [H1 H2]. destruct (member_facts _ _ _ _ _ H1) as (_ & A & B & _).
    rewrite max_size_cons, room_cons. pose proof (IH _ H2). pose proof (room_nonneg _ _ _ H2). lia.
Qed.

Theorem union_layout m packing fs ms :
  0 <= packing -> members m fs ms -> Forall (fun f => f_bitfield f <> 0) fs -> fits_int ms ->
  exists size,
    calculate_offsets m true packing fs =
      Ok {| l_fields := map place_u fs; l_size := size; l_alignment := max_align packing ms |} /\
    least_multiple (max_align packing ms) (max_size ms) size.
Proof.
  intros HP HM HN HI. unfold fits_int in HI. pose proof (room_nonneg _ _ _ HM) as RN.
  unfold calculate_offsets.
  destruct (loop_union m packing HP fs ms {| cur := 0; max_offset := 0; alignment := 1; last_bit := 0; done := [] |} HM HN eq_refl eq_refl)
    as [E|E]; cbn [max_offset alignment done] in *; [|lia].
  rewrite E. cbn [bind max_offset alignment done]. pose proof (max_align_pos packing ms) as MP.
  rewrite (final_align packing ms HP) by lia. pose proof (max_size_bound _ _ _ HM). rewrite Z.max_r by lia.
  pose proof (max_align_bound packing m fs HP ms HM).
  destruct (round_up_least (max_size ms) (max_align packing ms)) as (size & ES & LS & _); try lia.
  exists size. rewrite ES. cbn [bind]. rewrite app_nil_r, rev_involutive. auto.
Qed.

Lemma max_size_ge ms i s a : nth_error ms i = Some (s, a) -> s <= max_size ms.
Proof.
  revert i; induction ms as [|[s' a'] ms IH]; intros [|i] E; try discriminate; rewrite max_size_cons; cbn in E.
  - inversion E; lia.
  - apply IH in E. lia.
Qed.
Lemma max_align_ge packing ms i s a : nth_error ms i = Some (s, a) -> packed_align packing a <= max_align packing ms.
Proof.
  revert i; induction ms as [|[s' a'] ms IH]; intros [|i] E; try discriminate; rewrite max_align_cons; cbn in E.
  - inversion E; lia.
  - apply IH in E. lia.
Qed.

(** Powers of two: the struct alignment is a multiple of each member's. *)
Lemma pow2_divide a b : 0 <= a -> 0 <= b -> 2 ^ a <= 2 ^ b -> (2 ^ a | 2 ^ b).
Proof.
  intros Ha Hb H. apply Z.pow_le_mono_r_iff in H; try lia.
  exists (2 ^ (b - a)). rewrite <- Z.pow_add_r by lia. f_equal. lia.
Qed.
Definition pow2 (a : Z) : Prop := exists k, 0 <= k /\ a = 2 ^ k.
Lemma packed_pow2 packing a : packing = 0 \/ pow2 packing -> pow2 a -> pow2 (packed_align packing a).
Proof.
  intros HP HA. unfold packed_align. destruct (Z.eqb_spec packing 0); auto.
  destruct HP as [|HP]; [contradiction|]. destruct (Z.min_spec a packing) as [[_ ->]|[_ ->]]; auto.
Qed.
Lemma max_align_pow2 packing ms : packing = 0 \/ pow2 packing -> Forall (fun sa => pow2 (snd sa)) ms ->
  pow2 (max_align packing ms).
Proof.
  intros HP HF. induction HF as [|[s a] ms H HF IH].
  - exists 0. split; [lia|reflexivity].
  - rewrite max_align_cons. cbn [snd] in H. pose proof (packed_pow2 packing a HP H).
    destruct (Z.max_spec (packed_align packing a) (max_align packing ms)) as [[_ ->]|[_ ->]]; auto.
Qed.
Lemma max_align_multiple packing ms i s a : packing = 0 \/ pow2 packing -> Forall (fun sa => pow2 (snd sa)) ms ->
  nth_error ms i = Some (s, a) -> (packed_align packing a | max_align packing ms).
Proof.
  intros HP HF E. pose proof (max_align_ge packing _ _ _ _ E) as G.
  destruct (max_align_pow2 packing ms HP HF) as (k & Hk & Ek).
  assert (PA : pow2 a).
  { apply (Forall_forall (fun sa => pow2 (snd sa)) ms) with (x := (s, a)) in HF; auto. eapply nth_error_In; eauto. }
  destruct (packed_pow2 packing a HP PA) as (j & Hj & Ej). rewrite Ek, Ej in *. apply pow2_divide; auto.
Qed.
