(** Applying relocations: each site gets its bytes, the rest is kept. *)
From Coq Require Import String.
From Verif Require Import Base CharTypes MacroTable Bytes BytesSpec BytesProofs Object ObjectSpec Linker LinkerSpec.
Local Open Scope Z_scope.
Local Open Scope list_scope.

(** * Patching a buffer *)
Definition patch : Type := (nat * list Z)%type.
Definition patch_end (p : patch) : nat := (fst p + length (snd p))%nat.
Definition pdisjoint (p q : patch) : Prop := (patch_end p <= fst q \/ patch_end q <= fst p)%nat.
Definition apply_patches (l : list patch) (buf : list Z) : list Z :=
  fold_left (fun b p => splice b (fst p) (snd p)) l buf.

Lemma window_ext a b pos n : length a = length b -> (forall k, (pos <= k < pos + n)%nat -> nth_error a k = nth_error b k) ->
  window a pos n = window b pos n.
Proof.
  intros L E. apply nth_error_ext. intros i. unfold window.
  destruct (Nat.lt_ge_cases i n) as [LT|GE].
  - rewrite !nth_error_firstn_lt by auto. rewrite !nth_error_skipn_add. apply E. lia.
  - rewrite !(proj2 (nth_error_None _ _)); auto; rewrite firstn_length; lia.
Qed.

Lemma apply_ok l : forall buf, Forall (fun p => (patch_end p <= length buf)%nat) l -> ForallOrdPairs pdisjoint l ->
  length (apply_patches l buf) = length buf /\
  (forall p, In p l -> window (apply_patches l buf) (fst p) (length (snd p)) = snd p) /\
  (forall k, (forall p, In p l -> (k < fst p \/ patch_end p <= k)%nat) -> nth_error (apply_patches l buf) k = nth_error buf k).
Proof.
  induction l as [|p t IH]; intros buf F D; [cbn; auto|].
  - split; [reflexivity|]. split; [intros p []|reflexivity].
  - inversion F as [|x y Fp Ft]; subst. inversion D as [|x y Dp Dt]; subst. unfold patch_end in Fp.
    cbn [apply_patches fold_left]. fold (apply_patches t (splice buf (fst p) (snd p))).
    assert (LS : length (splice buf (fst p) (snd p)) = length buf) by (apply splice_length; auto).
    destruct (IH (splice buf (fst p) (snd p))) as (L & W & K); auto.
    { rewrite LS. exact Ft. }
    split; [congruence|]. split.
    + intros q [<-|I]; [|auto]. rewrite (window_ext _ (splice buf (fst p) (snd p))).
      * apply window_splice. auto.
      * congruence.
      * intros k R. apply K. intros q I. rewrite Forall_forall in Dp. specialize (Dp q I).
        unfold pdisjoint, patch_end in *. lia.
    + intros k O. rewrite K by (intros q I; apply O; right; auto).
      apply splice_outside; auto. unfold patch_end in O. apply (O p). left. reflexivity.
Qed.

(** * Placing the sections *)
Fixpoint sum_sizes (l : list section) : Z :=
  match l with [] => 0 | s :: t => Z.of_nat (length (sec_data s)) + sum_sizes t end.
Lemma start_of_sum o i : start_of o i = sum_sizes (firstn i (sections o)).
Proof. unfold start_of. induction (firstn i (sections o)); cbn; congruence. Qed.
Lemma sum_sizes_nonneg l : 0 <= sum_sizes l.
Proof. induction l; cbn; lia. Qed.
Lemma sum_sizes_app a b : sum_sizes (a ++ b) = sum_sizes a + sum_sizes b.
Proof. induction a; cbn; lia. Qed.
Lemma concat_length l : Z.of_nat (length (concat (map sec_data l))) = sum_sizes l.
Proof. induction l; cbn; [reflexivity|]. rewrite app_length. lia. Qed.

Lemma place_data l : forall data, fst (place l data) = data ++ concat (map sec_data l).
Proof.
  induction l as [|s t IH]; intros data; cbn; [symmetry; apply app_nil_r|].
  specialize (IH (data ++ sec_data s)). destruct (place t (data ++ sec_data s)) as [d os]. cbn in *.
  rewrite IH. symmetry. apply app_assoc.
Qed.
Lemma place_length l : forall data, length (snd (place l data)) = length l.
Proof.
  induction l as [|s t IH]; intros data; cbn; [reflexivity|].
  specialize (IH (data ++ sec_data s)). destruct (place t (data ++ sec_data s)) as [d os]. cbn in *. congruence.
Qed.
Lemma place_offset l : forall data i s, nth_error l i = Some s ->
  nth_error (snd (place l data)) i =
    Some (match sec_data s with [] => 0 | _ => Z.of_nat (length data) + sum_sizes (firstn i l) end).
Proof.
  induction l as [|x t IH]; intros data i s N; [destruct i; discriminate|].
  cbn [place]. specialize (IH (data ++ sec_data x)). destruct (place t (data ++ sec_data x)) as [d os]. cbn [snd] in *.
  destruct i as [|i]; cbn [nth_error firstn sum_sizes] in *.
  - inversion N; subst. destruct (sec_data s); [reflexivity|]. do 2 f_equal. lia.
  - rewrite (IH i s N). destruct (sec_data s); [reflexivity|]. f_equal. rewrite app_length. lia.
Qed.

Lemma le_bytes_digits n : forall v, le_bytes n v = le_digits n v.
Proof. induction n; intros; cbn; [reflexivity|]. rewrite IHn. reflexivity. Qed.
Lemma le_digits_wrap n v : (n <= 8)%nat -> le_digits n (wrap 64 v) = le_digits n v.
Proof. intros L. unfold wrap. change (2 ^ 64) with (256 ^ 8). apply le_digits_mod. lia. Qed.
Lemma le_digits_cong n a b : (n <= 8)%nat -> a mod 2 ^ 64 = b mod 2 ^ 64 -> le_digits n a = le_digits n b.
Proof. intros L E. rewrite <- (le_digits_wrap n a), <- (le_digits_wrap n b) by auto. unfold wrap. rewrite E. reflexivity. Qed.

(** * One relocation *)
Section Link.
Variable o : object.
Hypothesis K : linkable o.
Notation offsets := (snd (place (sections o) [])).

Lemma start_range i : 0 <= start_of o i < 2 ^ 61.
Proof.
  rewrite start_of_sum. split; [apply sum_sizes_nonneg|]. pose proof (image_fits o K) as F. unfold image_size in F.
  rewrite start_of_sum, firstn_all in F. rewrite <- (firstn_skipn i (sections o)), sum_sizes_app in F.
  pose proof (sum_sizes_nonneg (skipn i (sections o))). lia.
Qed.

Lemma symbol_offset y : symbol_defined o y -> sym_section y <> -1 /\
  offset_of offsets (sym_section y) = Ok (start_of o (Z.to_nat (sym_section y))).
Proof.
  intros (P & V & s & N & NE). split; [lia|]. unfold offset_of. destruct (Z.ltb_spec (sym_section y) 0); [lia|].
  rewrite (place_offset _ _ _ _ N). destruct (sec_data s) as [|z t] eqn:D; [contradiction|].
  f_equal. rewrite start_of_sum. cbn [length]. lia.
Qed.

(** The bytes a relocation of section [i] must leave at its site. *)
Definition patch_of (i : nat) (r : relocation) : patch :=
  (Z.to_nat (start_of o i + r_offset r),
   match nth_error (symbols o) (r_idx r) with
   | Some y => le_bytes (relocation_bytes r) (formula o i r y)
   | None => repeat 0 (relocation_bytes r)
   end).

Lemma patch_length i r : length (snd (patch_of i r)) = relocation_bytes r.
Proof.
  unfold patch_of. cbn [snd]. destruct (nth_error _ _); [rewrite le_bytes_digits; apply le_digits_length|apply repeat_length].
Qed.

Lemma relocate_ok i s r data :
  nth_error (sections o) i = Some s -> relocation_ok o s r -> Z.of_nat (length data) = image_size o ->
  relocate o offsets (start_of o i) data r = Ok (splice data (fst (patch_of i r)) (snd (patch_of i r))).
Proof.
  intros N (P & B & I & A) L. unfold relocate, patch_of.
  destruct (nth_error (symbols o) (r_idx r)) as [y|] eqn:Y; [|apply nth_error_None in Y; lia].
  pose proof (symbols_defined o K) as SD. rewrite Forall_forall in SD. specialize (SD y (nth_error_In _ _ Y)).
  destruct (symbol_offset y SD) as [NU OF]. destruct (Z.eqb_spec (sym_section y) (-1)); [contradiction|].
  rewrite OF. cbn [bind fst snd].
  pose proof (start_range i) as SR. pose proof (start_range (Z.to_nat (sym_section y))) as YR.
  destruct SD as (_ & V & _).
  assert (SZ : (Z.to_nat (start_of o i + r_offset r) + relocation_bytes r <= length data)%nat).
  { assert (start_of o i + r_offset r + Z.of_nat (relocation_bytes r) <= image_size o); [|lia].
    unfold image_size. rewrite !start_of_sum, firstn_all.
    rewrite <- (firstn_skipn i (sections o)) at 2. rewrite sum_sizes_app.
    assert (SK : exists t, skipn i (sections o) = s :: t).
    { clear - N. revert i N. generalize (sections o). induction l as [|x t IH]; destruct i; cbn; intros; try discriminate.
      - inversion N; subst. eauto.
      - auto. }
    destruct SK as [t ->]. cbn [sum_sizes]. pose proof (sum_sizes_nonneg t). lia. }
  assert (RP : wrap 64 (r_offset r + start_of o i) = start_of o i + r_offset r).
  { unfold wrap. rewrite Z.mod_small; [lia|]. unfold relocation_bytes in *.
    pose proof (image_fits o K). change (2 ^ 61) with 2305843009213693952 in *. change (2 ^ 64) with 18446744073709551616.
    destruct (r_type r); lia. }
  unfold write_at. rewrite RP.
  assert (E61 : 2 ^ 61 = 2305843009213693952) by reflexivity.
  assert (RO : r_offset r < 2 ^ 61).
  { pose proof (image_fits o K). unfold relocation_bytes in *. destruct (r_type r); lia. }
  assert (SV : wrap 64 (sym_value y + start_of o (Z.to_nat (sym_section y)) + load_address) = symbol_address o y).
  { unfold wrap, symbol_address, load_address, image_start. rewrite Z.mod_small; [lia|]. change (2 ^ 64) with 18446744073709551616. lia. }
  assert (RV : wrap 64 (r_offset r + start_of o i + load_address) = place_address o i r).
  { unfold wrap, place_address, load_address, image_start. rewrite Z.mod_small; [lia|]. change (2 ^ 64) with 18446744073709551616. lia. }
  rewrite SV, RV. unfold formula, relocation_bytes in *. destruct (r_type r).
  - rewrite write_field_splice by (cbn [wbytes]; lia). rewrite le_digits_wrap by (cbn; lia). reflexivity.
  - rewrite write_field_splice by (cbn [wbytes]; lia). rewrite le_digits_wrap by (cbn; lia). reflexivity.
  - assert (RL : signed 64 (symbol_address o y - place_address o i r) = symbol_address o y - place_address o i r).
    { apply signed_id; [lia|]. unfold symbol_address, place_address, image_start. change (2 ^ (64 - 1)) with 9223372036854775808. lia. }
    rewrite RL.
    assert (OK64 : int64_ok (symbol_address o y - place_address o i r + r_add r) = true).
    { unfold int64_ok, symbol_address, place_address, image_start. change (2 ^ 63) with 9223372036854775808.
      apply andb_true_intro. split; [apply Z.leb_le|apply Z.ltb_lt]; lia. }
    rewrite OK64. rewrite write_field_splice by (cbn [wbytes]; lia).
    rewrite le_digits_wrap by (cbn; lia). cbn [wbytes].
    replace (symbol_address o y - place_address o i r + r_add r) with (symbol_address o y + r_add r - place_address o i r) by lia.
    reflexivity.
Qed.

Lemma relocate_list_ok i s l : forall data,
  nth_error (sections o) i = Some s -> Forall (relocation_ok o s) l -> Z.of_nat (length data) = image_size o ->
  relocate_list o offsets (start_of o i) l data = Ok (apply_patches (map (patch_of i) l) data) /\
  length (apply_patches (map (patch_of i) l) data) = length data.
Proof.
  induction l as [|r t IH]; intros data N F L; cbn [relocate_list map apply_patches fold_left]; [auto|].
  inversion F; subst. rewrite (relocate_ok i s r data) by auto. cbn [bind].
  assert (LS : length (splice data (fst (patch_of i r)) (snd (patch_of i r))) = length data).
  { apply splice_length. rewrite patch_length. cbn [patch_of fst]. destruct H1 as (P & B & _).
    assert (start_of o i + r_offset r + Z.of_nat (relocation_bytes r) <= image_size o).
    { unfold image_size. rewrite !start_of_sum, firstn_all. rewrite <- (firstn_skipn i (sections o)) at 2. rewrite sum_sizes_app.
      assert (SK : exists t, skipn i (sections o) = s :: t).
      { clear - N. revert i N. generalize (sections o). induction l as [|x t IH]; destruct i; cbn; intros; try discriminate.
        - inversion N; subst. eauto.
        - auto. }
      destruct SK as [q ->]. cbn [sum_sizes]. pose proof (sum_sizes_nonneg q). lia. }
    pose proof (start_range i). lia. }
  destruct (IH (splice data (fst (patch_of i r)) (snd (patch_of i r)))) as [E LL]; auto; [congruence|].
  split; [exact E|]. unfold apply_patches in LL. congruence.
Qed.

(** * All sections *)
Fixpoint patches_from (i : nat) (l : list section) : list patch :=
  match l with [] => [] | s :: t => map (patch_of i) (sec_relocations s) ++ patches_from (S i) t end.

Lemma apply_app a b buf : apply_patches (a ++ b) buf = apply_patches b (apply_patches a buf).
Proof. unfold apply_patches. apply fold_left_app. Qed.

Lemma relocate_sections_ok l : forall i offs data,
  (forall j s, nth_error l j = Some s -> nth_error (sections o) (i + j) = Some s) ->
  length offs = length l ->
  (forall j b, nth_error offs j = Some b -> nth_error offsets (i + j) = Some b) ->
  Z.of_nat (length data) = image_size o ->
  relocate_sections o offsets (combine l offs) data = Ok (apply_patches (patches_from i l) data).
Proof.
  induction l as [|s t IH]; intros i offs data NS LO NO L; [reflexivity|].
  destruct offs as [|b offs]; [discriminate|]. cbn [combine relocate_sections patches_from].
  pose proof (NS O s eq_refl) as N0. rewrite Nat.add_0_r in N0.
  pose proof (NO O b eq_refl) as B0. rewrite Nat.add_0_r in B0.
  pose proof (relocations_ok o K s (nth_error_In _ _ N0)) as RO.
  assert (E : relocate_list o offsets b (sec_relocations s) data = Ok (apply_patches (map (patch_of i) (sec_relocations s)) data) /\
              length (apply_patches (map (patch_of i) (sec_relocations s)) data) = length data).
  { rewrite (place_offset _ _ _ _ N0) in B0. destruct (sec_data s) as [|z u] eqn:D.
    - destruct (sec_relocations s) as [|r q]; [split; reflexivity|]. exfalso. inversion RO as [|x y (P & Q & _)]; subst.
      rewrite D in Q. cbn [length] in Q. unfold relocation_bytes in Q. destruct (r_type r); lia.
    - inversion B0. rewrite <- start_of_sum. change (Z.of_nat (@length Z [])) with 0. rewrite Z.add_0_l.
      apply (relocate_list_ok i s); auto. }
  destruct E as [E LL]. rewrite E. cbn [bind]. rewrite apply_app. apply IH.
  - intros j x NX. replace (S i + j)%nat with (i + S j)%nat by lia. apply NS. exact NX.
  - cbn in LO. lia.
  - intros j x NX. replace (S i + j)%nat with (i + S j)%nat by lia. apply NO. exact NX.
  - congruence.
Qed.

(** The sites do not overlap. *)
Lemma patch_range i s r : nth_error (sections o) i = Some s -> relocation_ok o s r ->
  start_of o i <= Z.of_nat (fst (patch_of i r)) /\
  Z.of_nat (patch_end (patch_of i r)) <= start_of o i + Z.of_nat (length (sec_data s)).
Proof.
  intros N (P & B & _). unfold patch_end. rewrite patch_length. cbn [patch_of fst]. pose proof (start_range i). lia.
Qed.

Lemma start_step i s : nth_error (sections o) i = Some s -> start_of o (S i) = start_of o i + Z.of_nat (length (sec_data s)).
Proof.
  intros N. rewrite !start_of_sum.
  assert (E : firstn (S i) (sections o) = firstn i (sections o) ++ [s]).
  { clear K. revert i N. generalize (sections o). induction l as [|x t IH]; destruct i; cbn; intros; try discriminate.
    - inversion N; subst. reflexivity.
    - f_equal. apply IH. exact N. }
  rewrite E, sum_sizes_app. cbn. lia.
Qed.

Lemma patches_from_ok l : forall i,
  (forall j s, nth_error l j = Some s -> nth_error (sections o) (i + j) = Some s) -> (i + length l)%nat = length (sections o) ->
  Forall (fun p => start_of o i <= Z.of_nat (fst p) /\ Z.of_nat (patch_end p) <= image_size o) (patches_from i l) /\
  ForallOrdPairs pdisjoint (patches_from i l) /\
  (forall j s r, nth_error l j = Some s -> In r (sec_relocations s) -> In (patch_of (i + j) r) (patches_from i l)) /\
  (forall p, In p (patches_from i l) -> exists j s r, nth_error l j = Some s /\ In r (sec_relocations s) /\ p = patch_of (i + j) r).
Proof.
  induction l as [|s t IH]; intros i NS LEN.
  - cbn [patches_from]. split; [constructor|]. split; [constructor|]. split; [intros j s r N; destruct j; discriminate|intros p []].
  - destruct (IH (S i)) as (F & D & IN & OUT).
    { intros j x NX. replace (S i + j)%nat with (i + S j)%nat by lia. apply NS. exact NX. }
    { cbn in LEN. lia. }
    pose proof (NS O s eq_refl) as N0. rewrite Nat.add_0_r in N0.
    pose proof (relocations_ok o K s (nth_error_In _ _ N0)) as RO. rewrite Forall_forall in RO.
    pose proof (start_step _ _ N0) as ST.
    assert (HERE : forall p, In p (map (patch_of i) (sec_relocations s)) ->
       start_of o i <= Z.of_nat (fst p) /\ Z.of_nat (patch_end p) <= start_of o (S i)).
    { intros p I. apply in_map_iff in I. destruct I as (r & <- & I). rewrite ST. apply patch_range; auto. }
    assert (SI : start_of o (S i) <= image_size o).
    { unfold image_size. rewrite !start_of_sum, firstn_all. rewrite <- (firstn_skipn (S i) (sections o)) at 2.
      rewrite sum_sizes_app. pose proof (sum_sizes_nonneg (skipn (S i) (sections o))). lia. }
    rewrite Forall_forall in F. cbn [patches_from]. split; [|split; [|split]].
    + apply Forall_forall. intros p I. apply in_app_or in I. destruct I as [I|I].
      * specialize (HERE p I). lia.
      * specialize (F p I). lia.
    + assert (HD : ForallOrdPairs pdisjoint (map (patch_of i) (sec_relocations s))).
      { pose proof (relocations_apart o K s (nth_error_In _ _ N0)) as AP. clear - AP RO K N0.
        induction AP as [|r l FR _ IHA]; cbn [map]; [constructor|]. constructor.
        - apply Forall_forall. intros p I. apply in_map_iff in I. destruct I as (q & <- & I).
          rewrite Forall_forall in FR. specialize (FR q I). unfold pdisjoint, patch_end. rewrite !patch_length.
          cbn [patch_of fst]. destruct (RO r (or_introl eq_refl)) as (P1 & _). destruct (RO q (or_intror I)) as (P2 & _).
          pose proof (start_range i). unfold apart in FR. lia.
        - apply IHA. intros x I. apply RO. right. exact I. }
      clear - HD D HERE F. induction HD as [|p l FP HD IHD]; [exact D|]. cbn [app]. constructor.
      * apply Forall_forall. intros q I. apply in_app_or in I. destruct I as [I|I].
        -- rewrite Forall_forall in FP. auto.
        -- specialize (F q I). specialize (HERE p (or_introl eq_refl)). unfold pdisjoint. lia.
      * apply IHD. intros q I. apply HERE. right. exact I.
    + intros [|j] x r NX I; cbn in NX; apply in_or_app.
      * left. inversion NX; subst. rewrite Nat.add_0_r. apply in_map. exact I.
      * right. replace (i + S j)%nat with (S i + j)%nat by lia. eapply IN; eauto.
    + intros p I. apply in_app_or in I. destruct I as [I|I].
      * apply in_map_iff in I. destruct I as (r & <- & I). exists O, s, r. rewrite Nat.add_0_r. auto.
      * destruct (OUT p I) as (j & x & r & NX & IR & ->). exists (S j), x, r. replace (i + S j)%nat with (S i + j)%nat by lia. auto.
Qed.

Lemma entry_ok l : forall e, Forall (symbol_defined o) l -> exists x, find_entry l offsets e = Ok x.
Proof.
  induction l as [|y t IH]; intros e F; cbn [find_entry]; [eauto|]. inversion F; subst.
  destruct (symbol_offset y H1) as [_ ->]. cbn [bind]. apply IH. auto.
Qed.

Lemma entry_start l : forall e, Forall (symbol_defined o) l ->
  find_entry l offsets e = Ok (fold_left (fun e y => if match sym_name y with Some n => sv_cmp n (chars "_start") | None => false end
                                                     then symbol_address o y else e) l e).
Proof.
  induction l as [|y t IH]; intros e F; cbn [find_entry fold_left]; [reflexivity|]. inversion F; subst.
  destruct (symbol_offset y H1) as [_ ->]. cbn [bind]. rewrite IH by auto. do 2 f_equal.
  destruct (sym_name y) as [n|]; [|reflexivity]. destruct (sv_cmp n (chars "_start")); [|reflexivity].
  destruct H1 as (_ & V & _). pose proof (start_range (Z.to_nat (sym_section y))).
  unfold wrap, symbol_address, load_address, image_start. assert (E61 : 2 ^ 61 = 2305843009213693952) by reflexivity.
  rewrite Z.mod_small; [lia|]. change (2 ^ 64) with 18446744073709551616. lia.
Qed.
End Link.
