(** Bytes of the parts of a COFF file. *)
From Coq Require Import String.
From Verif Require Import Base CharTypes Bytes BytesSpec BytesProofs Labels Object Elf ElfSpec ElfProofs ElfBuild ElfShape C39Props C47Props Coff CoffSpec.
Local Open Scope Z_scope.
Local Open Scope list_scope.

(** * The bytes written *)
Definition chdr (c : coff_file) : list Z :=
  le 2 34404 ++ le 2 (number_of_sections c) ++ le 4 0 ++ le 4 (pointer_to_symbol_table c) ++ le 4 (number_of_symbols c) ++ le 2 0 ++ le 2 4.
Definition csec (s : coff_section) : list Z :=
  c_name s ++ le 4 (size_of_raw_data s) ++ le 4 0 ++ le 4 (size_of_raw_data s) ++ le 4 (pointer_to_raw_data s) ++ le 4 (pointer_to_relocations s) ++ le 4 0 ++
  le 2 (number_of_relocations s) ++ le 2 0 ++ le 4 (characteristics s).
Definition csym (y : coff_symbol) : list Z :=
  cs_name y ++ le 4 (cs_value y) ++ le 2 (section_number y) ++ le 2 0 ++ le 1 (storage_class y) ++ le 1 0.
Definition crel (r : coff_relocation) : list Z := le 4 (virtual_address r) ++ le 4 (symbol_table_index r) ++ le 2 (coff_type r).
Lemma chdr_length c : length (chdr c) = 20%nat.
Proof. unfold chdr. rewrite !app_length, !le_digits_length. reflexivity. Qed.
Lemma csec_length s : length (c_name s) = 8%nat -> length (csec s) = 40%nat.
Proof. intros N. unfold csec. rewrite !app_length, !le_digits_length, N. reflexivity. Qed.
Lemma csym_length s : length (cs_name s) = 8%nat -> length (csym s) = 18%nat.
Proof. intros N. unfold csym. rewrite !app_length, !le_digits_length, N. reflexivity. Qed.
Lemma crel_length s : length (crel s) = 10%nat.
Proof. unfold crel. rewrite !app_length, !le_digits_length. reflexivity. Qed.
Ltac fw := cbv zeta; repeat (rewrite fw_byte || rewrite fw_word || rewrite fw_long); rewrite <- !app_assoc; reflexivity.
Lemma write_chdr f c : coff_write_header f c = f ++ chdr c.
Proof. unfold coff_write_header, chdr. fw. Qed.
Lemma write_csec f c : coff_write_section_header f c = f ++ csec c.
Proof. unfold coff_write_section_header, csec. fw. Qed.
Lemma write_csym f c : coff_write_symbol f c = f ++ csym c.
Proof. unfold coff_write_symbol, csym. fw. Qed.
Lemma write_crel f c : coff_write_relocation f c = f ++ crel c.
Proof. unfold coff_write_relocation, crel. fw. Qed.
Definition ccontent (s : coff_section) : list Z := firstn (Z.to_nat (size_of_raw_data s)) (c_data s) ++ concat (map crel (c_relocations s)).
Lemma write_ccontent f s : coff_write_contents f s = f ++ ccontent s.
Proof. unfold coff_write_contents, ccontent. rewrite (fold_append _ crel write_crel), <- app_assoc. reflexivity. Qed.
Definition cfile (c : coff_file) : list Z :=
  chdr c ++ concat (map csec (c_sections c)) ++ concat (map csym (c_symbols c)) ++ le 4 (len (c_strings c) + 4) ++ c_strings c ++ concat (map ccontent (c_sections c)).
Lemma coff_write_bytes c : coff_write c = cfile c.
Proof.
  unfold coff_write, cfile. cbv zeta. rewrite write_chdr, (fold_append _ csec write_csec), (fold_append _ csym write_csym), fw_long, (fold_append _ ccontent write_ccontent).
  rewrite <- !app_assoc. reflexivity.
Qed.

(** * Relocations *)
Definition step (data : list Z) (r : relocation) : list Z :=
  if rel_addend r =? 0 then data else splice data (Z.to_nat (r_offset r)) (le (rel_size (r_type r)) (rel_addend r)).
Definition conv (r : relocation) : coff_relocation :=
  {| virtual_address := r_offset r; symbol_table_index := Z.of_nat (r_idx r); coff_type := rel_code (r_type r) |}.
Definition reloc_in (n : Z) (r : relocation) : Prop :=
  0 <= r_offset r /\ r_offset r + Z.of_nat (rel_size (r_type r)) <= n /\ - 2 ^ 31 <= r_add r /\ rel_addend r < 2 ^ 31.
Lemma step_length data r : reloc_in (len data) r -> length (step data r) = length data.
Proof. intros (A & B & _). unfold step. destruct (rel_addend r =? 0); [reflexivity|]. apply splice_length. rewrite le_digits_length. unfold len in B. lia. Qed.
Lemma convert_relocation_step data r : len data < 2 ^ 31 -> reloc_in (len data) r -> convert_relocation data r = Ok (step data r, conv r).
Proof.
  intros L (A & B & C & D). unfold convert_relocation. assert (S0 : 4 <= Z.of_nat (rel_size (r_type r))) by (destruct (r_type r); cbn; lia).
  assert (AD : r_add r < 2 ^ 31) by (unfold rel_addend in D; destruct (r_type r); lia).
  replace (r_add r <? - 2 ^ 31) with false by (symmetry; apply Z.ltb_ge; lia). replace (2 ^ 31 - 1 <? r_add r) with false by (symmetry; apply Z.ltb_ge; lia). cbn [orb].
  replace (2 ^ 31 - 1 <? r_offset r) with false by (symmetry; apply Z.ltb_ge; lia). unfold step, conv, rel_addend in *. clear S0.
  assert (B' : (Z.to_nat (r_offset r) + rel_size (r_type r) <= length data)%nat) by (unfold len in B; lia). clear B AD.
  destruct (r_type r) eqn:T; cbn [rel_size rel_code] in *.
  - destruct (r_add r =? 0); [reflexivity|]. change (write_64 data (Z.to_nat (r_offset r)) (r_add r)) with (write_field W8 data (Z.to_nat (r_offset r)) (r_add r)).
    rewrite write_field_splice by (cbn [wbytes]; exact B'). reflexivity.
  - destruct (r_add r =? 0); [reflexivity|]. change (write_32 data (Z.to_nat (r_offset r)) (r_add r)) with (write_field W4 data (Z.to_nat (r_offset r)) (r_add r)).
    rewrite write_field_splice by (cbn [wbytes]; exact B'). reflexivity.
  - replace (2 ^ 31 - 1 <? r_add r + 4) with false by (symmetry; apply Z.ltb_ge; lia).
    destruct (r_add r + 4 =? 0); [reflexivity|]. change (write_32 data (Z.to_nat (r_offset r)) (r_add r + 4)) with (write_field W4 data (Z.to_nat (r_offset r)) (r_add r + 4)).
    rewrite write_field_splice by (cbn [wbytes]; exact B'). reflexivity.
Qed.
Lemma convert_relocations_step l : forall data, len data < 2 ^ 31 -> Forall (reloc_in (len data)) l ->
  convert_relocations data l = Ok (fold_left step l data, map conv l) /\ length (fold_left step l data) = length data.
Proof.
  induction l as [|r t IH]; intros data L F; [split; reflexivity|]. inversion F as [|? ? F1 F2]; subst. cbn [convert_relocations]. rewrite convert_relocation_step by assumption.
  cbn [Base.bind fst snd fold_left map]. assert (E : len (step data r) = len data) by (unfold len; rewrite step_length by exact F1; reflexivity).
  rewrite <- E in L, F2. destruct (IH (step data r) L F2) as [-> ->]. split; [reflexivity|]. apply step_length. exact F1.
Qed.
Lemma step_bytes_ok data r : bytes_ok data -> bytes_ok (step data r).
Proof. intros B. unfold step. destruct (_ =? 0); [exact B|]. apply splice_bytes_ok; [exact B|apply le_digits_ok]. Qed.
Lemma step_outside data r i : reloc_in (len data) r -> (Z.of_nat i < r_offset r \/ r_offset r + Z.of_nat (rel_size (r_type r)) <= Z.of_nat i) -> nth_error (step data r) i = nth_error data i.
Proof.
  intros (A & B & _) O. unfold step. destruct (_ =? 0); [reflexivity|]. apply splice_outside; rewrite le_digits_length; unfold len in B; lia.
Qed.
Lemma window_ext f g p n : (forall i, (p <= i < p + n)%nat -> nth_error f i = nth_error g i) -> window f p n = window g p n.
Proof.
  intros H. unfold window. assert (X : forall i, (i < n)%nat -> nth_error (skipn p f) i = nth_error (skipn p g) i) by (intros i I; rewrite !nth_error_skipn_add; apply H; lia).
  revert X. generalize (skipn p f) (skipn p g). clear. induction n as [|n IH]; intros a b X; [reflexivity|]. pose proof (X 0%nat ltac:(lia)) as X0. destruct a, b; cbn in X0; try discriminate; [reflexivity|].
  inversion X0; subst. cbn [firstn]. f_equal. apply IH. intros i I. apply (X (S i)). lia.
Qed.
Lemma step_field data r : reloc_in (len data) r -> field data (Z.to_nat (r_offset r)) (rel_size (r_type r)) = 0 ->
  field (step data r) (Z.to_nat (r_offset r)) (rel_size (r_type r)) = rel_addend r mod 256 ^ Z.of_nat (rel_size (r_type r)).
Proof.
  intros (A & B & _) Z0. unfold step. destruct (Z.eqb_spec (rel_addend r) 0) as [E|E].
  - rewrite Z0, E. reflexivity.
  - unfold field. pose proof (window_splice data (Z.to_nat (r_offset r)) (le (rel_size (r_type r)) (rel_addend r))) as W. rewrite le_digits_length in W. rewrite W by (unfold len in B; lia). apply le_value_digits.
Qed.
Lemma steps_field l : forall data, Forall (reloc_in (len data)) l -> Forall (fun r => field data (Z.to_nat (r_offset r)) (rel_size (r_type r)) = 0) l ->
  ForallOrdPairs apart (map rel_range l) ->
  Forall (fun r => field (fold_left step l data) (Z.to_nat (r_offset r)) (rel_size (r_type r)) = rel_addend r mod 256 ^ Z.of_nat (rel_size (r_type r))) l /\
  (forall i, Forall (fun r => Z.of_nat i < r_offset r \/ r_offset r + Z.of_nat (rel_size (r_type r)) <= Z.of_nat i) l -> nth_error (fold_left step l data) i = nth_error data i).
Proof.
  induction l as [|r t IH]; intros data F Z0 A; [split; [constructor|reflexivity]|].
  inversion F as [|? ? F1 F2]; subst. inversion Z0 as [|? ? Z1 Z2]; subst. cbn [map] in A. inversion A as [|? ? A1 A2]; subst. cbn [fold_left].
  assert (E : len (step data r) = len data) by (unfold len; rewrite step_length by exact F1; reflexivity).
  rewrite Forall_map in A1.
  destruct (IH (step data r)) as [H1 H2]; [rewrite E; exact F2| |exact A2|].
  - rewrite Forall_forall in *. intros r2 I. rewrite <- (Z2 r2 I). unfold field. f_equal. apply window_ext. intros i R. apply step_outside; [exact F1|].
    specialize (A1 r2 I). destruct (F2 r2 I) as (P1 & P2 & _). destruct F1 as (P3 & P4 & _). unfold apart, rel_range in A1. cbn [fst snd] in A1. destruct (r_type r), (r_type r2); cbn [rel_size] in *; lia.
  - split.
    + constructor; [|exact H1]. rewrite <- (step_field data r F1 Z1). unfold field. f_equal. apply window_ext. intros i R. apply H2.
      rewrite Forall_forall in *. intros r2 I. specialize (A1 r2 I). destruct (F2 r2 I) as (P1 & P2 & _). destruct F1 as (P3 & P4 & _). unfold apart, rel_range in A1. cbn [fst snd] in A1. destruct (r_type r), (r_type r2); cbn [rel_size] in *; lia.
    + intros i O. inversion O as [|? ? O1 O2]; subst. rewrite (H2 i O2). apply step_outside; assumption.
Qed.

(** * Names *)
Lemma short_name_length n : length (short_name n) = 8%nat.
Proof. unfold short_name. rewrite firstn_length, app_length, repeat_length. lia. Qed.
Lemma until_zero_app n z : Forall (fun b => b <> 0) n -> until_zero (n ++ 0 :: z) = n.
Proof. induction 1; cbn; [reflexivity|]. rewrite (proj2 (Z.eqb_neq _ _)) by assumption. rewrite IHForall. reflexivity. Qed.
Lemma until_zero_all n : Forall (fun b => b <> 0) n -> until_zero n = n.
Proof. induction 1; cbn; [reflexivity|]. rewrite (proj2 (Z.eqb_neq _ _)) by assumption. rewrite IHForall. reflexivity. Qed.
Lemma until_zero_short n : Forall (fun b => b <> 0) n -> (length n <= 8)%nat -> until_zero (short_name n) = n.
Proof.
  intros F L. unfold short_name. rewrite firstn_app, firstn_all2 by exact L. destruct (8 - length n)%nat as [|k] eqn:K.
  - cbn [firstn]. rewrite app_nil_r. apply until_zero_all. exact F.
  - replace 8%nat with (S 7) at 1 by reflexivity. cbn [repeat firstn]. apply until_zero_app. exact F.
Qed.
Lemma until_zero_at l : forall k, nth_error l k = Some 0 -> (length (until_zero l) <= k)%nat.
Proof. induction l as [|b t IH]; intros k E; destruct k; try discriminate; cbn in *; [inversion E; subst; cbn; lia|]. destruct (b =? 0); [cbn; lia|]. cbn. specialize (IH k E). lia. Qed.
Lemma decimal_loop_length f : forall n k, 0 <= n < 10 ^ Z.of_nat (S k) -> (length (decimal_loop f n) <= S k)%nat.
Proof.
  induction f as [|f IH]; intros n k R; cbn [decimal_loop]; [cbn; lia|]. rewrite app_length. cbn [length]. destruct (Z.ltb_spec n 10) as [L|L]; [cbn; lia|].
  destruct k as [|k]. { change (10 ^ Z.of_nat 1) with 10 in R. lia. }
  specialize (IH (n / 10) k). assert (0 <= n / 10 < 10 ^ Z.of_nat (S k)). { split; [apply Z.div_pos; lia|]. apply Z.div_lt_upper_bound; [lia|]. rewrite <- Z.pow_succ_r by lia. replace (Z.succ (Z.of_nat (S k))) with (Z.of_nat (S (S k))) by lia. apply R. }
  specialize (IH H). lia.
Qed.
Lemma decimal_length n : 0 <= n < 10 ^ 6 -> (length (decimal n) <= 6)%nat.
Proof. intros R. unfold decimal. apply decimal_loop_length. exact R. Qed.
Lemma c_string_nonzero n : is_c_string n -> Forall (fun b => b <> 0) n.
Proof. apply Forall_impl. intros. lia. Qed.

(** A long name lies at [idx] in the table [T], after the end of another string. *)
Definition stored (T : list Z) (idx : Z) (name : list Z) : Prop :=
  named T idx name /\ nth_error T (Z.to_nat (idx - 1)) = Some 0.
Definition ends0 (T : list Z) : Prop := exists a, T = a ++ [0].
Lemma stored_here T name post : ends0 T -> stored ((T ++ name ++ [0]) ++ post) (len T) name.
Proof.
  intros (a & E). split; [apply named_here; rewrite E; destruct a; discriminate|]. rewrite <- app_assoc. rewrite nth_error_app1 by (rewrite E; unfold len; rewrite app_length; cbn; lia).
  rewrite E. unfold len. rewrite app_length. cbn [length]. replace (Z.to_nat (Z.of_nat (length a + 1) - 1)) with (length a) by lia. rewrite nth_error_app2, Nat.sub_diag by lia. reflexivity.
Qed.
Lemma stored_extend T T' idx name : stored T idx name -> stored (T ++ T') idx name.
Proof. intros [N Z0]. split; [apply named_extend; exact N|]. rewrite nth_error_app1; [exact Z0|]. apply nth_error_Some. congruence. Qed.
Lemma ends0_register T name : ends0 (T ++ name ++ [0]).
Proof. exists (T ++ name). rewrite <- app_assoc. reflexivity. Qed.

(** * Sections *)
Definition section_field (T : list Z) (name f : list Z) : Prop :=
  if 8 <? len name then exists idx, f = short_name (47 :: decimal idx) /\ stored T idx name /\ 0 <= idx < 10 ^ 6 else f = short_name name.
Lemma section_field_extend T T' name f : section_field T name f -> section_field (T ++ T') name f.
Proof. unfold section_field. destruct (8 <? len name); [|exact (fun x => x)]. intros (i & A & B & C). exists i. split; [exact A|]. split; [apply stored_extend; exact B|exact C]. Qed.
Lemma section_name_field_spec name T : ends0 T -> len T + long_name name < 10 ^ 6 ->
  exists f T', section_name_field name T = Ok (f, T ++ T') /\ len T' = long_name name /\ ends0 (T ++ T') /\ section_field (T ++ T') name f /\ length f = 8%nat.
Proof.
  intros E L. unfold section_name_field, section_field, long_name in *. pose proof (len_nonneg name) as N0. pose proof (len_nonneg T) as T0.
  destruct (Nat.ltb_spec 8 (length name)) as [B|B]; destruct (Z.ltb_spec 8 (len name)) as [B2|B2]; try (unfold len in *; lia).
  - unfold register_string. fold (len T). pose proof (decimal_length (len T) ltac:(lia)) as DL.
    replace (8 <=? length (47%Z :: decimal (len T)))%nat with false by (symmetry; apply Nat.leb_gt; cbn [length]; lia).
    exists (short_name (47 :: decimal (len T))), (name ++ [0]). split; [reflexivity|]. split; [rewrite len_app; reflexivity|]. split; [apply ends0_register|]. split; [|apply short_name_length].
    exists (len T). split; [reflexivity|]. split; [|lia]. pose proof (stored_here T name [] E) as S. rewrite app_nil_r in S. exact S.
  - exists (short_name name), []. rewrite app_nil_r. split; [reflexivity|]. split; [reflexivity|]. split; [exact E|]. split; [reflexivity|apply short_name_length].
Qed.
Lemma section_characteristics_ok a : In a [0; 1; 2; 4; 8; 16; 32; 64; 128; 256; 512; 1024; 2048; 4096; 8192] -> section_characteristics a = Ok (section_flags a).
Proof. intros I. cbn [In] in I. repeat (destruct I as [<-|I]; [reflexivity|]). destruct I. Qed.
Definition converted (T : list Z) (s : section) (c : coff_section) : Prop :=
  section_field T (sec_name s) (c_name c) /\ length (c_name c) = 8%nat /\ size_of_raw_data c = len (sec_data s) /\ number_of_relocations c = len (sec_relocations s) /\
  c_data c = fold_left step (sec_relocations s) (sec_data s) /\ length (c_data c) = length (sec_data s) /\ c_relocations c = map conv (sec_relocations s) /\
  characteristics c = section_flags (sec_alignment s).
Lemma relocs_in o s : Forall (coff_relocation_ok o s) (sec_relocations s) -> Forall (reloc_in (len (sec_data s))) (sec_relocations s).
Proof. apply Forall_impl. intros r (_ & A & B & C & D & _). repeat split; assumption. Qed.
Lemma convert_section_spec o s T : coff_section_ok o s -> len (sec_data s) < 2 ^ 31 -> ends0 T -> len T + long_name (sec_name s) < 10 ^ 6 ->
  exists c T', convert_section s T = Ok (c, T ++ T') /\ len T' = long_name (sec_name s) /\ ends0 (T ++ T') /\ converted (T ++ T') s c.
Proof.
  intros (A & B & C & D & E & F) L E0 LT. unfold convert_section. rewrite (section_characteristics_ok _ C). cbn [Base.bind].
  destruct (section_name_field_spec (sec_name s) T E0 LT) as (f & T' & -> & H1 & H2 & H3 & H4). cbn [Base.bind fst snd].
  assert (W : wrap 16 (Z.of_nat (length (sec_relocations s))) = len (sec_relocations s)) by (apply Z.mod_small; unfold len in *; lia). rewrite W.
  assert (W2 : wrap 32 (Z.of_nat (length (sec_data s))) = len (sec_data s)) by (apply Z.mod_small; unfold len in *; lia). rewrite W2.
  unfold len at 1. rewrite Nat2Z.id, firstn_all. destruct (convert_relocations_step (sec_relocations s) (sec_data s) L (relocs_in o s E)) as [-> RL]. cbn [Base.bind fst snd].
  eexists. exists T'. split; [reflexivity|]. split; [exact H1|]. split; [exact H2|]. unfold converted. cbn [c_name size_of_raw_data number_of_relocations c_data c_relocations characteristics].
  repeat split; auto.
Qed.
Lemma converted_extend T T' s c : converted T s c -> converted (T ++ T') s c.
Proof. intros (A & B). split; [apply section_field_extend; exact A|exact B]. Qed.
Lemma Forall2_impl2 {A B} (P Q : A -> B -> Prop) l l' : (forall a b, P a b -> Q a b) -> Forall2 P l l' -> Forall2 Q l l'.
Proof. intros H F. induction F; constructor; auto. Qed.
Lemma convert_sections_spec o l : forall T, Forall (coff_section_ok o) l -> Forall (fun s => len (sec_data s) < 2 ^ 31) l -> ends0 T -> len T + sum (map (fun s => long_name (sec_name s)) l) < 10 ^ 6 ->
  exists cs T', convert_sections l T = Ok (cs, T ++ T') /\ len T' = sum (map (fun s => long_name (sec_name s)) l) /\ ends0 (T ++ T') /\ Forall2 (converted (T ++ T')) l cs.
Proof.
  induction l as [|s t IH]; intros T F D E L; cbn [convert_sections].
  - exists [], []. rewrite app_nil_r. repeat split; auto.
  - inversion F as [|? ? F1 F2]; subst. inversion D as [|? ? D1 D2]; subst. cbn [map] in L. change (sum (?x :: ?y)) with (x + sum y) in L.
    assert (S0 : 0 <= sum (map (fun s => long_name (sec_name s)) t)). { apply sum_map_nonneg. intros x. unfold long_name. pose proof (len_nonneg (sec_name x)). destruct (_ <? _); lia. }
    destruct (convert_section_spec o s T F1 D1 E ltac:(cbn beta in *; lia)) as (c & T1 & -> & A1 & A2 & A3). cbn [Base.bind fst snd].
    destruct (IH (T ++ T1) F2 D2 A2) as (cs & T2 & -> & B1 & B2 & B3). { rewrite len_app, A1. cbn beta in *. lia. }
    cbn [Base.bind fst snd]. rewrite <- app_assoc in *. exists (c :: cs), (T1 ++ T2). split; [reflexivity|]. split; [rewrite len_app, A1, B1; reflexivity|]. split; [exact B2|].
    constructor; [|exact B3]. rewrite app_assoc. apply converted_extend. exact A3.
Qed.

(** * Symbols *)
Definition symbol_field (T : list Z) (name f : list Z) : Prop :=
  if 8 <? len name then exists idx, f = repeat 0 4 ++ le 4 (idx + 4) /\ stored T idx name else f = short_name name.
Lemma symbol_field_extend T T' name f : symbol_field T name f -> symbol_field (T ++ T') name f.
Proof. unfold symbol_field. destruct (8 <? len name); [|exact (fun x => x)]. intros (i & A & B). exists i. split; [exact A|]. apply stored_extend; exact B. Qed.
Definition sym_converted (T : list Z) (y : symbol) (c : coff_symbol) : Prop :=
  (exists n, sym_name y = Some n /\ symbol_field T n (cs_name c)) /\ length (cs_name c) = 8%nat /\ cs_value c = sym_value y /\
  section_number c = (if sym_section y =? -1 then 0 else sym_section y + 1) /\ storage_class c = (if sym_global y then 2 else 3).
Lemma sym_converted_extend T T' s c : sym_converted T s c -> sym_converted (T ++ T') s c.
Proof. intros ((n & E & A) & B). split; [exists n; split; [exact E|apply symbol_field_extend; exact A]|exact B]. Qed.
Lemma convert_symbol_spec o y T : coff_symbol_ok o y -> len (sections o) < 2 ^ 16 - 1 -> ends0 T ->
  exists c T', convert_symbol y T = Ok (c, T ++ T') /\ len T' = symbol_long_name y /\ ends0 (T ++ T') /\ sym_converted (T ++ T') y c.
Proof.
  intros ((n & N & CS & NE) & V & S) LS E. unfold convert_symbol, symbol_long_name. rewrite N.
  assert (W : wrap 32 (sym_value y) = sym_value y) by (apply Z.mod_small; exact V).
  assert (W2 : wrap 16 (if sym_section y =? -1 then 0 else sym_section y + 1) = (if sym_section y =? -1 then 0 else sym_section y + 1)).
  { apply Z.mod_small. destruct (Z.eqb_spec (sym_section y) (-1)); lia. }
  rewrite W, W2. unfold sym_converted, symbol_field, long_name in *. pose proof (len_nonneg n) as N0. pose proof (len_nonneg T) as T0.
  destruct (Nat.ltb_spec 8 (length n)) as [B|B]; destruct (Z.ltb_spec 8 (len n)) as [B2|B2]; try (unfold len in *; lia).
  - unfold register_string. fold (len T). change (write_32 (repeat 0 8) 4 (len T + 4)) with (write_field W4 (repeat 0 8) 4 (len T + 4)). rewrite write_field_splice by (cbn; lia). cbn [wbytes Base.bind].
    eexists. exists (n ++ [0]). split; [reflexivity|]. split; [rewrite len_app; reflexivity|]. split; [apply ends0_register|]. cbn [cs_name cs_value section_number storage_class].
    split; [|split; [rewrite splice_length; [reflexivity|rewrite le_digits_length; cbn; lia]|repeat split]].
    exists n. split; [exact N|]. rewrite (proj2 (Z.ltb_lt _ _)) by exact B2. exists (len T). split; [unfold splice; rewrite le_digits_length; reflexivity|]. pose proof (stored_here T n [] E) as ST. rewrite app_nil_r in ST. exact ST.
  - eexists. exists []. rewrite app_nil_r. split; [reflexivity|]. split; [reflexivity|]. split; [exact E|]. cbn [cs_name cs_value section_number storage_class]. split; [|split; [apply short_name_length|repeat split]].
    exists n. split; [exact N|]. rewrite (proj2 (Z.ltb_ge _ _)) by exact B2. reflexivity.
Qed.
Lemma convert_symbols_spec o l : forall T, Forall (coff_symbol_ok o) l -> len (sections o) < 2 ^ 16 - 1 -> ends0 T ->
  exists cs T', convert_symbols l T = Ok (cs, T ++ T') /\ len T' = sum (map symbol_long_name l) /\ ends0 (T ++ T') /\ Forall2 (sym_converted (T ++ T')) l cs.
Proof.
  induction l as [|s t IH]; intros T F L E; cbn [convert_symbols].
  - exists [], []. rewrite app_nil_r. repeat split; auto.
  - inversion F as [|? ? F1 F2]; subst. destruct (convert_symbol_spec o s T F1 L E) as (c & T1 & -> & A1 & A2 & A3). cbn [Base.bind fst snd].
    destruct (IH (T ++ T1) F2 L A2) as (cs & T2 & -> & B1 & B2 & B3).
    cbn [Base.bind fst snd]. rewrite <- app_assoc in *. exists (c :: cs), (T1 ++ T2). split; [reflexivity|]. split; [rewrite len_app, A1, B1; reflexivity|]. split; [exact B2|].
    constructor; [|exact B3]. rewrite app_assoc. apply sym_converted_extend. exact A3.
Qed.
