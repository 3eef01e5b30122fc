(** Reading back the sections elf_from_object makes. *)
From Coq Require Import String Znumtheory.
From Verif Require Import Base CharTypes Common Bytes BytesSpec BytesProofs Object Elf ElfSpec ElfProofs ElfBuild ElfShape.
Local Open Scope Z_scope.
Local Open Scope list_scope.

Lemma bytes_ok_concat b : Forall bytes_ok b -> bytes_ok (concat b).
Proof. induction 1; cbn; [constructor|]. apply Forall_app. split; assumption. Qed.
Lemma repeat0_ok n : bytes_ok (repeat 0 n).
Proof. apply Forall_forall. intros x H. apply repeat_spec in H. subst. unfold is_byte. lia. Qed.
Lemma entry_bytes_ok a b c d e : bytes_ok (entry_bytes a b c d e).
Proof. unfold entry_bytes. repeat (apply Forall_app; split); apply le_digits_ok. Qed.
Lemma rela_bytes_ok a b c d : bytes_ok (rela_bytes a b c d).
Proof. unfold rela_bytes. repeat (apply Forall_app; split); apply le_digits_ok. Qed.

Lemma read_in_block w pre e post k v rest : blocks_ok (pre ++ e :: post) -> bytes_ok (concat (pre ++ e :: post)) -> (k + wbytes w <= 24)%nat ->
  skipn k e = le (wbytes w) v ++ rest ->
  read_field w (concat (pre ++ e :: post)) (24 * length pre + k) = Ok (v mod 256 ^ Z.of_nat (wbytes w)).
Proof.
  intros B O K S. assert (LE : length e = 24%nat). { apply Forall_app in B. destruct B as [_ B]. inversion B; assumption. }
  rewrite read_field_value; [|exact O|rewrite blocks_length by exact B; rewrite app_length; cbn [length]; lia].
  rewrite read_block; [|apply Forall_app in B; apply B|rewrite LE; exact K].
  unfold window. rewrite S. rewrite firstn_app, le_digits_length, Nat.sub_diag. cbn [firstn]. rewrite app_nil_r.
  rewrite firstn_all2 by (rewrite le_digits_length; lia). rewrite le_value_digits. reflexivity.
Qed.
Lemma skipn_exact {A} (a b : list A) n : length a = n -> skipn n (a ++ b) = b.
Proof. intros <-. rewrite skipn_app, skipn_all, Nat.sub_diag. reflexivity. Qed.

Section Symtab.
Variables (pre post : list (list Z)) (name info shndx value size : Z).
Let e := entry_bytes name info shndx value size.
Hypothesis B : blocks_ok (pre ++ e :: post).
Hypothesis OK : bytes_ok (concat (pre ++ e :: post)).
Let buf := concat (pre ++ e :: post).
Let p := (24 * length pre)%nat.
Lemma entry_name : read_32 buf p = Ok (name mod 2 ^ 32).
Proof.
  pose proof (read_in_block W4 pre e post 0 name (le 1 info ++ le 1 0 ++ le 2 shndx ++ le 8 value ++ le 8 size) B OK) as R. cbn [wbytes] in R. rewrite Nat.add_0_r in R.
  unfold buf, p. change (2 ^ 32) with (256 ^ Z.of_nat 4). apply R; [lia|reflexivity].
Qed.
Lemma entry_info : read_8 buf (p + 4) = Ok (info mod 2 ^ 8).
Proof.
  change (2 ^ 8) with (256 ^ Z.of_nat 1). apply (read_in_block W1 pre e post 4 info (le 1 0 ++ le 2 shndx ++ le 8 value ++ le 8 size) B OK); [cbn; lia|reflexivity].
Qed.
Lemma entry_shndx : read_16 buf (p + 6) = Ok (shndx mod 2 ^ 16).
Proof.
  change (2 ^ 16) with (256 ^ Z.of_nat 2). apply (read_in_block W2 pre e post 6 shndx (le 8 value ++ le 8 size) B OK); [cbn; lia|reflexivity].
Qed.
Lemma entry_value : read_64 buf (p + 8) = Ok (value mod 2 ^ 64).
Proof.
  change (2 ^ 64) with (256 ^ Z.of_nat 8). apply (read_in_block W8 pre e post 8 value (le 8 size) B OK); [cbn; lia|reflexivity].
Qed.
Lemma entry_size : read_64 buf (p + 16) = Ok (size mod 2 ^ 64).
Proof.
  change (2 ^ 64) with (256 ^ Z.of_nat 8). apply (read_in_block W8 pre e post 16 size [] B OK); [cbn; lia|rewrite app_nil_r; reflexivity].
Qed.
End Symtab.

Section Rela.
Variables (pre post : list (list Z)) (offset sym type add : Z).
Let e := rela_bytes offset sym type add.
Hypothesis B : blocks_ok (pre ++ e :: post).
Hypothesis OK : bytes_ok (concat (pre ++ e :: post)).
Let buf := concat (pre ++ e :: post).
Let p := (24 * length pre)%nat.
Lemma rela_offset : read_64 buf p = Ok (offset mod 2 ^ 64).
Proof.
  pose proof (read_in_block W8 pre e post 0 offset (le 8 (Z.shiftl sym 32 + type) ++ le 8 add) B OK) as R. cbn [wbytes] in R. rewrite Nat.add_0_r in R.
  unfold buf, p. change (2 ^ 64) with (256 ^ Z.of_nat 8). apply R; [lia|reflexivity].
Qed.
Lemma rela_info : read_64 buf (p + 8) = Ok ((Z.shiftl sym 32 + type) mod 2 ^ 64).
Proof.
  change (2 ^ 64) with (256 ^ Z.of_nat 8). apply (read_in_block W8 pre e post 8 (Z.shiftl sym 32 + type) (le 8 add) B OK); [cbn; lia|reflexivity].
Qed.
Lemma rela_add : read_64 buf (p + 16) = Ok (add mod 2 ^ 64).
Proof.
  change (2 ^ 64) with (256 ^ Z.of_nat 8). apply (read_in_block W8 pre e post 16 add [] B OK); [cbn; lia|rewrite app_nil_r; reflexivity].
Qed.
End Rela.

(** * Sections *)
Lemma get_sections_other T l : forall c, Forall (fun s => sh_type (es_header s) <> SHT_PROGBITS) l -> get_sections T l c = Ok ([], repeat (-1) (length l)).
Proof.
  induction l as [|s t IH]; intros c F; cbn [get_sections length repeat]; [reflexivity|]. inversion F; subst.
  rewrite (proj2 (Z.eqb_neq _ _)) by assumption. rewrite IH by assumption. reflexivity.
Qed.
Definition plain_section (s : section) : section := {| sec_name := sec_name s; sec_alignment := 0; sec_data := sec_data s; sec_relocations := [] |}.
Lemma get_sections_progbits T l pb rest : Forall2 (progbits_read T) l pb -> Forall (fun s => is_c_string (sec_name s)) l -> forall c r m,
  get_sections T rest (c + length l) = Ok (r, m) ->
  get_sections T (pb ++ rest) c = Ok (map plain_section l ++ r, map Z.of_nat (seq c (length l)) ++ m).
Proof.
  induction 1 as [|s e l pb H F IH]; intros C c r m G; cbn [length app map seq].
  - rewrite Nat.add_0_r in G. exact G.
  - inversion C as [|? ? C1 C2]; subst. destruct H as (H1 & H2 & H3). cbn [get_sections]. rewrite H1. rewrite Z.eqb_refl.
    rewrite (proj2 (Z.eqb_neq _ _)) by (destruct H2; lia). rewrite (named_string _ _ _ H2) by assumption. cbn [Base.bind].
    rewrite (IH ltac:(assumption) (S c) r m) by (replace (S c + length l)%nat with (c + S (length l))%nat by lia; exact G). cbn [Base.bind].
    unfold plain_section. rewrite H3. reflexivity.
Qed.

(** * Symbols *)
Lemma get_symbols_section_entries data strings smap : forall es pre post syms mapping,
  data = concat (pre ++ es ++ post) -> blocks_ok (pre ++ es ++ post) -> bytes_ok data ->
  Forall (fun e => exists a b c, e = entry_bytes 0 STT_SECTION a b c) es -> forall n,
  get_symbols (length es + n) (length pre) 24 data strings smap syms mapping =
  get_symbols n (length pre + length es) 24 data strings smap syms (mapping ++ repeat None (length es)).
Proof.
  induction es as [|e t IH]; intros pre post syms mapping D B O F n; cbn [length repeat Nat.add].
  - rewrite Nat.add_0_r, app_nil_r. reflexivity.
  - inversion F as [|? ? (a & b & c & E) F']; subst e. cbn [get_symbols]. rewrite (Nat.mul_comm (length pre) 24). subst data. cbn [app] in *.
    rewrite entry_name, entry_info, entry_shndx, entry_value, entry_size by assumption. cbn [Base.bind].
    change (negb (Z.land (STT_SECTION mod 2 ^ 8) 15 =? STT_NOTYPE)) with true. cbn iota.
    specialize (IH (pre ++ [entry_bytes 0 STT_SECTION a b c]) post syms (mapping ++ [None])). rewrite <- !app_assoc in IH. cbn [app] in IH.
    rewrite app_length in IH. cbn [length] in IH. replace (S (length pre)) with (length pre + 1)%nat by lia. rewrite (IH eq_refl B O F' n).
    replace (length pre + 1 + length t)%nat with (length pre + S (length t))%nat by lia. rewrite <- ?app_assoc. reflexivity.
Qed.
Definition symbol_readable (n : nat) (y : symbol) : Prop :=
  (exists nm, sym_name y = Some nm /\ is_c_string nm) /\ u64 (sym_value y) /\ u64 (sym_size y) /\ (sym_section y = -1 \/ 0 <= sym_section y < Z.of_nat n).
Lemma get_symbols_entries data strings n m : Z.of_nat n < 2 ^ 15 -> len strings < 2 ^ 32 -> forall ps pre post syms mapping,
  data = concat (pre ++ map snd ps ++ post) -> blocks_ok (pre ++ map snd ps ++ post) -> bytes_ok data ->
  Forall (fun p => entry_of strings (fst p) (snd p)) ps -> Forall (symbol_readable n) (map fst ps) -> forall k,
  get_symbols (length ps + k) (length pre) 24 data strings (-1 :: map Z.of_nat (seq 0 n) ++ m) syms mapping =
  get_symbols k (length pre + length ps) 24 data strings (-1 :: map Z.of_nat (seq 0 n) ++ m) (syms ++ map fst ps) (mapping ++ map Some (seq (length syms) (length ps))).
Proof.
  intros NB LS. induction ps as [|[y e] t IH]; intros pre post syms mapping D B O F G k; cbn [length map seq Nat.add].
  - rewrite Nat.add_0_r, !app_nil_r. reflexivity.
  - inversion F as [|? ? H F']; subst. inversion G as [|? ? R G']; subst. cbn [fst snd] in *. destruct H as (name & off & N & E & O1 & O2 & rest & O3). subst e.
    destruct R as ((nm & N' & CS) & V & Sz & SC). rewrite N in N'. inversion N'; subst nm.
    cbn [get_symbols]. rewrite (Nat.mul_comm (length pre) 24). cbn [map snd app] in *.
    rewrite entry_name, entry_info, entry_shndx, entry_value, entry_size by assumption. cbn [Base.bind].
    assert (I1 : negb (Z.land (symbol_info y mod 2 ^ 8) 15 =? STT_NOTYPE) = false) by (unfold symbol_info; destruct (sym_global y); reflexivity).
    assert (I2 : negb (Z.land (symbol_info y mod 2 ^ 8) (Z.shiftl STB_GLOBAL 4) =? 0) = sym_global y) by (unfold symbol_info; destruct (sym_global y); reflexivity).
    rewrite I1, I2. unfold len in LS. rewrite !(Z.mod_small (Z.of_nat off)) by lia. rewrite (proj2 (Z.eqb_neq _ 0)) by lia.
    assert (NM : string_at strings (Z.of_nat off) = Ok name). { apply named_string; [|exact CS]. split; [unfold len; lia|]. exists rest. rewrite Nat2Z.id. exact O3. }
    rewrite NM. cbn [Base.bind].
    assert (SX : get (-1 :: map Z.of_nat (seq 0 n) ++ m) (Z.to_nat (symbol_shndx y mod 2 ^ 16)) = Ok (sym_section y)).
    { unfold symbol_shndx. destruct (Z.eqb_spec (sym_section y) (-1)) as [->|NE]; [reflexivity|]. destruct SC as [SC|SC]; [contradiction|].
      rewrite Z.mod_small by lia. replace (Z.to_nat (1 + sym_section y)) with (S (Z.to_nat (sym_section y))) by lia. unfold get. cbn [nth_error].
      rewrite nth_error_app1 by (rewrite map_length, seq_length; lia). rewrite nth_error_map.
      assert (Q : nth_error (seq 0 n) (Z.to_nat (sym_section y)) = Some (Z.to_nat (sym_section y))).
      { rewrite (nth_error_nth' _ 0%nat) by (rewrite seq_length; lia). rewrite seq_nth by lia. reflexivity. }
      rewrite Q. cbn [option_map]. f_equal. lia. }
    rewrite SX. cbn [Base.bind]. unfold u64 in *. rewrite !Z.mod_small by assumption.
    assert (YE : {| sym_name := Some name; sym_value := sym_value y; sym_size := sym_size y; sym_global := sym_global y; sym_section := sym_section y |} = y) by (rewrite <- N; destruct y; reflexivity).
    rewrite YE.
    set (e := entry_bytes (Z.of_nat off) (symbol_info y) (symbol_shndx y) (sym_value y) (sym_size y)) in *.
    specialize (IH (pre ++ [e]) post (syms ++ [y]) (mapping ++ [Some (length syms)])). rewrite <- !app_assoc in IH. cbn [app] in IH.
    rewrite !app_length in IH. cbn [length] in IH. replace (S (length pre)) with (length pre + 1)%nat by lia. rewrite (IH eq_refl B O F' G' k).
    replace (length pre + 1 + length t)%nat with (length pre + S (length t))%nat by lia. replace (length syms + 1)%nat with (S (length syms)) by lia.
    rewrite <- ?app_assoc. reflexivity.
Qed.
Lemma get_tables_other l strings smap : forall syms m, Forall (fun s => sh_type (es_header s) <> SHT_SYMTAB) l ->
  get_symbol_tables l strings smap syms m = Ok (syms, m).
Proof.
  induction l as [|s t IH]; intros syms m F; cbn [get_symbol_tables]; [reflexivity|]. inversion F; subst.
  rewrite (proj2 (Z.eqb_neq _ _)) by assumption. apply IH. assumption.
Qed.
Lemma get_tables_skip l rest strings smap : forall syms m, Forall (fun s => sh_type (es_header s) <> SHT_SYMTAB) l ->
  get_symbol_tables (l ++ rest) strings smap syms m = get_symbol_tables rest strings smap syms m.
Proof.
  induction l as [|s t IH]; intros syms m F; cbn [app get_symbol_tables]; [reflexivity|]. inversion F; subst.
  rewrite (proj2 (Z.eqb_neq _ _)) by assumption. apply IH. assumption.
Qed.
Lemma find_strings_skip all l rest : forall found, Forall (fun s => sh_type (es_header s) <> SHT_SYMTAB) l ->
  find_strings all (l ++ rest) found = find_strings all rest found.
Proof.
  induction l as [|s t IH]; intros found F; cbn [app find_strings]; [reflexivity|]. inversion F; subst.
  rewrite (proj2 (Z.eqb_neq _ _)) by assumption. apply IH. assumption.
Qed.

(** * Relocations *)
Lemma r_info_sym sym type : 0 <= sym -> 0 <= type < 2 ^ 16 -> Z.land (Z.shiftr ((Z.shiftl sym 32 + type) mod 2 ^ 64) 32) 65535 = sym mod 2 ^ 16.
Proof.
  intros S T. change 65535 with (Z.ones 16). rewrite Z.land_ones by lia. rewrite Z.shiftl_mul_pow2, Z.shiftr_div_pow2 by lia.
  change (2 ^ 64) with (2 ^ 32 * 2 ^ 32). rewrite Z.rem_mul_r by lia.
  assert (E1 : (sym * 2 ^ 32 + type) mod 2 ^ 32 = type). { rewrite Z.add_comm, Z.mod_add by lia. apply Z.mod_small. lia. }
  assert (E2 : (sym * 2 ^ 32 + type) / 2 ^ 32 = sym). { rewrite Z.add_comm, Z.div_add by lia. rewrite Z.div_small by lia. reflexivity. }
  rewrite E1, E2. replace (type + 2 ^ 32 * (sym mod 2 ^ 32)) with (type + (sym mod 2 ^ 32) * 2 ^ 32) by lia. rewrite Z.div_add by lia. rewrite (Z.div_small type) by lia. cbn [Z.add].
  symmetry. apply (Zmod_div_mod (2 ^ 16) (2 ^ 32)); try lia. exists (2 ^ 16). reflexivity.
Qed.
Lemma r_info_type sym t : 0 <= sym -> object_type ((Z.shiftl sym 32 + elf_type t) mod 2 ^ 64) = Ok t.
Proof.
  intros S. unfold object_type. change 65535 with (Z.ones 16). rewrite Z.land_ones by lia.
  assert (E : ((Z.shiftl sym 32 + elf_type t) mod 2 ^ 64) mod 2 ^ 16 = elf_type t).
  { rewrite <- (Zmod_div_mod (2 ^ 16) (2 ^ 64)) by (try lia; exists (2 ^ 48); reflexivity). rewrite Z.shiftl_mul_pow2 by lia.
    change (2 ^ 32) with (2 ^ 16 * 2 ^ 16). rewrite Z.mul_assoc, Z.add_comm, Z.mod_add by lia. apply Z.mod_small. destruct t; unfold elf_type, R_X86_64_64, R_X86_64_32S, R_X86_64_PC32; lia. }
  rewrite E. destruct t; reflexivity.
Qed.
(** What one written relocation comes back as, [m] being the map of symbols. *)
Definition back (mapping : list nat) (m : list (option nat)) (r : relocation) : res relocation :=
  match nth_error m (Z.to_nat (Z.of_nat (nth (r_idx r) mapping 0%nat) mod 2 ^ 16)) with
  | Some (Some i) => Ok {| r_type := r_type r; r_idx := i; r_offset := r_offset r; r_add := r_add r |}
  | _ => Undef
  end.
Fixpoint back_all (mapping : list nat) (m : list (option nat)) (l : list relocation) : res (list relocation) :=
  match l with
  | [] => Ok []
  | r :: t => let* r' := back mapping m r in let* t' := back_all mapping m t in Ok (r' :: t')
  end.
Lemma get_relocations_back mapping m data : forall l pre,
  data = concat (pre ++ map (rela_of mapping) l) -> blocks_ok (pre ++ map (rela_of mapping) l) -> bytes_ok data ->
  Forall (fun r => u64 (r_offset r) /\ - 2 ^ 63 <= r_add r < 2 ^ 63) l ->
  get_relocations (length l) (length pre) 24 data (Some m) = back_all mapping m l.
Proof.
  induction l as [|r t IH]; intros pre D B O F; cbn [length get_relocations back_all]; [reflexivity|]. inversion F as [|? ? [F1 F2] F3]; subst. cbn [map] in *.
  pose proof (rela_offset pre (map (rela_of mapping) t) (r_offset r) (Z.of_nat (nth (r_idx r) mapping 0%nat)) (elf_type (r_type r)) (r_add r) B O) as R1.
  pose proof (rela_info pre (map (rela_of mapping) t) (r_offset r) (Z.of_nat (nth (r_idx r) mapping 0%nat)) (elf_type (r_type r)) (r_add r) B O) as R2.
  pose proof (rela_add pre (map (rela_of mapping) t) (r_offset r) (Z.of_nat (nth (r_idx r) mapping 0%nat)) (elf_type (r_type r)) (r_add r) B O) as R3.
  cbv zeta in R1, R2, R3. fold (rela_of mapping r) in R1, R2, R3. rewrite R1, R2, R3. clear R1 R2 R3. cbn [Base.bind].
  rewrite r_info_type by lia. cbn [Base.bind]. rewrite r_info_sym by (try lia; destruct (r_type r); unfold elf_type, R_X86_64_64, R_X86_64_32S, R_X86_64_PC32; lia).
  unfold back. destruct (nth_error m _) as [[i|]|]; try reflexivity. cbn [Base.bind].
  specialize (IH (pre ++ [rela_of mapping r])). rewrite <- app_assoc, app_length in IH. cbn [app length] in IH.
  replace (S (length pre)) with (length pre + 1)%nat by lia. rewrite (IH eq_refl B O F3). destruct (back_all mapping m t); try reflexivity. cbn [Base.bind].
  unfold u64 in F1. rewrite (Z.mod_small (r_offset r)) by exact F1.
  assert (SG : signed 64 (r_add r mod 2 ^ 64) = r_add r).
  { rewrite <- (signed_id 64 (r_add r)) at 2 by (cbn; lia). unfold signed. rewrite Z.mod_mod by lia. reflexivity. }
  rewrite SG. reflexivity.
Qed.
