(** C48: reading back an ELF object file gives the object that was written. *)
From Coq Require Import String.
From Verif Require Import Base CharTypes Common Bytes BytesSpec BytesProofs Object Elf ElfSpec ElfProofs ElfBuild ElfShape ElfRead.
Local Open Scope Z_scope.
Local Open Scope list_scope.

(** * [rank] *)
Lemma positions_nth l : forall i y a b, nth_error l i = Some y ->
  nth i (positions l a b) 0%nat = if sym_global y then (b + length (filter sym_global (firstn i l)))%nat
                                  else (a + length (filter (fun y => negb (sym_global y)) (firstn i l)))%nat.
Proof.
  induction l as [|x t IH]; intros i y a b E; destruct i as [|i]; try discriminate; cbn [positions nth firstn filter length].
  - inversion E; subst. destruct (sym_global y); cbn; lia.
  - cbn in E. rewrite (IH _ _ _ _ E). destruct (sym_global x), (sym_global y); cbn [negb filter length]; lia.
Qed.
Lemma positions_rank o i : (i < length (symbols o))%nat -> nth i (symbol_positions o) 0%nat = (1 + length (sections o) + rank (symbols o) i)%nat.
Proof.
  intros L. unfold symbol_positions, rank. destruct (nth_error (symbols o) i) as [y|] eqn:E; [|apply nth_error_None in E; lia].
  rewrite (positions_nth _ _ _ _ _ E). destruct (sym_global y); lia.
Qed.
Lemma filter_nth {A} (f : A -> bool) l : forall i y, nth_error l i = Some y -> f y = true -> nth_error (filter f l) (length (filter f (firstn i l))) = Some y.
Proof.
  induction l as [|x t IH]; intros i y E F; destruct i as [|i]; try discriminate; cbn [firstn filter length nth_error] in *.
  - inversion E; subst. rewrite F. reflexivity.
  - destruct (f x); cbn [length nth_error]; apply IH; assumption.
Qed.
Lemma filter_rank_lt {A} (f : A -> bool) l i y : nth_error l i = Some y -> f y = true -> (length (filter f (firstn i l)) < length (filter f l))%nat.
Proof. intros E F. apply nth_error_Some. rewrite (filter_nth f l i y E F). discriminate. Qed.
Lemma filter_rank_inj {A} (f : A -> bool) l : forall i j x y, nth_error l i = Some x -> nth_error l j = Some y -> f x = true -> f y = true ->
  length (filter f (firstn i l)) = length (filter f (firstn j l)) -> i = j.
Proof.
  induction l as [|z t IH]; intros i j x y E1 E2 F1 F2 L; [destruct i; discriminate|]. destruct i as [|i], j as [|j]; cbn [firstn filter nth_error] in *.
  - reflexivity.
  - inversion E1; subst. rewrite F1 in L. discriminate.
  - inversion E2; subst. rewrite F2 in L. discriminate.
  - f_equal. eapply IH; eauto. destruct (f z); cbn in L; lia.
Qed.
Lemma rank_renaming o : renaming o.
Proof.
  unfold renaming, rank, local_first. repeat split.
  - intros i y E. rewrite E. destruct (sym_global y) eqn:G.
    + rewrite nth_error_app2 by lia. replace (_ + _ - _)%nat with (length (filter sym_global (firstn i (symbols o)))) by lia. apply filter_nth; assumption.
    + rewrite nth_error_app1 by (eapply filter_rank_lt; [exact E|rewrite G; reflexivity]). apply filter_nth; [exact E|rewrite G; reflexivity].
  - intros i j Li Lj. destruct (nth_error (symbols o) i) as [x|] eqn:E1; [|apply nth_error_None in E1; lia]. destruct (nth_error (symbols o) j) as [y|] eqn:E2; [|apply nth_error_None in E2; lia].
    destruct (sym_global x) eqn:G1, (sym_global y) eqn:G2; intros H.
    + eapply (filter_rank_inj sym_global); eauto. lia.
    + pose proof (filter_rank_lt (fun y => negb (sym_global y)) (symbols o) j y E2) as Q. cbn beta in Q. rewrite G2 in Q. specialize (Q eq_refl). lia.
    + pose proof (filter_rank_lt (fun y => negb (sym_global y)) (symbols o) i x E1) as Q. cbn beta in Q. rewrite G1 in Q. specialize (Q eq_refl). lia.
    + eapply (filter_rank_inj (fun y => negb (sym_global y))); eauto; rewrite ?G1, ?G2; reflexivity.
  - rewrite app_length. induction (symbols o) as [|y t IH]; cbn [filter length]; [reflexivity|]. destruct (sym_global y); cbn [negb length]; lia.
Qed.
Lemma rank_lt o i : (i < length (symbols o))%nat -> (rank (symbols o) i < length (symbols o))%nat.
Proof.
  intros L. destruct (rank_renaming o) as (R1 & _ & R3). destruct (nth_error (symbols o) i) as [y|] eqn:E; [|apply nth_error_None in E; lia].
  rewrite <- R3. apply nth_error_Some. rewrite (R1 _ _ E). discriminate.
Qed.

(** * Reading the shape *)
Fixpoint rebuild (mapping : list nat) (m : list (option nat)) (l : list section) : res (list section) :=
  match l with
  | [] => Ok []
  | s :: t =>
      let* r := back_all mapping m (sec_relocations s) in
      let* t' := rebuild mapping m t in
      Ok ({| sec_name := sec_name s; sec_alignment := 0; sec_data := sec_data s; sec_relocations := r |} :: t')
  end.
Lemma set_nth_middle {A} (a : list A) x y t : set_nth (a ++ x :: t) (length a) y = a ++ y :: t.
Proof. induction a; cbn; [reflexivity|]. rewrite IHa. reflexivity. Qed.
Lemma add_relocation_other l smap m : forall secs, Forall (fun s => sh_type (es_header s) <> SHT_RELA) l -> add_relocation_sections l smap m secs = Ok secs.
Proof.
  induction l as [|s t IH]; intros secs F; cbn [add_relocation_sections]; [reflexivity|]. inversion F; subst. rewrite (proj2 (Z.eqb_neq _ _)) by assumption. auto.
Qed.
Lemma add_relocation_skip l rest smap m secs : Forall (fun s => sh_type (es_header s) <> SHT_RELA) l ->
  add_relocation_sections (l ++ rest) smap m secs = add_relocation_sections rest smap m secs.
Proof.
  induction l as [|s t IH]; intros F; cbn [app add_relocation_sections]; [reflexivity|]. inversion F; subst. rewrite (proj2 (Z.eqb_neq _ _)) by assumption. auto.
Qed.
Lemma add_relocation_rebuild mapping m smap rest (n : nat) : forall ss rl done,
  Forall2 (rela_read mapping) (combine (seq (length done) (length ss)) ss) rl -> Forall (fun e => sh_size (es_header e) = len (es_data e)) rl ->
  Forall (fun s => Forall (fun r => u64 (r_offset r) /\ - 2 ^ 63 <= r_add r < 2 ^ 63) (sec_relocations s)) ss ->
  (length done + length ss <= n)%nat -> (forall k, (k < n)%nat -> get smap (S k) = Ok (Z.of_nat k)) ->
  add_relocation_sections (rl ++ rest) smap (Some m) (done ++ map plain_section ss) =
    let* x := rebuild mapping m ss in add_relocation_sections rest smap (Some m) (done ++ x).
Proof.
  induction ss as [|s t IH]; intros rl done F SZ U N G; cbn [length seq combine] in F; inversion F as [|? e ? rl' H F']; subst; cbn [rebuild map Base.bind app]; [reflexivity|].
  destruct H as (H1 & H2 & H3 & H4). inversion SZ as [|? ? S1 S2]; subst. inversion U as [|? ? U1 U2]; subst. cbn [fst snd] in *. cbn [length] in N.
  cbn [add_relocation_sections]. rewrite H1, Z.eqb_refl, H2, Nat2Z.id, G by lia. cbn [Base.bind]. rewrite (proj2 (Z.ltb_ge _ _)) by lia. rewrite Nat2Z.id.
  rewrite nth_error_app2, Nat.sub_diag by lia. cbn [nth_error]. rewrite H3. cbn [Z.eqb]. rewrite S1, H4.
  assert (EC : len (concat (map (rela_of mapping) (sec_relocations s))) / 24 = len (sec_relocations s)).
  { unfold len. rewrite (concat_length_const _ 24) by (intros; apply rela_length). rewrite Nat2Z.inj_mul, Z.mul_comm. apply Z.div_mul. lia. }
  rewrite EC. unfold len. rewrite Nat2Z.id. change (Z.to_nat 24) with 24%nat.
  pose proof (get_relocations_back mapping m _ (sec_relocations s) [] eq_refl) as GR. cbn [app length] in GR. rewrite GR; clear GR.
  2: { apply Forall_map, Forall_forall. intros. apply rela_length. }
  2: { apply bytes_ok_concat. apply Forall_map, Forall_forall. intros. apply rela_bytes_ok. }
  2: { exact U1. }
  destruct (back_all mapping m (sec_relocations s)) as [r| |]; try reflexivity. cbn [Base.bind]. rewrite set_nth_middle. cbn [plain_section sec_name sec_alignment sec_data sec_relocations app].
  set (s' := {| sec_name := sec_name s; sec_alignment := 0; sec_data := sec_data s; sec_relocations := r |}).
  change (done ++ s' :: map plain_section t) with (done ++ [s'] ++ map plain_section t). rewrite app_assoc.
  rewrite (IH rl' (done ++ [s'])); [|rewrite app_length; cbn [length]; replace (length done + 1)%nat with (S (length done)) by lia; exact F'|exact S2|exact U2|rewrite app_length; cbn [length]; lia|exact G].
  destruct (rebuild mapping m t); try reflexivity. cbn [Base.bind]. rewrite <- app_assoc. reflexivity.
Qed.
Lemma map_fst_pick b pl l : map fst pl = l -> map fst (pick b pl) = filter (fun y => Bool.eqb (sym_global y) b) l.
Proof. intros <-. unfold pick. induction pl as [|p t IH]; cbn [map filter]; [reflexivity|]. destruct (Bool.eqb (sym_global (fst p)) b); cbn [map]; rewrite IH; reflexivity. Qed.
(** symbol_mapping of the reader. *)
Definition symbol_map (o : object) : list (option nat) := repeat None (S (length (sections o))) ++ map Some (seq 0 (length (symbols o))).
Lemma read_shape o pl l : writable_object o -> symbols_written o pl -> shape o pl l -> Forall (fun e => sh_size (es_header e) = len (es_data e)) l ->
  (exists st, find_strings l l None = Ok (Some st) /\ st = symbol_strings o) /\ string_section l (2 * len (sections o) + 3) = Ok (section_strings o) /\
  forall h, object_from_elf {| header := h; shstrings := section_strings o; strings := symbol_strings o; elf_sections := l; elf_segments := [] |} =
    let* secs := rebuild (symbol_positions o) (symbol_map o) (sections o) in Ok {| sections := secs; symbols := local_first (symbols o) |}.
Proof.
  intros (WS & WY & SZ & NS) SW (null & pb & st & rl & a & b & EL & (N1 & N2) & FP & (S1 & S2 & S3 & S4) & FR & (A1 & A2) & (B1 & B2)) HS.
  assert (LP : length pb = length (sections o)). { clear -FP. induction FP; cbn; congruence. }
  assert (LR : length rl = length (sections o)). { transitivity (length (combine (seq 0 (length (sections o))) (sections o))); [|rewrite combine_length, seq_length; lia]. clear -FR. induction FR; cbn; congruence. }
  assert (TP : Forall (fun e => sh_type (es_header e) = SHT_PROGBITS) pb). { clear -FP. induction FP as [|? ? ? ? H]; constructor; auto. apply H. }
  assert (TR : Forall (fun e => sh_type (es_header e) = SHT_RELA) rl). { clear -FR. induction FR as [|? ? ? ? H]; constructor; auto. apply H. }
  assert (NTP : forall x, x <> SHT_PROGBITS -> Forall (fun e => sh_type (es_header e) <> x) pb). { intros x X. eapply Forall_impl; [|exact TP]. intros e -> Q. congruence. }
  assert (NTR : forall x, x <> SHT_RELA -> Forall (fun e => sh_type (es_header e) <> x) rl). { intros x X. eapply Forall_impl; [|exact TR]. intros e -> Q. congruence. }
  assert (STR : forall k e, (k < 2)%nat -> nth_error [a; b] k = Some e -> nth_error l (2 * length (sections o) + 2 + k) = Some e).
  { intros k e K E. rewrite EL. replace (2 * length (sections o) + 2 + k)%nat with (S (length pb + S (length rl + k)))%nat by lia. cbn [nth_error].
    rewrite nth_error_app2 by lia. replace (length pb + S (length rl + k) - length pb)%nat with (S (length rl + k)) by lia. cbn [nth_error].
    rewrite nth_error_app2 by lia. replace (length rl + k - length rl)%nat with k by lia. exact E. }
  assert (SA : string_section l (2 * len (sections o) + 2) = Ok (symbol_strings o)).
  { unfold string_section. replace (Z.to_nat (2 * len (sections o) + 2)) with (2 * length (sections o) + 2 + 0)%nat by (unfold len; lia). rewrite (STR 0%nat a) by (try lia; reflexivity). rewrite A1, A2. reflexivity. }
  assert (SB : string_section l (2 * len (sections o) + 3) = Ok (section_strings o)).
  { unfold string_section. replace (Z.to_nat (2 * len (sections o) + 3)) with (2 * length (sections o) + 2 + 1)%nat by (unfold len; lia). rewrite (STR 1%nat b) by (try lia; reflexivity). rewrite B1, B2. reflexivity. }
  split; [|split; [exact SB|]].
  { exists (symbol_strings o). split; [|reflexivity]. rewrite EL at 2. change (null :: pb ++ st :: rl ++ [a; b]) with ((null :: pb) ++ st :: rl ++ [a; b]).
    rewrite find_strings_skip by (apply Forall_cons; [rewrite N1; discriminate|apply NTP; discriminate]). cbn [find_strings]. rewrite S1, Z.eqb_refl, S2, SA. cbn [Base.bind].
    rewrite find_strings_skip by (apply NTR; discriminate). cbn [find_strings]. rewrite A1, B1. reflexivity. }
  intros h. unfold object_from_elf. cbn [shstrings strings elf_sections].
  (* sections *)
  assert (GS : get_sections (section_strings o) l 0 = Ok (map plain_section (sections o), -1 :: map Z.of_nat (seq 0 (length (sections o))) ++ repeat (-1) (length (st :: rl ++ [a; b])))).
  { rewrite EL. cbn [get_sections]. rewrite N1. cbn [Z.eqb SHT_NULL SHT_PROGBITS].
    rewrite (get_sections_progbits (section_strings o) (sections o) pb (st :: rl ++ [a; b]) FP) with (r := []) (m := repeat (-1) (length (st :: rl ++ [a; b]))).
    - cbn [Base.bind]. rewrite app_nil_r. reflexivity.
    - eapply Forall_impl; [|exact WS]. intros s (C & _). exact C.
    - apply get_sections_other. apply Forall_cons; [rewrite S1; discriminate|]. apply Forall_app. split; [apply NTR; discriminate|].
      apply Forall_cons; [rewrite A1; discriminate|]. apply Forall_cons; [rewrite B1; discriminate|apply Forall_nil]. }
  rewrite GS. cbn [Base.bind].
  set (smap := -1 :: map Z.of_nat (seq 0 (length (sections o))) ++ repeat (-1) (length (st :: rl ++ [a; b]))).
  (* symbols *)
  pose proof (elf_size_parts o) as EZ.
  assert (Q1 : 0 <= sum (map (fun s => len (sec_data s)) (sections o))) by (apply sum_map_nonneg; intros; apply len_nonneg).
  assert (Q2 : 0 <= sum (map (fun s => 24 * len (sec_relocations s)) (sections o))) by (apply sum_map_nonneg; intros; unfold len; lia).
  assert (LSB : len (symbol_strings o) < 2 ^ 32). { pose proof (len_nonneg (section_strings o)). unfold len in *. lia. }
  assert (GT : get_symbol_tables l (symbol_strings o) smap [] None = Ok (local_first (symbols o), Some (symbol_map o))).
  { rewrite EL. change (null :: pb ++ st :: rl ++ [a; b]) with ((null :: pb) ++ st :: rl ++ [a; b]).
    rewrite get_tables_skip by (apply Forall_cons; [rewrite N1; discriminate|apply NTP; discriminate]). cbn [get_symbol_tables]. rewrite S1, Z.eqb_refl, S3. cbn [Z.eqb].
    assert (SS : sh_size (es_header st) = len (es_data st)). { rewrite Forall_forall in HS. apply HS. rewrite EL. right. apply in_or_app. right. left. reflexivity. }
    rewrite SS, S4. pose proof (symtab_blocks_ok o pl SW) as BO. pose proof (symtab_blocks_length o pl SW) as BL.
    assert (EC : Z.to_nat (len (concat (symtab_blocks o pl)) / 24) = (1 + length (sections o) + length (symbols o))%nat).
    { unfold len. rewrite blocks_length by exact BO. rewrite BL, Nat2Z.inj_mul, Z.mul_comm, Z.div_mul by lia. apply Nat2Z.id. }
    rewrite EC. change (Z.to_nat 24) with 24%nat. destruct SW as [P1 P2].
    assert (OKB : bytes_ok (concat (symtab_blocks o pl))).
    { apply bytes_ok_concat. unfold symtab_blocks. apply Forall_cons; [apply repeat0_ok|]. apply Forall_app. split; [unfold section_entries; apply Forall_map, Forall_forall; intros; apply entry_bytes_ok|].
      assert (PO : forall bb, Forall bytes_ok (map snd (pick bb pl))). { intros bb. apply Forall_map. unfold pick. apply Forall_forall. intros p I. apply filter_In in I. destruct I as [I _]. rewrite Forall_forall in P2. destruct (P2 p I) as (? & ? & _ & -> & _). apply entry_bytes_ok. }
      apply Forall_app. split; apply PO. }
    pose proof (pick_lengths pl) as PLL. assert (PLN : length pl = length (symbols o)) by (rewrite <- P1, map_length; reflexivity).
    replace (1 + length (sections o) + length (symbols o) - 1)%nat with (length (section_entries (sections o) 0) + (length (pick false pl ++ pick true pl) + 0))%nat by (rewrite section_entries_length, app_length; lia).
    change 1%nat with (length [repeat 0 24]) at 1.
    rewrite (get_symbols_section_entries _ _ _ (section_entries (sections o) 0) [repeat 0 24] (map snd (pick false pl ++ pick true pl))).
    2: { unfold symtab_blocks. rewrite map_app. reflexivity. } 2: { rewrite map_app. exact BO. } 2: { exact OKB. }
    2: { unfold section_entries. apply Forall_map, Forall_forall. intros. eexists _, _, _. reflexivity. }
    assert (LSE : (length [repeat 0%Z 24] + length (section_entries (sections o) 0))%nat = length ([repeat 0%Z 24] ++ section_entries (sections o) 0)) by (rewrite app_length; reflexivity).
    rewrite LSE. unfold smap.
    rewrite (get_symbols_entries _ _ (length (sections o)) (repeat (-1) (length (st :: rl ++ [a; b]))) ltac:(unfold len in *; lia) LSB (pick false pl ++ pick true pl) ([repeat 0 24] ++ section_entries (sections o) 0) []).
    2: { unfold symtab_blocks. rewrite map_app, app_nil_r. reflexivity. } 2: { rewrite map_app, app_nil_r. exact BO. } 2: { exact OKB. }
    2: { apply Forall_app. split; unfold pick; apply Forall_forall; intros p I; apply filter_In in I; rewrite Forall_forall in P2; apply P2; apply I. }
    2: { rewrite map_app, !(map_fst_pick _ pl (symbols o) P1). apply Forall_app. split; apply Forall_forall; intros y I; apply filter_In in I; rewrite Forall_forall in WY; destruct (WY y (proj1 I)) as (Y1 & Y2 & Y3 & Y4); (split; [exact Y1|split; [exact Y2|split; [exact Y3|exact Y4]]]). }
    cbn [get_symbols Base.bind app]. rewrite get_tables_other.
    2: { apply Forall_app. split; [apply NTR; discriminate|]. apply Forall_cons; [rewrite A1; discriminate|]. apply Forall_cons; [rewrite B1; discriminate|apply Forall_nil]. }
    f_equal. f_equal.
    - rewrite map_app, !(map_fst_pick _ pl (symbols o) P1). unfold local_first. f_equal; apply filter_ext; intros y; destruct (sym_global y); reflexivity.
    - unfold symbol_map. rewrite section_entries_length, app_length, PLL, PLN. cbn [repeat app length]. reflexivity. }
  rewrite GT. cbn [Base.bind].
  rewrite EL. change (null :: pb ++ st :: rl ++ [a; b]) with ((null :: pb) ++ st :: rl ++ [a; b]).
  rewrite add_relocation_skip by (apply Forall_cons; [rewrite N1; discriminate|apply NTP; discriminate]). cbn [add_relocation_sections]. rewrite S1. cbn [Z.eqb SHT_SYMTAB SHT_RELA].
  pose proof (add_relocation_rebuild (symbol_positions o) (symbol_map o) smap [a; b] (length (sections o)) (sections o) rl []) as AR. cbn [app length] in AR.
  rewrite AR; clear AR.
  - destruct (rebuild (symbol_positions o) (symbol_map o) (sections o)); try reflexivity. cbn [Base.bind add_relocation_sections]. rewrite A1, B1. reflexivity.
  - exact FR.
  - rewrite Forall_forall in HS |- *. intros e I. apply HS. rewrite EL. right. apply in_or_app. right. right. apply in_or_app. left. exact I.
  - eapply Forall_impl; [|exact WS]. intros s (_ & _ & _ & _ & R). eapply Forall_impl; [|exact R]. intros r (_ & R1 & R2). split; assumption.
  - lia.
  - intros k K. unfold smap, get. cbn [nth_error]. rewrite nth_error_app1 by (rewrite map_length, seq_length; exact K). rewrite nth_error_map, (nth_error_nth' _ 0%nat) by (rewrite seq_length; exact K). rewrite seq_nth by exact K. reflexivity.
Qed.

(** * What comes back *)
(** The reader keeps the low 16 bits of the index of a symbol in the file;
    symbol 0 and the symbols of sections are not symbols of an object. *)
Definition file_index (o : object) (i : nat) : Z := 1 + len (sections o) + Z.of_nat (rank (symbols o) i).
Definition index_read (o : object) (i : nat) : Z := file_index o i mod 2 ^ 16 - (1 + len (sections o)).
Lemma back_read o r : (r_idx r < length (symbols o))%nat ->
  back (symbol_positions o) (symbol_map o) r =
  if 0 <=? index_read o (r_idx r) then Ok {| r_type := r_type r; r_idx := Z.to_nat (index_read o (r_idx r)); r_offset := r_offset r; r_add := r_add r |} else Undef.
Proof.
  intros L. unfold back. rewrite positions_rank by exact L. pose proof (rank_lt o (r_idx r) L) as RL.
  assert (E : Z.of_nat (1 + length (sections o) + rank (symbols o) (r_idx r)) = file_index o (r_idx r)) by (unfold file_index, len; lia).
  rewrite E. unfold index_read. assert (B : 0 <= file_index o (r_idx r) mod 2 ^ 16 <= file_index o (r_idx r)).
  { assert (0 <= file_index o (r_idx r)) by (unfold file_index, len; lia). split; [apply Z.mod_pos_bound; lia|apply Z.mod_le; lia]. }
  unfold symbol_map. set (k := file_index o (r_idx r) mod 2 ^ 16) in *. destruct (Z.leb_spec 0 (k - (1 + len (sections o)))) as [G|G]; unfold len in *.
  - rewrite nth_error_app2 by (rewrite repeat_length; lia). rewrite repeat_length, nth_error_map.
    replace (Z.to_nat k - S (length (sections o)))%nat with (Z.to_nat (k - (1 + Z.of_nat (length (sections o))))) by lia.
    rewrite (nth_error_nth' _ 0%nat) by (rewrite seq_length; unfold file_index, len in B; lia). rewrite seq_nth by (unfold file_index, len in B; lia). reflexivity.
  - rewrite nth_error_app1 by (rewrite repeat_length; lia). rewrite (nth_error_nth' _ None) by (rewrite repeat_length; lia). rewrite nth_repeat. reflexivity.
Qed.
Definition relocation_read (o : object) (r : relocation) : relocation :=
  {| r_type := r_type r; r_idx := Z.to_nat (index_read o (r_idx r)); r_offset := r_offset r; r_add := r_add r |}.
Definition section_read (o : object) (s : section) : section :=
  {| sec_name := sec_name s; sec_alignment := 0; sec_data := sec_data s; sec_relocations := map (relocation_read o) (sec_relocations s) |}.
Definition all_relocations (o : object) : list relocation := concat (map sec_relocations (sections o)).
Lemma back_all_read o l : Forall (fun r => (r_idx r < length (symbols o))%nat) l ->
  back_all (symbol_positions o) (symbol_map o) l = if forallb (fun r => 0 <=? index_read o (r_idx r)) l then Ok (map (relocation_read o) l) else Undef.
Proof.
  induction 1 as [|r t H F IH]; cbn [back_all forallb map]; [reflexivity|]. rewrite back_read by exact H. destruct (0 <=? index_read o (r_idx r)); [|reflexivity].
  cbn [Base.bind andb]. rewrite IH. destruct (forallb _ t); reflexivity.
Qed.
Lemma rebuild_read o l : Forall (fun s => Forall (fun r => (r_idx r < length (symbols o))%nat) (sec_relocations s)) l ->
  rebuild (symbol_positions o) (symbol_map o) l = if forallb (fun r => 0 <=? index_read o (r_idx r)) (concat (map sec_relocations l)) then Ok (map (section_read o) l) else Undef.
Proof.
  induction 1 as [|s t H F IH]; cbn [rebuild map concat]; [reflexivity|]. rewrite back_all_read by exact H. rewrite forallb_app. destruct (forallb _ (sec_relocations s)); [|reflexivity].
  cbn [Base.bind andb]. rewrite IH. destruct (forallb _ (concat (map sec_relocations t))); reflexivity.
Qed.
Lemma read_written fill o : writable_object o ->
  exists file, elf_write_object fill o = Ok file /\ len file = elf_size o /\
    elf_read_object file = if forallb (fun r => 0 <=? index_read o (r_idx r)) (all_relocations o)
                           then Ok (Some {| sections := map (section_read o) (sections o); symbols := local_first (symbols o) |}) else Undef.
Proof.
  intros W. destruct (from_object_ok fill o W) as (elf & pl & E1 & E2 & E3 & E4 & E5 & E6 & E7).
  exists (file_bytes elf). unfold elf_write_object. rewrite E1. cbn [Base.bind]. split; [apply elf_write_bytes; exact E2|]. split; [exact E7|].
  unfold elf_read_object. rewrite elf_read_bytes by assumption. cbv zeta.
  destruct (read_shape o pl (map sized (elf_sections elf)) W E5 E6) as ((st & F1 & F2) & F3 & F4). { apply Forall_map, Forall_forall. reflexivity. }
  rewrite E4, F3. rewrite (proj2 (Z.eqb_neq _ 0)) by (unfold len; lia). cbn [Base.bind]. rewrite F1. cbn [Base.bind]. subst st. rewrite F4.
  rewrite rebuild_read. 2: { destruct W as (WS & _). eapply Forall_impl; [|exact WS]. intros s (_ & _ & _ & _ & R). eapply Forall_impl; [|exact R]. intros r (I & _). exact I. }
  unfold all_relocations. destruct (forallb _ _); reflexivity.
Qed.

(** * Theorems *)
(** With at most 2^16 symbols in the file, reading gives the object back: the
    same names, contents, symbols and relocations, the symbols with the local
    ones first and the relocations following them. Only alignments are lost. *)
Theorem C48_round_trip_partial : forall fill o, writable_object o -> len (sections o) + len (symbols o) + 1 <= 2 ^ 16 ->
  exists file, elf_write_object fill o = Ok file /\ elf_read_object file = Ok (Some (returned o)) /\ renaming o.
Proof.
  intros fill o W N. destruct (read_written fill o W) as (file & E1 & _ & E2). exists file. split; [exact E1|]. split; [|apply rank_renaming]. rewrite E2.
  assert (IX : forall i, (i < length (symbols o))%nat -> index_read o i = Z.of_nat (rank (symbols o) i)).
  { intros i L. pose proof (rank_lt o i L). unfold index_read, file_index, len in *. rewrite Z.mod_small by lia. lia. }
  destruct W as (WS & _).
  assert (RI : forall r, In r (all_relocations o) -> (r_idx r < length (symbols o))%nat).
  { intros r I. unfold all_relocations in I. apply in_concat in I. destruct I as (l & I1 & I2). apply in_map_iff in I1. destruct I1 as (s & <- & I1).
    rewrite Forall_forall in WS. destruct (WS s I1) as (_ & _ & _ & _ & R). rewrite Forall_forall in R. apply (R r I2). }
  assert (FB : forallb (fun r => 0 <=? index_read o (r_idx r)) (all_relocations o) = true). { apply forallb_forall. intros r I. rewrite (IX _ (RI r I)). apply Z.leb_le. lia. }
  rewrite FB. unfold returned. do 3 f_equal. apply map_ext_in. intros s I. unfold section_read, returned_section. f_equal. apply map_ext_in. intros r J.
  assert (IA : In r (all_relocations o)). { apply in_concat. exists (sec_relocations s). split; [apply in_map; exact I|exact J]. }
  unfold relocation_read, moved_relocation. rewrite (IX _ (RI r IA)), Nat2Z.id. reflexivity.
Qed.
Print Assumptions C48_round_trip_partial.

(** No alignment survives: the full statement fails for every object with an aligned section. *)
Theorem C48_alignment_refuted : forall fill o s, writable_object o -> len (sections o) + len (symbols o) + 1 <= 2 ^ 16 ->
  In s (sections o) -> sec_alignment s <> 0 ->
  exists file o' s', elf_write_object fill o = Ok file /\ elf_read_object file = Ok (Some o') /\ In s' (sections o') /\ sec_name s' = sec_name s /\ sec_alignment s' = 0.
Proof.
  intros fill o s W N I A. destruct (C48_round_trip_partial fill o W N) as (file & E1 & E2 & _). exists file, (returned o), (returned_section o s).
  split; [exact E1|]. split; [exact E2|]. split; [|split; reflexivity]. cbn [returned sections]. apply in_map. exact I.
Qed.
Print Assumptions C48_alignment_refuted.

(** Past 2^16 symbols a relocation comes back with the index of its symbol in
    the file cut to 16 bits: it names another symbol of the object, or, when
    the cut index is that of no symbol of the object, an entry of a table that was never written. *)
Theorem C48_many_symbols_refuted : forall fill o, writable_object o ->
  exists file, elf_write_object fill o = Ok file /\
    ((forall r, In r (all_relocations o) -> 0 <= index_read o (r_idx r)) ->
       exists o', elf_read_object file = Ok (Some o') /\
         Forall2 (fun s s' => Forall2 (fun r r' => Z.of_nat (r_idx r') = index_read o (r_idx r)) (sec_relocations s) (sec_relocations s')) (sections o) (sections o')) /\
    (forall r, In r (all_relocations o) -> index_read o (r_idx r) < 0 -> elf_read_object file = Undef).
Proof.
  intros fill o W. destruct (read_written fill o W) as (file & E1 & _ & E2). exists file. split; [exact E1|]. rewrite E2. split.
  - intros H. assert (FB : forallb (fun r => 0 <=? index_read o (r_idx r)) (all_relocations o) = true) by (apply forallb_forall; intros r I; apply Z.leb_le; auto).
    rewrite FB. eexists. split; [reflexivity|]. cbn [sections].
    assert (G : forall l, (forall s, In s l -> In s (sections o)) -> Forall2 (fun s s' => Forall2 (fun r r' => Z.of_nat (r_idx r') = index_read o (r_idx r)) (sec_relocations s) (sec_relocations s')) l (map (section_read o) l)).
    { induction l as [|s t IH]; intros S; cbn [map]; constructor; [|apply IH; intros; apply S; right; assumption]. cbn [section_read sec_relocations].
      assert (K : forall k, (forall r, In r k -> 0 <= index_read o (r_idx r)) -> Forall2 (fun r r' => Z.of_nat (r_idx r') = index_read o (r_idx r)) k (map (relocation_read o) k)).
      { induction k as [|r k IK]; intros Q; cbn [map]; constructor; [|apply IK; intros; apply Q; right; assumption]. cbn [relocation_read r_idx]. rewrite Z2Nat.id; [reflexivity|]. apply Q. left. reflexivity. }
      apply K. intros r I. apply H. apply in_concat. exists (sec_relocations s). split; [apply in_map, S; left; reflexivity|exact I]. }
    apply G. auto.
  - intros r I L. destruct (forallb (fun r => 0 <=? index_read o (r_idx r)) (all_relocations o)) eqn:F; [|reflexivity]. rewrite forallb_forall in F. specialize (F r I). apply Z.leb_le in F. lia.
Qed.
Print Assumptions C48_many_symbols_refuted.

(** A concrete object: a function calling an external one, data, a string. *)
Definition example_object : object :=
  {| sections := [{| sec_name := chars ".text"; sec_alignment := 0; sec_data := [232; 0; 0; 0; 0; 195];
                     sec_relocations := [{| r_type := RELOCATE_32_RELATIVE; r_idx := 1; r_offset := 1; r_add := -4 |}] |};
                  {| sec_name := chars ".data"; sec_alignment := 8; sec_data := [1; 2; 3; 4; 5; 6; 7; 8];
                     sec_relocations := [{| r_type := RELOCATE_64; r_idx := 2; r_offset := 0; r_add := 3 |}] |}];
     symbols := [{| sym_name := Some (chars "main"); sym_value := 0; sym_size := 0; sym_global := true; sym_section := 0 |};
                 {| sym_name := Some (chars "puts"); sym_value := 0; sym_size := 0; sym_global := true; sym_section := -1 |};
                 {| sym_name := Some (chars ".LC0"); sym_value := 4; sym_size := 0; sym_global := false; sym_section := 1 |}] |}.
Example C48_hypotheses : writable_object example_object /\ len (sections example_object) + len (symbols example_object) + 1 <= 2 ^ 16.
Proof.
  assert (C : forall l, forallb (fun b => (0 <? b) && (b <? 256)) l = true -> is_c_string l).
  { intros l H. apply Forall_forall. intros b I. rewrite forallb_forall in H. specialize (H b I). lia. }
  assert (B : forall l, forallb (fun b => (0 <=? b) && (b <? 256)) l = true -> bytes_ok l).
  { intros l H. apply Forall_forall. intros b I. rewrite forallb_forall in H. specialize (H b I). unfold is_byte. lia. }
  split; [|vm_compute; discriminate]. unfold writable_object. split; [|split; [|split; [vm_compute; reflexivity|vm_compute; reflexivity]]].
  - repeat apply Forall_cons; try apply Forall_nil; (split; [apply C; reflexivity|split; [vm_compute; discriminate|split; [apply B; reflexivity|split; [unfold u64; cbn [sec_alignment]; lia|]]]]);
      (apply Forall_cons; [|apply Forall_nil]); unfold relocation_writable, u64; cbn [r_idx r_offset r_add example_object symbols length]; lia.
  - repeat apply Forall_cons; try apply Forall_nil; (split; [eexists; split; [reflexivity|apply C; reflexivity]|]); unfold u64, len; cbn [sym_value sym_size sym_section example_object sections length]; lia.
Qed.
Example C48_example :
  match elf_write_object 7 example_object with
  | Ok file => elf_read_object file =
      Ok (Some {| sections := [{| sec_name := chars ".text"; sec_alignment := 0; sec_data := [232; 0; 0; 0; 0; 195];
                                  sec_relocations := [{| r_type := RELOCATE_32_RELATIVE; r_idx := 2; r_offset := 1; r_add := -4 |}] |};
                               {| sec_name := chars ".data"; sec_alignment := 0; sec_data := [1; 2; 3; 4; 5; 6; 7; 8];
                                  sec_relocations := [{| r_type := RELOCATE_64; r_idx := 0; r_offset := 0; r_add := 3 |}] |}];
                  symbols := [{| sym_name := Some (chars ".LC0"); sym_value := 4; sym_size := 0; sym_global := false; sym_section := 1 |};
                              {| sym_name := Some (chars "main"); sym_value := 0; sym_size := 0; sym_global := true; sym_section := 0 |};
                              {| sym_name := Some (chars "puts"); sym_value := 0; sym_size := 0; sym_global := true; sym_section := -1 |}] |})
  | _ => False
  end.
Proof. vm_compute. reflexivity. Qed.
