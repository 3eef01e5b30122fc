(** The sections elf_from_object makes, all together. *)
From Coq Require Import String.
From Verif Require Import Base CharTypes Common Bytes BytesSpec BytesProofs Object Elf ElfSpec ElfProofs ElfBuild.
Local Open Scope Z_scope.
Local Open Scope list_scope.

Lemma len_app {A} (a b : list A) : len (a ++ b) = len a + len b.
Proof. unfold len. rewrite app_length. lia. Qed.
Lemma len_nonneg {A} (a : list A) : 0 <= len a.
Proof. unfold len. lia. Qed.
Lemma sum_app a b : sum (a ++ b) = sum a + sum b.
Proof. induction a; cbn; [reflexivity|]. unfold sum in *. lia. Qed.
Lemma sum_nonneg l : Forall (fun x => 0 <= x) l -> 0 <= sum l.
Proof. induction 1; cbn; [lia|]. unfold sum in *. lia. Qed.
Lemma len_concat_map {A} (f : A -> list Z) l : len (concat (map f l)) = sum (map (fun x => len (f x)) l).
Proof. induction l; cbn [map concat]; [reflexivity|]. rewrite len_app, IHl. reflexivity. Qed.
Lemma pick_lengths pl : (length (pick false pl) + length (pick true pl) = length pl)%nat.
Proof. unfold pick. induction pl as [|p t IH]; cbn [filter length]; [reflexivity|]. destruct (sym_global (fst p)); cbn [Bool.eqb length]; lia. Qed.
Lemma pick_ok T pl b : Forall (fun p => entry_of T (fst p) (snd p)) pl -> blocks_ok (map snd (pick b pl)).
Proof.
  intros F. unfold blocks_ok. apply Forall_map. unfold pick. apply Forall_forall. intros p I. apply filter_In in I. destruct I as [I _].
  rewrite Forall_forall in F. destruct (F p I) as (n & off & _ & -> & _). apply entry_length.
Qed.

(** The whole table of section names. *)
Definition section_strings (o : object) : list Z :=
  ((([0] ++ section_names (sections o)) ++ chars ".symtab" ++ [0]) ++ rela_names (sections o)) ++ (chars ".strtab" ++ [0]) ++ (chars ".shstrtab" ++ [0]).
Definition symbol_strings (o : object) : list Z := [0] ++ names_bytes (symbols o).
Definition symbol_positions (o : object) : list nat :=
  positions (symbols o) (1 + length (sections o)) (1 + length (sections o) + length (filter (fun y => negb (sym_global y)) (symbols o))).
Definition symtab_blocks (o : object) (pl : list (symbol * list Z)) : list (list Z) :=
  repeat 0 24 :: section_entries (sections o) 0 ++ map snd (pick false pl) ++ map snd (pick true pl).

(** The sections as the reader sees them. *)
Definition progbits_read (T : list Z) (s : section) (e : elf_section) : Prop :=
  sh_type (es_header e) = SHT_PROGBITS /\ named T (sh_name (es_header e)) (sec_name s) /\ es_data e = sec_data s.
Definition rela_read (mapping : list nat) (p : nat * section) (e : elf_section) : Prop :=
  sh_type (es_header e) = SHT_RELA /\ sh_info (es_header e) = Z.of_nat (S (fst p)) /\ sh_entsize (es_header e) = 24 /\
  es_data e = concat (map (rela_of mapping) (sec_relocations (snd p))).
Definition shape (o : object) (pl : list (symbol * list Z)) (l : list elf_section) : Prop :=
  exists null pb st rl a b, l = null :: pb ++ st :: rl ++ [a; b] /\
    (sh_type (es_header null) = SHT_NULL /\ es_data null = []) /\
    Forall2 (progbits_read (section_strings o)) (sections o) pb /\
    (sh_type (es_header st) = SHT_SYMTAB /\ sh_link (es_header st) = 2 * len (sections o) + 2 /\ sh_entsize (es_header st) = 24 /\ es_data st = concat (symtab_blocks o pl)) /\
    Forall2 (rela_read (symbol_positions o)) (combine (seq 0 (length (sections o))) (sections o)) rl /\
    (sh_type (es_header a) = SHT_STRTAB /\ es_data a = symbol_strings o) /\
    (sh_type (es_header b) = SHT_STRTAB /\ es_data b = section_strings o).
Definition symbols_written (o : object) (pl : list (symbol * list Z)) : Prop :=
  map fst pl = symbols o /\ Forall (fun p => entry_of (symbol_strings o) (fst p) (snd p)) pl.

Lemma symtab_blocks_ok o pl : symbols_written o pl -> blocks_ok (symtab_blocks o pl).
Proof.
  intros [P1 P2]. unfold symtab_blocks. apply Forall_cons; [apply repeat_length|]. apply Forall_app. split; [apply section_entries_ok|].
  apply Forall_app. split; eapply pick_ok; exact P2.
Qed.
Lemma symtab_blocks_length o pl : symbols_written o pl -> length (symtab_blocks o pl) = (1 + length (sections o) + length (symbols o))%nat.
Proof.
  intros [P1 P2]. unfold symtab_blocks. cbn [length]. rewrite !app_length, !map_length, section_entries_length. rewrite <- P1, map_length. pose proof (pick_lengths pl). lia.
Qed.
Lemma names_bytes_len l : len (names_bytes l) = sum (map (fun y => name_size (sym_name y)) l).
Proof.
  unfold names_bytes. rewrite len_concat_map. f_equal. apply map_ext. intros y. destruct (sym_name y); cbn [name_size]; [|reflexivity]. rewrite len_app. reflexivity.
Qed.
Lemma section_names_len l : len (section_names l) = sum (map (fun s => len (sec_name s) + 1) l).
Proof. unfold section_names. rewrite len_concat_map. f_equal. apply map_ext. intros s. rewrite len_app. reflexivity. Qed.
Lemma rela_names_len l : len (rela_names l) = sum (map (fun s => 5 + len (sec_name s) + 1) l).
Proof. unfold rela_names. rewrite len_concat_map. f_equal. apply map_ext. intros s. rewrite !len_app. change (len (chars ".rela")) with 5. change (len [0]) with 1. lia. Qed.
Lemma positions_length l : forall a b, length (positions l a b) = length l.
Proof. induction l; intros; cbn; [reflexivity|]. rewrite IHl. reflexivity. Qed.

(** Pieces of the size of the file. *)
Lemma elf_size_parts o : elf_size o =
  64 + 64 * (2 * len (sections o) + 4) + sum (map (fun s => len (sec_data s)) (sections o)) +
  24 * (len (sections o) + len (symbols o) + 1) + sum (map (fun s => 24 * len (sec_relocations s)) (sections o)) +
  len (symbol_strings o) + len (section_strings o).
Proof.
  unfold elf_size, symbol_strings, section_strings. rewrite !len_app, names_bytes_len, section_names_len, rela_names_len.
  change (len (chars ".symtab")) with 7. change (len (chars ".strtab")) with 7. change (len (chars ".shstrtab")) with 9. change (len [0]) with 1. lia.
Qed.
Lemma sum_ge (l : list section) f x : (forall s, 0 <= f s) -> In x l -> f x <= sum (map f l).
Proof.
  intros P. induction l as [|y t IH]; cbn; [tauto|]. intros [<-|I].
  - assert (0 <= sum (map f t)). { apply sum_nonneg, Forall_map, Forall_forall. intros. apply P. } unfold sum in *. lia.
  - specialize (IH I). specialize (P y). unfold sum in *. lia.
Qed.
Lemma sum_map_nonneg {A} (f : A -> Z) l : (forall s, 0 <= f s) -> 0 <= sum (map f l).
Proof. intros P. apply sum_nonneg, Forall_map, Forall_forall. intros. apply P. Qed.

Lemma Forall2_in_r {A B} (R : A -> B -> Prop) l l' e : Forall2 R l l' -> In e l' -> exists s, In s l /\ R s e.
Proof. induction 1 as [|s e' l l' H F IH]; intros I; [destruct I|]. destruct I as [->|I]; [exists s; split; [left; reflexivity|exact H]|]. destruct (IH I) as (s' & A1 & B1). exists s'. split; [right; exact A1|exact B1]. Qed.
Lemma Forall2_compose {A B C D} (R : A -> B -> Prop) (Q : B -> C -> Prop) (P : A -> D -> Prop) (f : C -> D) l m : Forall2 R l m ->
  (forall a b c, R a b -> Q b c -> P a (f c)) -> forall n, Forall2 Q m n -> Forall2 P l (map f n).
Proof. intros F H. induction F; intros n G; inversion G; subst; cbn [map]; constructor; eauto. Qed.

Lemma from_object_ok fill o : writable_object o ->
  exists elf pl, elf_from_object fill o = Ok elf /\ allocated elf /\ elf_ok elf /\ e_shstrndx (header elf) = 2 * len (sections o) + 3 /\
    symbols_written o pl /\ shape o pl (map sized (elf_sections elf)) /\ Z.of_nat (length (file_bytes elf)) = elf_size o.
Proof.
  intros (WS & WY & SZ & NS).
  assert (SN : Forall (fun y => sym_name y <> None) (symbols o)). { eapply Forall_impl; [|exact WY]. intros y ((n & E & _) & _). congruence. }
  destruct (symtab_data fill o [0]) as (pl & P1 & P2 & P3); [discriminate|exact SN|].
  assert (SW : symbols_written o pl) by (split; assumption).
  destruct (add_progbits_spec (sections o) [0]) as (pb & EP & FP); [discriminate|].
  set (T1 := [0] ++ section_names (sections o)) in *. set (T2 := T1 ++ chars ".symtab" ++ [0]).
  destruct (add_relocations_spec fill (Z.of_nat (S (length (sections o)))) (symbol_positions o) (sections o) 0 T2) as (rl & ER & FR).
  { discriminate. }
  { eapply Forall_impl; [|exact WS]. intros s (_ & L & _ & _ & R). split; [exact L|]. eapply Forall_impl; [|exact R]. intros r (I & _). unfold symbol_positions. rewrite positions_length. exact I. }
  unfold elf_from_object. unfold register_string. cbn [snd length app]. cbv zeta in P3.
  rewrite EP. fold T2. fold (symbol_positions o) in P3. cbv zeta.
  destruct (clear (repeat fill ((length (sections o) + length (symbols o) + 1) * 24)) 0 24) as [d1| |]; try discriminate. cbn [Base.bind] in *.
  destruct (write_section_symbols (sections o) 0 d1) as [d2| |]; try discriminate. cbn [Base.bind] in *.
  cbn [Nat.add] in P3 |- *. rewrite P3. cbn [Base.bind].
  fold (symbol_strings o). change ([0] ++ names_bytes (symbols o)) with (symbol_strings o). fold (symtab_blocks o pl). rewrite ER. cbn [Base.bind].
  set (T3 := T2 ++ rela_names (sections o)) in *. set (T4 := T3 ++ chars ".strtab" ++ [0]).
  assert (ET : T4 ++ chars ".shstrtab" ++ [0] = section_strings o). { unfold T4, T3, T2, T1, section_strings. rewrite <- !app_assoc. reflexivity. }
  rewrite ET.
  assert (LP : length pb = length (sections o)). { clear -FP. induction FP; cbn; congruence. }
  assert (LR : length rl = length (sections o)). { transitivity (length (combine (seq 0 (length (sections o))) (sections o))); [|rewrite combine_length, seq_length; lia]. clear -FR. induction FR; cbn; congruence. }
  pose proof (elf_size_parts o) as EZ.
  assert (N1 : 0 <= sum (map (fun s => len (sec_data s)) (sections o))) by (apply sum_map_nonneg; intros; apply len_nonneg).
  assert (N2 : 0 <= sum (map (fun s => 24 * len (sec_relocations s)) (sections o))) by (apply sum_map_nonneg; intros; unfold len; lia).
  assert (DP : sum (map (fun s => len (es_data s)) pb) = sum (map (fun s => len (sec_data s)) (sections o))).
  { clear -FP. induction FP as [|s e l l' H F IH]; [reflexivity|]. cbn [map sum fold_right]. destruct H as (_ & -> & _). unfold sum in *. lia. }
  assert (DR : sum (map (fun s => len (es_data s)) rl) = sum (map (fun s => 24 * len (sec_relocations s)) (sections o))).
  { assert (G : forall i l l', Forall2 (rela_section_of T3 (Z.of_nat (S (length (sections o)))) (symbol_positions o)) (combine (seq i (length l)) l) l' ->
        sum (map (fun s => len (es_data s)) l') = sum (map (fun s => 24 * len (sec_relocations s)) l)).
    { clear. intros i l. revert i. induction l as [|s t IH]; intros i l' F; cbn [length seq combine] in F; inversion F; subst; [reflexivity|].
      cbn [map sum fold_right]. match goal with H : rela_section_of _ _ _ _ _ |- _ => destruct H as (_ & _ & E) end. rewrite E. cbn [snd].
      match goal with H : Forall2 _ (combine _ _) _ |- _ => pose proof (IH _ _ H) as Q end. unfold sum in *. rewrite Q.
      unfold len at 1. rewrite (concat_length_const _ 24) by (intros; apply rela_length). unfold len. lia. }
    exact (G 0%nat (sections o) rl FR). }
  assert (DS : len (concat (symtab_blocks o pl)) = 24 * (len (sections o) + len (symbols o) + 1)).
  { unfold len. rewrite blocks_length by (apply symtab_blocks_ok; exact SW). rewrite symtab_blocks_length by exact SW. lia. }
  match goal with |- context [elf_allocate_sections {| header := ?h; shstrings := ?a; strings := ?b; elf_sections := ?n :: ?t; elf_segments := [] |}] =>
    set (null := n); set (tl := t); set (elf0 := {| header := h; shstrings := a; strings := b; elf_sections := n :: t; elf_segments := [] |}) end.
  assert (TS : 64 + 64 * len (null :: tl) + sum (map (fun s => len (es_data s)) tl) = elf_size o).
  { unfold tl. rewrite map_app, sum_app. cbn [map]. change (sum (?x :: ?y)) with (x + sum y).
    change (sum (map ?f ?r)) with (sum (map f r)).
    cbn [map sum fold_right es_data]. fold (sum (map (fun s => len (es_data s)) (rl ++ [{| es_header := new_header (Z.of_nat (length T3)) SHT_STRTAB; es_data := symbol_strings o |}; {| es_header := new_header (Z.of_nat (length T4)) SHT_STRTAB; es_data := section_strings o |}]))).
    rewrite map_app, sum_app. cbn [map sum fold_right es_data]. fold (sum (map (fun s => len (es_data s)) rl)). rewrite DP, DR, DS.
    assert (LL : len (null :: pb ++ {| es_header := {| sh_name := Z.of_nat (length T1); sh_type := SHT_SYMTAB; sh_flags := 0; sh_addr := 0; sh_offset := 0; sh_size := 0; sh_link := Z.of_nat (S (length (sections o) + 1 + length (sections o))); sh_info := Z.of_nat (S (count_local (symbols o) + length (sections o))); sh_addralign := 0; sh_entsize := 24 |}; es_data := concat (symtab_blocks o pl) |}
       :: rl ++ [{| es_header := new_header (Z.of_nat (length T3)) SHT_STRTAB; es_data := symbol_strings o |}; {| es_header := new_header (Z.of_nat (length T4)) SHT_STRTAB; es_data := section_strings o |}]) = 2 * len (sections o) + 4).
    { unfold len. cbn [length]. rewrite app_length. cbn [length]. rewrite app_length. cbn [length]. lia. }
    rewrite LL. lia. }
  destruct (allocate_ok elf0 null tl) as (elf' & E1 & E2 & E3 & t' & E4 & E5); try reflexivity. { rewrite TS. lia. }
  exists elf', pl. split; [exact E1|]. split; [exact E2|].
  assert (LT : length t' = length tl). { clear -E5. induction E5; cbn; congruence. }
  assert (LTL : length tl = (2 * length (sections o) + 3)%nat). { unfold tl. rewrite app_length. cbn [length]. rewrite app_length. cbn [length]. lia. }
  assert (LS : len (elf_sections elf') = 2 * len (sections o) + 4). { rewrite E4. unfold len. cbn [length]. rewrite LT, LTL. lia. }
  assert (LSS : 0 <= len (section_strings o) < 2 ^ 31). { split; [apply len_nonneg|]. pose proof (len_nonneg (symbol_strings o)). unfold len in *. lia. }
  (* headers *)
  assert (HK : Forall (fun s => header_ok (es_header s) /\ 0 <= len (es_data s) < 2 ^ 31) tl).
  { unfold tl. apply Forall_app. split; [|apply Forall_cons; [|apply Forall_app; split; [|apply Forall_cons; [|apply Forall_cons; [|apply Forall_nil]]]]].
    - apply Forall_forall. intros e I. destruct (In_nth_error _ _ I) as (k & K).
      assert (exists s, In s (sections o) /\ progbits_of T1 s e) as (s & IS & PS).
      { exact (Forall2_in_r _ _ _ _ FP I). }
      destruct PS as ((R1 & _) & DE & HE). rewrite HE. cbn [es_header]. rewrite DE. rewrite Forall_forall in WS. destruct (WS s IS) as (_ & _ & _ & AL & _). unfold u64 in AL.
      assert (len T1 <= len (section_strings o)). { unfold section_strings. fold T1. rewrite !len_app. unfold len. lia. }
      pose proof (sum_ge (sections o) (fun s => len (sec_data s)) s (fun _ => len_nonneg _) IS) as Q. cbn beta in Q.
      split; [unfold header_ok; cbn [sh_name sh_type sh_flags sh_addr sh_offset sh_link sh_info sh_addralign sh_entsize]; unfold SHT_PROGBITS; lia|].
      split; [apply len_nonneg|]. pose proof (len_nonneg (symbol_strings o)). unfold len in *. lia.
    - cbn [es_header es_data]. assert (len T1 <= len (section_strings o)). { unfold section_strings. fold T1. rewrite !len_app. unfold len. lia. }
      assert (count_local (symbols o) <= length (symbols o))%nat. { clear. induction (symbols o) as [|y t IH]; cbn; [lia|]. destruct (sym_global y); lia. }
      split; [unfold header_ok; cbn [sh_name sh_type sh_flags sh_addr sh_offset sh_link sh_info sh_addralign sh_entsize]; unfold SHT_SYMTAB, len in *; lia|].
      rewrite DS. pose proof (len_nonneg (symbol_strings o)). unfold len in *; lia.
    - apply Forall_forall. intros e I.
      assert (exists p, In p (combine (seq 0 (length (sections o))) (sections o)) /\ rela_section_of T3 (Z.of_nat (S (length (sections o)))) (symbol_positions o) p e) as (p & IP & PS).
      { exact (Forall2_in_r _ _ _ _ FR I). }
      destruct PS as (R1 & HE & DE). rewrite HE. cbn [es_header]. rewrite DE. destruct p as [k s]. pose proof (in_combine_l _ _ _ _ IP) as I1. pose proof (in_combine_r _ _ _ _ IP) as I2. apply in_seq in I1.
      assert (len T3 <= len (section_strings o)). { rewrite <- ET. unfold T4. rewrite !len_app. unfold len. lia. }
      pose proof (sum_ge (sections o) (fun s => 24 * len (sec_relocations s)) s ltac:(intros; unfold len; lia) I2) as Q. cbn beta in Q.
      split; [unfold header_ok; cbn [sh_name sh_type sh_flags sh_addr sh_offset sh_link sh_info sh_addralign sh_entsize fst]; unfold SHT_RELA, len in *; lia|].
      split; [apply len_nonneg|]. cbn [snd]. unfold len at 1. rewrite (concat_length_const _ 24) by (intros; apply rela_length). pose proof (len_nonneg (symbol_strings o)). unfold len in *. lia.
    - cbn [es_header es_data]. assert (len T3 <= len (section_strings o)). { rewrite <- ET. unfold T4. rewrite !len_app. unfold len. lia. }
      split; [unfold header_ok, new_header; cbn [sh_name sh_type sh_flags sh_addr sh_offset sh_link sh_info sh_addralign sh_entsize]; unfold SHT_STRTAB, len in *; lia|].
      split; [apply len_nonneg|]. unfold len in *. lia.
    - cbn [es_header es_data]. assert (len T4 <= len (section_strings o)). { rewrite <- ET. rewrite !len_app. unfold len. lia. }
      split; [unfold header_ok, new_header; cbn [sh_name sh_type sh_flags sh_addr sh_offset sh_link sh_info sh_addralign sh_entsize]; unfold SHT_STRTAB, len in *; lia|].
      split; [apply len_nonneg|]. unfold len in *. lia. }
  split.
  { unfold elf_ok. rewrite LS, E3. cbn [e_type e_entry e_phoff e_shstrndx header elf0]. unfold ET_REL.
    split; [exact NS|]. split; [lia|]. split; [lia|]. split; [lia|]. split; [unfold len in *; lia|]. rewrite E4. apply Forall_cons.
    - split; [unfold header_ok, null, new_header; cbn [es_header sh_name sh_type sh_flags sh_addr sh_offset sh_link sh_info sh_addralign sh_entsize]; unfold SHT_NULL; lia|change (len (es_data null)) with 0; lia].
    - clear -HK E5. induction E5 as [|s s' l l' (x & X & ->) F IH]; [constructor|]. inversion HK as [|? ? [H1 H2] H3]; subst. constructor; [|exact (IH H3)].
      cbn [with_offset es_header es_data]. split; [|lia]. unfold header_ok in *. cbn [es_header sh_name sh_type sh_flags sh_addr sh_offset sh_link sh_info sh_addralign sh_entsize]. intuition lia. }
  split. { rewrite E3. unfold elf0, len; cbn [header e_shstrndx]; lia. }
  split; [exact SW|]. split.
  - unfold tl in E5. apply Forall2_app_inv_l in E5. destruct E5 as (pb' & r1 & F1 & F2 & ->). inversion F2 as [|? st' ? r2 (x1 & X1 & S1) F3]; subst. apply Forall2_app_inv_l in F3.
    destruct F3 as (rl' & r3 & F4 & F5 & ->). inversion F5 as [|? a' ? r4 (x2 & X2 & S2) F6]; subst. inversion F6 as [|? b' ? r5 (x3 & X3 & S3) F7]; subst. inversion F7; subst. clear F2 F5 F6 F7.
    rewrite E4. cbn [map]. rewrite map_app. cbn [map]. rewrite map_app. cbn [map].
    eexists _, _, _, _, _, _. split; [reflexivity|]. split; [split; reflexivity|]. split; [|split; [|split; [|split]]].
    + refine (Forall2_compose _ _ _ _ _ _ FP _ _ F1). intros s e e' (H1 & H2 & H3) (x & X & ->).
      unfold progbits_read. cbn [sized es_header sized_header sh_type sh_name with_offset es_data]. rewrite H3 at 1. cbn [sh_type]. split; [reflexivity|]. split; [|exact H2].
      rewrite <- ET. unfold T4, T3, T2. rewrite <- !(app_assoc T1). apply named_extend. exact H1.
    + cbn [sized es_header sized_header with_offset es_data sh_type sh_link sh_entsize]. split; [reflexivity|]. split; [unfold len; lia|]. split; reflexivity.
    + refine (Forall2_compose _ _ _ _ _ _ FR _ _ F4). intros s e e' (H1 & H2 & H3) (x & X & ->).
      unfold rela_read. cbn [sized es_header sized_header sh_type sh_info sh_entsize with_offset es_data]. rewrite H2. cbn [sh_type sh_info sh_entsize]. split; [reflexivity|]. split; [reflexivity|]. split; [reflexivity|exact H3].
    + split; reflexivity.
    + split; reflexivity.
  - unfold file_bytes. rewrite !app_length, header_bytes_length, (concat_length_const _ 64) by apply section_header_bytes_length.
    assert (CD : Z.of_nat (length (concat (map es_data (elf_sections elf')))) = sum (map (fun s => len (es_data s)) tl)).
    { rewrite E4. change (Z.of_nat (length ?x)) with (len x). cbn [map concat]. change (es_data null) with (@nil Z). cbn [app]. rewrite len_concat_map. clear -E5.
      induction E5 as [|s s' l l' (x & X & ->) F IH]; [reflexivity|]. cbn [map sum fold_right with_offset es_data]. unfold sum in *. rewrite IH. reflexivity. }
    rewrite <- TS. rewrite !Nat2Z.inj_add, CD, Nat2Z.inj_mul. change (len (null :: tl)) with (Z.of_nat (S (length tl))). rewrite E4. cbn [length]. rewrite LT. lia.
Qed.
