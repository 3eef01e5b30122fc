(** C49: the layout of the COFF object files written. *)
From Coq Require Import String.
From Verif Require Import Base CharTypes Bytes BytesSpec BytesProofs Labels Object Elf ElfSpec ElfProofs ElfBuild ElfShape C39Props C47Props Coff CoffSpec CoffProofs.
Local Open Scope Z_scope.
Local Open Scope list_scope.

(** * Lists of records *)
Lemma skipn_record {A} (f : A -> list Z) k l x : Forall (fun x => length (f x) = k) l -> forall i r, nth_error l i = Some x ->
  exists r', skipn (k * i) (concat (map f l) ++ r) = f x ++ r'.
Proof.
  intros F. induction F as [|y t K F IH]; intros i r E; destruct i as [|i]; try discriminate.
  - inversion E; subst. rewrite Nat.mul_0_r. cbn [map concat skipn]. exists (concat (map f t) ++ r). rewrite <- app_assoc. reflexivity.
  - cbn in E. destruct (IH i r E) as (r' & R). exists r'. cbn [map concat]. rewrite <- app_assoc, skipn_app, K.
    rewrite skipn_all2 by (rewrite K; lia). cbn [app]. replace (k * S i - k)%nat with (k * i)%nat by lia. exact R.
Qed.
Lemma records_length {A} (f : A -> list Z) k l : Forall (fun x => length (f x) = k) l -> length (concat (map f l)) = (k * length l)%nat.
Proof. induction 1; cbn; [lia|]. rewrite app_length, H, IHForall. lia. Qed.
Lemma Forall2_nth {A B} (P : A -> B -> Prop) l l' i x : Forall2 P l l' -> nth_error l i = Some x -> exists y, nth_error l' i = Some y /\ P x y.
Proof. intros F. revert i. induction F as [|a b la lb H F IH]; intros i E; destruct i; try discriminate; cbn in *; [inversion E; subst; exists b; split; [reflexivity|exact H]|apply IH; exact E]. Qed.
Lemma Forall2_nth_r {A B} (P : A -> B -> Prop) l l' i y : Forall2 P l l' -> nth_error l' i = Some y -> exists x, nth_error l i = Some x /\ P x y.
Proof. intros F. revert i. induction F as [|a b la lb H F IH]; intros i E; destruct i; try discriminate; cbn in *; [inversion E; subst; exists a; split; [reflexivity|exact H]|apply IH; exact E]. Qed.
Lemma Forall2_len {A B} (P : A -> B -> Prop) l l' : Forall2 P l l' -> length l = length l'.
Proof. induction 1; cbn; congruence. Qed.

Lemma sum_member {A} (f : A -> Z) l x : (forall x, 0 <= f x) -> In x l -> f x <= sum (map f l).
Proof.
  intros P. induction l as [|y t IH]; intros I; [destruct I|]. cbn [map]. change (sum (?x :: ?y)) with (x + sum y). pose proof (sum_map_nonneg f t P). pose proof (P y).
  destruct I as [->|I]; [lia|]. specialize (IH I). lia.
Qed.

(** * Allocation *)
Definition chunks (l : list coff_section) : list (Z * list Z) :=
  flat_map (fun s => [(pointer_to_raw_data s, c_data s); (pointer_to_relocations s, concat (map crel (c_relocations s)))]) l.
Definition sized_section (s : coff_section) : Prop := size_of_raw_data s = len (c_data s) /\ number_of_relocations s = len (c_relocations s).
Definition room (s : coff_section) : Z := len (c_data s) + 10 * len (c_relocations s).
Definition relocated (s s' : coff_section) : Prop :=
  c_name s' = c_name s /\ size_of_raw_data s' = size_of_raw_data s /\ number_of_relocations s' = number_of_relocations s /\ c_data s' = c_data s /\ c_relocations s' = c_relocations s /\
  0 <= pointer_to_raw_data s' < 2 ^ 32 /\ 0 <= pointer_to_relocations s' < 2 ^ 32 /\ characteristics s' = characteristics s.
Lemma crels_length l : length (concat (map crel l)) = (10 * length l)%nat.
Proof. apply records_length. apply Forall_forall. intros. apply crel_length. Qed.
Lemma allocate_chunks l : forall a, 0 <= a -> Forall sized_section l -> a + sum (map room l) < 2 ^ 32 ->
  consecutive (Z.to_nat a) (chunks (coff_allocate_sections l a)) /\ Forall2 relocated l (coff_allocate_sections l a).
Proof.
  induction l as [|s t IH]; intros a A F L; [split; constructor|]. inversion F as [|? ? [F1 F1'] F2]; subst. cbn [map] in L. change (sum (?x :: ?y)) with (x + sum y) in L. unfold room at 1 in L.
  assert (S0 : 0 <= sum (map room t)). { apply sum_map_nonneg. intros x. unfold room. pose proof (len_nonneg (c_data x)). pose proof (len_nonneg (c_relocations x)). lia. }
  pose proof (len_nonneg (c_data s)) as D0. pose proof (len_nonneg (c_relocations s)) as R0.
  cbn [coff_allocate_sections]. cbv zeta. rewrite F1, F1'.
  assert (W1 : wrap 32 (a + len (c_data s)) = a + len (c_data s)) by (apply Z.mod_small; lia). rewrite W1.
  assert (W2 : wrap 32 (a + len (c_data s) + len (c_relocations s) * 10) = a + len (c_data s) + len (c_relocations s) * 10) by (apply Z.mod_small; lia). rewrite W2.
  destruct (IH (a + len (c_data s) + len (c_relocations s) * 10)) as [I1 I2]; [lia|exact F2|lia|]. split.
  - cbn [chunks flat_map app consecutive pointer_to_raw_data pointer_to_relocations c_data c_relocations]. split; [reflexivity|]. split; [intros _; unfold len; lia|].
    rewrite crels_length. fold (chunks (coff_allocate_sections t (a + len (c_data s) + len (c_relocations s) * 10))). replace (Z.to_nat a + length (c_data s) + 10 * length (c_relocations s))%nat with (Z.to_nat (a + len (c_data s) + len (c_relocations s) * 10)) by (unfold len; lia). exact I1.
  - constructor; [|exact I2]. unfold relocated. cbn. rewrite F1. repeat split; lia.
Qed.
Lemma chunks_content l : Forall sized_section l -> concat (map snd (chunks l)) = concat (map ccontent l).
Proof.
  induction 1 as [|s t [H H'] F IH]; [reflexivity|]. cbn [chunks flat_map app map snd concat]. fold (chunks t). rewrite IH. unfold ccontent. rewrite H. unfold len. rewrite Nat2Z.id, firstn_all, <- app_assoc. reflexivity.
Qed.

(** * What the file holds *)
Section File.
Variables (o : object) (W : coff_writable o).
Variables (c : coff_file) (T : list Z).
Hypothesis HN : number_of_sections c = len (sections o).
Hypothesis HM : number_of_symbols c = len (symbols o).
Hypothesis HP : pointer_to_symbol_table c = 20 + 40 * len (sections o).
Hypothesis HS : Forall2 (fun s e => exists e', converted T s e' /\ relocated e' e) (sections o) (c_sections c).
Hypothesis HY : Forall2 (sym_converted T) (symbols o) (c_symbols c).
Hypothesis HT : c_strings c = T.
Hypothesis HTL : len T = coff_strings_size o.
Hypothesis HC : consecutive (Z.to_nat (24 + 40 * len (sections o) + 18 * len (symbols o) + len T)) (chunks (c_sections c)).
Let file := cfile c.
Let rest1 := concat (map csym (c_symbols c)) ++ le 4 (len (c_strings c) + 4) ++ c_strings c ++ concat (map ccontent (c_sections c)).

Lemma secs_len : Forall (fun s => length (csec s) = 40%nat) (c_sections c).
Proof. apply Forall_forall. intros e I. apply In_nth_error in I. destruct I as (i & I). destruct (Forall2_nth_r _ _ _ _ _ HS I) as (s & _ & e' & C & R). apply csec_length. destruct R as (-> & _). apply C. Qed.
Lemma syms_len : Forall (fun s => length (csym s) = 18%nat) (c_symbols c).
Proof. apply Forall_forall. intros e I. apply In_nth_error in I. destruct I as (i & I). destruct (Forall2_nth_r _ _ _ _ _ HY I) as (s & _ & C). apply csym_length. apply C. Qed.
Lemma nsec : length (c_sections c) = length (sections o). Proof. symmetry. eapply Forall2_len. exact HS. Qed.
Lemma nsym : length (c_symbols c) = length (symbols o). Proof. symmetry. eapply Forall2_len. exact HY. Qed.
Lemma sizes : len (sections o) < 2 ^ 16 - 1 /\ coff_size o < 2 ^ 31 /\ len (symbols o) < 2 ^ 31 /\ 0 <= sum (map (fun s => len (sec_data s) + 10 * len (sec_relocations s)) (sections o)) /\ 0 < len T.
Proof.
  destruct W as (_ & _ & L1 & L2 & _). pose proof (len_nonneg (sections o)). pose proof (len_nonneg (symbols o)).
  assert (0 <= sum (map (fun s => len (sec_data s) + 10 * len (sec_relocations s)) (sections o))). { apply sum_map_nonneg. intros x. pose proof (len_nonneg (sec_data x)). pose proof (len_nonneg (sec_relocations x)). lia. }
  assert (0 <= sum (map (fun s => long_name (sec_name s)) (sections o))). { apply sum_map_nonneg. intros x. unfold long_name. pose proof (len_nonneg (sec_name x)). destruct (_ <? _); lia. }
  assert (0 <= sum (map symbol_long_name (symbols o))). { apply sum_map_nonneg. intros x. unfold symbol_long_name, long_name. destruct (sym_name x) as [n|]; [|lia]. pose proof (len_nonneg n). destruct (_ <? _); lia. }
  rewrite HTL. unfold coff_size, coff_strings_size in *. lia.
Qed.
Lemma f_head k n v r : (k <= 20)%nat -> skipn k (chdr c) = le n v ++ r -> field file k n = v mod 256 ^ Z.of_nat n.
Proof. intros K E. apply (field_in file 0 k n (chdr c) v (concat (map csec (c_sections c)) ++ rest1) r); [reflexivity|rewrite chdr_length; exact K|exact E]. Qed.
Lemma f_sections : x_sections file = len (sections o).
Proof. destruct sizes as (A & _). pose proof (len_nonneg (sections o)). unfold x_sections. rewrite <- (Z.mod_small (len (sections o)) (256 ^ Z.of_nat 2)) by (change (256 ^ Z.of_nat 2) with 65536; lia). rewrite <- HN. eapply f_head; [lia|]. unfold chdr. cbn [skipn app le_digits]. reflexivity. Qed.
Lemma f_symbols : x_symbols file = len (symbols o).
Proof. destruct sizes as (_ & _ & A & _). pose proof (len_nonneg (symbols o)). unfold x_symbols. rewrite <- (Z.mod_small (len (symbols o)) (256 ^ Z.of_nat 4)) by (change (256 ^ Z.of_nat 4) with 4294967296; lia). rewrite <- HM. eapply f_head; [lia|]. unfold chdr. cbn [skipn app le_digits]. reflexivity. Qed.
Lemma f_symtab : x_symtab file = 20 + 40 * len (sections o).
Proof. destruct sizes as (A & _). pose proof (len_nonneg (sections o)). unfold x_symtab. rewrite <- (Z.mod_small (20 + 40 * len (sections o)) (256 ^ Z.of_nat 4)) by (change (256 ^ Z.of_nat 4) with 4294967296; lia). rewrite <- HP. eapply f_head; [lia|]. unfold chdr. cbn [skipn app le_digits]. reflexivity. Qed.
Lemma skip_secs : skipn (20 + 40 * length (sections o)) file = rest1.
Proof.
  unfold file, cfile. fold rest1. rewrite app_assoc, skipn_app. rewrite skipn_all2; [|rewrite app_length, chdr_length, (records_length csec 40) by apply secs_len; rewrite nsec; lia].
  rewrite app_length, chdr_length, (records_length csec 40) by apply secs_len. rewrite nsec, Nat.sub_diag. reflexivity.
Qed.
Lemma skip_syms : skipn (Z.to_nat (x_strtab file)) file = le 4 (len T + 4) ++ T ++ concat (map ccontent (c_sections c)).
Proof.
  unfold x_strtab. rewrite f_symtab, f_symbols. replace (Z.to_nat (20 + 40 * len (sections o) + 18 * len (symbols o))) with (18 * length (symbols o) + (20 + 40 * length (sections o)))%nat by (unfold len; lia).
  rewrite <- skipn_skipn_add, skip_secs. unfold rest1. rewrite HT. rewrite skipn_app. rewrite skipn_all2; [|rewrite (records_length csym 18) by apply syms_len; rewrite nsym; lia].
  rewrite (records_length csym 18) by apply syms_len. rewrite nsym, Nat.sub_diag. reflexivity.
Qed.
Lemma f_strtab_size : x_strtab_size file = 4 + coff_strings_size o.
Proof.
  destruct sizes as (A & B & _ & S0 & B3). pose proof (len_nonneg (sections o)). pose proof (len_nonneg (symbols o)). unfold x_strtab_size. rewrite (field_here _ _ _ _ _ skip_syms). rewrite HTL, Z.mod_small; [lia|]. rewrite HTL in B3. unfold coff_size in B. change (256 ^ Z.of_nat 4) with 4294967296. lia.
Qed.

(** Section headers. *)
Lemma sec_skip i e : nth_error (c_sections c) i = Some e -> exists r, skipn (x_section_at i) file = csec e ++ r.
Proof.
  intros E. destruct (skipn_record csec 40 (c_sections c) e secs_len i rest1 E) as (r & R). exists r. unfold x_section_at, file, cfile. fold rest1. rewrite skipn_app, chdr_length. rewrite skipn_all2 by (rewrite chdr_length; lia).
  replace (20 + 40 * i - 20)%nat with (40 * i)%nat by lia. exact R.
Qed.
Definition secs_total : Z := sum (map (fun s => len (sec_data s) + 10 * len (sec_relocations s)) (sections o)).
Lemma member_size i s : nth_error (sections o) i = Some s -> len (sec_data s) + 10 * len (sec_relocations s) <= secs_total.
Proof. intros I. unfold secs_total. apply (sum_member (fun s => len (sec_data s) + 10 * len (sec_relocations s))); [intros x; pose proof (len_nonneg (sec_data x)); pose proof (len_nonneg (sec_relocations x)); lia|]. eapply nth_error_In. exact I. Qed.
Lemma sec_fields i s e : nth_error (sections o) i = Some s -> nth_error (c_sections c) i = Some e ->
  x_name file i = c_name e /\ x_size file i = len (sec_data s) /\ x_nrelocs file i = len (sec_relocations s) /\ x_data file i = pointer_to_raw_data e /\ x_relocs file i = pointer_to_relocations e /\
  section_field T (sec_name s) (c_name e) /\ c_data e = fold_left step (sec_relocations s) (sec_data s) /\ length (c_data e) = length (sec_data s) /\ c_relocations e = map conv (sec_relocations s) /\ x_flags file i = section_flags (sec_alignment s).
Proof.
  intros I J. destruct (Forall2_nth _ _ _ _ _ HS I) as (e2 & J2 & e' & C & R). rewrite J in J2. inversion J2; subst e2. clear J2.
  destruct C as (C1 & C2 & C3 & C4 & C5 & C6 & C7 & C8). destruct R as (R1 & R2 & R3 & R4 & R5 & R6 & R7 & R8). rewrite <- R8 in C8. rewrite <- R1 in C1, C2. rewrite <- R2 in C3. rewrite <- R3 in C4. rewrite <- R4 in C5, C6. rewrite <- R5 in C7.
  destruct (sec_skip i e J) as (r & SK).
  pose proof (member_size i s I) as MS. destruct W as (W1 & _ & _ & W2 & _). rewrite Forall_forall in W1. destruct (W1 s (nth_error_In _ _ I)) as (_ & _ & WAL & WR & _).
  pose proof (len_nonneg (sec_data s)) as D0. pose proof (len_nonneg (sec_relocations s)) as D1. destruct sizes as (_ & _ & _ & _ & S3). pose proof (len_nonneg (sections o)). pose proof (len_nonneg (symbols o)).
  assert (D2 : len (sec_data s) < 2 ^ 31). { unfold coff_size in W2. fold secs_total in W2. rewrite HTL in S3. lia. }
  unfold x_name, x_size, x_nrelocs, x_data, x_relocs.
  assert (NM : window file (x_section_at i) 8 = c_name e).
  { unfold window. rewrite SK. unfold csec. rewrite <- app_assoc. exact (window_here _ _ 8 C2). }
  assert (CL : length (csec e) = 40%nat) by (apply csec_length; exact C2).
  assert (FI : forall k n v r', (k <= 40)%nat -> skipn k (csec e) = le n v ++ r' -> field file (x_section_at i + k) n = v mod 256 ^ Z.of_nat n).
  { intros k n v r' K E. eapply field_in; [exact SK|rewrite CL; exact K|exact E]. }
  split; [exact NM|]. destruct (c_name e) as [|b1 [|b2 [|b3 [|b4 [|b5 [|b6 [|b7 [|b8 [|]]]]]]]]] eqn:CN; try discriminate C2.
  split; [|split; [|split; [|split]]].
  - rewrite <- C3. rewrite <- (Z.mod_small (size_of_raw_data e) (256 ^ Z.of_nat 4)) by (rewrite C3; change (256 ^ Z.of_nat 4) with 4294967296; lia). eapply FI; [lia|]. unfold csec. rewrite CN. cbn [skipn app le_digits]. reflexivity.
  - rewrite <- C4. rewrite <- (Z.mod_small (number_of_relocations e) (256 ^ Z.of_nat 2)) by (rewrite C4; change (256 ^ Z.of_nat 2) with 65536; lia). eapply FI; [lia|]. unfold csec. rewrite CN. cbn [skipn app le_digits]. reflexivity.
  - rewrite <- (Z.mod_small (pointer_to_raw_data e) (256 ^ Z.of_nat 4)) by (change (256 ^ Z.of_nat 4) with 4294967296; lia). eapply FI; [lia|]. unfold csec. rewrite CN. cbn [skipn app le_digits]. reflexivity.
  - rewrite <- (Z.mod_small (pointer_to_relocations e) (256 ^ Z.of_nat 4)) by (change (256 ^ Z.of_nat 4) with 4294967296; lia). eapply FI; [lia|]. unfold csec. rewrite CN. cbn [skipn app le_digits]. reflexivity.
  - split; [exact C1|]. split; [exact C5|]. split; [exact C6|]. split; [exact C7|].
    assert (FR : 0 <= section_flags (sec_alignment s) < 4294967296). { clear -WAL. cbn [In] in WAL. repeat (destruct WAL as [<-|WAL]; [vm_compute; split; [discriminate|reflexivity]|]). destruct WAL. }
    unfold x_flags. rewrite <- C8 in FR |- *. rewrite <- (Z.mod_small (characteristics e) (256 ^ Z.of_nat 4)) by (change (256 ^ Z.of_nat 4) with 4294967296; exact FR). eapply FI with (r' := []); [lia|]. unfold csec. rewrite CN. cbn [skipn app le_digits]. reflexivity.
Qed.

(** Symbols. *)
Lemma sym_skip i e : nth_error (c_symbols c) i = Some e -> exists r, skipn (x_symbol_at file i) file = csym e ++ r.
Proof.
  intros E. destruct (skipn_record csym 18 (c_symbols c) e syms_len i (le 4 (len (c_strings c) + 4) ++ c_strings c ++ concat (map ccontent (c_sections c))) E) as (r & R). exists r.
  unfold x_symbol_at. rewrite f_symtab. replace (Z.to_nat (20 + 40 * len (sections o)) + 18 * i)%nat with (18 * i + (20 + 40 * length (sections o)))%nat by (unfold len; lia). rewrite <- skipn_skipn_add, skip_secs. exact R.
Qed.
Lemma string_stored idx n : stored T idx n -> is_c_string n -> x_string file (idx + 4) = n.
Proof.
  intros ((R & post & E) & _) CS. unfold x_string. replace (Z.to_nat (x_strtab file + (idx + 4))) with (Z.to_nat idx + 4 + Z.to_nat (x_strtab file))%nat.
  2: { unfold x_strtab. rewrite f_symtab, f_symbols. pose proof (len_nonneg (sections o)). pose proof (len_nonneg (symbols o)). lia. }
  rewrite <- skipn_skipn_add, skip_syms. rewrite <- skipn_skipn_add. cbn [skipn app le_digits]. rewrite skipn_app, E, <- app_assoc. cbn [app]. apply until_zero_app. apply c_string_nonzero. exact CS.
Qed.
Lemma sym_fields i y : nth_error (symbols o) i = Some y ->
  x_sym_value file i = sym_value y /\ x_sym_section file i = (if sym_section y =? -1 then 0 else sym_section y + 1) /\ x_sym_class file i = (if sym_global y then 2 else 3) /\
  sym_name y = Some (x_symbol_name file i).
Proof.
  intros I. destruct (Forall2_nth _ _ _ _ _ HY I) as (e & J & (n & N & F) & C2 & C3 & C4 & C5). destruct (sym_skip i e J) as (r & SK).
  assert (CL : length (csym e) = 18%nat) by (apply csym_length; exact C2).
  assert (FI : forall k n v r', (k <= 18)%nat -> skipn k (csym e) = le n v ++ r' -> field file (x_symbol_at file i + k) n = v mod 256 ^ Z.of_nat n).
  { intros k m v r' K E. eapply field_in; [exact SK|rewrite CL; exact K|exact E]. }
  assert (NM : x_sym_name file i = cs_name e).
  { unfold x_sym_name, window. rewrite SK. unfold csym. rewrite <- app_assoc. exact (window_here _ _ 8 C2). }
  destruct W as (_ & W1 & WN & WS & _). rewrite Forall_forall in W1. destruct (W1 y (nth_error_In _ _ I)) as ((n' & N' & CS & NE) & V & S). rewrite N in N'. inversion N'; subst n'. clear N'.
  assert (NAME : x_symbol_name file i = n).
  { unfold x_symbol_name. rewrite NM. unfold symbol_field in F. destruct (Z.ltb_spec 8 (len n)) as [L|L].
    - destruct F as (idx & -> & ST). cbn [repeat app firstn skipn]. change (le_value [0; 0; 0; 0] =? 0) with true. cbv iota. pose proof (proj1 (proj1 ST)) as R. rewrite le_value_digits, Z.mod_small.
      + apply string_stored; assumption.
      + destruct sizes as (_ & _ & _ & S0 & _). pose proof (len_nonneg (sections o)). pose proof (len_nonneg (symbols o)). rewrite HTL in R. unfold coff_size in WS. change (256 ^ Z.of_nat 4) with 4294967296. lia.
    - rewrite F. assert (U : until_zero (short_name n) = n) by (apply until_zero_short; [apply c_string_nonzero; exact CS|unfold len in L; lia]).
      replace (le_value (firstn 4 (short_name n)) =? 0) with false; [exact U|]. symmetry. apply Z.eqb_neq. destruct n as [|b n]; [congruence|]. inversion CS as [|? ? B1 B2]; subst.
      unfold short_name. cbn [app firstn]. cbn [le_value]. assert (0 <= le_value (firstn 3 (firstn 7 (n ++ repeat 0 8)))); [|lia].
      apply le_value_bound. apply Forall_forall. intros x IX. assert (IX2 : In x (n ++ repeat 0 8)).
      { rewrite <- (firstn_skipn 7 (n ++ repeat 0 8)). apply in_or_app. left. rewrite <- (firstn_skipn 3 (firstn 7 (n ++ repeat 0 8))). apply in_or_app. left. exact IX. }
      apply in_app_or in IX2. destruct IX2 as [IX2|IX2]; [rewrite Forall_forall in B2; specialize (B2 x IX2); unfold is_byte; lia|apply repeat_spec in IX2; subst x; unfold is_byte; lia]. }
  unfold x_sym_value, x_sym_section, x_sym_class. destruct (cs_name e) as [|b1 [|b2 [|b3 [|b4 [|b5 [|b6 [|b7 [|b8 [|]]]]]]]]] eqn:CN; try discriminate C2.
  split; [|split; [|split]].
  - rewrite <- C3. rewrite <- (Z.mod_small (cs_value e) (256 ^ Z.of_nat 4)) by (rewrite C3; change (256 ^ Z.of_nat 4) with 4294967296; lia). eapply FI; [lia|]. unfold csym. rewrite CN. cbn [skipn app le_digits]. reflexivity.
  - rewrite <- C4. rewrite <- (Z.mod_small (section_number e) (256 ^ Z.of_nat 2)); [|rewrite C4; change (256 ^ Z.of_nat 2) with 65536; destruct (Z.eqb_spec (sym_section y) (-1)); lia]. eapply FI; [lia|]. unfold csym. rewrite CN. cbn [skipn app le_digits]. reflexivity.
  - rewrite <- C5. rewrite <- (Z.mod_small (storage_class e) (256 ^ Z.of_nat 1)); [|rewrite C5; change (256 ^ Z.of_nat 1) with 256; destruct (sym_global y); lia]. eapply FI; [lia|]. unfold csym. rewrite CN. cbn [skipn app le_digits]. reflexivity.
  - rewrite NAME. exact N.
Qed.

(** Names of sections. *)
Lemma section_name_short i s : nth_error (sections o) i = Some s -> len (sec_name s) <= 8 -> hd 0 (sec_name s) <> 47 -> x_section_name file i = sec_name s.
Proof.
  intros I L H. destruct (Forall2_nth _ _ _ _ _ HS I) as (e & J & _). destruct (sec_fields i s e I J) as (F1 & _ & _ & _ & _ & F2 & _).
  destruct W as (W1 & _). rewrite Forall_forall in W1. destruct (W1 s (nth_error_In _ _ I)) as (CS & _).
  unfold x_section_name. rewrite F1. unfold section_field in F2. rewrite (proj2 (Z.ltb_ge _ _)) in F2 by exact L. rewrite F2, until_zero_short by (try (apply c_string_nonzero; exact CS); unfold len in L; lia).
  destruct (sec_name s) as [|b n]; [reflexivity|]. cbn [hd] in H. destruct b as [|p|p]; try reflexivity. repeat (destruct p as [p|p|]; try reflexivity). congruence.
Qed.
Lemma section_name_long i s : nth_error (sections o) i = Some s -> 8 < len (sec_name s) -> len (x_section_name file i) <= 3.
Proof.
  intros I L. destruct (Forall2_nth _ _ _ _ _ HS I) as (e & J & _). destruct (sec_fields i s e I J) as (F1 & _ & _ & _ & _ & F2 & _).
  unfold x_section_name. rewrite F1. unfold section_field in F2. rewrite (proj2 (Z.ltb_lt _ _)) in F2 by exact L. destruct F2 as (idx & -> & ((R & _) & Z0) & R2).
  pose proof (decimal_digits idx ltac:(lia)) as DD. pose proof (decimal_length idx R2) as DL. rewrite until_zero_short; [|apply Forall_cons; [lia|eapply Forall_impl; [|exact DD]; intros b B; unfold digit in B; lia]|cbn [length]; lia].
  assert (DV : decimal_value (decimal idx) = idx) by (apply (decimal_loop_value (S (Z.to_nat idx)) idx); lia). rewrite DV.
  assert (LE : (length (x_string file idx) <= 3)%nat); [|unfold len; lia]. apply until_zero_at. rewrite nth_error_skipn_add.
  assert (S1 : 0 <= x_strtab file). { unfold x_strtab. rewrite f_symtab, f_symbols. pose proof (len_nonneg (sections o)). pose proof (len_nonneg (symbols o)). lia. }
  replace (Z.to_nat (x_strtab file + idx) + 3)%nat with (Z.to_nat (x_strtab file) + (4 + Z.to_nat (idx - 1)))%nat by lia.
  rewrite <- nth_error_skipn_add, skip_syms. cbn [le_digits app]. cbn [nth_error Nat.add]. rewrite nth_error_app1; [exact Z0|]. apply nth_error_Some. congruence.
Qed.

(** Contents. *)
Lemma sized_all : Forall sized_section (c_sections c).
Proof.
  apply Forall_forall. intros e I. apply In_nth_error in I. destruct I as (i & I). destruct (Forall2_nth_r _ _ _ _ _ HS I) as (s & _ & e' & C & R).
  destruct C as (C1 & C2 & C3 & C4 & C5 & C6 & C7 & _). destruct R as (R1 & R2 & R3 & R4 & R5 & _). unfold sized_section. rewrite R2, R3, R4, R5, C3, C4, C7. unfold len. rewrite map_length, C6. split; reflexivity.
Qed.
Let pre := chdr c ++ concat (map csec (c_sections c)) ++ concat (map csym (c_symbols c)) ++ le 4 (len (c_strings c) + 4) ++ c_strings c.
Lemma pre_length : length pre = Z.to_nat (24 + 40 * len (sections o) + 18 * len (symbols o) + len T).
Proof.
  unfold pre. rewrite !app_length, chdr_length, le_digits_length, (records_length csec 40), (records_length csym 18) by (apply secs_len || apply syms_len). rewrite nsec, nsym, HT. unfold len. lia.
Qed.
Lemma file_pre : file = pre ++ concat (map snd (chunks (c_sections c))).
Proof. rewrite chunks_content by apply sized_all. unfold file, cfile, pre. rewrite <- !app_assoc. reflexivity. Qed.
Lemma chunk_bytes off d : In (off, d) (chunks (c_sections c)) -> window file (Z.to_nat off) (length d) = d.
Proof.
  intros I. destruct d as [|b d']; [reflexivity|]. rewrite file_pre. pose proof (consecutive_bytes (chunks (c_sections c)) pre) as B. rewrite pre_length in B. specialize (B HC). rewrite Forall_forall in B. specialize (B (off, b :: d') I). cbn [fst snd] in B. apply B. discriminate.
Qed.
Lemma rel_fields i s j r : nth_error (sections o) i = Some s -> nth_error (sec_relocations s) j = Some r ->
  x_rel_address file i j = r_offset r /\ x_rel_symbol file i j = Z.of_nat (r_idx r) /\ x_rel_type file i j = rel_code (r_type r).
Proof.
  intros I R. destruct (Forall2_nth _ _ _ _ _ HS I) as (e & J & e' & _ & RE). destruct (sec_fields i s e I J) as (_ & _ & F3 & _ & F5 & _ & _ & _ & F9 & _).
  assert (IC : In (pointer_to_relocations e, concat (map crel (c_relocations e))) (chunks (c_sections c))).
  { unfold chunks. apply in_flat_map. exists e. split; [eapply nth_error_In; exact J|right; left; reflexivity]. }
  pose proof (chunk_bytes _ _ IC) as CB.
  assert (SK : exists rest, skipn (Z.to_nat (pointer_to_relocations e)) file = concat (map crel (c_relocations e)) ++ rest).
  { exists (skipn (length (concat (map crel (c_relocations e)))) (skipn (Z.to_nat (pointer_to_relocations e)) file)). rewrite <- CB at 1. unfold window. symmetry. apply firstn_skipn. }
  destruct SK as (rest & SK).
  assert (NR : nth_error (c_relocations e) j = Some (conv r)) by (rewrite F9, nth_error_map, R; reflexivity).
  destruct (skipn_record crel 10 (c_relocations e) (conv r) ltac:(apply Forall_forall; intros; apply crel_length) j rest NR) as (r' & R').
  assert (SK2 : skipn (x_reloc_at file i j) file = crel (conv r) ++ r'). { unfold x_reloc_at. rewrite F5, (Nat.add_comm _ (10 * j)), <- skipn_skipn_add, SK. exact R'. }
  destruct W as (W1 & _ & _ & W2 & _). rewrite Forall_forall in W1. destruct (W1 s (nth_error_In _ _ I)) as (_ & _ & _ & _ & WR & _). rewrite Forall_forall in WR. destruct (WR r (nth_error_In _ _ R)) as (X1 & X2 & X3 & _).
  pose proof (member_size i s I) as MS. pose proof (len_nonneg (sec_relocations s)) as D1. destruct sizes as (_ & _ & S2 & _ & S3). rewrite HTL in S3. pose proof (len_nonneg (sections o)). pose proof (len_nonneg (symbols o)).
  assert (D2 : len (sec_data s) < 2 ^ 31). { unfold coff_size in W2. fold secs_total in W2. lia. }
  unfold x_rel_address, x_rel_symbol, x_rel_type. split; [|split].
  - rewrite <- (Z.mod_small (r_offset r) (256 ^ Z.of_nat 4)); [|change (256 ^ Z.of_nat 4) with 4294967296; lia]. rewrite <- (Nat.add_0_r (x_reloc_at file i j)). eapply field_in; [exact SK2|lia|]. unfold crel. cbn [skipn conv virtual_address]. reflexivity.
  - rewrite <- (Z.mod_small (Z.of_nat (r_idx r)) (256 ^ Z.of_nat 4)); [|change (256 ^ Z.of_nat 4) with 4294967296; unfold len in S2; lia]. eapply field_in; [exact SK2|rewrite crel_length; lia|]. unfold crel. cbn [skipn app le_digits conv symbol_table_index]. reflexivity.
  - rewrite <- (Z.mod_small (rel_code (r_type r)) (256 ^ Z.of_nat 2)); [|change (256 ^ Z.of_nat 2) with 65536; destruct (r_type r); cbn; lia]. eapply field_in; [exact SK2|rewrite crel_length; lia|]. unfold crel. cbn [skipn app le_digits conv coff_type]. reflexivity.
Qed.
Lemma data_bytes i s : nth_error (sections o) i = Some s -> bytes_at file (x_data file i) (x_size file i) = fold_left step (sec_relocations s) (sec_data s).
Proof.
  intros I. destruct (Forall2_nth _ _ _ _ _ HS I) as (e & J & _). destruct (sec_fields i s e I J) as (_ & F2 & _ & F4 & _ & _ & F7 & F8 & _).
  rewrite F4, F2, <- F7. unfold bytes_at, len. rewrite Nat2Z.id, <- F8. apply chunk_bytes. unfold chunks. apply in_flat_map. exists e. split; [eapply nth_error_In; exact J|left; reflexivity].
Qed.

(** The parts. *)
Lemma chunk_parts : flat_map (fun i => [(x_data file i, x_size file i); (x_relocs file i, 10 * x_nrelocs file i)]) (seq 0 (length (c_sections c))) = map (fun p => (fst p, len (snd p))) (chunks (c_sections c)).
Proof.
  unfold chunks. rewrite flat_map_concat_map. assert (E : map (fun i => [(x_data file i, x_size file i); (x_relocs file i, 10 * x_nrelocs file i)]) (seq 0 (length (c_sections c))) =
    map (fun s => [(pointer_to_raw_data s, len (c_data s)); (pointer_to_relocations s, 10 * len (c_relocations s))]) (c_sections c)).
  { apply map_seq_nth. intros i e J. cbn [Nat.add]. destruct (Forall2_nth_r _ _ _ _ _ HS J) as (s & I & _). destruct (sec_fields i s e I J) as (_ & F2 & F3 & F4 & F5 & _ & _ & F8 & F9 & _). rewrite F2, F3, F4, F5. unfold len. rewrite F8, F9, map_length. reflexivity. }
  rewrite E. clear E. generalize (c_sections c) as l. clear. induction l as [|s t IH]; [reflexivity|]. cbn [map concat flat_map app fst snd]. rewrite IH. assert (E : len (concat (map crel (c_relocations s))) = 10 * len (c_relocations s)) by (unfold len; rewrite crels_length, Nat2Z.inj_mul; reflexivity). rewrite E. reflexivity.
Qed.
Lemma parts_ok : ForallOrdPairs apart (x_parts file) /\ Forall (inside file) (x_parts file) /\ sum (map snd (x_parts file)) = len file /\ len file = coff_size o.
Proof.
  pose proof (len_nonneg (sections o)) as N0. pose proof (len_nonneg (symbols o)) as M0. destruct sizes as (_ & _ & _ & S0 & S3).
  assert (PT : x_parts file = (0, 20) :: (20, 40 * len (sections o)) :: (20 + 40 * len (sections o), 18 * len (symbols o)) :: (20 + 40 * len (sections o) + 18 * len (symbols o), 4 + len T) :: map (fun p => (fst p, len (snd p))) (chunks (c_sections c))).
  { unfold x_parts. rewrite f_strtab_size. unfold x_strtab. rewrite f_sections, f_symtab, f_symbols, HTL. assert (E : Z.to_nat (len (sections o)) = length (c_sections c)) by (rewrite nsec; unfold len; lia). rewrite E, chunk_parts. reflexivity. }
  assert (CP : Forall (fun p => 0 <= fst p) (chunks (c_sections c))).
  { unfold chunks. apply Forall_forall. intros p I. apply in_flat_map in I. destruct I as (e & J & I). apply In_nth_error in J. destruct J as (i & J). destruct (Forall2_nth_r _ _ _ _ _ HS J) as (s & _ & e' & _ & R). destruct R as (_ & _ & _ & _ & _ & R1 & R2). destruct I as [<-|[<-|[]]]; cbn [fst]; lia. }
  destruct (consecutive_apart _ _ HC CP) as [A B]. set (start := 24 + 40 * len (sections o) + 18 * len (symbols o) + len T) in *. rewrite Z2Nat.id in B by (unfold start; lia).
  assert (LF : len file = start + sum (map (fun p => len (snd p)) (chunks (c_sections c)))).
  { rewrite file_pre, len_app. unfold len at 1. rewrite pre_length, Z2Nat.id by (fold start; unfold start; lia). fold start. rewrite len_concat_map. reflexivity. }
  assert (ST : sum (map (fun p => len (snd p)) (chunks (c_sections c))) = secs_total).
  { unfold secs_total. clear -HS. generalize dependent (sections o). generalize (c_sections c). intros l l2 H. induction H as [|s e t t' H F IH]; [reflexivity|]. cbn [chunks flat_map app map snd]. fold (chunks t'). change (sum (?x :: ?y)) with (x + sum y). change (sum (?x :: ?y)) with (x + sum y). cbn [map]. change (sum (?x :: ?y)) with (x + sum y). rewrite IH.
    destruct H as (e' & C & R). destruct C as (C1 & C2 & C3 & C4 & C5 & C6 & C7 & _). destruct R as (R1 & R2 & R3 & R4 & R5 & _). rewrite R4, R5, C7. assert (E : len (concat (map crel (map conv (sec_relocations s)))) = 10 * len (sec_relocations s)) by (unfold len; rewrite crels_length, map_length, Nat2Z.inj_mul; reflexivity). rewrite E. unfold len. rewrite C6. lia. }
  assert (S1 : 0 <= sum (map (fun p => len (snd p)) (chunks (c_sections c)))) by (apply sum_map_nonneg; intros; apply len_nonneg).
  split; [|split; [|split]].
  - rewrite PT. constructor.
    + repeat (apply Forall_cons; [unfold apart; cbn [fst snd]; lia|]). apply Forall_map. eapply Forall_impl; [|exact B]. intros [q d] H. unfold apart. cbn [fst snd] in *. destruct d; [right; left; reflexivity|]. destruct H as [H _]; [discriminate|]. unfold start in H. lia.
    + constructor.
      * repeat (apply Forall_cons; [unfold apart; cbn [fst snd]; lia|]). apply Forall_map. eapply Forall_impl; [|exact B]. intros [q d] H. unfold apart. cbn [fst snd] in *. destruct d; [right; left; reflexivity|]. destruct H as [H _]; [discriminate|]. unfold start in H. lia.
      * constructor.
        -- repeat (apply Forall_cons; [unfold apart; cbn [fst snd]; lia|]). apply Forall_map. eapply Forall_impl; [|exact B]. intros [q d] H. unfold apart. cbn [fst snd] in *. destruct d; [right; left; reflexivity|]. destruct H as [H _]; [discriminate|]. unfold start in H. lia.
        -- constructor; [|exact A]. apply Forall_map. eapply Forall_impl; [|exact B]. intros [q d] H. unfold apart. cbn [fst snd] in *. destruct d; [right; left; reflexivity|]. destruct H as [H _]; [discriminate|]. unfold start in H. lia.
  - rewrite PT. unfold inside. fold (len file). rewrite LF. unfold start in *. repeat (apply Forall_cons; [cbn [fst snd]; right; lia|]).
    apply Forall_map. eapply Forall_impl; [|exact B]. intros [q d] H. cbn [fst snd] in *. destruct d; [left; reflexivity|]. destruct H as [H1 H2]; [discriminate|]. right. lia.
  - rewrite PT. cbn [map snd]. repeat change (sum (?x :: ?y)) with (x + sum y). rewrite sum_parts, LF. unfold start. lia.
  - rewrite LF, ST. unfold start, coff_size, secs_total. rewrite HTL. lia.
Qed.
End File.

Lemma coff_file_ok o : coff_writable o -> exists c T, coff_write_object o = Ok (cfile c) /\
  number_of_sections c = len (sections o) /\ number_of_symbols c = len (symbols o) /\ pointer_to_symbol_table c = 20 + 40 * len (sections o) /\
  Forall2 (fun s e => exists e', converted T s e' /\ relocated e' e) (sections o) (c_sections c) /\ Forall2 (sym_converted T) (symbols o) (c_symbols c) /\ c_strings c = T /\
  len T = coff_strings_size o /\ consecutive (Z.to_nat (24 + 40 * len (sections o) + 18 * len (symbols o) + len T)) (chunks (c_sections c)).
Proof.
  intros W. destruct W as (W1 & W2 & W3 & W4 & W5).
  pose proof (len_nonneg (sections o)) as N0. pose proof (len_nonneg (symbols o)) as M0.
  assert (P1 : forall s : section, 0 <= len (sec_data s) + 10 * len (sec_relocations s)) by (intros x; pose proof (len_nonneg (sec_data x)); pose proof (len_nonneg (sec_relocations x)); lia).
  pose proof (sum_map_nonneg _ (sections o) P1) as S1.
  assert (S2 : 0 <= sum (map (fun s => long_name (sec_name s)) (sections o))). { apply sum_map_nonneg. intros x. unfold long_name. pose proof (len_nonneg (sec_name x)). destruct (_ <? _); lia. }
  assert (S3 : 0 <= sum (map symbol_long_name (symbols o))). { apply sum_map_nonneg. intros x. unfold symbol_long_name, long_name. destruct (sym_name x) as [n|]; [|lia]. pose proof (len_nonneg n). destruct (_ <? _); lia. }
  assert (DL : Forall (fun s => len (sec_data s) < 2 ^ 31) (sections o)).
  { apply Forall_forall. intros s I. pose proof (sum_member _ _ _ P1 I) as MS. cbn beta in MS. pose proof (len_nonneg (sec_relocations s)). unfold coff_size, coff_strings_size in W4. lia. }
  destruct (convert_sections_spec o (sections o) [0] W1 DL) as (cs & T1 & C1 & C2 & C3 & C4). { exists []. reflexivity. } { change (len [0]) with 1. exact W5. }
  destruct (convert_symbols_spec o (symbols o) ([0] ++ T1) W2 W3 C3) as (ys & T2 & Y1 & Y2 & Y3 & Y4).
  set (T := ([0] ++ T1) ++ T2) in *.
  assert (LT : len T = coff_strings_size o). { unfold T. rewrite !len_app, C2, Y2. reflexivity. }
  assert (C5 : Forall2 (converted T) (sections o) cs). { eapply Forall2_impl2; [|exact C4]. intros a b H. apply converted_extend. exact H. }
  assert (WN : wrap 16 (Z.of_nat (length (sections o))) = len (sections o)) by (apply Z.mod_small; unfold len in *; lia).
  assert (WM : wrap 32 (Z.of_nat (length (symbols o))) = len (symbols o)). { apply Z.mod_small. unfold coff_size, coff_strings_size in W4. unfold len in *. lia. }
  assert (FO : coff_from_object o = Ok {| number_of_sections := len (sections o); pointer_to_symbol_table := 0; number_of_symbols := len (symbols o); c_sections := cs; c_symbols := ys; c_strings := T |}).
  { unfold coff_from_object. cbv zeta. rewrite WN, WM. unfold len at 1. rewrite Nat2Z.id, firstn_all. change (snd (register_string [] [])) with [0]. rewrite C1. cbn [Base.bind fst snd]. unfold len at 1. rewrite Nat2Z.id, firstn_all, Y1. reflexivity. }
  set (c := coff_allocate {| number_of_sections := len (sections o); pointer_to_symbol_table := 0; number_of_symbols := len (symbols o); c_sections := cs; c_symbols := ys; c_strings := T |}).
  exists c, T. split. { unfold coff_write_object. rewrite FO. cbn [Base.bind]. rewrite coff_write_bytes. reflexivity. }
  assert (A1 : wrap 32 (20 + 40 * len (sections o)) = 20 + 40 * len (sections o)) by (apply Z.mod_small; lia).
  assert (SZ : coff_size o = 24 + 40 * len (sections o) + 18 * len (symbols o) + len T + sum (map (fun s => len (sec_data s) + 10 * len (sec_relocations s)) (sections o))) by (unfold coff_size; rewrite LT; lia).
  pose proof (len_nonneg T) as T0.
  assert (A2 : wrap 32 (wrap 32 (20 + 40 * len (sections o) + 18 * len (symbols o)) + 4 + Z.of_nat (length T)) = 24 + 40 * len (sections o) + 18 * len (symbols o) + len T).
  { fold (len T). replace (wrap 32 (20 + 40 * len (sections o) + 18 * len (symbols o))) with (20 + 40 * len (sections o) + 18 * len (symbols o)) by (symmetry; apply Z.mod_small; lia).
    transitivity (20 + 40 * len (sections o) + 18 * len (symbols o) + 4 + len T); [apply Z.mod_small; lia|lia]. }
  assert (RS : sum (map room cs) = sum (map (fun s => len (sec_data s) + 10 * len (sec_relocations s)) (sections o)) /\ Forall sized_section cs).
  { clear -C5. induction C5 as [|s e t t' H F [IH1 IH2]]; [split; [reflexivity|constructor]|]. cbn [map]. change (sum (?x :: ?y)) with (x + sum y). change (sum (?x :: ?y)) with (x + sum y). rewrite IH1.
    destruct H as (H1 & H2 & H3 & H4 & H5 & H6 & H7 & _). split; [unfold room, len; rewrite H6, H7, map_length; reflexivity|]. constructor; [|exact IH2]. unfold sized_section. rewrite H3, H4, H7. unfold len. rewrite map_length, H6. split; reflexivity. }
  destruct RS as [RS1 RS2].
  destruct (allocate_chunks cs (24 + 40 * len (sections o) + 18 * len (symbols o) + len T)) as [K1 K2]; [lia|exact RS2|rewrite RS1; lia|].
  unfold c, coff_allocate. cbv zeta. cbn [number_of_sections number_of_symbols pointer_to_symbol_table c_sections c_symbols c_strings]. rewrite A1, A2.
  split; [reflexivity|]. split; [reflexivity|]. split; [reflexivity|]. split; [|split; [exact Y4|split; [reflexivity|split; [exact LT|exact K1]]]].
  clear -C5 K2. revert K2. generalize (coff_allocate_sections cs (24 + 40 * len (sections o) + 18 * len (symbols o) + len T)). induction C5 as [|s e t t' H F IH]; intros l K2; inversion K2; subst; constructor.
  - exists e. split; assumption.
  - apply IH. assumption.
Qed.

(** * Theorems *)
(** Every pointer in the file written leads to what it names: the parts share no
    byte and fill the file; sections have their sizes, flags and alignments, contents (up to the
    fields of relocations, which hold the addends) and relocations; symbols have
    their values, sections, classes and names. The names of sections are right
    up to 8 bytes. *)
Theorem C49_layout_partial : forall o, coff_writable o ->
  exists file, coff_write_object o = Ok file /\ len file = coff_size o /\
    x_sections file = len (sections o) /\ x_symbols file = len (symbols o) /\ x_strtab_size file = 4 + coff_strings_size o /\
    ForallOrdPairs apart (x_parts file) /\ Forall (inside file) (x_parts file) /\ sum (map snd (x_parts file)) = len file /\
    (forall i s, nth_error (sections o) i = Some s ->
       x_size file i = len (sec_data s) /\ x_nrelocs file i = len (sec_relocations s) /\ x_flags file i = section_flags (sec_alignment s) /\
       (len (sec_name s) <= 8 -> hd 0 (sec_name s) <> 47 -> x_section_name file i = sec_name s) /\
       (forall k, Forall (fun r => Z.of_nat k < r_offset r \/ r_offset r + Z.of_nat (rel_size (r_type r)) <= Z.of_nat k) (sec_relocations s) ->
          nth_error (bytes_at file (x_data file i) (x_size file i)) k = nth_error (sec_data s) k) /\
       (forall j r, nth_error (sec_relocations s) j = Some r ->
          x_rel_address file i j = r_offset r /\ x_rel_symbol file i j = Z.of_nat (r_idx r) /\ x_rel_type file i j = rel_code (r_type r) /\
          field (bytes_at file (x_data file i) (x_size file i)) (Z.to_nat (r_offset r)) (rel_size (r_type r)) = rel_addend r mod 256 ^ Z.of_nat (rel_size (r_type r)))) /\
    (forall i y, nth_error (symbols o) i = Some y ->
       x_sym_value file i = sym_value y /\ x_sym_section file i = (if sym_section y =? -1 then 0 else sym_section y + 1) /\
       x_sym_class file i = (if sym_global y then 2 else 3) /\ sym_name y = Some (x_symbol_name file i)).
Proof.
  intros o W. destruct (coff_file_ok o W) as (c & T & E & HN & HM & HP & HS & HY & HT & HTL & HC). exists (cfile c). split; [exact E|].
  destruct (parts_ok o W c T HN HM HP HS HY HT HTL HC) as (P1 & P2 & P3 & P4). split; [exact P4|].
  split; [eapply f_sections; eassumption|]. split; [eapply f_symbols; eassumption|]. split; [eapply f_strtab_size; eassumption|]. split; [exact P1|]. split; [exact P2|]. split; [exact P3|]. split.
  - intros i s I. destruct (Forall2_nth _ _ _ _ _ HS I) as (e & J & _). destruct (sec_fields o W c T HS HTL i s e I J) as (F1 & F2 & F3 & F4 & F5 & F6 & F7 & F8 & F9 & F10).
    split; [exact F2|]. split; [exact F3|]. split; [exact F10|]. split; [eapply section_name_short; eassumption|].
    rewrite (data_bytes o W c T HS HY HT HTL HC i s I).
    pose proof (proj1 W) as W1. rewrite Forall_forall in W1. destruct (W1 s (nth_error_In _ _ I)) as (_ & _ & _ & _ & WR & WA).
    destruct (steps_field (sec_relocations s) (sec_data s) (relocs_in o s WR)) as [SF1 SF2]. { eapply Forall_impl; [|exact WR]. intros r H. apply H. } { exact WA. }
    split; [exact SF2|]. intros j r R. rewrite Forall_forall in SF1. specialize (SF1 r (nth_error_In _ _ R)).
    destruct (rel_fields o W c T HS HY HT HTL HC i s j r I R) as (G1 & G2 & G3). split; [exact G1|]. split; [exact G2|]. split; [exact G3|exact SF1].
  - intros i y I. eapply sym_fields; eassumption.
Qed.
Print Assumptions C49_layout_partial.

(** Missing: a section name of more than 8 bytes is written as a slash and the
    offset of the name counted from the first string, while the format counts
    from the start of the table, 4 bytes earlier: whoever reads the name gets at
    most 3 bytes, never the name. *)
Theorem C49_long_section_name_refuted : forall o i s, coff_writable o -> nth_error (sections o) i = Some s -> 8 < len (sec_name s) ->
  exists file, coff_write_object o = Ok file /\ len (x_section_name file i) <= 3 /\ x_section_name file i <> sec_name s.
Proof.
  intros o i s W I L. destruct (coff_file_ok o W) as (c & T & E & HN & HM & HP & HS & HY & HT & HTL & HC). exists (cfile c). split; [exact E|].
  assert (L3 : len (x_section_name (cfile c) i) <= 3) by (eapply section_name_long; eassumption). split; [exact L3|]. intros X. rewrite X in L3. lia.
Qed.
Print Assumptions C49_long_section_name_refuted.

(** Missing: the number of relocations of a section is cut to 16 bits, and only
    that many are written. *)
Theorem C49_many_relocations_refuted : forall s T c T', convert_section s T = Ok (c, T') ->
  number_of_relocations c = len (sec_relocations s) mod 2 ^ 16 /\ len (c_relocations c) = len (sec_relocations s) mod 2 ^ 16.
Proof.
  intros s T c T' E. unfold convert_section in E. destruct (section_characteristics (sec_alignment s)); try discriminate. cbn [Base.bind] in E.
  destruct (section_name_field (sec_name s) T) as [[f T1]| |]; try discriminate. cbn [Base.bind fst snd] in E.
  destruct (convert_relocations (sec_data s) _) as [[d cr]| |] eqn:R; try discriminate. cbn [Base.bind fst snd] in E. inversion E; subst. cbn [number_of_relocations c_relocations]. split; [reflexivity|].
  assert (LC : forall l d d' cr, convert_relocations d l = Ok (d', cr) -> length cr = length l).
  { clear. induction l as [|r t IH]; intros d d' cr E; cbn [convert_relocations] in E; [inversion E; reflexivity|]. destruct (convert_relocation d r) as [[d1 c1]| |]; try discriminate. cbn [Base.bind fst snd] in E.
    destruct (convert_relocations d1 t) as [[d2 c2]| |] eqn:X; try discriminate. cbn [Base.bind fst snd] in E. inversion E; subst. cbn [length]. rewrite (IH _ _ _ X). reflexivity. }
  apply LC in R. unfold len. rewrite R, firstn_length. unfold wrap. pose proof (Z.mod_pos_bound (Z.of_nat (length (sec_relocations s))) (2 ^ 16) ltac:(lia)). pose proof (Z.mod_le (Z.of_nat (length (sec_relocations s))) (2 ^ 16) ltac:(lia) ltac:(lia)). lia.
Qed.
Print Assumptions C49_many_relocations_refuted.

(** * Example *)
Definition example_coff : object :=
  {| sections := [{| sec_name := chars ".text"; sec_alignment := 16; sec_data := [232; 0; 0; 0; 0; 195];
                     sec_relocations := [{| r_type := RELOCATE_32_RELATIVE; r_idx := 1; r_offset := 1; r_add := 3 |}] |};
                  {| sec_name := chars ".very_long_name"; sec_alignment := 0; sec_data := [0; 0; 0; 0; 0; 0; 0; 0];
                     sec_relocations := [{| r_type := RELOCATE_64; r_idx := 0; r_offset := 0; r_add := 0 |}] |}];
     symbols := [{| sym_name := Some (chars "main"); sym_value := 0; sym_size := 0; sym_global := true; sym_section := 0 |};
                 {| sym_name := Some (chars "a_long_function"); sym_value := 5; sym_size := 0; sym_global := false; sym_section := -1 |}] |}.
Lemma c_string_check n : forallb (fun b => (0 <? b) && (b <? 256)) n = true -> is_c_string n.
Proof. intros H. apply Forall_forall. intros b I. rewrite forallb_forall in H. specialize (H b I). apply andb_prop in H. destruct H as [H1 H2]. apply Z.ltb_lt in H1, H2. lia. Qed.
Example C49_hypotheses : coff_writable example_coff.
Proof.
  unfold coff_writable, example_coff. cbn [sections symbols]. split; [|split; [|split; [|split]]].
  - apply Forall_cons.
    { unfold coff_section_ok. cbn [sec_name sec_data sec_alignment sec_relocations]. split; [apply c_string_check; reflexivity|].
      split; [unfold bytes_ok; repeat (apply Forall_cons; [unfold is_byte; lia|]); apply Forall_nil|]. split; [cbn [In]; tauto|]. split; [reflexivity|].
      split; [|cbn [map]; repeat constructor]. apply Forall_cons; [|apply Forall_nil]. unfold coff_relocation_ok. cbn [symbols r_idx r_offset r_type r_add rel_addend rel_size sec_data length]. unfold rel_addend, len. cbn [r_type r_add length]. repeat split; try lia. }
    apply Forall_cons; [|apply Forall_nil].
    { unfold coff_section_ok. cbn [sec_name sec_data sec_alignment sec_relocations]. split; [apply c_string_check; reflexivity|].
      split; [unfold bytes_ok; repeat (apply Forall_cons; [unfold is_byte; lia|]); apply Forall_nil|]. split; [cbn [In]; tauto|]. split; [reflexivity|].
      split; [|cbn [map]; repeat constructor]. apply Forall_cons; [|apply Forall_nil]. unfold coff_relocation_ok. cbn [symbols r_idx r_offset r_type r_add rel_addend rel_size sec_data length]. unfold rel_addend, len. cbn [r_type r_add length]. repeat split; try lia. }
  - repeat (apply Forall_cons; [unfold coff_symbol_ok; cbn [sym_name sym_value sym_section]; split; [eexists; split; [reflexivity|]; split; [apply c_string_check; reflexivity|discriminate]|split; [lia|unfold len; cbn; lia]]|]). apply Forall_nil.
  - reflexivity.
  - reflexivity.
  - reflexivity.
Qed.
Example C49_example :
  match coff_write_object example_coff with
  | Ok file => x_parts file = [(0, 20); (20, 80); (100, 36); (136, 37); (173, 6); (179, 10); (189, 8); (197, 10)] /\
      bytes_at file 173 6 = [232; 7; 0; 0; 0; 195] /\ x_section_name file 0 = chars ".text" /\ x_section_name file 1 = [] /\ x_symbol_name file 1 = chars "a_long_function"
  | _ => False
  end.
Proof. vm_compute. repeat split; reflexivity. Qed.
