(** C47: the layout of the ELF files written. *)
From Coq Require Import String.
From Verif Require Import Base CharTypes Common CommonProofs Bytes BytesSpec BytesProofs Object Elf ElfSpec ElfProofs ElfBuild ElfShape C48Props.
Local Open Scope Z_scope.
Local Open Scope list_scope.

(** * Fields *)
Lemma field_here file pos n v rest : skipn pos file = le n v ++ rest -> field file pos n = v mod 256 ^ Z.of_nat n.
Proof.
  intros E. unfold field, window. rewrite E, firstn_app, le_digits_length, Nat.sub_diag. cbn [firstn]. rewrite app_nil_r.
  rewrite firstn_all2 by (rewrite le_digits_length; lia). apply le_value_digits.
Qed.
Lemma field_in file pos k n b v rest rest' : skipn pos file = b ++ rest -> (k <= length b)%nat -> skipn k b = le n v ++ rest' -> field file (pos + k) n = v mod 256 ^ Z.of_nat n.
Proof.
  intros E L S. apply field_here with (rest := rest' ++ rest). rewrite Nat.add_comm, <- skipn_skipn_add, E, skipn_app, S.
  replace (k - length b)%nat with 0%nat by lia. cbn [skipn]. rewrite app_assoc. reflexivity.
Qed.
Lemma skipn_item {A} (f : A -> list Z) k l x : (forall x, length (f x) = k) -> forall i r, nth_error l i = Some x ->
  exists r', skipn (k * i) (concat (map f l) ++ r) = f x ++ r'.
Proof.
  intros K. induction l as [|y t IH]; intros i r E; destruct i as [|i]; try discriminate.
  - inversion E; subst. rewrite Nat.mul_0_r. cbn [map concat skipn]. exists (concat (map f t) ++ r). rewrite <- app_assoc. reflexivity.
  - cbn in E. destruct (IH i r E) as (r' & R). exists r'. cbn [map concat]. rewrite <- app_assoc, skipn_app, K.
    rewrite skipn_all2 by (rewrite K; lia). cbn [app]. replace (k * S i - k)%nat with (k * i)%nat by lia. exact R.
Qed.
Lemma map_seq_nth {A B} (g : nat -> B) (h : A -> B) : forall (l : list A) k, (forall i x, nth_error l i = Some x -> g (k + i)%nat = h x) -> map g (seq k (length l)) = map h l.
Proof.
  induction l as [|x t IH]; intros k H; cbn [length seq map]; [reflexivity|]. f_equal.
  - rewrite <- (H 0%nat x eq_refl), Nat.add_0_r. reflexivity.
  - apply IH. intros i y E. rewrite <- (H (S i) y E). f_equal. lia.
Qed.

(** * Header fields of a file starting with the header *)
Section Header.
Variables (elf : elf_file) (rest : list Z).
Let file := header_bytes elf ++ rest.
Lemma hdr_skip k : (k <= 64)%nat -> skipn k file = skipn k (header_bytes elf) ++ rest.
Proof. intros K. unfold file. rewrite skipn_app, header_bytes_length. replace (k - 64)%nat with 0%nat by lia. reflexivity. Qed.
Lemma hdr_type : f_type file = e_type (header elf) mod 2 ^ 16.
Proof. unfold f_type. change (2 ^ 16) with (256 ^ Z.of_nat 2). eapply field_here. rewrite hdr_skip by lia. unfold header_bytes. cbv zeta. cbn [skipn app magic le_digits repeat]. reflexivity. Qed.
Lemma hdr_entry : f_entry file = e_entry (header elf) mod 2 ^ 64.
Proof. unfold f_entry. change (2 ^ 64) with (256 ^ Z.of_nat 8). eapply field_here. rewrite hdr_skip by lia. unfold header_bytes. cbv zeta. cbn [skipn app magic le_digits repeat]. reflexivity. Qed.
Lemma hdr_phoff : f_phoff file = e_phoff (header elf) mod 2 ^ 64.
Proof. unfold f_phoff. change (2 ^ 64) with (256 ^ Z.of_nat 8). eapply field_here. rewrite hdr_skip by lia. unfold header_bytes. cbv zeta. cbn [skipn app magic le_digits repeat]. reflexivity. Qed.
Lemma hdr_shoff : f_shoff file = e_shoff (header elf) mod 2 ^ 64.
Proof. unfold f_shoff. change (2 ^ 64) with (256 ^ Z.of_nat 8). eapply field_here. rewrite hdr_skip by lia. unfold header_bytes. cbv zeta. cbn [skipn app magic le_digits repeat]. reflexivity. Qed.
Lemma hdr_phnum : f_phnum file = len (elf_segments elf) mod 2 ^ 16.
Proof. unfold f_phnum. change (2 ^ 16) with (256 ^ Z.of_nat 2). eapply field_here. rewrite hdr_skip by lia. unfold header_bytes. cbv zeta. cbn [skipn app magic le_digits repeat]. reflexivity. Qed.
Lemma hdr_shnum : f_shnum file = len (elf_sections elf) mod 2 ^ 16.
Proof. unfold f_shnum. change (2 ^ 16) with (256 ^ Z.of_nat 2). eapply field_here. rewrite hdr_skip by lia. unfold header_bytes. cbv zeta. cbn [skipn app magic le_digits repeat]. reflexivity. Qed.
Lemma hdr_shstrndx : f_shstrndx file = e_shstrndx (header elf) mod 2 ^ 16.
Proof. unfold f_shstrndx. change (2 ^ 16) with (256 ^ Z.of_nat 2). eapply field_here. rewrite hdr_skip by lia. unfold header_bytes. cbv zeta. cbn [skipn app magic le_digits repeat]. reflexivity. Qed.
End Header.

(** * Parts laid out one after the other *)
Lemma consecutive_apart l : forall pos, consecutive pos l -> Forall (fun p => 0 <= fst p) l ->
  ForallOrdPairs apart (map (fun p => (fst p, len (snd p))) l) /\
  Forall (fun p => snd p <> [] -> Z.of_nat pos <= fst p /\ fst p + len (snd p) <= Z.of_nat pos + sum (map (fun p => len (snd p)) l)) l.
Proof.
  induction l as [|[o d] t IH]; intros pos C P; cbn [map]; [split; constructor|]. inversion P as [|? ? P1 P2]; subst. cbn [fst snd] in *. cbn [consecutive] in C. destruct C as [E C].
  destruct (IH _ C P2) as [A B].
  assert (S0 : 0 <= sum (map (fun p : Z * list Z => len (snd p)) t)) by (apply sum_map_nonneg; intros; apply len_nonneg).
  split.
  - constructor; [|exact A]. apply Forall_map. eapply Forall_impl; [|exact B]. intros [o2 d2] H. cbn [fst snd] in *. unfold apart. cbn [fst snd].
    destruct d as [|x d]; [left; reflexivity|]. right. destruct d2 as [|y d2]; [left; reflexivity|]. right. left.
    destruct H as [H _]; [discriminate|]. specialize (E ltac:(discriminate)). unfold len in *. lia.
  - constructor.
    + cbn [fst snd sum fold_right]. intros N. specialize (E N). fold (sum (map (fun p : Z * list Z => len (snd p)) t)). unfold len in *. lia.
    + eapply Forall_impl; [|exact B]. intros [o2 d2] H N. cbn [fst snd sum fold_right] in *. destruct (H N) as [H1 H2]. fold (sum (map (fun p : Z * list Z => len (snd p)) t)). unfold len in *. lia.
Qed.
Lemma consecutive_bytes l : forall pre, consecutive (length pre) l -> Forall (fun p => snd p <> [] -> window (pre ++ concat (map snd l)) (Z.to_nat (fst p)) (length (snd p)) = snd p) l.
Proof.
  induction l as [|[o d] t IH]; intros pre C; [constructor|]. cbn [consecutive map concat snd] in *. destruct C as [E C]. constructor.
  - cbn [fst snd]. intros N. rewrite (E N). unfold window. rewrite skipn_app, skipn_all, Nat.sub_diag. cbn [app skipn]. rewrite firstn_app, Nat.sub_diag, firstn_all. cbn [firstn]. apply app_nil_r.
  - specialize (IH (pre ++ d)). rewrite app_length in IH. specialize (IH C). rewrite <- app_assoc in IH. exact IH.
Qed.
Lemma window_zero f p : window f p 0 = [].
Proof. reflexivity. Qed.
Lemma sum_parts l : sum (map snd (map (fun p : Z * list Z => (fst p, len (snd p))) l)) = sum (map (fun p => len (snd p)) l).
Proof. rewrite map_map. reflexivity. Qed.

(** The fields of every section header of an allocated file. *)
Lemma sections_fields elf : allocated elf -> elf_ok elf -> forall i s, nth_error (elf_sections elf) i = Some s ->
  f_sh_type (file_bytes elf) i = sh_type (es_header s) /\ f_sh_offset (file_bytes elf) i = sh_offset (es_header s) /\ f_sh_size (file_bytes elf) i = len (es_data s).
Proof.
  intros (G & N & S & C) (A1 & A2 & A3 & A4 & A5 & A6) i s E.
  assert (SO : f_shoff (file_bytes elf) = 64). { unfold file_bytes. rewrite hdr_shoff, S. reflexivity. }
  assert (HO : header_ok (es_header s) /\ len (es_data s) < 2 ^ 64). { rewrite Forall_forall in A6. apply A6. eapply nth_error_In. exact E. }
  destruct HO as ((H1 & H2 & H3 & H4 & H5 & H6) & HL).
  destruct (skipn_item section_header_bytes 64 (elf_sections elf) s section_header_bytes_length i (concat (map es_data (elf_sections elf))) E) as (r' & R).
  assert (SK : skipn (section_header_at (file_bytes elf) i) (file_bytes elf) = section_header_bytes s ++ r').
  { unfold section_header_at. rewrite SO. change (Z.to_nat 64) with 64%nat. unfold file_bytes. rewrite skipn_app, header_bytes_length. rewrite skipn_all2 by (rewrite header_bytes_length; lia).
    cbn [app]. replace (64 + 64 * i - 64)%nat with (64 * i)%nat by lia. exact R. }
  unfold f_sh_type, f_sh_offset, f_sh_size. repeat split.
  - rewrite <- (Z.mod_small (sh_type (es_header s)) (2 ^ 32)) by lia. change (2 ^ 32) with (256 ^ Z.of_nat 4). eapply field_in; [exact SK|rewrite section_header_bytes_length; lia|].
    unfold section_header_bytes. cbv zeta. cbn [skipn app le_digits]. reflexivity.
  - rewrite <- (Z.mod_small (sh_offset (es_header s)) (2 ^ 64)) by lia. change (2 ^ 64) with (256 ^ Z.of_nat 8). eapply field_in; [exact SK|rewrite section_header_bytes_length; lia|].
    unfold section_header_bytes. cbv zeta. cbn [skipn app le_digits]. reflexivity.
  - rewrite <- (Z.mod_small (len (es_data s)) (2 ^ 64)) by (unfold len in *; lia). change (2 ^ 64) with (256 ^ Z.of_nat 8). eapply field_in; [exact SK|rewrite section_header_bytes_length; lia|].
    unfold section_header_bytes. cbv zeta. cbn [skipn app le_digits]. reflexivity.
Qed.
Definition content_of (file : list Z) (i : nat) : list Z := bytes_at file (f_sh_offset file i) (f_sh_size file i).
Lemma allocated_layout elf : allocated elf -> elf_ok elf -> e_phoff (header elf) = 0 ->
  let file := file_bytes elf in
  f_shoff file = 64 /\ f_shnum file = len (elf_sections elf) /\ f_phnum file = 0 /\
  ForallOrdPairs apart (parts file) /\ Forall (inside file) (parts file) /\ sum (map snd (parts file)) = len file /\
  forall i s, nth_error (elf_sections elf) i = Some s -> content_of file i = es_data s.
Proof.
  intros AL OK PH file. pose proof (sections_fields elf AL OK) as SF. fold file in SF. destruct AL as (G & N & S & C). destruct OK as (A1 & A2 & A3 & A4 & A5 & A6).
  assert (SO : f_shoff file = 64). { unfold file, file_bytes. rewrite hdr_shoff, S. reflexivity. }
  assert (SN : f_shnum file = len (elf_sections elf)). { unfold file, file_bytes. rewrite hdr_shnum. apply Z.mod_small. unfold len in *. lia. }
  assert (PN : f_phnum file = 0). { unfold file, file_bytes. rewrite hdr_phnum, G. reflexivity. }
  set (l := offsets_of (elf_sections elf)) in *.
  assert (LP : Forall (fun p => 0 <= fst p) l). { unfold l, offsets_of. apply Forall_map. eapply Forall_impl; [|exact A6]. intros s ((_ & _ & _ & _ & H & _) & _). cbn [fst]. lia. }
  assert (PP : map (fun i => (f_sh_offset file i, f_sh_size file i)) (seq 0 (length (elf_sections elf))) = map (fun p => (fst p, len (snd p))) l).
  { unfold l, offsets_of. rewrite map_map. cbn [fst snd]. apply map_seq_nth. intros i s E. cbn [Nat.add]. destruct (SF i s E) as (_ & -> & ->). reflexivity. }
  assert (PT : parts file = (0, 64) :: (64, 64 * len (elf_sections elf)) :: (f_phoff file, 0) :: map (fun p => (fst p, len (snd p))) l).
  { unfold parts. rewrite SO, SN, PN. cbn [Z.to_nat seq map]. rewrite app_nil_r. unfold len at 2. rewrite Nat2Z.id, PP. reflexivity. }
  destruct (consecutive_apart l _ C LP) as [CA CB].
  assert (LF : len file = 64 + 64 * len (elf_sections elf) + sum (map (fun p => len (snd p)) l)).
  { unfold file, file_bytes. rewrite !len_app. assert (X : len (concat (map section_header_bytes (elf_sections elf))) = 64 * len (elf_sections elf)). { unfold len. rewrite (concat_length_const _ 64) by apply section_header_bytes_length. lia. }
    rewrite X, len_concat_map. unfold l, offsets_of. rewrite map_map. cbn [snd]. assert (Y : len (header_bytes elf) = 64) by (unfold len; rewrite header_bytes_length; reflexivity). rewrite Y. lia. }
  split; [exact SO|]. split; [exact SN|]. split; [exact PN|].
  assert (S0 : 0 <= sum (map (fun p => len (snd p)) l)) by (apply sum_map_nonneg; intros; apply len_nonneg).
  split; [|split; [|split]].
  - rewrite PT. constructor.
    + apply Forall_cons; [unfold apart; cbn [fst snd]; right; right; left; lia|]. apply Forall_cons; [unfold apart; cbn [fst snd]; right; left; reflexivity|].
      apply Forall_map. eapply Forall_impl; [|exact CB]. intros [o d] H. unfold apart. cbn [fst snd] in *. destruct d; [right; left; reflexivity|]. destruct H as [H _]; [discriminate|]. right. right. left. lia.
    + constructor.
      * apply Forall_cons; [unfold apart; cbn [fst snd]; right; left; reflexivity|]. apply Forall_map. eapply Forall_impl; [|exact CB]. intros [o d] H. unfold apart. cbn [fst snd] in *. destruct d; [right; left; reflexivity|]. destruct H as [H _]; [discriminate|]. right. right. left. unfold len. lia.
      * constructor; [|exact CA]. apply Forall_map, Forall_forall. intros. left. reflexivity.
  - rewrite PT. unfold inside. fold (len file). rewrite LF. apply Forall_cons; [cbn [fst snd]; right; unfold len in *; lia|]. apply Forall_cons; [cbn [fst snd]; right; unfold len in *; lia|]. apply Forall_cons; [left; reflexivity|].
    apply Forall_map. eapply Forall_impl; [|exact CB]. intros [o d] H. cbn [fst snd] in *. destruct d; [left; reflexivity|]. destruct H as [H1 H2]; [discriminate|]. right. unfold len in *. lia.
  - rewrite PT. cbn [map snd]. change (sum (64 :: 64 * len (elf_sections elf) :: 0 :: ?x)) with (64 + (64 * len (elf_sections elf) + (0 + sum x))). rewrite LF. cbn [sum fold_right]. fold (sum (map snd (map (fun p : Z * list Z => (fst p, len (snd p))) l))). rewrite sum_parts. lia.
  - intros i s E. unfold content_of, bytes_at. destruct (SF i s E) as (_ & -> & ->). unfold len. rewrite Nat2Z.id. destruct (es_data s) as [|b d] eqn:D; [reflexivity|]. rewrite <- D.
    assert (CC : consecutive (length (header_bytes elf ++ concat (map section_header_bytes (elf_sections elf)))) l).
    { rewrite app_length, header_bytes_length, (concat_length_const _ 64) by apply section_header_bytes_length. exact C. }
    pose proof (consecutive_bytes l _ CC) as CBY. rewrite Forall_forall in CBY. specialize (CBY (sh_offset (es_header s), es_data s)). cbn [fst snd] in CBY.
    assert (FE : (header_bytes elf ++ concat (map section_header_bytes (elf_sections elf))) ++ concat (map snd l) = file). { unfold file, file_bytes, l, offsets_of. rewrite map_map, <- app_assoc. reflexivity. }
    rewrite FE in CBY. apply CBY; [|rewrite D; discriminate]. unfold l, offsets_of. change (sh_offset (es_header s), es_data s) with ((fun s => (sh_offset (es_header s), es_data s)) s). apply in_map. eapply nth_error_In. exact E.
Qed.

(** * Theorems *)
(** In the file written for an object, the parts named by its headers share no
    byte, lie inside the file and fill it; section [S i] of the file has the
    type SHT_PROGBITS and, where its header says, the bytes of section [i]. *)
Theorem C47_object_partial : forall fill o, writable_object o ->
  exists file, elf_write_object fill o = Ok file /\ len file = elf_size o /\
    f_shoff file = 64 /\ f_shnum file = 2 * len (sections o) + 4 /\ f_phnum file = 0 /\
    ForallOrdPairs apart (parts file) /\ Forall (inside file) (parts file) /\ sum (map snd (parts file)) = len file /\
    forall i s, nth_error (sections o) i = Some s ->
      f_sh_type file (S i) = 1 /\ f_sh_size file (S i) = len (sec_data s) /\ bytes_at file (f_sh_offset file (S i)) (f_sh_size file (S i)) = sec_data s.
Proof.
  intros fill o W. destruct (from_object_ok fill o W) as (elf & pl & E1 & E2 & E3 & E4 & E5 & E6 & E7).
  exists (file_bytes elf). unfold elf_write_object. rewrite E1. cbn [Base.bind]. split; [apply elf_write_bytes; exact E2|]. split; [exact E7|].
  assert (PH : e_phoff (header elf) = 0).
  { clear -E1. unfold elf_from_object in E1. destruct (register_string [] []) as [n0 t0]. destruct (add_progbits (sections o) t0) as [pb t1]. destruct (register_string (chars ".symtab") t1) as [n1 t2].
    destruct (clear _ 0 24); try discriminate. cbn [Base.bind] in E1. destruct (write_section_symbols _ _ _); try discriminate. cbn [Base.bind] in E1.
    destruct (write_symbols _ _ _ _ _) as [[[x y] z]| |]; try discriminate. cbn [Base.bind] in E1. destruct (add_relocations _ _ _ _ _ _) as [[x1 y1]| |]; try discriminate. cbn [Base.bind] in E1.
    destruct (register_string (chars ".strtab") y1) as [n2 t3]. destruct (register_string (chars ".shstrtab") t3) as [n3 t4]. unfold elf_allocate_sections in E1. cbn [header elf_sections elf_segments e_phoff] in E1.
    destruct (allocate_sections _ _) as [t' aa]. inversion E1; subst. reflexivity. }
  destruct (allocated_layout elf E2 E3 PH) as (L1 & L2 & L3 & L4 & L5 & L6 & L7). pose proof (sections_fields elf E2 E3) as SF.
  destruct E6 as (null & pb & st & rl & a & b & EL & _ & FP & _ & FR & _ & _).
  assert (LP : length pb = length (sections o)). { clear -FP. induction FP; cbn; congruence. }
  assert (LR : length rl = length (sections o)). { transitivity (length (combine (seq 0 (length (sections o))) (sections o))); [|rewrite combine_length, seq_length; lia]. clear -FR. induction FR; cbn; congruence. }
  split; [exact L1|]. split. { rewrite L2. unfold len. rewrite <- (map_length sized (elf_sections elf)), EL. cbn [length]. rewrite app_length. cbn [length]. rewrite app_length. cbn [length]. lia. }
  split; [exact L3|]. split; [exact L4|]. split; [exact L5|]. split; [exact L6|]. intros i s I.
  assert (exists e, nth_error (elf_sections elf) (S i) = Some e /\ progbits_read (section_strings o) s (sized e)) as (e & X1 & X2).
  { assert (P : exists e', nth_error pb i = Some e' /\ progbits_read (section_strings o) s e').
    { clear -FP I. revert i I. induction FP as [|s' e' l l' H F IH]; intros i I; destruct i; try discriminate; cbn in *; [inversion I; subst; exists e'; split; [reflexivity|exact H]|apply IH; exact I]. }
    destruct P as (e' & P1 & P2).
    assert (Q : nth_error (map sized (elf_sections elf)) (S i) = Some e'). { rewrite EL. cbn [nth_error]. rewrite nth_error_app1 by (apply nth_error_Some; congruence). exact P1. }
    rewrite nth_error_map in Q. destruct (nth_error (elf_sections elf) (S i)) as [e|]; [|discriminate]. inversion Q; subst. exists e. split; [reflexivity|exact P2]. }
  destruct (SF _ _ X1) as (T1 & T2 & T3). pose proof (L7 _ _ X1) as T4. unfold content_of in T4. destruct X2 as (Y1 & _ & Y3). cbn [sized es_data es_header sized_header sh_type] in Y1, Y3.
  split; [rewrite T1; exact Y1|]. split; [rewrite T3, Y3; reflexivity|]. rewrite T4. exact Y3.
Qed.
Print Assumptions C47_object_partial.

Example C47_hypotheses : writable_object example_object.
Proof. exact (proj1 C48_hypotheses). Qed.
Example C47_example :
  match elf_write_object 7 example_object with
  | Ok file => firstn 4 file = [127; 69; 76; 70] /\ parts file =
      [(0, 64); (64, 512); (0, 0); (0, 0); (576, 6); (582, 8); (590, 144); (734, 24); (758, 24); (782, 16); (798, 61)]
  | _ => False
  end.
Proof. vm_compute. split; reflexivity. Qed.

(** * Executables *)
Definition writable_executable (x : executable) : Prop :=
  exec_segments x <> [] /\ len (exec_segments x) < 2 ^ 16 /\
  64 + 56 * len (exec_segments x) + sum (map (fun s => len (seg_data s) + 4096) (exec_segments x)) < 2 ^ 31 /\
  Forall (fun s => u64 (load_address_of s) /\ u64 (load_size s)) (exec_segments x).

(** Contents in increasing order of offset. *)
Fixpoint spaced (pos : Z) (l : list (Z * list Z)) : Prop :=
  match l with
  | [] => True
  | (off, d) :: t => pos <= off /\ spaced (off + len d) t
  end.
Lemma spaced_later l : forall a b, a <= b -> spaced b l -> spaced a l.
Proof. destruct l as [|[o d] t]; intros a b L S; cbn in *; [exact I|]. split; [lia|tauto]. Qed.
Lemma spaced_fits l : forall pos, 0 <= pos -> spaced pos l -> fits (Z.to_nat pos) l.
Proof.
  induction l as [|[o d] t IH]; intros pos P S; cbn [spaced fits] in *; [exact I|]. destruct S as [S1 S2]. pose proof (len_nonneg d). destruct d as [|b d].
  - apply IH; [exact P|]. eapply spaced_later; [|exact S2]. cbn. lia.
  - split; [lia|]. replace (Z.to_nat o + length (b :: d))%nat with (Z.to_nat (o + len (b :: d))) by (unfold len in *; lia). apply IH; [lia|exact S2].
Qed.
Lemma spaced_apart l : forall pos, 0 <= pos -> spaced pos l ->
  ForallOrdPairs apart (map (fun p => (fst p, len (snd p))) l) /\ Forall (fun p => pos <= fst p) l.
Proof.
  induction l as [|[o d] t IH]; intros pos P S; cbn [map spaced] in *; [split; constructor|]. destruct S as [S1 S2]. pose proof (len_nonneg d).
  destruct (IH (o + len d) ltac:(lia) S2) as [A B]. cbn [fst snd]. split.
  - constructor; [|exact A]. apply Forall_map. eapply Forall_impl; [|exact B]. intros p H1. cbn beta in H1. unfold apart. cbn [fst snd]. right. right. left. lia.
  - constructor; [exact S1|]. eapply Forall_impl; [|exact B]. cbn. lia.
Qed.
Definition placed (s : elf_segment) (t : elf_segment) : Prop :=
  exists off, t = segment_with_offset off s /\ 0 <= off < 2 ^ 31 /\ off mod 4096 = 0.
Definition seg_offsets (l : list elf_segment) : list (Z * list Z) := map (fun s => (p_offset (eg_header s), eg_data s)) l.
Lemma write_segments_bytes f elf : elf_segments elf <> [] -> e_phoff (header elf) = 64 -> length f = 64%nat ->
  write_segments f elf = write_contents (seg_offsets (elf_segments elf)) (f ++ concat (map program_header_bytes (elf_segments elf))).
Proof.
  intros N P L. unfold write_segments. rewrite P. destruct (elf_segments elf) as [|y t] eqn:Y; [congruence|].
  unfold file_write_skip. change (Z.to_nat 64) with 64%nat. rewrite L. cbn [Nat.leb Nat.sub Base.bind]. rewrite fw_zero. cbn [repeat]. rewrite app_nil_r.
  rewrite (fold_append _ program_header_bytes write_program_header_bytes). reflexivity.
Qed.
Lemma small_wrap v : 0 <= v < 2 ^ 64 -> wrap 64 v = v.
Proof. apply Z.mod_small. Qed.
Lemma allocate_segments_spec l : forall a, 0 <= a -> Forall (fun s => p_align (eg_header s) = 4096) l -> a + sum (map (fun s => len (eg_data s) + 4096) l) < 2 ^ 31 ->
  exists l', allocate_segments l a = Ok l' /\ Forall2 placed l l' /\ spaced a (seg_offsets l').
Proof.
  induction l as [|s t IH]; intros a A F B; cbn [allocate_segments]; [exists []; repeat split; constructor|].
  inversion F as [|? ? F1 F2]; subst. cbn [map sum fold_right] in B. fold (sum (map (fun s => len (eg_data s) + 4096) t)) in B.
  assert (S0 : 0 <= sum (map (fun s => len (eg_data s) + 4096) t)) by (apply sum_map_nonneg; intros x; pose proof (len_nonneg (eg_data x)); lia).
  pose proof (len_nonneg (eg_data s)) as L0.
  rewrite F1. change (signed 32 4096) with 4096. rewrite (signed_id 32 a) by (try (change (2 ^ (32 - 1)) with (2 ^ 31)); cbn beta in *; lia).
  destruct (round_up_eq a 4096) as (r & R & R1 & R2 & R3); [lia|lia|unfold INT_MAX; lia|unfold INT_MAX; lia|]. rewrite R. cbn [Base.bind].
  rewrite (small_wrap r) by lia. fold (len (eg_data s)). rewrite small_wrap by (cbn beta in *; lia).
  destruct (IH (r + len (eg_data s))) as (l' & E & P & S); [lia|exact F2|lia|]. rewrite E. cbn [Base.bind].
  exists (segment_with_offset r s :: l'). split; [reflexivity|]. split.
  - constructor; [|exact P]. exists r. split; [reflexivity|]. split; [lia|]. apply Z.mod_divide; [lia|exact R3].
  - cbn [seg_offsets map spaced eg_header eg_data segment_with_offset p_offset]. split; [lia|exact S].
Qed.

(** PF_X, PF_W and PF_R of the ELF specification. *)
Definition permissions (s : segment) : Z :=
  (if executable_ s then 1 else 0) + (if writable s then 2 else 0) + (if readable s then 4 else 0).

(** In an executable file the header, the program headers and the contents
    share no byte and lie inside the file; program header [i] describes segment
    [i]: that it is to be loaded (PT_LOAD), how it may be used, its address and
    sizes, and the place of its bytes, which lies at the
    same distance from a page boundary as the address does when segments are
    loaded at page boundaries. *)
Theorem C47_executable_partial : forall x, writable_executable x ->
  exists file, elf_write_executable x = Ok file /\
    f_type file = 2 /\ (u64 (exec_entry x) -> f_entry file = exec_entry x) /\
    f_phoff file = 64 /\ f_phnum file = len (exec_segments x) /\ f_shnum file = 0 /\
    ForallOrdPairs apart (parts file) /\ Forall (inside file) (parts file) /\
    forall i s, nth_error (exec_segments x) i = Some s ->
      f_p_type file i = 1 /\ f_p_flags file i = permissions s /\
      f_p_vaddr file i = load_address_of s /\ f_p_filesz file i = len (seg_data s) /\ f_p_memsz file i = load_size s /\ f_p_align file i = 4096 /\
      bytes_at file (f_p_offset file i) (f_p_filesz file i) = seg_data s /\
      (load_address_of s mod 4096 = 0 -> (f_p_vaddr file i - f_p_offset file i) mod f_p_align file i = 0).
Proof.
  intros x (X1 & X2 & X3 & X4). set (segs := map elf_segment_of (exec_segments x)).
  assert (LS : len segs = len (exec_segments x)) by (unfold len, segs; rewrite map_length; reflexivity).
  destruct (allocate_segments_spec segs (64 + 56 * len segs)) as (l' & E & P & S).
  { pose proof (len_nonneg segs). lia. } { unfold segs. apply Forall_map, Forall_forall. intros. reflexivity. } { rewrite LS. unfold segs. rewrite map_map. cbn [elf_segment_of eg_data]. exact X3. }
  assert (LL : length l' = length (exec_segments x)). { transitivity (length segs); [|unfold segs; apply map_length]. clear -P. induction P; cbn; congruence. }
  set (elf := {| header := {| e_type := ET_EXEC; e_entry := exec_entry x; e_shoff := 0; e_phoff := 64; e_shstrndx := 0 |}; shstrings := []; strings := []; elf_sections := []; elf_segments := l' |}).
  assert (EF : elf_from_executable x = Ok elf).
  { unfold elf_from_executable. fold segs. unfold elf_allocate_sections. cbn [elf_sections header elf_segments e_shoff e_type e_entry e_shstrndx e_phoff shstrings strings].
    destruct segs as [|y t] eqn:SG. { exfalso. apply X1. destruct (exec_segments x); [reflexivity|discriminate]. }
    cbv iota. cbv iota in E. rewrite <- SG in *. rewrite small_wrap; [|pose proof (len_nonneg segs); unfold len in *; lia]. fold (len segs). rewrite E. reflexivity. }
  assert (L0 : l' <> []). { intros ->. apply X1. destruct (exec_segments x); [reflexivity|discriminate]. }
  set (pre := header_bytes elf ++ concat (map program_header_bytes l')).
  assert (LPRE : length pre = (64 + 56 * length l')%nat). { unfold pre. rewrite app_length, header_bytes_length, (concat_length_const _ 56) by apply program_header_bytes_length. lia. }
  destruct (write_contents_fits (seg_offsets l') pre) as (file & W & (g & G) & IN).
  { rewrite LPRE. replace (64 + 56 * length l')%nat with (Z.to_nat (64 + 56 * len segs)) by (unfold len in *; lia). apply spaced_fits; [pose proof (len_nonneg segs); lia|exact S]. }
  exists file. unfold elf_write_executable. rewrite EF. cbn [Base.bind]. split.
  { unfold elf_write. rewrite write_header_bytes. unfold write_sections. cbn [elf_sections elf Base.bind app]. 
    rewrite write_segments_bytes; [|exact L0|reflexivity|apply header_bytes_length]. cbn [elf_segments]. fold pre. exact W. }
  assert (FE : file = header_bytes elf ++ (concat (map program_header_bytes l') ++ g)) by (rewrite G; unfold pre; rewrite <- app_assoc; reflexivity).
  assert (PO : f_phoff file = 64) by (rewrite FE, hdr_phoff; reflexivity).
  assert (SO : f_shoff file = 0) by (rewrite FE, hdr_shoff; reflexivity).
  assert (PN : f_phnum file = len (exec_segments x)). { rewrite FE, hdr_phnum. cbn [elf elf_segments]. unfold len in *. rewrite LL. apply Z.mod_small. lia. }
  assert (SN : f_shnum file = 0) by (rewrite FE, hdr_shnum; reflexivity).
  assert (TY : f_type file = 2) by (rewrite FE, hdr_type; reflexivity).
  assert (EN : u64 (exec_entry x) -> f_entry file = exec_entry x) by (intros U; rewrite FE, hdr_entry; apply Z.mod_small; exact U).
  assert (FIELD : forall i s, nth_error (exec_segments x) i = Some s -> exists e, nth_error l' i = Some e /\ eg_data e = seg_data s /\ 0 <= p_offset (eg_header e) < 2 ^ 31 /\ p_offset (eg_header e) mod 4096 = 0 /\
    f_p_offset file i = p_offset (eg_header e) /\ f_p_vaddr file i = load_address_of s /\ f_p_filesz file i = len (seg_data s) /\ f_p_memsz file i = load_size s /\ f_p_align file i = 4096 /\ f_p_type file i = 1 /\ f_p_flags file i = permissions s).
  { intros i s I.
    assert (Q : nth_error segs i = Some (elf_segment_of s)) by (unfold segs; rewrite nth_error_map, I; reflexivity).
    assert (exists e, nth_error l' i = Some e /\ placed (elf_segment_of s) e) as (e & Q1 & off & Q2 & Q3 & Q4).
    { clear -P Q. revert i Q. induction P as [|a b la lb H F IH]; intros i Q; destruct i; try discriminate; cbn in *; [inversion Q; subst; exists b; split; [reflexivity|exact H]|apply IH; exact Q]. }
    exists e. split; [exact Q1|]. assert (D : eg_data e = seg_data s) by (subst e; reflexivity). assert (PF : p_offset (eg_header e) = off) by (subst e; reflexivity).
    split; [exact D|]. rewrite PF. split; [exact Q3|]. split; [exact Q4|].
    destruct (skipn_item program_header_bytes 56 l' e program_header_bytes_length i g Q1) as (r' & R).
    assert (SK : skipn (program_header_at file i) file = program_header_bytes e ++ r').
    { unfold program_header_at. rewrite PO. change (Z.to_nat 64) with 64%nat. rewrite FE, skipn_app, header_bytes_length. rewrite skipn_all2 by (rewrite header_bytes_length; lia).
      cbn [app]. replace (64 + 56 * i - 64)%nat with (56 * i)%nat by lia. exact R. }
    assert (XS : u64 (load_address_of s) /\ u64 (load_size s)). { rewrite Forall_forall in X4. apply X4. eapply nth_error_In. exact I. }
    destruct XS as [U1 U2]. unfold u64 in *.
    assert (LD : len (seg_data s) < 2 ^ 64).
    { assert (len (seg_data s) + 4096 <= sum (map (fun s => len (seg_data s) + 4096) (exec_segments x))).
      { clear -I. apply nth_error_In in I. induction (exec_segments x) as [|y t IH]; [destruct I|]. cbn [map sum fold_right]. fold (sum (map (fun s => len (seg_data s) + 4096) t)).
        assert (0 <= sum (map (fun s => len (seg_data s) + 4096) t)) by (apply sum_map_nonneg; intros z; pose proof (len_nonneg (seg_data z)); lia). pose proof (len_nonneg (seg_data y)).
        destruct I as [->|I]; [lia|]. specialize (IH I). lia. }
      pose proof (len_nonneg (exec_segments x)). lia. }
    unfold f_p_offset, f_p_vaddr, f_p_filesz, f_p_memsz, f_p_align, f_p_type, f_p_flags. pose proof (len_nonneg (seg_data s)) as LD0. subst e.
    split; [|split; [|split; [|split; [|split; [|split]]]]].
    - rewrite <- (Z.mod_small off (2 ^ 64)) by lia. change (2 ^ 64) with (256 ^ Z.of_nat 8). eapply field_in; [exact SK|rewrite program_header_bytes_length; lia|]. unfold program_header_bytes. cbv zeta. cbn [skipn app le_digits]. reflexivity.
    - rewrite <- (Z.mod_small (load_address_of s) (2 ^ 64)) by lia. change (2 ^ 64) with (256 ^ Z.of_nat 8). eapply field_in; [exact SK|rewrite program_header_bytes_length; lia|]. unfold program_header_bytes. cbv zeta. cbn [skipn app le_digits]. reflexivity.
    - rewrite <- (Z.mod_small (len (seg_data s)) (2 ^ 64)) by lia. change (2 ^ 64) with (256 ^ Z.of_nat 8). eapply field_in; [exact SK|rewrite program_header_bytes_length; lia|]. unfold program_header_bytes. cbv zeta. cbn [skipn app le_digits]. reflexivity.
    - rewrite <- (Z.mod_small (load_size s) (2 ^ 64)) by lia. change (2 ^ 64) with (256 ^ Z.of_nat 8). eapply field_in; [exact SK|rewrite program_header_bytes_length; lia|]. unfold program_header_bytes. cbv zeta. cbn [skipn app le_digits]. reflexivity.
    - rewrite <- (Z.mod_small 4096 (2 ^ 64)) by lia. change (2 ^ 64) with (256 ^ Z.of_nat 8). eapply field_in; [exact SK|rewrite program_header_bytes_length; lia|]. unfold program_header_bytes. cbv zeta. cbn [skipn app le_digits]. reflexivity.
    - rewrite <- (Nat.add_0_r (program_header_at file i)). change 1 with (1 mod 256 ^ Z.of_nat 4). eapply field_in; [exact SK|rewrite program_header_bytes_length; lia|]. unfold program_header_bytes. cbv zeta. cbn [skipn app le_digits]. reflexivity.
    - assert (PE : permissions s = p_flags (eg_header (elf_segment_of s)) mod 256 ^ Z.of_nat 4) by (unfold permissions, elf_segment_of; cbn [eg_header p_flags]; destruct (executable_ s), (writable s), (readable s); reflexivity).
      rewrite PE. eapply field_in; [exact SK|rewrite program_header_bytes_length; lia|]. unfold program_header_bytes. cbv zeta. cbn [skipn app le_digits]. reflexivity. }
  assert (PP : map (fun i => (f_p_offset file i, f_p_filesz file i)) (seq 0 (length (exec_segments x))) = map (fun p => (fst p, len (snd p))) (seg_offsets l')).
  { rewrite <- LL. unfold seg_offsets. rewrite map_map. cbn [fst snd]. apply map_seq_nth. intros i e I. cbn [Nat.add].
    destruct (nth_error (exec_segments x) i) as [s|] eqn:J. 2: { apply nth_error_None in J. assert (nth_error l' i <> None) by congruence. apply nth_error_Some in H. lia. }
    destruct (FIELD i s J) as (e' & K1 & K2 & _ & _ & K3 & _ & K4 & _). rewrite I in K1. inversion K1; subst. rewrite K3, K4, K2. reflexivity. }
  assert (PT : parts file = (0, 64) :: (0, 0) :: (64, 56 * len (exec_segments x)) :: map (fun p => (fst p, len (snd p))) (seg_offsets l')).
  { unfold parts. rewrite SO, SN, PN, PO. cbn [Z.to_nat seq map app Z.mul]. unfold len at 2. rewrite Nat2Z.id, PP. reflexivity. }
  pose proof (len_nonneg (exec_segments x)) as N0.
  destruct (spaced_apart (seg_offsets l') (64 + 56 * len segs) ltac:(pose proof (len_nonneg segs); lia) S) as [SA SB]. rewrite LS in SB.
  assert (LFI : 64 + 56 * len (exec_segments x) <= len file). { rewrite G. unfold len. rewrite app_length, LPRE, LL. lia. }
  split; [exact TY|]. split; [exact EN|]. split; [exact PO|]. split; [exact PN|]. split; [exact SN|]. split; [|split].
  - rewrite PT. constructor; [|constructor; [|constructor; [|exact SA]]].
    + apply Forall_cons; [right; left; reflexivity|]. apply Forall_cons; [unfold apart; cbn [fst snd]; right; right; left; lia|]. apply Forall_map. eapply Forall_impl; [|exact SB]. intros p H. cbn beta in H. unfold apart. cbn [fst snd]. right. right. left. lia.
    + apply Forall_forall. intros. left. reflexivity.
    + apply Forall_map. eapply Forall_impl; [|exact SB]. intros p H. cbn beta in H. unfold apart. cbn [fst snd]. right. right. left. lia.
  - rewrite PT. unfold inside. fold (len file). apply Forall_cons; [cbn [fst snd]; right; lia|]. apply Forall_cons; [left; reflexivity|]. apply Forall_cons; [cbn [fst snd]; right; lia|].
    apply Forall_map. rewrite Forall_forall in *. intros p H. cbn [fst snd]. specialize (SB p H). specialize (IN p H). destruct (snd p) as [|b d] eqn:D; [left; reflexivity|]. right. rewrite <- D in *. destruct IN as (_ & _ & I3); [rewrite D; discriminate|]. unfold len in *. lia.
  - intros i s I. destruct (FIELD i s I) as (e & K1 & K2 & K3 & K4 & K5 & K6 & K7 & K8 & K9 & K10 & K11). rewrite K6, K7, K8, K9, K5. split; [exact K10|]. split; [exact K11|]. split; [reflexivity|]. split; [reflexivity|]. split; [reflexivity|]. split; [reflexivity|]. split.
    + unfold bytes_at, len. rewrite Nat2Z.id. destruct (seg_data s) as [|b d] eqn:D; [reflexivity|]. rewrite <- D in *. rewrite Forall_forall in IN. specialize (IN (p_offset (eg_header e), eg_data e)). cbn [fst snd] in IN. rewrite K2 in IN.
      apply IN; [|rewrite D; discriminate]. unfold seg_offsets. rewrite <- K2. change (p_offset (eg_header e), eg_data e) with ((fun s => (p_offset (eg_header s), eg_data s)) e). apply in_map. eapply nth_error_In. exact K1.
    + intros M. rewrite Zminus_mod, M, K4. reflexivity.
Qed.
Print Assumptions C47_executable_partial.

Definition example_executable : executable :=
  {| exec_entry := 4198402;
     exec_segments := [{| seg_data := [144; 144; 195]; load_address_of := 4198400; load_size := 3; executable_ := true; writable := false; readable := true |};
                       {| seg_data := []; load_address_of := 8388608; load_size := 16; executable_ := false; writable := true; readable := true |};
                       {| seg_data := [1; 2]; load_address_of := 12582912; load_size := 2; executable_ := false; writable := true; readable := true |}] |}.
Example C47_executable_hypotheses : writable_executable example_executable.
Proof. split; [discriminate|]. split; [reflexivity|]. split; [reflexivity|]. repeat (apply Forall_cons; [split; split; cbn; lia|]). apply Forall_nil. Qed.
Example C47_executable_example :
  match elf_from_executable example_executable with
  | Ok elf => e_phoff (header elf) = 64 /\ map (fun s => (p_offset (eg_header s), eg_data s)) (elf_segments elf) = [(4096, [144; 144; 195]); (8192, []); (8192, [1; 2])]
  | _ => False
  end.
Proof. vm_compute. split; reflexivity. Qed.
