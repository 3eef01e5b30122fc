(** Bytes of the parts of an ELF file, and reading them back. *)
From Coq Require Import String.
From Verif Require Import Base CharTypes Common Bytes BytesSpec BytesProofs Object Elf ElfSpec.
Local Open Scope Z_scope.
Local Open Scope list_scope.

Notation le := le_digits.

Lemma fw_byte f v : file_write_byte f v = f ++ le 1 v.
Proof. exact (file_write_field_digits W1 f v). Qed.
Lemma fw_word f v : file_write_word f v = f ++ le 2 v.
Proof. exact (file_write_field_digits W2 f v). Qed.
Lemma fw_long f v : file_write_long f v = f ++ le 4 v.
Proof. exact (file_write_field_digits W4 f v). Qed.
Lemma fw_quad f v : file_write_quad f v = f ++ le 8 v.
Proof. exact (file_write_field_digits W8 f v). Qed.
Lemma fw_zero n : forall f, file_write_zero f n = f ++ repeat 0 n.
Proof.
  induction n as [|n IH]; intros f; cbn [file_write_zero repeat]; [symmetry; apply app_nil_r|].
  rewrite IH, fw_byte, <- app_assoc. reflexivity.
Qed.

(** * Reading fields *)
Lemma le_cons2 v : exists a b, le 2 v = [a; b] /\ 0 <= a < 256 /\ 0 <= b < 256 /\ a + 256 * b = v mod 65536.
Proof.
  exists (v mod 256), (v / 256 mod 256). split; [reflexivity|].
  split; [apply Z.mod_pos_bound; lia|]. split; [apply Z.mod_pos_bound; lia|].
  change 65536 with (256 * 256). rewrite Z.rem_mul_r by lia. reflexivity.
Qed.
Lemma read_byte_le v f : read_byte (le 1 v ++ f) = Ok (v mod 256, f).
Proof. reflexivity. Qed.
Lemma read_word_le v f : read_word (le 2 v ++ f) = Ok (v mod 2 ^ 16, f).
Proof.
  destruct (le_cons2 v) as (a & b & E & A & B & S). rewrite E. cbn [app]. unfold read_word. cbn [read_byte Base.bind].
  rewrite lor_shiftl_add by (try lia; change (2 ^ 8) with 256; lia). change (2 ^ 16) with 65536. change (2 ^ 8) with 256.
  rewrite <- S. do 2 f_equal. lia.
Qed.
Lemma read_long_le v f : read_long (le 4 v ++ f) = Ok (v mod 2 ^ 32, f).
Proof.
  change (le 4 v) with (le (2 + 2) v). rewrite le_digits_app, <- app_assoc. unfold read_long. rewrite read_word_le. cbn [Base.bind].
  rewrite read_word_le. cbn [Base.bind]. change (256 ^ Z.of_nat 2) with (2 ^ 16).
  rewrite lor_shiftl_add; [|lia|apply Z.mod_pos_bound; lia|apply Z.mod_pos_bound; lia].
  do 2 f_equal. change (2 ^ 32) with (2 ^ 16 * 2 ^ 16). rewrite Z.rem_mul_r by lia. lia.
Qed.
Lemma read_quad_le v f : read_quad (le 8 v ++ f) = Ok (v mod 2 ^ 64, f).
Proof.
  change (le 8 v) with (le (4 + 4) v). rewrite le_digits_app, <- app_assoc. unfold read_quad. rewrite read_long_le. cbn [Base.bind].
  rewrite read_long_le. cbn [Base.bind]. change (256 ^ Z.of_nat 4) with (2 ^ 32).
  rewrite lor_shiftl_add; [|lia|apply Z.mod_pos_bound; lia|apply Z.mod_pos_bound; lia].
  do 2 f_equal. change (2 ^ 64) with (2 ^ 32 * 2 ^ 32). rewrite Z.rem_mul_r by lia. lia.
Qed.
Lemma read_zero_app n : forall l f, length l = n -> read_zero n (l ++ f) = Ok f.
Proof.
  induction n as [|n IH]; intros l f L; destruct l; try discriminate; [reflexivity|].
  cbn [app read_zero read_byte Base.bind snd]. apply IH. cbn in L. lia.
Qed.
Lemma fread_app a f : fread (length a) (a ++ f) = Ok (a, f).
Proof.
  unfold fread. rewrite (proj2 (Nat.leb_le _ _)) by (rewrite app_length; lia).
  rewrite firstn_app, Nat.sub_diag, firstn_all, app_nil_r. rewrite skipn_app, Nat.sub_diag, skipn_all. reflexivity.
Qed.

(** * The bytes written *)
Definition header_bytes (elf : elf_file) : list Z :=
  let h := header elf in
  magic ++ le 1 2 ++ le 1 1 ++ le 1 1 ++ le 1 0 ++ le 1 0 ++ repeat 0 7 ++ le 2 (e_type h) ++ le 2 62 ++ le 4 1 ++
  le 8 (e_entry h) ++ le 8 (e_phoff h) ++ le 8 (e_shoff h) ++ le 4 0 ++ le 2 64 ++
  le 2 (match elf_segments elf with [] => 0 | _ => 56 end) ++ le 2 (Z.of_nat (length (elf_segments elf))) ++
  le 2 (match elf_sections elf with [] => 0 | _ => 64 end) ++ le 2 (Z.of_nat (length (elf_sections elf))) ++
  le 2 (e_shstrndx h).
Definition section_header_bytes (s : elf_section) : list Z :=
  let h := es_header s in
  le 4 (sh_name h) ++ le 4 (sh_type h) ++ le 8 (sh_flags h) ++ le 8 (sh_addr h) ++ le 8 (sh_offset h) ++
  le 8 (Z.of_nat (length (es_data s))) ++ le 4 (sh_link h) ++ le 4 (sh_info h) ++ le 8 (sh_addralign h) ++ le 8 (sh_entsize h).
Definition program_header_bytes (s : elf_segment) : list Z :=
  let h := eg_header s in
  le 4 (p_type h) ++ le 4 (p_flags h) ++ le 8 (p_offset h) ++ le 8 (p_vaddr h) ++ le 8 (p_paddr h) ++
  le 8 (Z.of_nat (length (eg_data s))) ++ le 8 (p_memsz h) ++ le 8 (p_align h).
Lemma header_bytes_length elf : length (header_bytes elf) = 64%nat.
Proof. unfold header_bytes. rewrite !app_length, !le_digits_length, repeat_length. reflexivity. Qed.
Lemma section_header_bytes_length s : length (section_header_bytes s) = 64%nat.
Proof. unfold section_header_bytes. rewrite !app_length, !le_digits_length. reflexivity. Qed.
Lemma program_header_bytes_length s : length (program_header_bytes s) = 56%nat.
Proof. unfold program_header_bytes. rewrite !app_length, !le_digits_length. reflexivity. Qed.
Lemma write_header_bytes f elf : write_header f elf = f ++ header_bytes elf.
Proof.
  unfold write_header, header_bytes. cbv zeta. repeat (rewrite fw_zero || rewrite fw_byte || rewrite fw_word || rewrite fw_long || rewrite fw_quad).
  rewrite <- !app_assoc. reflexivity.
Qed.
Lemma write_section_header_bytes f s : write_section_header f s = f ++ section_header_bytes s.
Proof. unfold write_section_header, section_header_bytes. cbv zeta. repeat (rewrite fw_long || rewrite fw_quad). rewrite <- !app_assoc. reflexivity. Qed.
Lemma write_program_header_bytes f s : write_program_header f s = f ++ program_header_bytes s.
Proof. unfold write_program_header, program_header_bytes. cbv zeta. repeat (rewrite fw_long || rewrite fw_quad). rewrite <- !app_assoc. reflexivity. Qed.
Lemma fold_append {A} (w : list Z -> A -> list Z) (b : A -> list Z) :
  (forall f x, w f x = f ++ b x) -> forall l f, fold_left w l f = f ++ concat (map b l).
Proof.
  intros W. induction l as [|x t IH]; intros f; cbn [fold_left map concat]; [symmetry; apply app_nil_r|].
  rewrite W, IH, <- app_assoc. reflexivity.
Qed.
Lemma concat_length_const {A} (b : A -> list Z) k l : (forall x, length (b x) = k) -> length (concat (map b l)) = (k * length l)%nat.
Proof. intros B. induction l; cbn; [lia|]. rewrite app_length, B, IHl. lia. Qed.

(** Contents laid out with possible gaps between them. *)
Fixpoint fits (pos : nat) (l : list (Z * list Z)) : Prop :=
  match l with
  | [] => True
  | (off, d) :: t => match d with
                     | [] => fits pos t
                     | _ => (pos <= Z.to_nat off)%nat /\ fits (Z.to_nat off + length d) t
                     end
  end.
Lemma write_contents_fits l : forall f, fits (length f) l ->
  exists f', write_contents l f = Ok f' /\ (exists g, f' = f ++ g) /\
    Forall (fun p => snd p <> [] -> window f' (Z.to_nat (fst p)) (length (snd p)) = snd p /\ (length f <= Z.to_nat (fst p))%nat /\
       (Z.to_nat (fst p) + length (snd p) <= length f')%nat) l.
Proof.
  induction l as [|[off d] t IH]; intros f F; cbn [write_contents].
  - exists f. split; [reflexivity|]. split; [exists []; symmetry; apply app_nil_r|constructor].
  - destruct d as [|b d'] eqn:D.
    + cbn [fits] in F. destruct (IH f F) as (f' & E & G & A). exists f'. split; [exact E|]. split; [exact G|].
      constructor; [intros H; exfalso; apply H; reflexivity|exact A].
    + rewrite <- D in *. cbn [fits] in F. rewrite D in F. rewrite <- D in F. destruct F as [P F].
      unfold file_write_skip. rewrite (proj2 (Nat.leb_le _ _)) by exact P. cbn [Base.bind]. rewrite fw_zero.
      set (f1 := f ++ repeat 0 (Z.to_nat off - length f)).
      assert (L1 : length f1 = Z.to_nat off) by (unfold f1; rewrite app_length, repeat_length; lia).
      destruct (IH (f1 ++ d)) as (f' & E & [g G] & A). { rewrite app_length, L1. exact F. }
      exists f'. split; [exact E|]. split; [exists (repeat 0 (Z.to_nat off - length f) ++ d ++ g); rewrite G; unfold f1; rewrite <- !app_assoc; reflexivity|].
      constructor.
      * intros _. cbn [fst snd]. split; [|split; [exact P|rewrite G, !app_length; lia]]. unfold window. rewrite G, <- app_assoc, skipn_app, L1.
        rewrite skipn_all2 by lia. rewrite Nat.sub_diag. cbn [skipn app]. rewrite firstn_app, Nat.sub_diag, firstn_all. cbn [firstn]. apply app_nil_r.
      * eapply Forall_impl; [|exact A]. intros [o2 d2] H N. cbn [fst snd] in *. destruct (H N) as (H1 & H2 & H3).
        split; [exact H1|]. split; [|exact H3]. rewrite app_length in H2. lia.
Qed.

(** Contents laid out without gaps. *)
Fixpoint consecutive (pos : nat) (l : list (Z * list Z)) : Prop :=
  match l with
  | [] => True
  | (off, d) :: t => (d <> [] -> Z.to_nat off = pos) /\ consecutive (pos + length d) t
  end.
Lemma consecutive_fits l : forall pos, consecutive pos l -> fits pos l.
Proof.
  induction l as [|[off d] t IH]; intros pos C; cbn [consecutive fits] in *; [exact I|]. destruct C as [E C]. destruct d.
  - apply IH. cbn in C. rewrite Nat.add_0_r in C. exact C.
  - rewrite E by discriminate. split; [lia|]. apply IH. exact C.
Qed.
Lemma write_contents_consecutive l : forall f, consecutive (length f) l -> write_contents l f = Ok (f ++ concat (map snd l)).
Proof.
  induction l as [|[off d] t IH]; intros f C; cbn [write_contents map concat snd]; [rewrite app_nil_r; reflexivity|].
  cbn [consecutive] in C. destruct C as [E C]. destruct d as [|b d'] eqn:D.
  - cbn [app]. apply IH. cbn in C. rewrite Nat.add_0_r in C. exact C.
  - rewrite <- D in *. unfold file_write_skip. rewrite E by congruence. rewrite Nat.leb_refl. cbn [Base.bind].
    rewrite Nat.sub_diag. cbn [file_write_zero]. rewrite IH by (rewrite app_length; exact C). rewrite app_assoc. reflexivity.
Qed.

Lemma allocate_sections_spec l : forall a, 0 <= a -> a + sum (map (fun s => len (es_data s)) l) < 2 ^ 64 ->
  allocate_sections l a = (fst (allocate_sections l a), a + sum (map (fun s => len (es_data s)) l)) /\
  consecutive (Z.to_nat a) (map (fun s => (sh_offset (es_header s), es_data s)) (fst (allocate_sections l a))) /\
  Forall2 (fun s s' => exists x, 0 <= x < 2 ^ 64 /\ s' = with_offset x s) l (fst (allocate_sections l a)).
Proof.
  induction l as [|s t IH]; intros a A B; cbn [allocate_sections map sum fold_right] in *.
  - cbn. rewrite Z.add_0_r. split; [reflexivity|]. split; [exact I|constructor].
  - fold (sum (map (fun s => len (es_data s)) t)) in *.
    assert (S0 : 0 <= sum (map (fun s => len (es_data s)) t)). { clear. induction t; cbn; [lia|]. unfold len at 1. unfold sum in *. lia. }
    assert (W : wrap 64 (a + Z.of_nat (length (es_data s))) = a + len (es_data s)).
    { unfold wrap, len in *. apply Z.mod_small. lia. }
    rewrite W. specialize (IH (a + len (es_data s))). destruct (allocate_sections t (a + len (es_data s))) as [t' x].
    cbn [fst] in *. destruct IH as (E & C & F); [unfold len in *; lia|lia|]. inversion E; subst x. split; [f_equal; lia|]. split.
    + cbn [map consecutive with_offset es_header sh_offset es_data]. split; [reflexivity|].
      replace (Z.to_nat a + length (es_data s))%nat with (Z.to_nat (a + len (es_data s))) by (unfold len; lia). exact C.
    + constructor; [|exact F]. exists a. split; [unfold len in *; lia|reflexivity].
Qed.

(** * Reading the header and the section headers *)
Definition header_ok (h : section_header) : Prop :=
  0 <= sh_name h < 2 ^ 32 /\ 0 <= sh_type h < 2 ^ 32 /\ 0 <= sh_flags h < 2 ^ 64 /\ 0 <= sh_addr h < 2 ^ 64 /\ 0 <= sh_offset h < 2 ^ 64 /\
  0 <= sh_link h < 2 ^ 32 /\ 0 <= sh_info h < 2 ^ 32 /\ 0 <= sh_addralign h < 2 ^ 64 /\ 0 <= sh_entsize h < 2 ^ 64.
Definition sized_header (s : elf_section) : section_header :=
  let h := es_header s in
  {| sh_name := sh_name h; sh_type := sh_type h; sh_flags := sh_flags h; sh_addr := sh_addr h; sh_offset := sh_offset h;
     sh_size := len (es_data s); sh_link := sh_link h; sh_info := sh_info h; sh_addralign := sh_addralign h; sh_entsize := sh_entsize h |}.
Definition sized (s : elf_section) : elf_section := {| es_header := sized_header s; es_data := es_data s |}.

Lemma read_section_header_bytes s f : header_ok (es_header s) -> len (es_data s) < 2 ^ 64 ->
  read_section_header (section_header_bytes s ++ f) = Ok (sized_header s, f).
Proof.
  intros (A & B & C & D & E & F & G & H & I) L. unfold read_section_header, section_header_bytes. rewrite <- !app_assoc.
  repeat (rewrite read_long_le || rewrite read_quad_le; cbn [Base.bind]).
  unfold sized_header, len in *. rewrite !Z.mod_small by lia. reflexivity.
Qed.
Lemma read_section_headers_bytes l : forall f, Forall (fun s => header_ok (es_header s) /\ len (es_data s) < 2 ^ 64) l ->
  read_section_headers (length l) (concat (map section_header_bytes l) ++ f) = Ok (map sized_header l).
Proof.
  induction l as [|s t IH]; intros f F; cbn [length read_section_headers map concat]; [reflexivity|].
  inversion F as [|? ? [H L] F']; subst. rewrite <- app_assoc, read_section_header_bytes by assumption. cbn [Base.bind].
  rewrite IH by exact F'. reflexivity.
Qed.
Lemma read_contents_consecutive l : forall pre post pos, length pre = pos ->
  consecutive pos (map (fun s => (sh_offset (es_header s), es_data s)) l) ->
  read_contents (pre ++ concat (map es_data l) ++ post) (map sized_header l) = Ok (map sized l).
Proof.
  induction l as [|s t IH]; intros pre post pos P C; cbn [map read_contents concat]; [reflexivity|].
  cbn [map consecutive] in C. destruct C as [E C].
  assert (R : (if sh_size (sized_header s) =? 0 then Ok []
     else let* x := fread (Z.to_nat (sh_size (sized_header s))) (skipn (Z.to_nat (sh_offset (sized_header s))) (pre ++ (es_data s ++ concat (map es_data t)) ++ post)) in Ok (fst x))
     = Ok (es_data s)).
  { change (sh_size (sized_header s)) with (len (es_data s)). change (sh_offset (sized_header s)) with (sh_offset (es_header s)).
    destruct (Z.eqb_spec (len (es_data s)) 0) as [Z0|Z0].
    - unfold len in Z0. destruct (es_data s); [reflexivity|cbn in Z0; lia].
    - rewrite E by (intros N; rewrite N in Z0; apply Z0; reflexivity).
      unfold len. rewrite Nat2Z.id, skipn_app, skipn_all2 by lia. rewrite P, Nat.sub_diag. cbn [skipn app]. rewrite <- app_assoc, fread_app. reflexivity. }
  rewrite R. cbn [Base.bind].
  specialize (IH (pre ++ es_data s) post (pos + length (es_data s))%nat). rewrite <- !app_assoc in IH.
  rewrite <- app_assoc. rewrite IH by (try (rewrite app_length, P; reflexivity); exact C). reflexivity.
Qed.
Lemma read_header_bytes elf f : elf_segments elf = [] -> elf_sections elf <> [] -> len (elf_sections elf) < 2 ^ 16 ->
  0 <= e_type (header elf) < 2 ^ 16 -> 0 <= e_entry (header elf) < 2 ^ 64 -> 0 <= e_phoff (header elf) < 2 ^ 64 ->
  0 <= e_shoff (header elf) < 2 ^ 64 -> 0 <= e_shstrndx (header elf) < 2 ^ 16 ->
  read_header (header_bytes elf ++ f) = Ok (Some (header elf, 0, len (elf_sections elf))).
Proof.
  intros G N L A B C D E. unfold read_header, header_bytes. rewrite <- !app_assoc.
  rewrite (fread_app magic). cbn [Base.bind]. destruct (list_eq_dec Z.eq_dec magic magic) as [_|X]; [|congruence]. cbn [negb].
  unfold expect. rewrite !read_byte_le. cbn [Base.bind fst snd]. change (2 mod 256 =? 2) with true. change (1 mod 256 =? 1) with true. change (0 mod 256 =? 0) with true.
  cbn [Base.bind fst snd]. rewrite !read_byte_le. cbn [Base.bind fst snd]. change (1 mod 256 =? 1) with true. cbn [Base.bind]. rewrite !read_byte_le. cbn [Base.bind fst snd].
  change (1 mod 256 =? 1) with true. cbn [Base.bind]. rewrite !read_byte_le. cbn [Base.bind fst snd]. change (0 mod 256 =? 0) with true. cbn [Base.bind]. rewrite !read_byte_le. cbn [Base.bind fst snd].
  change (0 mod 256 =? 0) with true. cbn [Base.bind].
  rewrite (read_zero_app 7) by reflexivity. cbn [Base.bind].
  repeat (rewrite read_word_le; cbn [Base.bind fst snd]). change (62 mod 2 ^ 16 =? 62) with true. cbn [Base.bind].
  rewrite read_long_le. cbn [Base.bind fst snd]. change (1 mod 2 ^ 32 =? 1) with true. cbn [Base.bind].
  repeat (rewrite read_quad_le; cbn [Base.bind fst snd]).
  rewrite read_long_le. cbn [Base.bind fst snd]. change (0 mod 2 ^ 32 =? 0) with true. cbn [Base.bind].
  rewrite read_word_le. cbn [Base.bind fst snd]. change (64 mod 2 ^ 16 =? 64) with true. cbn [Base.bind].
  rewrite G. cbn [length]. repeat (rewrite read_word_le; cbn [Base.bind fst snd]).
  change (Z.of_nat 0 mod 2 ^ 16) with 0. cbn [Z.eqb orb negb].
  repeat (rewrite read_word_le; cbn [Base.bind fst snd]).
  destruct (elf_sections elf) as [|x t] eqn:S; [congruence|]. rewrite <- S in *. change (64 mod 2 ^ 16 =? 64) with true. rewrite orb_true_r. cbn [negb].
  repeat (rewrite read_word_le; cbn [Base.bind fst snd]). unfold len in *. rewrite !Z.mod_small by lia. destruct (header elf); reflexivity.
Qed.

(** * Whole files without segments *)
Definition offsets_of (l : list elf_section) : list (Z * list Z) := map (fun s => (sh_offset (es_header s), es_data s)) l.
(** The state of an [elf_file] after allocation. *)
Definition allocated (elf : elf_file) : Prop :=
  elf_segments elf = [] /\ elf_sections elf <> [] /\ e_shoff (header elf) = 64 /\
  consecutive (64 + 64 * length (elf_sections elf)) (offsets_of (elf_sections elf)).
Definition file_bytes (elf : elf_file) : list Z :=
  header_bytes elf ++ concat (map section_header_bytes (elf_sections elf)) ++ concat (map es_data (elf_sections elf)).
Lemma elf_write_bytes elf : allocated elf -> elf_write elf = Ok (file_bytes elf).
Proof.
  intros (G & N & S & C). unfold elf_write, write_segments, write_sections. rewrite write_header_bytes. cbn [app]. rewrite G, S.
  destruct (elf_sections elf) as [|x t] eqn:L; [congruence|]. rewrite <- L in *.
  unfold file_write_skip. change (Z.to_nat 64) with 64%nat. rewrite header_bytes_length. cbn [Nat.leb Nat.sub file_write_zero Base.bind].
  rewrite (fold_append write_section_header section_header_bytes write_section_header_bytes).
  unfold offsets_of in C. rewrite write_contents_consecutive.
  - unfold file_bytes. rewrite map_map. cbn [snd]. rewrite <- app_assoc. reflexivity.
  - rewrite app_length, header_bytes_length, (concat_length_const _ 64) by apply section_header_bytes_length. exact C.
Qed.
Definition elf_ok (elf : elf_file) : Prop :=
  len (elf_sections elf) < 2 ^ 16 /\ 0 <= e_type (header elf) < 2 ^ 16 /\ 0 <= e_entry (header elf) < 2 ^ 64 /\ 0 <= e_phoff (header elf) < 2 ^ 64 /\
  0 <= e_shstrndx (header elf) < 2 ^ 16 /\ Forall (fun s => header_ok (es_header s) /\ len (es_data s) < 2 ^ 64) (elf_sections elf).
Lemma elf_read_bytes elf : allocated elf -> elf_ok elf ->
  elf_read (file_bytes elf) =
    (let l := map sized (elf_sections elf) in
     let* shs := if e_shstrndx (header elf) =? 0 then Ok [] else string_section l (e_shstrndx (header elf)) in
     let* strs := find_strings l l None in
     Ok (Some {| header := header elf; shstrings := shs; strings := match strs with Some s => s | None => [] end;
                 elf_sections := l; elf_segments := [] |})).
Proof.
  intros (G & N & S & C) (A1 & A2 & A3 & A4 & A5 & A6). unfold elf_read. unfold file_bytes at 1.
  rewrite read_header_bytes by (try assumption; rewrite S; lia). cbn [Base.bind Z.eqb negb].
  assert (R : read_sections (file_bytes elf) (header elf) (len (elf_sections elf)) = Ok (map sized (elf_sections elf))).
  { unfold read_sections. rewrite (proj2 (Z.eqb_neq _ _)) by (unfold len; destruct (elf_sections elf); [congruence|cbn; lia]).
    unfold len. rewrite Nat2Z.id, S. unfold file_bytes at 1. change (Z.to_nat 64) with 64%nat.
    rewrite skipn_app, header_bytes_length, Nat.sub_diag, skipn_all2 by (rewrite header_bytes_length; lia). cbn [skipn app].
    rewrite read_section_headers_bytes by exact A6. cbn [Base.bind]. unfold file_bytes. rewrite app_assoc.
    rewrite <- (app_nil_r (concat (map es_data _))).
    apply (read_contents_consecutive _ _ [] (64 + 64 * length (elf_sections elf))); [|exact C].
    rewrite app_length, header_bytes_length, (concat_length_const _ 64) by apply section_header_bytes_length. reflexivity. }
  rewrite R. reflexivity.
Qed.
Lemma allocate_ok elf null t : elf_segments elf = [] -> elf_sections elf = null :: t -> es_data null = [] ->
  64 + 64 * len (null :: t) + sum (map (fun s => len (es_data s)) t) < 2 ^ 64 ->
  exists elf', elf_allocate_sections elf = Ok elf' /\ allocated elf' /\
    header elf' = {| e_type := e_type (header elf); e_entry := e_entry (header elf); e_shoff := 64; e_phoff := e_phoff (header elf); e_shstrndx := e_shstrndx (header elf) |} /\
    exists t', elf_sections elf' = null :: t' /\ Forall2 (fun s s' => exists x, 0 <= x < 2 ^ 64 /\ s' = with_offset x s) t t'.
Proof.
  intros G L D B. unfold elf_allocate_sections. rewrite L, G.
  assert (W : wrap 64 (64 + 64 * Z.of_nat (length (null :: t))) = 64 + 64 * len (null :: t)).
  { unfold wrap, len in *. apply Z.mod_small. assert (0 <= sum (map (fun s => Z.of_nat (length (es_data s))) t)).
    { clear. induction t; cbn; [lia|]. unfold sum in *. lia. } lia. }
  rewrite W. destruct (allocate_sections_spec t (64 + 64 * len (null :: t))) as (E & C & F); [unfold len; lia|exact B|].
  destruct (allocate_sections t (64 + 64 * len (null :: t))) as [t' a]. cbn [fst] in *.
  eexists. split; [reflexivity|]. cbn [header elf_sections]. assert (LT : length t' = length t). { clear -F. induction F; cbn; congruence. }
  split; [|split; [reflexivity|exists t'; split; [reflexivity|exact F]]].
  unfold allocated. cbn [elf_segments elf_sections header e_shoff]. split; [reflexivity|]. split; [discriminate|]. split; [reflexivity|].
  unfold offsets_of. cbn [map consecutive]. rewrite D. split; [congruence|]. cbn [length]. rewrite Nat.add_0_r.
  replace (64 + 64 * S (length t'))%nat with (Z.to_nat (64 + 64 * len (null :: t))) by (unfold len; cbn [length]; lia). exact C.
Qed.
