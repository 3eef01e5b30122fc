(** What elf_from_object puts into the sections. *)
From Coq Require Import String.
From Verif Require Import Base CharTypes Common Bytes BytesSpec BytesProofs Object Elf ElfSpec ElfProofs.
Local Open Scope Z_scope.
Local Open Scope list_scope.

(** * Buffers made of blocks of 24 bytes *)
Definition blocks_ok (b : list (list Z)) : Prop := Forall (fun x => length x = 24%nat) b.
Lemma blocks_length b : blocks_ok b -> length (concat b) = (24 * length b)%nat.
Proof. induction 1; cbn; [lia|]. rewrite app_length, IHForall. lia. Qed.
Lemma set_block pre x post e : length x = length e -> blocks_ok pre ->
  splice (concat (pre ++ x :: post)) (24 * length pre) e = concat (pre ++ e :: post).
Proof.
  intros L P. unfold splice. rewrite !concat_app. cbn [concat]. rewrite <- (blocks_length pre P).
  rewrite firstn_app, firstn_all, Nat.sub_diag. cbn [firstn]. rewrite app_nil_r. f_equal. f_equal.
  rewrite skipn_app. rewrite skipn_all2 by lia. cbn [app]. replace (length (concat pre) + length e - length (concat pre))%nat with (length x) by lia.
  rewrite skipn_app, skipn_all, Nat.sub_diag. reflexivity.
Qed.
Lemma read_block pre e post k n : blocks_ok pre -> (k + n <= length e)%nat ->
  window (concat (pre ++ e :: post)) (24 * length pre + k) n = window e k n.
Proof.
  intros P L. unfold window. rewrite concat_app. cbn [concat]. rewrite <- (blocks_length pre P).
  rewrite skipn_app, skipn_all2 by lia. cbn [app]. replace (length (concat pre) + k - length (concat pre))%nat with k by lia.
  rewrite skipn_app, firstn_app. rewrite skipn_length. replace (n - (length e - k))%nat with 0%nat by lia. cbn [firstn]. apply app_nil_r.
Qed.
Lemma window_here a b n : length a = n -> window (a ++ b) 0 n = a.
Proof. intros <-. unfold window. cbn [skipn]. rewrite firstn_app, Nat.sub_diag, firstn_all. apply app_nil_r. Qed.
Lemma window_next a b k n : window (a ++ b) (length a + k) n = window b k n.
Proof. unfold window. rewrite skipn_app, skipn_all2 by lia. cbn [app]. f_equal. f_equal. lia. Qed.

(** * Entries of the symbol table *)
Definition entry_bytes (name info shndx value size : Z) : list Z :=
  le 4 name ++ le 1 info ++ le 1 0 ++ le 2 shndx ++ le 8 value ++ le 8 size.
Lemma entry_length a b c d e : length (entry_bytes a b c d e) = 24%nat.
Proof. unfold entry_bytes. rewrite !app_length, !le_digits_length. reflexivity. Qed.
Lemma write_symbol_splice buf idx name info shndx value size : (24 * idx + 24 <= length buf)%nat ->
  write_symbol buf idx name info shndx value size = Ok (splice buf (24 * idx) (entry_bytes name info shndx value size)).
Proof.
  intros L. unfold write_symbol. remember (24 * idx)%nat as p eqn:P. clear P.
  assert (S0 : forall a, splice buf p a = splice buf p a) by reflexivity. clear S0.
  change (write_32 buf p name) with (write_field W4 buf p name). rewrite write_field_splice by (cbn; lia). cbn [Base.bind wbytes].
  assert (step : forall w a v k, length a = k -> (p + k + wbytes w <= length buf)%nat ->
     write_field w (splice buf p a) (p + k) v = Ok (splice buf p (a ++ le (wbytes w) v))).
  { intros w a v k K B. subst k. rewrite write_field_splice by (rewrite splice_length by (cbn; lia); lia).
    rewrite splice_splice by (rewrite le_digits_length; lia). reflexivity. }
  change (write_8 (splice buf p (le 4 name)) (p + 4) info) with (write_field W1 (splice buf p (le 4 name)) (p + 4) info).
  rewrite step by (try apply le_digits_length; cbn; lia). cbn [Base.bind wbytes].
  match goal with |- context [write_8 ?b ?q 0] => change (write_8 b q 0) with (write_field W1 b q 0) end.
  rewrite step by (try (rewrite !app_length, !le_digits_length; reflexivity); cbn; lia). cbn [Base.bind wbytes].
  match goal with |- context [write_16 ?b ?q ?v] => change (write_16 b q v) with (write_field W2 b q v) end.
  rewrite step by (try (rewrite !app_length, !le_digits_length; reflexivity); cbn; lia). cbn [Base.bind wbytes].
  match goal with |- context [write_64 ?b ?q value] => change (write_64 b q value) with (write_field W8 b q value) end.
  rewrite step by (try (rewrite !app_length, !le_digits_length; reflexivity); cbn; lia). cbn [Base.bind wbytes].
  match goal with |- context [write_64 ?b ?q size] => change (write_64 b q size) with (write_field W8 b q size) end.
  rewrite step by (try (rewrite !app_length, !le_digits_length; reflexivity); cbn; lia). cbn [Base.bind wbytes].
  unfold entry_bytes. rewrite <- !app_assoc. reflexivity.
Qed.
Lemma write_symbol_block pre x post name info shndx value size : blocks_ok (pre ++ x :: post) ->
  write_symbol (concat (pre ++ x :: post)) (length pre) name info shndx value size = Ok (concat (pre ++ entry_bytes name info shndx value size :: post)).
Proof.
  intros B. rewrite write_symbol_splice.
  - rewrite set_block; [reflexivity| |].
    + rewrite entry_length. apply Forall_app in B. destruct B as [_ B]. inversion B; assumption.
    + apply Forall_app in B. apply B.
  - rewrite blocks_length by exact B. rewrite app_length. cbn [length]. lia.
Qed.

(** Reading an entry. *)
Lemma read_field_window w buf pos : (pos + wbytes w <= length buf)%nat -> bytes_ok buf ->
  read_field w buf pos = Ok (le_value (window buf pos (wbytes w))).
Proof. intros. apply read_field_value; assumption. Qed.

Definition section_entries (l : list section) (i : nat) : list (list Z) :=
  map (fun p => entry_bytes 0 STT_SECTION (Z.of_nat (S (fst p))) 0 (len (sec_data (snd p)))) (combine (seq i (length l)) l).
Lemma section_entries_length l i : length (section_entries l i) = length l.
Proof. unfold section_entries. rewrite map_length, combine_length, seq_length. lia. Qed.
Lemma section_entries_ok l i : blocks_ok (section_entries l i).
Proof. unfold section_entries. apply Forall_map, Forall_forall. intros. apply entry_length. Qed.
Lemma write_section_symbols_blocks l : forall pre mid post, length mid = length l -> blocks_ok (pre ++ mid ++ post) -> (0 < length pre)%nat ->
  write_section_symbols l (length pre - 1) (concat (pre ++ mid ++ post)) = Ok (concat (pre ++ section_entries l (length pre - 1) ++ post)).
Proof.
  induction l as [|s t IH]; intros pre mid post L B P; destruct mid as [|x mid]; try discriminate; cbn [write_section_symbols].
  - reflexivity.
  - replace (S (length pre - 1)) with (length pre) by lia.
    cbn [app]. rewrite write_symbol_block by exact B. cbn [Base.bind].
    set (e := entry_bytes _ _ _ _ _).
    change (pre ++ e :: mid ++ post) with (pre ++ [e] ++ mid ++ post). rewrite app_assoc.
    specialize (IH (pre ++ [e]) mid post). rewrite app_length in IH. cbn [length] in IH.
    replace (length pre + 1 - 1)%nat with (length pre) in IH by lia. rewrite IH.
    + unfold section_entries. cbn [length seq combine map fst snd app]. rewrite <- app_assoc. replace (S (length pre - 1)) with (length pre) by lia. reflexivity.
    + cbn in L. lia.
    + rewrite <- app_assoc. apply Forall_app in B. destruct B as [B1 B2]. apply Forall_app. split; [exact B1|].
      inversion B2; subst. constructor; [apply entry_length|assumption].
    + lia.
Qed.

(** * The symbols *)
Definition names_bytes (l : list symbol) : list Z := concat (map (fun y => match sym_name y with Some n => n ++ [0] | None => [] end) l).
Definition symbol_info (y : symbol) : Z := if sym_global y then 16 else 0.
Definition symbol_shndx (y : symbol) : Z := if sym_section y =? -1 then 0 else 1 + sym_section y.
(** The entry written for a symbol; [T] is the final table of strings. *)
Definition entry_of (T : list Z) (y : symbol) (e : list Z) : Prop :=
  exists name off, sym_name y = Some name /\ e = entry_bytes (Z.of_nat off) (symbol_info y) (symbol_shndx y) (sym_value y) (sym_size y) /\
    off <> 0%nat /\ (off < length T)%nat /\ exists rest, skipn off T = name ++ 0 :: rest.
Definition pick (b : bool) (l : list (symbol * list Z)) : list (symbol * list Z) := filter (fun p => Bool.eqb (sym_global (fst p)) b) l.
Fixpoint positions (l : list symbol) (cl cg : nat) : list nat :=
  match l with
  | [] => []
  | y :: t => (if sym_global y then cg else cl) :: positions t (if sym_global y then cl else S cl) (if sym_global y then S cg else cg)
  end.
Lemma write_symbols_blocks T l : forall strings A lr G gr,
  strings <> [] -> T = strings ++ names_bytes l -> Forall (fun y => sym_name y <> None) l ->
  length lr = length (filter (fun y => negb (sym_global y)) l) -> length gr = length (filter sym_global l) ->
  blocks_ok (A ++ lr ++ G ++ gr) ->
  exists pl, map fst pl = l /\ Forall (fun p => entry_of T (fst p) (snd p)) pl /\
    write_symbols l (length A) (length A + length lr + length G) strings (concat (A ++ lr ++ G ++ gr)) =
      Ok (T, concat (A ++ map snd (pick false pl) ++ G ++ map snd (pick true pl)), positions l (length A) (length A + length lr + length G)).
Proof.
  induction l as [|y t IH]; intros strings A lr G gr N0 ET SN LL LG B.
  - exists []. split; [reflexivity|]. split; [constructor|]. cbn in LL, LG. destruct lr; [|discriminate]. destruct gr; [|discriminate].
    cbn [write_symbols pick filter map positions app]. unfold names_bytes in ET. cbn in ET. rewrite app_nil_r in ET. subst T. reflexivity.
  - inversion SN as [|? ? NY SN']; subst. cbn [write_symbols]. destruct (sym_name y) as [name|] eqn:Y; [|congruence].
    cbn [register_string]. unfold register_string.
    assert (ET : names_bytes (y :: t) = name ++ [0] ++ names_bytes t). { unfold names_bytes. cbn [map concat]. rewrite Y, <- app_assoc. reflexivity. }
    set (T := strings ++ names_bytes (y :: t)).
    assert (T2 : T = (strings ++ name ++ [0]) ++ names_bytes t). { unfold T. rewrite ET, <- !app_assoc. reflexivity. }
    set (e := entry_bytes (Z.of_nat (length strings)) (symbol_info y) (symbol_shndx y) (sym_value y) (sym_size y)).
    assert (EO : entry_of T y e).
    { exists name, (length strings). split; [exact Y|]. split; [reflexivity|]. split; [destruct strings; [congruence|discriminate]|].
      split; [unfold T; rewrite app_length, ET, app_length; cbn [app length]; lia|]. exists (names_bytes t). unfold T. rewrite skipn_app, skipn_all, Nat.sub_diag, ET. reflexivity. }
    assert (NE : strings ++ name ++ [0] <> []). { destruct strings; [congruence|discriminate]. }
    change (Z.shiftl STB_GLOBAL 4) with 16.
    change (if sym_global y then 16 else 0) with (symbol_info y). change (if sym_section y =? -1 then 0 else 1 + sym_section y) with (symbol_shndx y).
    destruct (sym_global y) eqn:Gy.
    + cbn [filter] in LL, LG. rewrite Gy in LL, LG. cbn [negb] in LL. destruct gr as [|x gr]; [discriminate|]. cbn [length] in LG.
      assert (W : write_symbol (concat (A ++ lr ++ G ++ x :: gr)) (length A + length lr + length G) (Z.of_nat (length strings)) (symbol_info y) (symbol_shndx y) (sym_value y) (sym_size y) =
                  Ok (concat (A ++ lr ++ (G ++ [e]) ++ gr))).
      { replace (length A + length lr + length G)%nat with (length (A ++ lr ++ G)) by (rewrite !app_length; lia).
        replace (A ++ lr ++ G ++ x :: gr) with ((A ++ lr ++ G) ++ x :: gr) by (rewrite <- !app_assoc; reflexivity).
        rewrite write_symbol_block by (rewrite <- !app_assoc; exact B). rewrite <- !app_assoc. reflexivity. }
      rewrite W. cbn [Base.bind].
      destruct (IH (strings ++ name ++ [0]) A lr (G ++ [e]) gr NE T2 SN') as (pl & P1 & P2 & P3).
      { exact LL. } { lia. }
      { apply Forall_app in B. destruct B as [B1 B]. apply Forall_app in B. destruct B as [B2 B]. apply Forall_app in B. destruct B as [B3 B]. inversion B; subst.
        repeat (apply Forall_app; split); try assumption. apply Forall_cons; [apply entry_length|apply Forall_nil]. }
      rewrite app_length in P3. cbn [length] in P3. replace (length A + length lr + (length G + 1))%nat with (S (length A + length lr + length G)) in P3 by lia.
      unfold T in *. rewrite P3. cbn [Base.bind]. exists ((y, e) :: pl). split; [cbn [map fst]; f_equal; exact P1|]. split; [constructor; [exact EO|exact P2]|].
      cbn [pick filter fst positions]. rewrite Gy. cbn [Bool.eqb map snd]. do 3 f_equal. rewrite <- !app_assoc. reflexivity.
    + cbn [filter] in LL, LG. rewrite Gy in LL, LG. cbn [negb] in LL. destruct lr as [|x lr]; [discriminate|]. cbn [length] in LL.
      assert (W : write_symbol (concat (A ++ (x :: lr) ++ G ++ gr)) (length A) (Z.of_nat (length strings)) (symbol_info y) (symbol_shndx y) (sym_value y) (sym_size y) =
                  Ok (concat ((A ++ [e]) ++ lr ++ G ++ gr))).
      { cbn [app]. rewrite write_symbol_block by exact B. rewrite <- !app_assoc. reflexivity. }
      rewrite W. cbn [Base.bind].
      destruct (IH (strings ++ name ++ [0]) (A ++ [e]) lr G gr NE T2 SN') as (pl & P1 & P2 & P3).
      { lia. } { exact LG. }
      { apply Forall_app in B. destruct B as [B1 B]. cbn [app] in B. inversion B; subst.
        apply Forall_app; split; [|assumption]. apply Forall_app; split; [assumption|]. apply Forall_cons; [apply entry_length|apply Forall_nil]. }
      rewrite app_length in P3. cbn [length] in P3. replace (length A + 1)%nat with (S (length A)) in P3 by lia.
      replace (S (length A) + length lr + length G)%nat with (length A + length (x :: lr) + length G)%nat in P3 by (cbn [length]; lia).
      unfold T in *. rewrite P3. cbn [Base.bind]. exists ((y, e) :: pl). split; [cbn [map fst]; f_equal; exact P1|]. split; [constructor; [exact EO|exact P2]|].
      cbn [pick filter fst positions]. rewrite Gy. cbn [Bool.eqb map snd]. do 3 f_equal. rewrite <- !app_assoc. reflexivity.
Qed.
Lemma count_local_filter l : count_local l = length (filter (fun y => negb (sym_global y)) l).
Proof. induction l as [|y t IH]; cbn [count_local filter]; [reflexivity|]. destruct (sym_global y); cbn [negb length]; lia. Qed.
Lemma clear_blocks n : forall done rest, (n <= length rest)%nat ->
  clear (done ++ rest) (length done) n = Ok (done ++ repeat 0 n ++ skipn n rest).
Proof.
  induction n as [|n IH]; intros done rest L; cbn [clear repeat app skipn]; [reflexivity|].
  destruct rest as [|b rest]; [cbn in L; lia|]. unfold write_8. rewrite put_splice by (rewrite app_length; cbn; lia). cbn [Base.bind].
  assert (E : splice (done ++ b :: rest) (length done) [0 mod 256] = (done ++ [0]) ++ rest).
  { unfold splice. rewrite firstn_app, firstn_all, Nat.sub_diag. cbn [firstn length]. rewrite app_nil_r, skipn_app, skipn_all2 by lia.
    replace (length done + 1 - length done)%nat with 1%nat by lia. cbn [app skipn]. rewrite <- app_assoc. reflexivity. }
  rewrite E. specialize (IH (done ++ [0]) rest). rewrite app_length in IH. cbn [length] in IH. replace (S (length done)) with (length done + 1)%nat by lia.
  rewrite IH by (cbn in L; lia). rewrite <- app_assoc. reflexivity.
Qed.
Lemma repeat_blocks (x : Z) n : repeat x (n * 24) = concat (repeat (repeat x 24) n).
Proof. induction n as [|n IH]; [reflexivity|]. replace (S n * 24)%nat with (24 + n * 24)%nat by lia. rewrite repeat_app, IH. reflexivity. Qed.
Lemma repeat_blocks_ok (x : Z) n : blocks_ok (repeat (repeat x 24) n).
Proof. apply Forall_forall. intros y H. apply repeat_spec in H. subst. apply repeat_length. Qed.
(** The data of the symbol table. *)
Lemma symtab_data fill o strings : strings <> [] -> Forall (fun y => sym_name y <> None) (symbols o) ->
  exists pl, map fst pl = symbols o /\ Forall (fun p => entry_of (strings ++ names_bytes (symbols o)) (fst p) (snd p)) pl /\
    (let n := length (sections o) in
     let* data := clear (repeat fill ((n + length (symbols o) + 1) * 24)) 0 24 in
     let* data := write_section_symbols (sections o) 0 data in
     write_symbols (symbols o) (1 + n) (1 + count_local (symbols o) + n) strings data) =
    Ok (strings ++ names_bytes (symbols o),
        concat (repeat 0 24 :: section_entries (sections o) 0 ++ map snd (pick false pl) ++ map snd (pick true pl)),
        positions (symbols o) (1 + length (sections o)) (1 + length (sections o) + length (filter (fun y => negb (sym_global y)) (symbols o)))).
Proof.
  intros N0 SN. cbv zeta. set (n := length (sections o)). set (nl := length (filter (fun y => negb (sym_global y)) (symbols o))). set (ng := length (filter sym_global (symbols o))).
  assert (LN : length (symbols o) = (nl + ng)%nat). { unfold nl, ng. clear. induction (symbols o) as [|y t IH]; cbn [filter length]; [reflexivity|]. destruct (sym_global y); cbn [negb length]; lia. }
  rewrite repeat_blocks. replace (n + length (symbols o) + 1)%nat with (S (n + (nl + ng)))%nat by lia.
  match goal with |- context [repeat (repeat fill 24) (S ?k)] => change (repeat (repeat fill 24) (S k)) with (repeat fill 24 :: repeat (repeat fill 24) k) end. cbn [concat].
  match goal with |- context [clear ?b 0 24] => pose proof (clear_blocks 24 [] b) as CB; cbn [app length] in CB; rewrite CB by (rewrite app_length, repeat_length; lia); clear CB end.
  cbn [Base.bind].
  rewrite skipn_app, repeat_length, Nat.sub_diag, skipn_all2 by (rewrite repeat_length; lia). cbn [app skipn].
  rewrite !repeat_app. match goal with |- context [repeat 0 24 ++ concat ?a] => change (repeat 0 24 ++ concat a) with (concat ([repeat 0 24] ++ a)) end.
  assert (Z0 : blocks_ok [repeat 0 24]). { apply Forall_cons; [apply repeat_length|apply Forall_nil]. }
  pose proof (write_section_symbols_blocks (sections o) [repeat 0 24] (repeat (repeat fill 24) n) (repeat (repeat fill 24) nl ++ repeat (repeat fill 24) ng)) as WS.
  cbn [length Nat.sub] in WS. rewrite WS; [|apply repeat_length| |lia].
  2: { apply Forall_app. split; [exact Z0|]. repeat (apply Forall_app; split); apply repeat_blocks_ok. }
  cbn [Base.bind].
  destruct (write_symbols_blocks (strings ++ names_bytes (symbols o)) (symbols o) strings ([repeat 0 24] ++ section_entries (sections o) 0) (repeat (repeat fill 24) nl) [] (repeat (repeat fill 24) ng)) as (pl & P1 & P2 & P3); auto.
  { apply repeat_length. } { apply repeat_length. }
  { repeat (apply Forall_app; split); try apply repeat_blocks_ok; [exact Z0|apply section_entries_ok|apply Forall_nil]. }
  exists pl. split; [exact P1|]. split; [exact P2|].
  rewrite app_length, section_entries_length, repeat_length in P3. cbn [length app] in P3. fold n in P3. rewrite Nat.add_0_r in P3.
  rewrite count_local_filter. fold nl. replace (1 + nl + n)%nat with (1 + n + nl)%nat by lia. cbn [app]. exact P3.
Qed.

(** * Relocations *)
Definition rela_bytes (offset sym type add : Z) : list Z := le 8 offset ++ le 8 (Z.shiftl sym 32 + type) ++ le 8 add.
Lemma rela_length a b c d : length (rela_bytes a b c d) = 24%nat.
Proof. unfold rela_bytes. rewrite !app_length, !le_digits_length. reflexivity. Qed.
Definition rela_of (mapping : list nat) (r : relocation) : list Z :=
  rela_bytes (r_offset r) (Z.of_nat (nth (r_idx r) mapping 0%nat)) (elf_type (r_type r)) (r_add r).
Lemma wrap_twice a b : wrap 64 (wrap 64 a + b) = wrap 64 (a + b).
Proof. unfold wrap. apply Zplus_mod_idemp_l. Qed.
Lemma le8_wrap v : le 8 (wrap 64 v) = le 8 v.
Proof. unfold wrap. change (2 ^ 64) with (256 ^ 8). apply le_digits_mod. cbn. lia. Qed.
Lemma write_relocations_blocks mapping l : forall pre rest, Forall (fun r => (r_idx r < length mapping)%nat) l -> length rest = length l -> blocks_ok (pre ++ rest) ->
  write_relocations l (length pre) mapping (concat (pre ++ rest)) = Ok (concat (pre ++ map (rela_of mapping) l)).
Proof.
  induction l as [|r t IH]; intros pre rest F L B; destruct rest as [|x rest]; try discriminate; cbn [write_relocations map]; [reflexivity|].
  inversion F as [|? ? F1 F2]; subst. rewrite (nth_error_nth' mapping 0%nat F1).
  set (buf := concat (pre ++ x :: rest)). assert (LB : (24 * length pre + 24 <= length buf)%nat). { unfold buf. rewrite blocks_length by exact B. rewrite app_length. cbn [length]. lia. }
  set (p := (24 * length pre)%nat) in *.
  assert (step : forall w a v k, length a = k -> (p + k + wbytes w <= length buf)%nat ->
     write_field w (splice buf p a) (p + k) v = Ok (splice buf p (a ++ le (wbytes w) v))).
  { intros w a v k K Q. subst k. rewrite write_field_splice by (rewrite splice_length by (cbn; lia); lia).
    rewrite splice_splice by (rewrite le_digits_length; lia). reflexivity. }
  change (write_64 buf p (r_offset r)) with (write_field W8 buf p (r_offset r)). rewrite write_field_splice by (cbn; lia). cbn [Base.bind wbytes].
  match goal with |- context [write_64 ?b (p + 8) ?v] => change (write_64 b (p + 8) v) with (write_field W8 b (p + 8) v) end.
  rewrite step by (try (rewrite !app_length, !le_digits_length; reflexivity); try apply le_digits_length; cbn; lia). cbn [Base.bind wbytes].
  match goal with |- context [write_64 ?b (p + 16) ?v] => change (write_64 b (p + 16) v) with (write_field W8 b (p + 16) v) end.
  rewrite step by (try (rewrite !app_length, !le_digits_length; reflexivity); cbn; lia). cbn [Base.bind wbytes].
  rewrite wrap_twice, le8_wrap, <- app_assoc.
  match goal with |- context [splice buf p ?e] => change e with (rela_of mapping r) end.
  unfold buf, p. rewrite set_block.
  - change (pre ++ rela_of mapping r :: rest) with (pre ++ [rela_of mapping r] ++ rest). rewrite app_assoc.
    specialize (IH (pre ++ [rela_of mapping r]) rest F2). rewrite app_length in IH. cbn [length] in IH. replace (S (length pre)) with (length pre + 1)%nat by lia.
    rewrite IH; [rewrite <- app_assoc; reflexivity|cbn in L; lia|]. rewrite <- app_assoc. apply Forall_app in B. destruct B as [B1 B2]. inversion B2; subst.
    apply Forall_app. split; [exact B1|]. cbn [app]. constructor; [apply rela_length|assumption].
  - unfold rela_of. rewrite rela_length. apply Forall_app in B. destruct B as [_ B]. inversion B; assumption.
  - apply Forall_app in B. apply B.
Qed.
Lemma write_relocations_data fill mapping l : Forall (fun r => (r_idx r < length mapping)%nat) l ->
  write_relocations l 0 mapping (repeat fill (24 * length l)) = Ok (concat (map (rela_of mapping) l)).
Proof.
  intros F. rewrite Nat.mul_comm, repeat_blocks. apply (write_relocations_blocks mapping l [] (repeat (repeat fill 24) (length l)) F).
  - apply repeat_length. - apply repeat_blocks_ok.
Qed.

(** * Names in a table of strings *)
Definition named (T : list Z) (off : Z) (name : list Z) : Prop :=
  0 < off < len T /\ exists rest, skipn (Z.to_nat off) T = name ++ 0 :: rest.
Lemma named_here pre name post : pre <> [] -> named ((pre ++ name ++ [0]) ++ post) (len pre) name.
Proof.
  intros N. unfold named, len. split; [rewrite !app_length; destruct pre; [congruence|]; cbn [length]; lia|].
  exists post. rewrite Nat2Z.id, <- !app_assoc, skipn_app, skipn_all, Nat.sub_diag. reflexivity.
Qed.
Lemma named_string T off name : named T off name -> is_c_string name -> string_at T off = Ok name.
Proof.
  intros (R & rest & E) C. unfold string_at. rewrite E. clear E R. induction C as [|b t B C IH]; cbn [app c_string]; [reflexivity|].
  rewrite (proj2 (Z.eqb_neq _ _)) by lia. rewrite IH. reflexivity.
Qed.
Lemma named_extend T T' off name : named T off name -> named (T ++ T') off name.
Proof.
  intros (R & rest & E). unfold named, len in *. split; [rewrite app_length; lia|]. exists (rest ++ T'). rewrite skipn_app.
  replace (Z.to_nat off - length T)%nat with 0%nat by lia. cbn [skipn]. rewrite E, <- app_assoc. reflexivity.
Qed.
(** A section of the object and the one made for it. *)
Definition progbits_of (T : list Z) (s : section) (e : elf_section) : Prop :=
  named T (sh_name (es_header e)) (sec_name s) /\ es_data e = sec_data s /\
  es_header e = {| sh_name := sh_name (es_header e); sh_type := SHT_PROGBITS; sh_flags := 6; sh_addr := 0; sh_offset := 0; sh_size := 0;
                   sh_link := 0; sh_info := 0; sh_addralign := sec_alignment s; sh_entsize := 0 |}.
Definition section_names (l : list section) : list Z := concat (map (fun s => sec_name s ++ [0]) l).
Lemma add_progbits_spec l : forall T, T <> [] ->
  exists es, add_progbits l T = (es, T ++ section_names l) /\ Forall2 (progbits_of (T ++ section_names l)) l es.
Proof.
  induction l as [|s t IH]; intros T N; cbn [add_progbits].
  - exists []. unfold section_names. cbn. rewrite app_nil_r. split; [reflexivity|constructor].
  - unfold register_string. destruct (IH (T ++ sec_name s ++ [0])) as (es & E & F). { destruct T; [congruence|discriminate]. }
    rewrite E. assert (ET : (T ++ sec_name s ++ [0]) ++ section_names t = T ++ section_names (s :: t)). { unfold section_names. cbn [map concat]. rewrite <- !app_assoc. reflexivity. }
    rewrite ET in *. eexists. split; [reflexivity|]. constructor; [|exact F]. split; [|split; reflexivity]. cbn [es_header sh_name]. rewrite <- ET. apply named_here. exact N.
Qed.
Definition rela_section_of (T : list Z) (sym_idx : Z) (mapping : list nat) (p : nat * section) (e : elf_section) : Prop :=
  0 <= sh_name (es_header e) < len T /\
  es_header e = {| sh_name := sh_name (es_header e); sh_type := SHT_RELA; sh_flags := 64; sh_addr := 0; sh_offset := 0; sh_size := 0;
                   sh_link := sym_idx; sh_info := Z.of_nat (S (fst p)); sh_addralign := 0; sh_entsize := 24 |} /\
  es_data e = concat (map (rela_of mapping) (sec_relocations (snd p))).
Definition rela_names (l : list section) : list Z := concat (map (fun s => chars ".rela" ++ sec_name s ++ [0]) l).
Lemma add_relocations_spec fill sym_idx mapping l : forall i T, T <> [] ->
  Forall (fun s => len (sec_name s) <= 250 /\ Forall (fun r => (r_idx r < length mapping)%nat) (sec_relocations s)) l ->
  exists es, add_relocations fill l i sym_idx mapping T = Ok (es, T ++ rela_names l) /\
    Forall2 (rela_section_of (T ++ rela_names l) sym_idx mapping) (combine (seq i (length l)) l) es.
Proof.
  induction l as [|s t IH]; intros i T N F; cbn [add_relocations length seq combine].
  - exists []. unfold rela_names. cbn. rewrite app_nil_r. split; [reflexivity|constructor].
  - inversion F as [|? ? [F1 F2] F3]; subst. destruct (Nat.leb_spec 256 (5 + length (sec_name s))) as [X|_]; [unfold len in F1; lia|].
    unfold register_string. rewrite write_relocations_data by exact F2. cbn [Base.bind].
    destruct (IH (S i) (T ++ (chars ".rela" ++ sec_name s) ++ [0])) as (es & E & G). { destruct T; [congruence|discriminate]. } { exact F3. }
    rewrite E. cbn [Base.bind].
    assert (ET : (T ++ (chars ".rela" ++ sec_name s) ++ [0]) ++ rela_names t = T ++ rela_names (s :: t)). { unfold rela_names. cbn [map concat]. rewrite <- !app_assoc. reflexivity. }
    rewrite ET in *. eexists. split; [reflexivity|]. constructor; [|exact G]. split; [|split; reflexivity]. cbn [es_header sh_name].
    rewrite <- ET. unfold len. rewrite !app_length. cbn [length]. lia.
Qed.
