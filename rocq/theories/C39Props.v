(** C39: string label interning. *)
From Coq Require Import String.
From Verif Require Import Base CharTypes MacroTable Labels.
Local Open Scope Z_scope.
Local Open Scope list_scope.

(** * Decimal numerals denote their number *)
Definition numeral (l : list Z) : Z := fold_left (fun a d => 10 * a + (d - 48)) l 0.

Lemma numeral_snoc l d : numeral (l ++ [d]) = 10 * numeral l + (d - 48).
Proof. unfold numeral. rewrite fold_left_app. reflexivity. Qed.

Lemma decimal_loop_value fuel : forall n, 0 <= n -> (Z.to_nat n < fuel)%nat -> numeral (decimal_loop fuel n) = n.
Proof.
  induction fuel as [|k IH]; intros n N F; [lia|]. cbn [decimal_loop].
  rewrite numeral_snoc. pose proof (Z.div_mod n 10 ltac:(lia)) as D. pose proof (Z.mod_pos_bound n 10 ltac:(lia)).
  destruct (Z.ltb_spec n 10) as [L|L].
  - change (numeral []) with 0. rewrite Z.mod_small by lia. lia.
  - assert (n / 10 < n) by (apply Z.div_lt; lia). assert (0 <= n / 10) by (apply Z.div_pos; lia).
    rewrite IH by lia. lia.
Qed.

Lemma decimal_inj a b : 0 <= a -> 0 <= b -> decimal a = decimal b -> a = b.
Proof.
  intros A B E. rewrite <- (decimal_loop_value (S (Z.to_nat a)) a A), <- (decimal_loop_value (S (Z.to_nat b)) b B) by lia.
  unfold decimal in E. rewrite E. reflexivity.
Qed.

Definition digit (c : Z) : Prop := 48 <= c <= 57.

Lemma decimal_loop_digits fuel : forall n, 0 <= n -> Forall digit (decimal_loop fuel n).
Proof.
  induction fuel as [|k IH]; intros n N; [constructor|]. cbn [decimal_loop]. apply Forall_app. split.
  - destruct (n <? 10); [constructor|]. apply IH. apply Z.div_pos; lia.
  - constructor; [|constructor]. unfold digit. pose proof (Z.mod_pos_bound n 10 ltac:(lia)). lia.
Qed.

Lemma decimal_digits n : 0 <= n -> Forall digit (decimal n).
Proof. apply decimal_loop_digits. Qed.

Lemma decimal_head n : 0 <= n -> exists d t, decimal n = d :: t /\ digit d.
Proof.
  intros N. pose proof (decimal_digits n N) as F. destruct (decimal n) as [|d t] eqn:E.
  - unfold decimal in E. cbn [decimal_loop] in E. destruct (n <? 10); [discriminate|].
    apply app_eq_nil in E. destruct E; discriminate.
  - exists d, t. split; auto. now inversion F.
Qed.

(** * The table *)
Lemma sv_cmp_eq a : forall b, sv_cmp a b = true <-> a = b.
Proof.
  induction a as [|x a IH]; destruct b as [|y b]; cbn; try (split; intros; congruence).
  rewrite andb_true_iff, Z.eqb_eq, IH. split; [intros [-> ->]; auto|]. intros E. inversion E. auto.
Qed.
Lemma entry_type_eqb_eq a b : entry_type_eqb a b = true <-> a = b.
Proof. destruct a, b; cbn; split; congruence. Qed.

(** Ids are positions and no entry occurs twice. *)
Record table_ok (s : labels) : Prop := {
  ids_are_positions : forall i e, nth_error (entries s) i = Some e -> e_id e = Z.of_nat i;
  no_duplicates : forall i j e f, nth_error (entries s) i = Some e -> nth_error (entries s) j = Some f ->
    e_type e = e_type f -> e_name e = e_name f -> i = j;
  temporaries_below : tmp_label_idx s <= -2
}.

Lemma find_some type str l id : entry_find type str l = Some id ->
  exists i e, nth_error l i = Some e /\ e_type e = type /\ e_name e = str /\ e_id e = id.
Proof.
  induction l as [|e t IH]; cbn; [discriminate|].
  destruct (sv_cmp (e_name e) str && entry_type_eqb (e_type e) type) eqn:B.
  - intros E. inversion E. apply andb_prop in B. destruct B as [B1 B2].
    apply sv_cmp_eq in B1. apply entry_type_eqb_eq in B2. exists O, e. auto.
  - intros E. destruct (IH E) as (i & f & H). exists (S i), f. exact H.
Qed.

Lemma find_none type str l : entry_find type str l = None ->
  forall i e, nth_error l i = Some e -> e_type e = type -> e_name e <> str.
Proof.
  induction l as [|e t IH]; cbn; intros N i f E T EQ; [destruct i; discriminate|].
  destruct (sv_cmp (e_name e) str && entry_type_eqb (e_type e) type) eqn:B; [discriminate|].
  destruct i as [|i]; [|eapply (IH N i f); eauto]. cbn in E. inversion E; subst.
  rewrite (proj2 (sv_cmp_eq _ _) eq_refl), (proj2 (entry_type_eqb_eq _ _) eq_refl) in B. discriminate.
Qed.

Lemma nth_snoc {A} (l : list A) x i y : nth_error (l ++ [x]) i = Some y ->
  nth_error l i = Some y \/ (i = length l /\ y = x).
Proof.
  intros E. destruct (Nat.lt_ge_cases i (length l)) as [L|L].
  - rewrite nth_error_app1 in E by auto. auto.
  - rewrite nth_error_app2 in E by auto. destruct (i - length l)%nat eqn:D.
    + cbn in E. right. split; [lia|congruence].
    + destruct n; discriminate.
Qed.

Lemma init_ok : table_ok labels_init.
Proof. split; cbn; intros; try (destruct i; discriminate). lia. Qed.

(** What a request denotes: the entry it stands for. *)
Definition entry_of (r : request) : option (entry_type * list Z) :=
  match r with AString x => Some (ENTRY_STR, x) | AName x => Some (ENTRY_LABEL_NAME, x) | ATemporary => None end.

(** Every answer is recorded in the table it leaves. *)
Definition recorded (s : labels) (r : request) (id : Z) : Prop :=
  match entry_of r with
  | Some (ty, name) => 0 <= id /\ nth_error (entries s) (Z.to_nat id) = Some {| e_type := ty; e_name := name; e_id := id |}
  | None => tmp_label_idx s < id <= -2
  end.

Definition extends (s s' : labels) : Prop :=
  (forall i e, nth_error (entries s) i = Some e -> nth_error (entries s') i = Some e) /\ tmp_label_idx s' <= tmp_label_idx s.

Lemma extends_refl s : extends s s.
Proof. split; auto. lia. Qed.
Lemma extends_trans a b c : extends a b -> extends b c -> extends a c.
Proof. intros [A1 A2] [B1 B2]. split; auto. lia. Qed.
Lemma recorded_extends s s' r id : extends s s' -> recorded s r id -> recorded s' r id.
Proof.
  intros [E1 E2] R. unfold recorded in *. destruct (entry_of r) as [[ty name]|]; [|lia].
  destruct R as [R1 R2]. split; auto.
Qed.

Lemma register_step ty name s id s' : table_ok s -> label_register ty name s = (id, s') ->
  table_ok s' /\ extends s s' /\ 0 <= id /\ tmp_label_idx s' = tmp_label_idx s /\
  nth_error (entries s') (Z.to_nat id) = Some {| e_type := ty; e_name := name; e_id := id |}.
Proof.
  intros [P D T] R. unfold label_register in R. destruct (entry_find ty name (entries s)) as [k|] eqn:F.
  - inversion R; subst. destruct (find_some _ _ _ _ F) as (i & e & N & <- & <- & <-).
    split; [split; auto|]. split; [apply extends_refl|]. rewrite (P _ _ N).
    split; [lia|]. split; [reflexivity|]. rewrite Nat2Z.id. rewrite N. f_equal. rewrite <- (P _ _ N). destruct e; reflexivity.
  - inversion R; subst. clear R. set (e := {| e_type := ty; e_name := name; e_id := Z.of_nat (length (entries s)) |}).
    split; [split; cbn [entries tmp_label_idx]; auto|].
    + intros i f N. apply nth_snoc in N. destruct N as [N|[-> ->]]; [auto|reflexivity].
    + intros i j f g N1 N2 E1 E2. apply nth_snoc in N1, N2.
      destruct N1 as [N1|[-> ->]], N2 as [N2|[-> ->]]; auto.
      * eapply D; eauto.
      * exfalso. eapply (find_none _ _ _ F i f); eauto.
      * exfalso. eapply (find_none _ _ _ F j g); eauto; congruence.
    + split.
      { split; cbn [entries tmp_label_idx]; [|lia]. intros i f N. rewrite nth_error_app1; auto.
        apply nth_error_Some. congruence. }
      split; [lia|]. split; [reflexivity|]. rewrite Nat2Z.id. cbn [entries].
      rewrite nth_error_app2 by lia. rewrite Nat.sub_diag. reflexivity.
Qed.

Lemma serve_step r s id s' : table_ok s -> serve r s = (id, s') ->
  table_ok s' /\ extends s s' /\ recorded s' r id /\ (r = ATemporary -> id = tmp_label_idx s).
Proof.
  intros OK R. destruct r as [x|x|]; cbn [serve] in R.
  - destruct (register_step _ _ _ _ _ OK R) as (A & B & C & _ & D).
    split; [auto|]. split; [auto|]. split; [split; auto|discriminate].
  - destruct (register_step _ _ _ _ _ OK R) as (A & B & C & _ & D).
    split; [auto|]. split; [auto|]. split; [split; auto|discriminate].
  - inversion R; subst. destruct OK as [P D T]. split; [split; cbn; auto; lia|].
    split; [split; cbn; auto; lia|]. split; [|reflexivity]. unfold recorded. cbn. lia.
Qed.

Lemma serve_all_ok l : forall s ids s', table_ok s -> serve_all l s = (ids, s') ->
  table_ok s' /\ extends s s' /\ length ids = length l /\
  (forall i r id, nth_error l i = Some r -> nth_error ids i = Some id -> recorded s' r id) /\
  (forall i id, nth_error l i = Some ATemporary -> nth_error ids i = Some id -> id <= tmp_label_idx s) /\
  (forall i j a b, (i < j)%nat -> nth_error l i = Some ATemporary -> nth_error l j = Some ATemporary ->
     nth_error ids i = Some a -> nth_error ids j = Some b -> b < a).
Proof.
  induction l as [|r t IH]; intros s ids s' OK R; cbn [serve_all] in R.
  - inversion R; subst. split; [auto|]. split; [apply extends_refl|]. split; [reflexivity|].
    repeat split; intros; destruct i; discriminate.
  - destruct (serve r s) as [id s1] eqn:E1. destruct (serve_all t s1) as [ids2 s2] eqn:E2. inversion R; subst. clear R.
    destruct (serve_step _ _ _ _ OK E1) as (OK1 & X1 & R1 & T1).
    destruct (IH _ _ _ OK1 E2) as (OK2 & X2 & L2 & R2 & T2 & D2).
    split; [auto|]. split; [eapply extends_trans; eauto|]. split; [cbn; congruence|]. split; [|split].
    + intros [|i] q k N1 N2; cbn in N1, N2.
      * inversion N1; inversion N2; subst. eapply recorded_extends; eauto.
      * eapply R2; eauto.
    + intros [|i] k N1 N2; cbn in N1, N2.
      * inversion N1; inversion N2; subst. rewrite T1 by auto. lia.
      * pose proof (T2 _ _ N1 N2). destruct X1. lia.
    + intros [|i] [|j] a b L N1 N2 N3 N4; try lia; cbn in N1, N2, N3, N4.
      * inversion N1; inversion N3; subst. unfold recorded in R1. cbn in R1. pose proof (T2 _ _ N2 N4).
        cbn [serve register_label] in E1. inversion E1; subst. cbn [tmp_label_idx] in *. lia.
      * eapply (D2 i j); eauto; lia.
Qed.

(** The same string, or the same name, always gets the same label; anything
    else gets a different one. *)
Theorem C39_ids : forall history ids s i j a b ra rb,
  serve_all history labels_init = (ids, s) ->
  nth_error history i = Some ra -> nth_error history j = Some rb ->
  nth_error ids i = Some a -> nth_error ids j = Some b ->
  (a = b <-> i = j \/ (ra = rb /\ ra <> ATemporary)).
Proof.
  intros h ids s i j a b ra rb R Ha Hb Ia Ib.
  destruct (serve_all_ok _ _ _ _ init_ok R) as (OK & _ & _ & REC & _ & DEC).
  pose proof (REC _ _ _ Ha Ia) as RA. pose proof (REC _ _ _ Hb Ib) as RB. unfold recorded in RA, RB.
  split.
  - intros <-. destruct ra as [x|x|], rb as [y|y|]; cbn [entry_of] in RA, RB; try (destruct RA, RB; exfalso; congruence); try lia.
    + right. destruct RA as [_ RA], RB as [_ RB]. split; [congruence|discriminate].
    + right. destruct RA as [_ RA], RB as [_ RB]. split; [congruence|discriminate].
    + left. destruct (Nat.lt_total i j) as [L|[L|L]]; auto; exfalso.
      * pose proof (DEC _ _ _ _ L Ha Hb Ia Ib). lia.
      * pose proof (DEC _ _ _ _ L Hb Ha Ib Ia). lia.
  - intros [<-|[<- NT]]; [congruence|].
    destruct ra as [x|x|]; [| |congruence]; cbn [entry_of] in RA, RB; destruct RA as [A1 A2], RB as [B1 B2];
      pose proof (no_duplicates _ OK _ _ _ _ A2 B2 eq_refl eq_refl); lia.
Qed.
Print Assumptions C39_ids.

(** No label is the null label -1 (assembler.h: a label of -1 means none),
    and the sign tells generated labels from interned ones. *)
Theorem C39_null_label : forall history ids s i r id,
  serve_all history labels_init = (ids, s) -> nth_error history i = Some r -> nth_error ids i = Some id ->
  id <> -1 /\ (id < 0 <-> r = ATemporary).
Proof.
  intros h ids s i r id R H I.
  destruct (serve_all_ok _ _ _ _ init_ok R) as (OK & _ & _ & REC & _).
  specialize (REC _ _ _ H I). unfold recorded in REC.
  destruct r; cbn [entry_of] in REC; split; try lia; split; intros; try discriminate; try lia; reflexivity.
Qed.
Print Assumptions C39_null_label.

(** * What is printed *)

(** Names the compiler registers: identifiers, which cannot begin with a dot,
    and the names it makes up for static locals (declaration.c:1348). *)
Definition user_name (l : list Z) : Prop := hd_error l <> Some 46.
Definition identifier_start (l : list Z) : Prop := exists c t, l = c :: t /\ ~ digit c /\ c <> 46.
Definition label_name (l : list Z) : Prop :=
  user_name l \/ exists n x, 0 <= n /\ identifier_start x /\ l = local_static_name n x.

Lemma dot_L l : label_name (chars ".L" ++ l) -> exists t, l = 86 :: t.
Proof.
  intros [U|(n & x & _ & _ & E)].
  - exfalso. apply U. reflexivity.
  - unfold local_static_name in E. cbn in E. inversion E. eauto.
Qed.

Lemma text_cases s id t : rodata_get_label s id = Ok t ->
  (id < 0 /\ t = chars ".L" ++ decimal (- id)) \/
  (0 <= id /\ exists e, nth_error (entries s) (Z.to_nat id) = Some e /\
     t = match e_type e with ENTRY_STR => chars ".Ls" ++ decimal id | ENTRY_LABEL_NAME => e_name e end).
Proof.
  unfold rodata_get_label. intros E. destruct (Z.ltb_spec id 0) as [L|L].
  - left. cbn [bind] in E. destruct (64 <=? _); [discriminate|]. inversion E. auto.
  - right. split; [lia|]. destruct (nth_error (entries s) (Z.to_nat id)) as [e|]; [|discriminate].
    exists e. split; [reflexivity|]. destruct (e_type e); cbn [bind] in E; destruct (64 <=? _); inversion E; reflexivity.
Qed.

Lemma app_chars_inj (p a b : list Z) : p ++ a = p ++ b -> a = b.
Proof. apply app_inv_head. Qed.

(** Two labels are printed the same only if they are the same label. *)
Theorem C39_text_distinct : forall history ids s a b t,
  serve_all history labels_init = (ids, s) ->
  Forall (fun r => match r with AName n => label_name n | _ => True end) history ->
  In a ids -> In b ids -> rodata_get_label s a = Ok t -> rodata_get_label s b = Ok t -> a = b.
Proof.
  intros h ids s a b t R F Ia Ib Ta Tb.
  destruct (serve_all_ok _ _ _ _ init_ok R) as (OK & _ & LEN & REC & _).
  assert (NAMED : forall id e, In id ids -> 0 <= id -> nth_error (entries s) (Z.to_nat id) = Some e ->
    e_type e = ENTRY_LABEL_NAME -> label_name (e_name e)).
  { intros id e I P N T. apply In_nth_error in I. destruct I as [i I].
    destruct (nth_error h i) as [r|] eqn:H.
    2: { apply nth_error_None in H. assert (i < length ids)%nat by (apply nth_error_Some; congruence). lia. }
    specialize (REC _ _ _ H I). unfold recorded in REC. rewrite Forall_forall in F.
    pose proof (F r (nth_error_In _ _ H)) as FR.
    destruct r; cbn [entry_of] in REC; [| |lia]; destruct REC as [_ REC]; rewrite REC in N; inversion N; subst e; cbn in *; congruence. }
  destruct (text_cases _ _ _ Ta) as [[La Ea]|[La (ea & Na & Ea)]];
  destruct (text_cases _ _ _ Tb) as [[Lb Eb]|[Lb (eb & Nb & Eb)]].
  - rewrite Ea in Eb. apply app_chars_inj in Eb. apply decimal_inj in Eb; lia.
  - exfalso. destruct (decimal_head (- a) ltac:(lia)) as (d & q & D & DD). rewrite D in Ea.
    destruct (e_type eb) eqn:T.
    + rewrite Ea in Eb. cbn in Eb. inversion Eb. unfold digit in DD. lia.
    + pose proof (NAMED _ _ Ib Lb Nb T) as LN. rewrite <- Eb, Ea in LN. apply dot_L in LN. destruct LN as [x LN].
      inversion LN. unfold digit in DD. lia.
  - exfalso. destruct (decimal_head (- b) ltac:(lia)) as (d & q & D & DD). rewrite D in Eb.
    destruct (e_type ea) eqn:T.
    + rewrite Ea in Eb. cbn in Eb. inversion Eb. unfold digit in DD. lia.
    + pose proof (NAMED _ _ Ia La Na T) as LN. rewrite <- Ea, Eb in LN. apply dot_L in LN. destruct LN as [x LN].
      inversion LN. unfold digit in DD. lia.
  - destruct (e_type ea) eqn:T1, (e_type eb) eqn:T2.
    + rewrite Ea in Eb. apply app_chars_inj in Eb. apply decimal_inj in Eb; lia.
    + exfalso. pose proof (NAMED _ _ Ib Lb Nb T2) as LN. rewrite <- Eb, Ea in LN.
      change (chars ".Ls" ++ decimal a) with (chars ".L" ++ (115 :: decimal a)) in LN.
      apply dot_L in LN. destruct LN as [x LN]. discriminate.
    + exfalso. pose proof (NAMED _ _ Ia La Na T1) as LN. rewrite <- Ea, Eb in LN.
      change (chars ".Ls" ++ decimal b) with (chars ".L" ++ (115 :: decimal b)) in LN.
      apply dot_L in LN. destruct LN as [x LN]. discriminate.
    + assert (E : Z.to_nat a = Z.to_nat b) by (eapply (no_duplicates _ OK); eauto; congruence). lia.
Qed.
Print Assumptions C39_text_distinct.

(** A registered name shorter than 64 bytes is printed as itself, also after
    any number of later registrations. *)
Theorem C39_text_of_name : forall history ids s i name id,
  serve_all history labels_init = (ids, s) -> nth_error history i = Some (AName name) -> nth_error ids i = Some id ->
  (length name < 64)%nat -> rodata_get_label s id = Ok name.
Proof.
  intros h ids s i name id R H I L.
  destruct (serve_all_ok _ _ _ _ init_ok R) as (OK & _ & _ & REC & _).
  specialize (REC _ _ _ H I). cbn in REC. destruct REC as [P N].
  unfold rodata_get_label. destruct (Z.ltb_spec id 0); [lia|]. rewrite N. cbn [e_type e_name bind].
  destruct (Z.leb_spec 64 (Z.of_nat (length name))); [lia|reflexivity].
Qed.
Print Assumptions C39_text_of_name.

(** A longer name stops the compilation: a valid C identifier of 64
    characters or more cannot be used for a function or global. *)
Theorem C39_long_name_refuted : forall history ids s i name id,
  serve_all history labels_init = (ids, s) -> nth_error history i = Some (AName name) -> nth_error ids i = Some id ->
  (64 <= length name)%nat -> rodata_get_label s id = Fail.
Proof.
  intros h ids s i name id R H I L.
  destruct (serve_all_ok _ _ _ _ init_ok R) as (OK & _ & _ & REC & _).
  specialize (REC _ _ _ H I). cbn in REC. destruct REC as [P N].
  unfold rodata_get_label. destruct (Z.ltb_spec id 0); [lia|]. rewrite N. cbn [e_type e_name bind].
  destruct (Z.leb_spec 64 (Z.of_nat (length name))); [reflexivity|lia].
Qed.
Print Assumptions C39_long_name_refuted.

(** The labels of distinct static locals are distinct, whatever their names. *)
Theorem C39_static_locals : forall n m a b, 0 <= n -> 0 <= m -> identifier_start a -> identifier_start b ->
  local_static_name n a = local_static_name m b -> n = m /\ a = b.
Proof.
  intros n m a b N M (ca & ta & -> & Da & _) (cb & tb & -> & Db & _) E. unfold local_static_name in E.
  apply app_chars_inj in E.
  pose proof (decimal_digits n N) as FN. pose proof (decimal_digits m M) as FM.
  assert (G : forall l1 l2, Forall digit l1 -> Forall digit l2 -> l1 ++ ca :: ta = l2 ++ cb :: tb -> l1 = l2 /\ ca :: ta = cb :: tb).
  { induction l1 as [|x l1 IH]; intros [|y l2] F1 F2 Q; cbn in Q.
    - auto.
    - inversion Q; subst. inversion F2; subst. contradiction.
    - inversion Q; subst. inversion F1; subst. contradiction.
    - inversion Q; subst. inversion F1; inversion F2; subst.
      match goal with H : _ ++ _ = _ ++ _ |- _ => apply IH in H; auto; destruct H as [-> ->]; auto end. }
  destruct (G _ _ FN FM E) as [D X]. split; [|exact X]. apply decimal_inj; auto.
Qed.
Print Assumptions C39_static_locals.

(** * The strings emitted *)
Lemma emitted_in s id str : In (id, str) (rodata_codegen s) <->
  exists i e, nth_error (entries s) i = Some e /\ e_type e = ENTRY_STR /\ e_id e = id /\ e_name e = str.
Proof.
  unfold rodata_codegen. rewrite in_flat_map. split.
  - intros (e & I & H). apply In_nth_error in I. destruct I as [i I]. exists i, e. split; auto.
    destruct (e_type e) eqn:T; [|destruct H]. destruct H as [H|[]]. inversion H; auto.
  - intros (i & e & N & T & <- & <-). exists e. split; [eapply nth_error_In; eauto|]. rewrite T. left. reflexivity.
Qed.

(** Every registered string is emitted at its label, and a label is emitted
    with one string only. *)
Theorem C39_strings_emitted : forall history ids s,
  serve_all history labels_init = (ids, s) ->
  (forall i str id, nth_error history i = Some (AString str) -> nth_error ids i = Some id -> In (id, str) (rodata_codegen s)) /\
  (forall id a b, In (id, a) (rodata_codegen s) -> In (id, b) (rodata_codegen s) -> a = b).
Proof.
  intros h ids s R. destruct (serve_all_ok _ _ _ _ init_ok R) as (OK & _ & _ & REC & _). split.
  - intros i str id H I. specialize (REC _ _ _ H I). cbn in REC. destruct REC as [P N].
    apply emitted_in. exists (Z.to_nat id), {| e_type := ENTRY_STR; e_name := str; e_id := id |}. auto.
  - intros id a b A B. apply emitted_in in A, B. destruct A as (i & e & N1 & _ & E1 & <-), B as (j & f & N2 & _ & E2 & <-).
    pose proof (ids_are_positions _ OK _ _ N1). pose proof (ids_are_positions _ OK _ _ N2).
    assert (i = j) by lia. subst. congruence.
Qed.
Print Assumptions C39_strings_emitted.

(** A history with every kind of request. *)
Definition sample_history : list request :=
  [AName (chars "main"); AString (chars "hi"); ATemporary; AString (chars "hi"); AName (chars "hi");
   AName (local_static_name 12 (chars "n")); ATemporary].
Example C39_example :
  let (ids, s) := serve_all sample_history labels_init in
  ids = [0; 1; -2; 1; 2; 3; -3] /\
  map (rodata_get_label s) ids =
    [Ok (chars "main"); Ok (chars ".Ls1"); Ok (chars ".L2"); Ok (chars ".Ls1"); Ok (chars "hi"); Ok (chars ".LVAR12n"); Ok (chars ".L3")] /\
  rodata_codegen s = [(1, chars "hi")].
Proof. vm_compute. split; [|split]; reflexivity. Qed.
Example C39_example_names :
  Forall (fun r => match r with AName n => label_name n | _ => True end) sample_history.
Proof.
  unfold sample_history. constructor; [left; vm_compute; discriminate|].
  do 3 (constructor; [exact I|]). constructor; [left; vm_compute; discriminate|].
  constructor; [|constructor; [exact I|constructor]].
  right. exists 12, (chars "n"). split; [lia|]. split; [|reflexivity]. exists 110, []. split; [reflexivity|].
  split; [unfold digit; lia|lia].
Qed.
