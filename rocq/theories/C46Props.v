(** C46: symbols shared between object files. *)
From Coq Require Import String.
From Verif Require Import Base CharTypes MacroTable Bytes BytesSpec Object ObjectSpec ObjectProofs Linker LinkerSpec.
Local Open Scope Z_scope.
Local Open Scope list_scope.

(** Where symbol [i] and section [i] of object [k] end up in the combined object. *)
Definition symbol_index (objs : list object) (k i : nat) : nat :=
  (fold_right Nat.add 0 (map (fun o => length (symbols o)) (firstn k objs)) + i)%nat.
Definition section_index (objs : list object) (k i : nat) : nat :=
  (fold_right Nat.add 0 (map (fun o => length (sections o)) (firstn k objs)) + i)%nat.

(** * Concatenation *)
Lemma concatenate_symbol l : forall k o i y m n, nth_error l k = Some o -> nth_error (symbols o) i = Some y ->
  nth_error (symbols (concatenate l m n)) (symbol_index l k i) = Some (shift_symbol (m + section_index l k 0) y).
Proof.
  induction l as [|x t IH]; intros k o i y m n K I; [destruct k; discriminate|]. cbn [concatenate symbols].
  destruct k as [|k].
  - inversion K; subst. unfold symbol_index, section_index. cbn [firstn map fold_right Nat.add].
    rewrite nth_error_app1 by (rewrite map_length; apply nth_error_Some; congruence).
    rewrite nth_error_map, I. cbn. do 2 f_equal. lia.
  - cbn in K. unfold symbol_index, section_index in *. cbn [firstn map fold_right].
    rewrite nth_error_app2 by (rewrite map_length; lia). rewrite map_length.
    match goal with |- nth_error _ ?a = _ => replace a with (fold_right Nat.add 0 (map (fun o => length (symbols o)) (firstn k t)) + i)%nat by lia end.
    rewrite (IH k o i y _ _ K I). do 2 f_equal. lia.
Qed.

Lemma concatenate_section l : forall k o i s m n, nth_error l k = Some o -> nth_error (sections o) i = Some s ->
  nth_error (sections (concatenate l m n)) (section_index l k i) = Some (shift_section (n + symbol_index l k 0) s).
Proof.
  induction l as [|x t IH]; intros k o i y m n K I; [destruct k; discriminate|]. cbn [concatenate sections].
  destruct k as [|k].
  - inversion K; subst. unfold symbol_index, section_index. cbn [firstn map fold_right Nat.add].
    rewrite nth_error_app1 by (rewrite map_length; apply nth_error_Some; congruence).
    rewrite nth_error_map, I. cbn. do 2 f_equal. lia.
  - cbn in K. unfold symbol_index, section_index in *. cbn [firstn map fold_right].
    rewrite nth_error_app2 by (rewrite map_length; lia). rewrite map_length.
    match goal with |- nth_error _ ?a = _ => replace a with (fold_right Nat.add 0 (map (fun o => length (sections o)) (firstn k t)) + i)%nat by lia end.
    rewrite (IH k o i y _ _ K I). do 2 f_equal. lia.
Qed.

(** Every symbol of the combined table comes from an object. *)
Lemma concatenate_inv l : forall m n j y', nth_error (symbols (concatenate l m n)) j = Some y' ->
  exists k o i y, nth_error l k = Some o /\ nth_error (symbols o) i = Some y /\ j = symbol_index l k i /\
    y' = shift_symbol (m + section_index l k 0) y.
Proof.
  induction l as [|x t IH]; intros m n j y' J; cbn [concatenate symbols] in J; [destruct j; discriminate|].
  destruct (Nat.lt_ge_cases j (length (symbols x))) as [L|L].
  - rewrite nth_error_app1 in J by (rewrite map_length; auto). rewrite nth_error_map in J.
    destruct (nth_error (symbols x) j) as [y|] eqn:E; [|discriminate]. inversion J; subst y'.
    exists O, x, j, y. split; [reflexivity|]. split; [exact E|]. split; [reflexivity|]. unfold section_index. cbn.
    rewrite !Nat.add_0_r. reflexivity.
  - rewrite nth_error_app2 in J by (rewrite map_length; auto). rewrite map_length in J.
    destruct (IH _ _ _ _ J) as (k & o & i & y & K & I & EJ & EY). exists (S k), o, i, y. split; [exact K|]. split; [exact I|].
    unfold symbol_index, section_index in *. cbn [firstn map fold_right]. split; [lia|]. rewrite EY. f_equal. lia.
Qed.

(** * Resolution *)
Definition is_def (name : list Z) (y : symbol) : Prop := sym_name y = Some name /\ sym_global y = true /\ sym_section y <> -1.
Lemma defines_iff name y : defines name y = true <-> is_def name y.
Proof.
  unfold defines, is_def. destruct (sym_name y) as [n|]; [|split; [discriminate|intros [H _]; discriminate]].
  rewrite !andb_true_iff, negb_true_iff, Z.eqb_neq, sv_cmp_eq. split.
  - intros [[A B] ->]. auto.
  - intros (A & B & C). inversion A. auto.
Qed.

Lemma found_unique name S l : (exists y, In y l /\ is_def name y) -> (forall y, In y l -> is_def name y -> sym_section y = S) ->
  found_section name l = S.
Proof.
  unfold found_section. generalize (-1). induction l as [|x t IH]; intros acc (y & I & D) U; [destruct I|].
  cbn [fold_left]. destruct (defines name x) eqn:E.
  - assert (sym_section x = S) by (apply U; [left; reflexivity|]; apply defines_iff; auto). rewrite H.
    clear - U. assert (U' : forall y, In y t -> is_def name y -> sym_section y = S) by (intros; apply U; [right|]; auto).
    clear U. revert U'. induction t as [|z u IHt]; intros U'; [reflexivity|]. cbn [fold_left].
    destruct (defines name z) eqn:E.
    + rewrite (U' z (or_introl eq_refl) (proj1 (defines_iff _ _) E)). apply IHt. intros. apply U'; [right|]; auto.
    + apply IHt. intros. apply U'; [right|]; auto.
  - apply IH.
    + destruct I as [->|I]; [|exists y; auto]. apply defines_iff in D. congruence.
    + intros; apply U; [right|]; auto.
Qed.

(** What resolution leaves of the table [raw] once all indices below [n] have
    been visited, when the symbol called [name] has one definition [z]. *)
Record resolved (name : list Z) (z : symbol) (jz : nat) (raw l : list symbol) (n : nat) : Prop := {
  same_length : length l = length raw;
  same_entry : forall j y, nth_error raw j = Some y -> exists y', nth_error l j = Some y' /\
    sym_name y' = sym_name y /\ sym_value y' = sym_value y /\ sym_size y' = sym_size y /\ sym_global y' = sym_global y /\
    (sym_section y <> -1 -> y' = y) /\
    ((n <= j)%nat -> y' = y) /\
    (sym_name y = Some name -> sym_section y = -1 -> (j < n)%nat -> sym_section y' = sym_section z);
  one_section : forall y', In y' l -> is_def name y' -> sym_section y' = sym_section z
}.

Lemma resolve_ok name z jz raw : nth_error raw jz = Some z -> is_def name z ->
  (forall y, In y raw -> is_def name y -> sym_section y = sym_section z) ->
  forall k i l l', resolved name z jz raw l i -> (i + k = length raw)%nat -> resolve i k l = Ok l' -> resolved name z jz raw l' (i + k).
Proof.
  intros NZ DZ UZ. induction k as [|k IH]; intros i l l' R LEN E; cbn [resolve] in E.
  - inversion E; subst. rewrite Nat.add_0_r. exact R.
  - destruct (nth_error l i) as [y|] eqn:Y; [|discriminate]. replace (i + S k)%nat with (S i + k)%nat by lia.
    destruct R as [SL SE OS].
    assert (RI : exists r, nth_error raw i = Some r).
    { destruct (nth_error raw i) as [r|] eqn:N; [eauto|]. apply nth_error_None in N. lia. }
    destruct RI as [r RI]. destruct (SE i r RI) as (y0 & N0 & _ & _ & _ & _ & _ & F0 & _).
    rewrite Y in N0. inversion N0; subst y0. rewrite (F0 (le_n i)) in *. clear F0 N0.
    destruct (Z.eqb_spec (sym_section r) (-1)) as [U|U].
    + destruct (sym_name r) as [n|] eqn:NM; [|discriminate]. apply (IH _ _ _) in E; auto; [|lia]. clear E.
      assert (FS : n = name -> found_section n l = sym_section z).
      { intros ->. apply found_unique; [|exact OS]. destruct (SE jz z NZ) as (z' & Z' & _ & _ & _ & _ & KZ & _).
        rewrite KZ in Z' by apply DZ. exists z. split; [eapply nth_error_In; eauto|exact DZ]. }
      assert (LI : (i < length l)%nat) by (apply nth_error_Some; congruence).
      split.
      * rewrite set_nth_length. exact SL.
      * intros j q Q. destruct (Nat.eq_dec i j) as [<-|NE].
        -- rewrite RI in Q. inversion Q; subst q. rewrite nth_error_set_nth_eq by auto. eexists. split; [reflexivity|].
           cbn [sym_name sym_value sym_size sym_global sym_section]. repeat (split; [solve [auto]|]).
           split; [contradiction|]. split; [lia|]. intros EN _ _. rewrite NM in EN. injection EN as EN. apply FS. exact EN.
        -- rewrite nth_error_set_nth_neq by auto. destruct (SE j q Q) as (q' & NQ & A & B & C & D & F & G & H).
           exists q'. repeat (split; [solve [auto]|]). split; [intros; apply G; lia|]. intros. apply H; auto. lia.
      * intros y' I D. apply in_set_nth in I. destruct I as [[-> _]|(j & NE & J)].
        -- destruct D as (DN & _). cbn [sym_name sym_section] in *. inversion DN; subst. auto.
        -- apply OS; auto. eapply nth_error_In; eauto.
    + apply (IH _ _ _) in E; auto; [|lia]. clear E. split; auto. intros j q Q.
      destruct (SE j q Q) as (q' & NQ & A & B & C & D & F & G & H). exists q'. repeat (split; [solve [auto]|]).
      split; [intros; apply G; lia|]. intros EN EU L. destruct (Nat.eq_dec i j) as [<-|NE].
      * rewrite RI in Q. inversion Q; subst. contradiction.
      * apply H; auto. lia.
Qed.

Lemma shift_symbol_name k y : sym_name (shift_symbol k y) = sym_name y.
Proof. unfold shift_symbol. destruct (_ =? _); reflexivity. Qed.
Lemma shift_symbol_global k y : sym_global (shift_symbol k y) = sym_global y.
Proof. unfold shift_symbol. destruct (_ =? _); reflexivity. Qed.
Lemma shift_symbol_value k y : sym_value (shift_symbol k y) = sym_value y.
Proof. unfold shift_symbol. destruct (_ =? _); reflexivity. Qed.
Lemma shift_symbol_undefined k y : sym_section y = -1 -> sym_section (shift_symbol k y) = -1.
Proof. intros E. unfold shift_symbol. rewrite E. exact E. Qed.
Lemma shift_symbol_section k y : 0 <= sym_section y -> sym_section (shift_symbol k y) = sym_section y + Z.of_nat k.
Proof. intros E. unfold shift_symbol. destruct (Z.eqb_spec (sym_section y) (-1)); [lia|reflexivity]. Qed.

(** Several objects: object [kr] refers to [name] without defining it, object
    [kd] holds the only global definition of it. *)
Record reference (objs : list object) (name : list Z) (kr ir kd id : nat) (y z : symbol) : Prop := {
  the_reference : exists o, nth_error objs kr = Some o /\ nth_error (symbols o) ir = Some y;
  reference_name : sym_name y = Some name;
  reference_undefined : sym_section y = -1;
  the_definition : exists o, nth_error objs kd = Some o /\ nth_error (symbols o) id = Some z;
  definition_global : sym_name z = Some name /\ sym_global z = true /\ 0 <= sym_section z;
  definition_unique : forall k o i x, nth_error objs k = Some o -> nth_error (symbols o) i = Some x ->
    sym_name x = Some name -> sym_global x = true -> sym_section x <> -1 -> k = kd /\ i = id
}.

Lemma combined objs o name kr ir kd id y z : reference objs name kr ir kd id y z -> combine_objects objs = Ok o ->
  exists y' z', nth_error (symbols o) (symbol_index objs kr ir) = Some y' /\ nth_error (symbols o) (symbol_index objs kd id) = Some z' /\
    sym_section y' = sym_section z' /\ sym_section z' = sym_section z + Z.of_nat (section_index objs kd 0) /\
    sym_value y' = sym_value y /\ sym_value z' = sym_value z.
Proof.
  intros [(a & Ka & Ia) RN RU (d & Kd & Id) (DN & DG & DS) DU] C. unfold combine_objects in C.
  set (raw := symbols (concatenate objs 0 0)) in *.
  destruct (resolve 0 (length raw) raw) as [l| |] eqn:E; try discriminate. cbn [bind] in C. inversion C; subst o. clear C.
  cbn [symbols].
  pose proof (concatenate_symbol objs kr a ir y 0 0 Ka Ia) as RY. pose proof (concatenate_symbol objs kd d id z 0 0 Kd Id) as RZ.
  fold raw in RY, RZ. cbn [Nat.add] in RY, RZ.
  assert (DZ : is_def name (shift_symbol (section_index objs kd 0) z)).
  { split; [rewrite shift_symbol_name; auto|]. split; [rewrite shift_symbol_global; auto|]. rewrite shift_symbol_section by auto. lia. }
  assert (UZ : forall q, In q raw -> is_def name q -> sym_section q = sym_section (shift_symbol (section_index objs kd 0) z)).
  { intros q I (QN & QG & QS). apply In_nth_error in I. destruct I as [j J].
    destruct (concatenate_inv _ _ _ _ _ J) as (k & o & i & x & K & I & EJ & ->). cbn [Nat.add] in *.
    rewrite shift_symbol_name in QN. rewrite shift_symbol_global in QG.
    destruct (DU k o i x K I QN QG) as [-> ->].
    { intros XU. apply QS. apply shift_symbol_undefined. exact XU. }
    rewrite Kd in K. inversion K; subst. rewrite Id in I. inversion I; subst. reflexivity. }
  assert (R0 : resolved name (shift_symbol (section_index objs kd 0) z) (symbol_index objs kd id) raw raw 0).
  { split; auto. intros j q Q. exists q. repeat (split; [solve [auto]|]). intros _ _ L. lia. }
  destruct (resolve_ok name _ _ raw RZ DZ UZ _ 0%nat raw l R0 (Nat.add_0_l _) E) as [_ SE _].
  destruct (SE _ _ RY) as (y' & NY & _ & VY & _ & _ & _ & _ & SY). destruct (SE _ _ RZ) as (z' & NZ & _ & VZ & _ & _ & KZ & _).
  exists y', z'. rewrite (KZ (proj2 (proj2 DZ))) in *. rewrite shift_symbol_value in VY.
  assert (LT : (symbol_index objs kr ir < 0 + length raw)%nat) by (cbn; apply nth_error_Some; congruence).
  rewrite shift_symbol_name in SY. specialize (SY RN (shift_symbol_undefined _ _ RU) LT).
  split; [exact NY|]. split; [exact NZ|]. split; [exact SY|]. split; [apply shift_symbol_section; exact DS|].
  split; [exact VY|apply shift_symbol_value].
Qed.

(** What a reference resolves to: the right section, but at the offset the
    reference itself carries (0 in every object the compiler writes) instead
    of the offset of the definition. The addresses differ by exactly the
    offset of the definition in its section. *)
Theorem C46_offset_lost_refuted : forall objs o name kr ir kd id y z,
  reference objs name kr ir kd id y z -> combine_objects objs = Ok o ->
  exists y' z', nth_error (symbols o) (symbol_index objs kr ir) = Some y' /\ nth_error (symbols o) (symbol_index objs kd id) = Some z' /\
    symbol_address o y' = symbol_address o z' - (sym_value z - sym_value y).
Proof.
  intros objs o name kr ir kd id y z R C. destruct (combined _ _ _ _ _ _ _ _ _ R C) as (y' & z' & NY & NZ & S & _ & VY & VZ).
  exists y', z'. split; [exact NY|]. split; [exact NZ|]. unfold symbol_address. rewrite S, VY, VZ. lia.
Qed.
Print Assumptions C46_offset_lost_refuted.

(** So the reference is right when the definition starts its section. *)
Theorem C46_first_definition_partial : forall objs o name kr ir kd id y z,
  reference objs name kr ir kd id y z -> combine_objects objs = Ok o -> sym_value y = 0 -> sym_value z = 0 ->
  exists y' z', nth_error (symbols o) (symbol_index objs kr ir) = Some y' /\ nth_error (symbols o) (symbol_index objs kd id) = Some z' /\
    symbol_address o y' = symbol_address o z'.
Proof.
  intros objs o name kr ir kd id y z R C VY VZ.
  destruct (C46_offset_lost_refuted _ _ _ _ _ _ _ _ _ R C) as (y' & z' & NY & NZ & A).
  exists y', z'. split; [exact NY|]. split; [exact NZ|]. lia.
Qed.
Print Assumptions C46_first_definition_partial.

(** Sections keep their bytes, and their relocations keep their symbols. *)
Theorem C46_sections : forall objs o k a i s, combine_objects objs = Ok o ->
  nth_error objs k = Some a -> nth_error (sections a) i = Some s ->
  exists s', nth_error (sections o) (section_index objs k i) = Some s' /\ sec_data s' = sec_data s /\
    length (sec_relocations s') = length (sec_relocations s) /\
    forall j r, nth_error (sec_relocations s) j = Some r ->
      nth_error (sec_relocations s') j =
        Some {| r_type := r_type r; r_idx := symbol_index objs k (r_idx r); r_offset := r_offset r; r_add := r_add r |}.
Proof.
  intros objs o k a i s C K I. unfold combine_objects in C.
  destruct (resolve _ _ _) as [l| |]; try discriminate. cbn [bind] in C. inversion C; subst o. cbn [sections].
  rewrite (concatenate_section objs k a i s 0 0 K I). eexists. split; [reflexivity|]. cbn [Nat.add shift_section sec_data sec_relocations].
  split; [reflexivity|]. split; [apply map_length|]. intros j r R. rewrite nth_error_map, R. cbn. unfold shift_relocation.
  do 2 f_equal. unfold symbol_index. lia.
Qed.
Print Assumptions C46_sections.

(** Combining objects whose symbols all have names always succeeds. *)
Theorem C46_combines : forall objs, (forall k o y, nth_error objs k = Some o -> In y (symbols o) -> sym_name y <> None) ->
  exists o, combine_objects objs = Ok o.
Proof.
  intros objs N. unfold combine_objects. set (raw := symbols (concatenate objs 0 0)).
  assert (NR : forall y, In y raw -> sym_name y <> None).
  { intros y I. apply In_nth_error in I. destruct I as [j J]. destruct (concatenate_inv _ _ _ _ _ J) as (k & o & i & x & K & I & _ & ->).
    rewrite shift_symbol_name. eapply N; eauto. eapply nth_error_In; eauto. }
  assert (G : forall k i l, (i + k = length l)%nat -> (forall y, In y l -> sym_name y <> None) -> exists l', resolve i k l = Ok l').
  { induction k as [|k IH]; intros i l L NL; cbn [resolve]; [eauto|].
    destruct (nth_error l i) as [y|] eqn:Y; [|apply nth_error_None in Y; lia].
    destruct (sym_section y =? -1); [|apply IH; [lia|auto]].
    pose proof (NL y (nth_error_In _ _ Y)) as NY. destruct (sym_name y) as [n|] eqn:E; [|contradiction].
    apply IH; [rewrite set_nth_length; lia|]. intros q I. apply in_set_nth in I. destruct I as [[-> _]|(j & _ & J)].
    - cbn. discriminate.
    - apply NL. eapply nth_error_In; eauto. }
  destruct (G (length raw) 0%nat raw eq_refl NR) as [l ->]. cbn [bind]. eauto.
Qed.
Print Assumptions C46_combines.

(** Two files: the first calls f, which the second defines after one byte of
    other code. The call goes to the byte before f. *)
Definition caller : object :=
  {| sections := [{| sec_name := chars ".text"; sec_alignment := 0; sec_data := [232; 0; 0; 0; 0; 195];
                     sec_relocations := [{| r_type := RELOCATE_32_RELATIVE; r_idx := 1; r_offset := 1; r_add := -4 |}] |}];
     symbols := [{| sym_name := Some (chars "_start"); sym_value := 0; sym_size := 0; sym_global := true; sym_section := 0 |};
                 {| sym_name := Some (chars "f"); sym_value := 0; sym_size := 0; sym_global := true; sym_section := -1 |}] |}.
Definition callee : object :=
  {| sections := [{| sec_name := chars ".text"; sec_alignment := 0; sec_data := [195; 144; 195]; sec_relocations := [] |}];
     symbols := [{| sym_name := Some (chars "g"); sym_value := 0; sym_size := 0; sym_global := true; sym_section := 0 |};
                 {| sym_name := Some (chars "f"); sym_value := 1; sym_size := 0; sym_global := true; sym_section := 0 |}] |}.
Example C46_example : linker_link [caller; callee] =
  Ok {| exe_data := [232; 1; 0; 0; 0; 195; 195; 144; 195]; exe_entry := 65536 |}.
  (* the displacement should be 2: the call ends at offset 5 and f is at offset 7 *)
Proof. vm_compute. reflexivity. Qed.
Example C46_example_reference : reference [caller; callee] (chars "f") 0 1 1 1
  {| sym_name := Some (chars "f"); sym_value := 0; sym_size := 0; sym_global := true; sym_section := -1 |}
  {| sym_name := Some (chars "f"); sym_value := 1; sym_size := 0; sym_global := true; sym_section := 0 |}.
Proof.
  split; try reflexivity.
  - eexists. split; reflexivity.
  - eexists. split; reflexivity.
  - cbn. split; [reflexivity|]. split; [reflexivity|lia].
  - intros k o i x K I N G D.
    destruct k as [|[|k]]; cbn in K; [| |destruct k; discriminate]; inversion K; subst o;
    (destruct i as [|[|i]]; cbn in I; [| |destruct i; discriminate]); inversion I; subst x; cbn in *; try congruence; auto.
Qed.
