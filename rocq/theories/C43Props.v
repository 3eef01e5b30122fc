(** C43: building object files. *)
From Coq Require Import String.
From Verif Require Import Base CharTypes MacroTable Bytes Object ObjectSpec ObjectProofs.
Local Open Scope Z_scope.
Local Open Scope list_scope.

Lemma finish_names l : map sym_name (map finish_symbol l) = map sym_name l.
Proof. rewrite map_map. apply map_ext. intros y. unfold finish_symbol. destruct (_ =? _); reflexivity. Qed.

(** Whatever is requested of the builder, it succeeds and the finished object
    file holds exactly what was requested: in each section the bytes written
    to it, in order; for each symbol one entry, at the place of its last
    definition; every relocation, naming the right symbol. *)
Theorem C43_object : forall history, Forall request_ok history ->
  exists b, serve_all history object_start = Ok b /\
    object_shows (object_finish b) (meaning_all history view_start) /\
    (forall y, In y (symbols (object_finish b)) -> sym_section y = -1 -> sym_global y = true).
Proof.
  intros h R. destruct (shows_serve_all h _ _ R shows_start) as (b & E & O & _). exists b. split; [exact E|]. split.
  - destruct O as [SU SC SA YU YN YA]. split; cbn [object_finish sections symbols]; auto.
    + intros s I. destruct (SC s I) as [D F]. split; auto. rewrite <- F. apply map_ext. intros r. apply fixup_of_names.
      cbn [object_finish symbols]. rewrite finish_names. reflexivity.
    + rewrite finish_names. exact YU.
    + intros y I. apply in_map_iff in I. destruct I as (z & <- & I). destruct (YN z I) as (n & NM & DD).
      exists n. unfold finish_symbol. destruct (Z.eqb_spec (sym_section z) (-1)) as [U|U]; cbn [sym_name sym_section sym_value sym_global].
      * split; [exact NM|]. destruct (definition_of _ n) as [d|]; [|exact DD].
        destruct DD as (s & _ & P & _). lia.
      * split; [exact NM|exact DD].
    + rewrite finish_names. exact YA.
  - intros y I U. cbn [object_finish symbols] in I. apply in_map_iff in I. destruct I as (z & <- & I).
    unfold finish_symbol in *. destruct (Z.eqb_spec (sym_section z) (-1)) as [V|V]; [reflexivity|contradiction].
Qed.
Print Assumptions C43_object.

(** Nothing that is already in the object is disturbed by a later request:
    sections keep their place, bytes and relocations are only added at the
    end, symbols keep their index and name, and only a definition of a symbol
    changes its entry. *)
Definition section_grows (s s' : section) : Prop :=
  sec_name s' = sec_name s /\ (exists d, sec_data s' = sec_data s ++ d) /\ (exists r, sec_relocations s' = sec_relocations s ++ r).
Definition keeps (r : request) (b b' : builder) : Prop :=
  (forall i s, nth_error (sections (obj b)) i = Some s ->
     exists s', nth_error (sections (obj b')) i = Some s' /\ section_grows s s' /\
       (i <> current_section b -> s' = s)) /\
  (forall i y, nth_error (symbols (obj b)) i = Some y ->
     exists y', nth_error (symbols (obj b')) i = Some y' /\ sym_name y' = sym_name y /\
       ((forall n g, r = Define n g -> sym_name y <> Some n) -> y' = y)).

Lemma grows_refl s : section_grows s s.
Proof. split; [reflexivity|]. split; exists []; symmetry; apply app_nil_r. Qed.
Lemma grows_trans a b c : section_grows a b -> section_grows b c -> section_grows a c.
Proof.
  intros (N1 & (d1 & D1) & (r1 & R1)) (N2 & (d2 & D2) & (r2 & R2)). split; [congruence|].
  split; [exists (d1 ++ d2); rewrite D2, D1|exists (r1 ++ r2); rewrite R2, R1]; symmetry; apply app_assoc.
Qed.

Definition keeps_sections (b b' : builder) : Prop :=
  current_section b' = current_section b /\ symbols (obj b') = symbols (obj b) /\
  (forall i s, nth_error (sections (obj b)) i = Some s ->
     exists s', nth_error (sections (obj b')) i = Some s' /\ section_grows s s' /\ (i <> current_section b -> s' = s)).
Lemma keeps_trans a b c : keeps_sections a b -> keeps_sections b c -> keeps_sections a c.
Proof.
  intros (C1 & Y1 & S1) (C2 & Y2 & S2). split; [congruence|]. split; [congruence|]. intros i s N.
  destruct (S1 i s N) as (s1 & N1 & G1 & E1). destruct (S2 i s1 N1) as (s2 & N2 & G2 & E2).
  exists s2. split; auto. split; [eapply grows_trans; eauto|]. intros NE. rewrite E2 by congruence. auto.
Qed.

Lemma set_current_keeps b s s' : current b = Ok s -> section_grows s s' -> keeps_sections b (set_current b s').
Proof.
  intros C G. unfold current in C. destruct (nth_error (sections (obj b)) (current_section b)) as [q|] eqn:N; [|discriminate].
  inversion C; subst q. split; [reflexivity|]. split; [reflexivity|]. intros i x X. cbn [set_current obj sections].
  destruct (Nat.eq_dec (current_section b) i) as [<-|NE].
  - rewrite nth_error_set_nth_eq by (apply nth_error_Some; congruence). exists s'. split; [auto|].
    rewrite N in X. inversion X; subst. split; [auto|]. intros NE. contradiction.
  - rewrite nth_error_set_nth_neq by auto. exists x. split; [auto|]. split; [apply grows_refl|auto].
Qed.

Lemma write_keeps d b b' : object_write d b = Ok b' -> keeps_sections b b'.
Proof.
  unfold object_write. intros E. destruct (current b) as [s| |] eqn:C; try discriminate. cbn [bind] in E.
  inversion E; subst. apply (set_current_keeps b s); auto. split; [reflexivity|]. split; [exists d; reflexivity|].
  exists []. symmetry. apply app_nil_r.
Qed.

Lemma keeps_of_sections r b b' : keeps_sections b b' -> keeps r b b'.
Proof. intros (C & Y & S). split; auto. intros i y N. exists y. rewrite Y. auto. Qed.

Lemma get_symbol_keeps n o i o' : get_symbol (Some n) o = (i, o') ->
  sections o' = sections o /\ (forall j y, nth_error (symbols o) j = Some y -> nth_error (symbols o') j = Some y) /\
  (forall y, nth_error (symbols o') i = Some y -> sym_name y = Some n).
Proof.
  unfold get_symbol. cbn [label_text]. destruct (find_symbol n (symbols o) 0) as [k|] eqn:F; intros E; inversion E; subst.
  - split; [reflexivity|]. split; [auto|]. intros y Y. destruct (find_symbol_some _ _ _ _ F) as (z & _ & N & M).
    rewrite Nat.sub_0_r in N. congruence.
  - split; [reflexivity|]. cbn [symbols]. split.
    + intros j y N. rewrite nth_error_app1; auto. apply nth_error_Some. congruence.
    + intros y. rewrite nth_error_app2, Nat.sub_diag by lia. cbn. intros Y. inversion Y. reflexivity.
Qed.

Theorem C43_appends : forall r b b', serve r b = Ok b' -> keeps r b b'.
Proof.
  intros r b b' E. destruct r as [n|d|x|q|z|a|n off add ty|n g]; cbn [serve] in E.
  - inversion E; subst. unfold object_set_section. destruct (find_section n (sections (obj b)) 0).
    + split; cbn [obj sections symbols]; intros; eexists; (split; [eassumption|]); auto using grows_refl.
    + split; cbn [obj sections symbols]; intros; eexists.
      * split; [rewrite nth_error_app1; [eassumption|apply nth_error_Some; congruence]|]. auto using grows_refl.
      * split; [eassumption|]. auto.
  - apply keeps_of_sections. eapply write_keeps; eauto.
  - apply keeps_of_sections. eapply write_keeps; eauto.
  - apply keeps_of_sections. unfold object_write_quad, object_write_byte in E.
    repeat match type of E with
    | bind ?w _ = _ => let H := fresh "W" in destruct w eqn:H; try discriminate; cbn [bind] in E; apply write_keeps in H
    end. apply write_keeps in E. eauto 10 using keeps_trans.
  - apply keeps_of_sections. eapply write_keeps; eauto.
  - unfold object_align in E. destruct (current b) as [s| |] eqn:C; try discriminate. cbn [bind] in E.
    destruct (a =? 0); [discriminate|]. destruct (_ =? 0).
    + inversion E; subst. split; intros; eexists; (split; [eassumption|]); auto using grows_refl.
    + unfold object_write_zero in E. destruct (object_write _ b) as [b1| |] eqn:W; try discriminate. cbn [bind] in E.
      destruct (current b1) as [s1| |] eqn:C1; try discriminate. cbn [bind] in E. inversion E; subst. clear E.
      apply keeps_of_sections. apply (keeps_trans _ b1); [eapply write_keeps; eauto|].
      apply (set_current_keeps b1 s1); auto. split; [reflexivity|]. split; exists []; symmetry; apply app_nil_r.
  - unfold object_symbol_relocate in E. destruct (current b) as [s| |] eqn:C; try discriminate. cbn [bind] in E.
    destruct (get_symbol (Some n) (obj b)) as [i o] eqn:G. destruct (get_symbol_keeps _ _ _ _ G) as (SO & YO & _).
    inversion E; subst. clear E. unfold current in C.
    destruct (nth_error (sections (obj b)) (current_section b)) as [q|] eqn:N; [|discriminate]. inversion C; subst q.
    split; cbn [set_current obj sections symbols current_section].
    + intros j x X. rewrite SO. destruct (Nat.eq_dec (current_section b) j) as [<-|NE].
      * rewrite nth_error_set_nth_eq by (apply nth_error_Some; congruence). eexists. split; [reflexivity|].
        rewrite N in X. inversion X; subst x. split; [|contradiction]. split; [reflexivity|]. cbn [sec_data sec_relocations].
        split; [exists []; symmetry; apply app_nil_r|]. eexists. reflexivity.
      * rewrite nth_error_set_nth_neq by auto. exists x. auto using grows_refl.
    + intros j y Y. exists y. auto.
  - unfold object_symbol_set in E. destruct (current b) as [s| |] eqn:C; try discriminate. cbn [bind] in E.
    destruct (get_symbol (Some n) (obj b)) as [i o] eqn:G. destruct (get_symbol_keeps _ _ _ _ G) as (SO & YO & NO).
    destruct (nth_error (symbols o) i) as [y|] eqn:Y; [|discriminate]. inversion E; subst. clear E.
    split; cbn [obj sections symbols].
    + intros j x X. rewrite SO. exists x. auto using grows_refl.
    + intros j z Z0. pose proof (YO _ _ Z0) as ZO. destruct (Nat.eq_dec i j) as [<-|NE].
      * rewrite nth_error_set_nth_eq by (apply nth_error_Some; congruence). eexists. split; [reflexivity|].
        rewrite Y in ZO. inversion ZO; subst z. split; [reflexivity|]. intros D. exfalso. apply (D n g eq_refl). auto.
      * rewrite nth_error_set_nth_neq by auto. exists z. auto.
Qed.
Print Assumptions C43_appends.

(** A function and a variable, each referring to the other's section. *)
Definition sample_requests : list request :=
  [Define (chars "main") true; Write [232; 0; 0; 0; 0]; Relocate (chars "puts") (-4) (-4) RELOCATE_32_RELATIVE;
   Section_ (chars ".data"); WriteByte 7; Align 8; Define (chars "p") true; WriteQuad 0;
   Relocate (chars "main") (-8) 0 RELOCATE_64; Section_ (chars ".text"); WriteByte 195].
Example C43_example : Forall request_ok sample_requests /\
  (let v := meaning_all sample_requests view_start in
   bytes_of v (chars ".text") = [232; 0; 0; 0; 0; 195] /\
   bytes_of v (chars ".data") = [7; 0; 0; 0; 0; 0; 0; 0; 0; 0; 0; 0; 0; 0; 0; 0] /\
   definition_of v (chars "p") = Some {| d_section := chars ".data"; d_offset := 8; d_global := true |} /\
   definition_of v (chars "puts") = None /\
   fixups_of v (chars ".data") = [{| f_type := RELOCATE_64; f_symbol := chars "main"; f_offset := 8; f_add := 0 |}]).
Proof.
  split; [repeat (constructor; [solve [exact I|reflexivity]|]); constructor|].
  vm_compute. repeat split; reflexivity.
Qed.
