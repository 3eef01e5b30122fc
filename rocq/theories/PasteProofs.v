(** Proofs for C79. *)
From Coq Require Import String.
From Verif Require Import Base CharTypes Tokens MacroTable MacroTableSpec MacroTableProofs StringSet C17Props Fuel Expander ExpanderSpec ExpanderProofs CallProofs TokenizerSpec ScanProofs PasteSpec.
Local Open Scope Z_scope.
Local Open Scope list_scope.

Notation sig := obs (only parsing).
Definition paste_type (l r : Z) : Z :=
  fold_left (fun acc row => let '(l', r', c) := row in if (r' =? r) && (l' =? l) then c else acc) paste_table 0.
Lemma glue_ok a b : paste_type (e_type a) (e_type b) <> 0 ->
  exists t, glue b a = Ok t /\ sig t = (paste_type (e_type a) (e_type b), e_str a ++ e_str b) /\ e_hs t = string_set_intersection (e_hs b) (e_hs a).
Proof.
  intros H. unfold glue. fold (paste_type (e_type a) (e_type b)). apply Z.eqb_neq in H. rewrite H. eexists. split; [reflexivity|]. split; reflexivity.
Qed.
Lemma glue_inv a b t : glue b a = Ok t -> paste_type (e_type a) (e_type b) <> 0 /\ sig t = (paste_type (e_type a) (e_type b), e_str a ++ e_str b).
Proof.
  unfold glue. fold (paste_type (e_type a) (e_type b)). destruct (paste_type (e_type a) (e_type b) =? 0) eqn:E; [discriminate|].
  intros H. injection H as <-. apply Z.eqb_neq in E. split; [exact E|reflexivity].
Qed.

(** Punctuators. *)
Definition text_eqb (a b : list Z) : bool := if list_eq_dec Z.eq_dec a b then true else false.
Lemma text_eqb_refl a : text_eqb a a = true.
Proof. unfold text_eqb. destruct (list_eq_dec Z.eq_dec a a); congruence. Qed.
Definition check_pair (k : Z) (u v : list Z) : bool :=
  forallb (fun p => negb (text_eqb (snd p) u) || (fst p =? PP_DIRECTIVE) ||
    forallb (fun q => negb (text_eqb (snd q) v) || (fst q =? PP_DIRECTIVE) || (paste_type (fst p) (fst q) =? k)) all_puncts) all_puncts.
Lemma puncts_checked : forallb (fun p => (fst p =? PP_DIRECTIVE) ||
  forallb (fun i => check_pair (fst p) (firstn i (snd p)) (skipn i (snd p))) [1; 2]%nat) all_puncts = true.
Proof. vm_compute. reflexivity. Qed.
Lemma puncts_short : forallb (fun p => Nat.leb 1 (length (snd p)) && Nat.leb (length (snd p)) 3 && negb (fst p =? 0) &&
  match snd p with c :: _ => existsb (Z.eqb c) [60; 62; 46; 61; 33; 38; 94; 124; 43; 45; 42; 47; 37; 126; 63; 58; 59; 40; 41; 91; 93; 44; 123; 125; 35] | [] => false end &&
  negb (existsb (Z.eqb (fst p)) [T_IDENT; T_NUM; T_STRING; T_CHARACTER_CONSTANT; PP_HEADER_NAME_H])) all_puncts = true.
Proof. vm_compute. reflexivity. Qed.
Lemma dots : forallb (fun p => match snd p with 46 :: c :: _ => c =? 46 | _ => true end) all_puncts = true.
Proof. vm_compute. reflexivity. Qed.
Lemma punct_facts k x : punctuator k x -> (1 <= length x <= 3)%nat /\ k <> 0 /\ (exists c w, x = c :: w /\ ~ digit c /\ ~ id_start c /\ c <> 34 /\ c <> 39) /\
  ~ In k [T_IDENT; T_NUM; T_STRING; T_CHARACTER_CONSTANT; PP_HEADER_NAME_H].
Proof.
  intros P. apply punct_in in P. pose proof puncts_short as G. rewrite forallb_forall in G. specialize (G _ P). cbn [fst snd] in G.
  repeat (apply andb_true_iff in G; destruct G as [G ?]). apply Nat.leb_le in G. apply Nat.leb_le in H2. apply negb_true_iff, Z.eqb_neq in H1.
  repeat split; auto.
  - destruct x as [|c w]; [discriminate|]. exists c, w. split; [reflexivity|]. apply existsb_exists in H0.
    destruct H0 as (d & I & E). apply Z.eqb_eq in E. subst d. clear - I. cbn in I. unfold digit, id_start, nondigit.
    repeat (destruct I as [<-|I]; [repeat split; lia|]). destruct I.
  - intros I. apply negb_true_iff in H. assert (T : existsb (Z.eqb k) [T_IDENT; T_NUM; T_STRING; T_CHARACTER_CONSTANT; PP_HEADER_NAME_H] = true); [|congruence].
    apply existsb_exists. exists k. split; [exact I|apply Z.eqb_refl].
Qed.
Lemma puncts_paste ka xa kb xb k : punctuator ka xa -> punctuator kb xb -> punctuator k (xa ++ xb) ->
  ka <> PP_DIRECTIVE -> kb <> PP_DIRECTIVE -> k <> PP_DIRECTIVE -> paste_type ka kb = k /\ k <> 0.
Proof.
  intros A B K NA NB NK. destruct (punct_facts _ _ A) as (LA & _). destruct (punct_facts _ _ B) as (LB & _).
  destruct (punct_facts _ _ K) as (LK & KZ & _). rewrite app_length in LK.
  apply punct_in in A, B, K. pose proof puncts_checked as G. rewrite forallb_forall in G. specialize (G _ K). cbn [fst snd] in G.
  apply orb_true_iff in G. destruct G as [G|G]; [apply Z.eqb_eq in G; contradiction|].
  rewrite forallb_forall in G. assert (I : In (length xa) [1; 2]%nat) by (cbn; lia). specialize (G _ I).
  rewrite firstn_app, Nat.sub_diag, firstn_O, app_nil_r, firstn_all in G. rewrite skipn_app, Nat.sub_diag, skipn_all in G. cbn [app skipn] in G.
  unfold check_pair in G. rewrite forallb_forall in G. specialize (G _ A). cbn [fst snd] in G. rewrite text_eqb_refl in G. cbn [negb orb] in G.
  apply orb_true_iff in G. destruct G as [G|G]; [apply Z.eqb_eq in G; contradiction|].
  rewrite forallb_forall in G. specialize (G _ B). cbn [fst snd] in G. rewrite text_eqb_refl in G. cbn [negb orb] in G.
  apply orb_true_iff in G. destruct G as [G|G]; [apply Z.eqb_eq in G; contradiction|]. apply Z.eqb_eq in G. split; auto.
Qed.

(** Pairs of punctuators the table knows give punctuators. *)
Lemma table_sound : forallb (fun p => forallb (fun q =>
  (paste_type (fst p) (fst q) =? 0) || existsb (fun r => (fst r =? paste_type (fst p) (fst q)) && text_eqb (snd r) (snd p ++ snd q)) all_puncts) all_puncts) all_puncts = true.
Proof. vm_compute. reflexivity. Qed.
Lemma puncts_sound ka xa kb xb : punctuator ka xa -> punctuator kb xb -> paste_type ka kb <> 0 -> punctuator (paste_type ka kb) (xa ++ xb).
Proof.
  intros A B N. apply punct_in in A, B. pose proof table_sound as G. rewrite forallb_forall in G. specialize (G _ A). cbn [fst snd] in G.
  rewrite forallb_forall in G. specialize (G _ B). cbn [fst snd] in G. apply orb_true_iff in G. destruct G as [G|G]; [apply Z.eqb_eq in G; contradiction|].
  apply existsb_exists in G. destruct G as ((k & x) & I & E). cbn [fst snd] in E. apply andb_true_iff in E. destruct E as [E1 E2].
  apply Z.eqb_eq in E1. unfold text_eqb in E2. destruct (list_eq_dec Z.eq_dec x (xa ++ xb)) as [->|]; [|discriminate]. rewrite <- E1. apply punct_in. exact I.
Qed.
(** The operands of every row. *)
Lemma rows l r : paste_type l r <> 0 -> In l [T_IDENT; T_NUM] /\ In r [T_IDENT; T_NUM] \/
  (exists x, punctuator l x) /\ (exists y, punctuator r y) /\ l <> PP_DIRECTIVE /\ r <> PP_DIRECTIVE.
Proof.
  intros N. assert (G : exists c, In (l, r, c) paste_table).
  { unfold paste_type in N. revert N. generalize paste_table. intros tbl. assert (Q : forall a, fold_left (fun acc row => let '(l', r', c) := row in if (r' =? r) && (l' =? l) then c else acc) tbl a <> a -> exists c, In (l, r, c) tbl).
    { induction tbl as [|((l', r'), c) t IH]; intros a H; [contradiction|]. cbn [fold_left] in H. destruct ((r' =? r) && (l' =? l)) eqn:E.
      - apply andb_true_iff in E. destruct E as [E1 E2]. apply Z.eqb_eq in E1, E2. subst. exists c. left. reflexivity.
      - destruct (IH _ H) as (d & I). exists d. right. exact I. }
    apply Q. }
  destruct G as (c & I).
  assert (T : forallb (fun row => let '(l, r, _) := row in
     existsb (Z.eqb l) [T_IDENT; T_NUM] && existsb (Z.eqb r) [T_IDENT; T_NUM] ||
     existsb (fun p => fst p =? l) all_puncts && existsb (fun p => fst p =? r) all_puncts && negb (l =? PP_DIRECTIVE) && negb (r =? PP_DIRECTIVE)) paste_table = true) by (vm_compute; reflexivity).
  rewrite forallb_forall in T. specialize (T _ I). cbv beta iota in T. apply orb_true_iff in T. destruct T as [T|T].
  - left. apply andb_true_iff in T. destruct T as [T1 T2]. apply existsb_exists in T1, T2. destruct T1 as (u & U & E1), T2 as (v & V & E2).
    apply Z.eqb_eq in E1, E2. subst. split; assumption.
  - right. apply andb_true_iff in T. destruct T as [T T4]. apply andb_true_iff in T. destruct T as [T T3]. apply andb_true_iff in T. destruct T as [T1 T2].
    apply existsb_exists in T1, T2. destruct T1 as ((k1 & x1) & U & E1), T2 as ((k2 & x2) & V & E2). cbn [fst] in E1, E2. apply Z.eqb_eq in E1, E2. subst.
    apply negb_true_iff, Z.eqb_neq in T3, T4.
    split; [exists x1; apply punct_in; exact U|]. split; [exists x2; apply punct_in; exact V|]. split; assumption.
Qed.

(** Words. *)
Lemma ident_shape x r : lexeme T_IDENT x r -> exists c w, x = c :: w /\ id_start c /\ Forall id_char w.
Proof.
  intros L. inversion L; subst; [eauto 6|]. exfalso. match goal with H : punctuator _ _ |- _ => apply punct_facts in H; destruct H as (_ & _ & _ & H); apply H end. cbn. auto.
Qed.
Lemma num_shape x r : lexeme T_NUM x r -> exists p w, x = p ++ w /\ (exists d, digit d /\ (p = [d] \/ p = [46; d])) /\ pp_rest w.
Proof.
  intros L. inversion L; subst; [eauto 6|]. exfalso. match goal with H : punctuator _ _ |- _ => apply punct_facts in H; destruct H as (_ & _ & _ & H); apply H end. cbn. auto.
Qed.
Lemma pp_app u v : pp_rest u -> pp_rest v -> pp_rest (u ++ v).
Proof.
  induction 1; intros; cbn [app]; auto; [apply pp_char|apply pp_exp|apply pp_sep]; auto.
Qed.
Lemma pp_plain v : Forall plain_char v -> pp_rest v.
Proof. induction 1 as [|c v H _ IH]; [constructor|]. constructor; [unfold plain_char in H; tauto|exact IH]. Qed.
Lemma id_ahead : ~ id_char 0.
Proof. unfold id_char, id_start, nondigit, digit. lia. Qed.
Lemma one_ident c w : id_start c -> Forall id_char w -> one_token (T_IDENT, c :: w).
Proof.
  intros A B. split; [|split; discriminate]. cbn [fst snd]. apply lx_ident; auto; [exact id_ahead| |]; intros; cbn [ahead hd]; try split; lia.
Qed.
Lemma one_num p w : (exists d, digit d /\ (p = [d] \/ p = [46; d])) -> pp_rest w -> one_token (T_NUM, p ++ w).
Proof.
  intros A B. split; [|split; discriminate]. cbn [fst snd]. apply lx_num; auto.
  - unfold ahead, digit, nondigit. cbn [hd]. lia.
  - intros _. unfold sign, ahead. cbn [hd]. cbn. lia.
Qed.
(** What a text beginning like an identifier or a number can be. *)
Lemma starts_ident k c w : one_token (k, c :: w) -> id_start c -> (forall y, nth_error w 0 = Some y -> y <> 34 /\ y <> 39) ->
  (forall y, c = 117 -> nth_error w 0 = Some 56 -> nth_error w 1 = Some y -> y <> 34) -> k = T_IDENT.
Proof.
  intros (L & NH & ND) I N1 N2. cbn [fst snd] in *. assert (Q : ~ digit c /\ c <> 46 /\ c <> 34 /\ c <> 39) by (clear - I; unfold id_start, nondigit, digit in *; lia).
  destruct Q as (Q1 & Q2 & Q3 & Q4). inversion L; subst; auto.
  - exfalso. destruct H0 as (d & D & [-> | ->]); cbn [app] in H; injection H as E _; [subst; contradiction|congruence].
  - exfalso. cbn [In] in H0. repeat (destruct H0 as [<-|H0]); try destruct H0; cbn in H; injection H; intros; subst; try congruence;
      try (specialize (N2 34 eq_refl eq_refl eq_refl); congruence); (specialize (N1 34 eq_refl); tauto).
  - exfalso. cbn [In] in H0. repeat (destruct H0 as [<-|H0]); try destruct H0; cbn in H; injection H; intros; subst; try congruence;
      (specialize (N1 39 eq_refl); tauto).
  - exfalso. apply NH. reflexivity.
  - exfalso. destruct (punct_facts _ _ H) as (_ & _ & (c' & w' & E & _ & NI & _) & _). injection E as <- <-. contradiction.
Qed.
Lemma starts_num k p w : (exists d, digit d /\ (p = [d] \/ p = [46; d])) -> one_token (k, p ++ w) -> k = T_NUM.
Proof.
  intros (d & D & P) (L & NH & _). cbn [fst snd] in *. assert (Q : ~ id_start d /\ d <> 34 /\ d <> 39 /\ d <> 117 /\ d <> 85 /\ d <> 76 /\ d <> 60 /\ d <> 46) by (clear - D; unfold id_start, nondigit, digit in *; lia).
  destruct Q as (Q1 & Q2 & Q3 & Q4 & Q5 & Q6 & Q7 & Q8). inversion L; subst; auto.
  - exfalso. destruct P as [-> | ->]; cbn [app] in H; injection H as -> _; [contradiction|]. clear - H0. unfold id_start, nondigit in H0. lia.
  - exfalso. destruct P as [-> | ->]; cbn [In] in H0; repeat (destruct H0 as [<-|H0]); try destruct H0; cbn in H; injection H; intros; congruence.
  - exfalso. destruct P as [-> | ->]; cbn [In] in H0; repeat (destruct H0 as [<-|H0]); try destruct H0; cbn in H; injection H; intros; congruence.
  - exfalso. apply NH. reflexivity.
  - exfalso. destruct P as [-> | ->]; cbn [app] in H.
    + destruct (punct_facts _ _ H) as (_ & _ & (c' & w' & E & ND & _) & _). injection E as <- <-. contradiction.
    + apply punct_in in H. pose proof dots as G. rewrite forallb_forall in G. specialize (G _ H). cbn in G. apply Z.eqb_eq in G. congruence.
Qed.

(** ** The operator *)
Lemma paste_complete a b t : pasted (obs a) (obs b) t -> alike (obs a) (obs b) -> exists g, glue b a = Ok g /\ obs g = t.
Proof.
  intros (OA & OB & E & OT) AL. destruct t as [k x]. cbn [obs fst snd] in E. subst x.
  assert (Q : paste_type (e_type a) (e_type b) = k /\ k <> 0).
  { destruct AL as [[WA WB]|[PA PB]].
    - cbn [obs word fst] in WA, WB. unfold word in WA, WB. cbn [obs fst] in WA, WB.
      destruct OA as (LA & _), OB as (LB & _). cbn [obs fst snd] in LA, LB.
      destruct WA as [WA|WA]; rewrite WA in *.
      + destruct (ident_shape _ _ LA) as (c & w & EA & I & W). rewrite EA in OT. cbn [app] in OT.
        assert (K : k = T_IDENT).
        { assert (HB : exists c' w', e_str b = c' :: w' /\ c' <> 34 /\ c' <> 39).
          { destruct WB as [WB|WB]; rewrite WB in LB.
            - destruct (ident_shape _ _ LB) as (c' & w' & EB & I' & _). exists c', w'. repeat split; auto; clear - I'; unfold id_start, nondigit in I'; lia.
            - destruct (num_shape _ _ LB) as (p & w' & EB & (d & D & [-> | ->]) & _); cbn [app] in EB; eexists _, _; (split; [exact EB|]); clear - D; unfold digit in D; lia. }
          destruct HB as (c' & w' & EB & N1 & N2).
          assert (IC : forall y, In y w -> y <> 34 /\ y <> 39).
          { intros y Iy. rewrite Forall_forall in W. apply W in Iy. clear - Iy. unfold id_char, id_start, nondigit, digit in Iy. lia. }
          apply (starts_ident _ _ _ OT I).
          - intros y Hy. destruct w as [|w0 w1]; cbn [app] in Hy; [rewrite EB in Hy|]; cbn in Hy; injection Hy as <-; auto. apply IC. left. reflexivity.
          - intros y _ H1 H2. destruct w as [|w0 [|w1 w2]]; cbn [app] in H1, H2.
            + rewrite EB in H1, H2. cbn in H1, H2. injection H1 as ->. destruct WB as [WB|WB]; rewrite WB in LB.
              * exfalso. destruct (ident_shape _ _ LB) as (c'' & w'' & EB' & I' & _). rewrite EB in EB'. injection EB' as <- <-. clear - I'. unfold id_start, nondigit in I'. lia.
              * destruct (num_shape _ _ LB) as (p & w'' & EB' & (d & D & [-> | ->]) & PR); cbn [app] in EB'; rewrite EB in EB'; [|discriminate].
                injection EB' as <- <-. destruct w' as [|y' ?]; [discriminate|]. cbn in H2. injection H2 as ->. clear - PR. inversion PR; subst; try discriminate.
                -- unfold digit, nondigit in *. lia.
                -- intros ->. unfold exponent in *. cbn in H1. lia.
            + rewrite EB in H2. cbn in H2. injection H2 as <-. exact N1.
            + cbn in H2. injection H2 as <-. apply IC. right. left. reflexivity. }
        subst k. split; [|discriminate]. destruct WB as [-> | ->]; reflexivity.
      + destruct (num_shape _ _ LA) as (p & w & EA & P & _). rewrite EA in OT. rewrite <- app_assoc in OT.
        rewrite (starts_num _ _ _ P OT). split; [|discriminate]. destruct WB as [-> | ->]; reflexivity.
    - assert (PT : punctuator k (e_str a ++ e_str b)).
      { destruct OT as (LT & NH & ND). cbn [fst snd] in *. unfold punct in PA, PB. cbn [obs fst snd] in PA, PB.
        destruct (punct_facts _ _ PA) as (_ & _ & (c & w & EA & D & I & N1 & N2) & _).
        destruct (punct_facts _ _ PB) as (_ & _ & (c' & w' & EB & D' & _) & _). rewrite EA in LT |- *. cbn [app] in LT |- *. inversion LT; subst; auto.
        - contradiction.
        - exfalso. destruct H0 as (d & Dd & [-> | ->]); cbn [app] in H; injection H as <- Er; [contradiction|].
          destruct w as [|v0 v1]; cbn [app] in Er.
          + rewrite EB in Er. injection Er as <- _. contradiction.
          + injection Er as <- _. rewrite EA in PA. apply punct_in in PA. pose proof dots as G. rewrite forallb_forall in G. specialize (G _ PA). cbn in G. apply Z.eqb_eq in G. subst. clear - Dd. unfold digit in Dd. lia.
        - exfalso. cbn [In] in H0. repeat (destruct H0 as [<-|H0]); try destruct H0; cbn in H; injection H; intros; subst; try congruence; apply I; unfold id_start, nondigit; lia.
        - exfalso. cbn [In] in H0. repeat (destruct H0 as [<-|H0]); try destruct H0; cbn in H; injection H; intros; subst; try congruence; apply I; unfold id_start, nondigit; lia.
        - exfalso. apply NH. reflexivity. }
      destruct OA as (_ & _ & NA), OB as (_ & _ & NB), OT as (_ & _ & NT). cbn [obs fst] in NA, NB, NT.
      exact (puncts_paste _ _ _ _ _ PA PB PT NA NB NT). }
  destruct Q as [<- NZ]. destruct (glue_ok a b NZ) as (g & G & SG & _). exists g. split; [exact G|exact SG].
Qed.

Lemma paste_sound a b g : glue b a = Ok g -> one_token (obs a) -> one_token (obs b) ->
  (e_type a = T_IDENT -> e_type b = T_NUM -> Forall id_char (e_str b)) ->
  (e_type a = T_NUM -> e_type b = T_IDENT -> Forall plain_char (e_str b)) ->
  pasted (obs a) (obs b) (obs g) /\ alike (obs a) (obs b).
Proof.
  intros G OA OB H1 H2. destruct (glue_inv _ _ _ G) as (NZ & SG). rewrite SG. unfold pasted. cbn [snd obs].
  pose proof OA as (LA & NHA & NDA). pose proof OB as (LB & NHB & NDB). cbn [obs fst snd] in LA, LB, NHA, NDA, NHB, NDB.
  destruct (rows _ _ NZ) as [[WA WB]|((xa & PA) & (xb & PB) & _)].
  - assert (AL : alike (obs a) (obs b)) by (left; unfold word; cbn [obs fst]; cbn in WA, WB; intuition).
    split; [|exact AL]. split; [exact OA|]. split; [exact OB|]. split; [reflexivity|]. cbn in WA, WB. destruct WA as [WA|[WA|[]]].
    + rewrite <- WA in *. destruct (ident_shape _ _ LA) as (c & w & EA & I & W). rewrite EA. cbn [app].
      assert (FB : Forall id_char (e_str b)).
      { destruct WB as [WB|[WB|[]]]; rewrite <- WB in *; [|apply H1; reflexivity].
        destruct (ident_shape _ _ LB) as (c' & w' & EB & I' & W'). rewrite EB. constructor; [left; exact I'|exact W']. }
      assert (ET : paste_type T_IDENT (e_type b) = T_IDENT) by (destruct WB as [<-|[<-|[]]]; reflexivity). rewrite ET.
      apply one_ident; [exact I|]. apply Forall_app. split; assumption.
    + rewrite <- WA in *. destruct (num_shape _ _ LA) as (p & w & EA & P & W). rewrite EA, <- app_assoc.
      assert (FB : pp_rest (e_str b)).
      { destruct WB as [WB|[WB|[]]]; rewrite <- WB in *; [apply pp_plain, H2; reflexivity|].
        destruct (num_shape _ _ LB) as (p' & w' & EB & (d & D & [-> | ->]) & W'); rewrite EB; cbn [app].
        - apply pp_char; [left; exact D|exact W'].
        - apply pp_char; [right; right; reflexivity|]. apply pp_char; [left; exact D|exact W']. }
      assert (ET : paste_type T_NUM (e_type b) = T_NUM) by (destruct WB as [<-|[<-|[]]]; reflexivity). rewrite ET.
      apply one_num; [exact P|]. apply pp_app; assumption.
  - assert (PN : forall k x y, punctuator k x -> lexeme k y [] -> punctuator k y).
    { intros k x y P L. destruct (punct_facts _ _ P) as (_ & _ & _ & N). cbn in N. inversion L; subst; auto; exfalso; intuition. }
    apply (PN _ _ _ PA) in LA. apply (PN _ _ _ PB) in LB. pose proof (puncts_sound _ _ _ _ LA LB NZ) as PG.
    split; [|right; split; assumption]. split; [exact OA|]. split; [exact OB|]. split; [reflexivity|]. unfold one_token. cbn [fst snd].
    destruct (punct_facts _ _ PG) as (_ & _ & _ & N).
    assert (ND : paste_type (e_type a) (e_type b) <> PP_DIRECTIVE).
    { intros E. rewrite E in PG. clear - LA LB PG. destruct (punct_facts _ _ LA) as (L1 & _). destruct (punct_facts _ _ LB) as (L2 & _).
      apply punct_in in PG. assert (T : forallb (fun p => negb (fst p =? PP_DIRECTIVE) || Nat.leb (length (snd p)) 1) all_puncts = true) by (vm_compute; reflexivity).
      rewrite forallb_forall in T. specialize (T _ PG). cbn [fst snd] in T. rewrite Z.eqb_refl in T. cbn [negb orb] in T. apply Nat.leb_le in T. rewrite app_length in T. lia. }
    split; [|split; [intros E; apply N; rewrite E; cbn; tauto|exact ND]].
    apply lx_punct; [exact PG| | | |].
    + intros k' x' P' (z & S'). rewrite app_nil_r in S'. rewrite S', app_length. lia.
    + intros (z & S'). rewrite app_nil_r in S'. clear - LA LB PG S'. destruct (punct_facts _ _ PG) as (L & _). apply punct_in in PG.
      assert (T : forallb (fun p => match snd p with 47 :: 47 :: _ => false | _ => true end) all_puncts = true) by (vm_compute; reflexivity).
      rewrite forallb_forall in T. specialize (T _ PG). cbn [snd] in T. rewrite S' in T. discriminate.
    + intros (z & S'). rewrite app_nil_r in S'. clear - LA LB PG S'. apply punct_in in PG.
      assert (T : forallb (fun p => match snd p with 47 :: 42 :: _ => false | _ => true end) all_puncts = true) by (vm_compute; reflexivity).
      rewrite forallb_forall in T. specialize (T _ PG). cbn [snd] in T. rewrite S' in T. discriminate.
    + intros (_ & D). unfold digit, ahead in D. cbn in D. lia.
Qed.
