(** The graph made for a statement does what the statement does. *)
From Verif Require Import Base FlowSpec Flow FlowSim.
Local Open Scope nat_scope.

Lemma bind_ok {A B} (e : res A) (f : A -> res B) r : bind e f = Ok r -> exists a, e = Ok a /\ f a = Ok r.
Proof. destruct e; try discriminate. intros H. eauto. Qed.

Definition pos (g : st) : nat * nat := (cur g, length (code g (cur g))).
Definition open (g : st) : Prop := term g (cur g) = None.

(** [b] comes after [a]: closed blocks stay as they are. *)
Definition ext (a b : st) : Prop :=
  (forall x t, term a x = Some t -> term b x = Some t /\ code b x = code a x) /\
  (forall x, exists l, code b x = code a x ++ l) /\
  (forall l e, lookup l (labels a) = Some e -> exists e', lookup l (labels b) = Some e' /\ end_block e' = end_block e).

Lemma ext_refl g : ext g g.
Proof. split; [auto|]. split; [intros x; exists []; symmetry; apply app_nil_r|]. eauto. Qed.
Lemma ext_trans a b c : ext a b -> ext b c -> ext a c.
Proof.
  intros (A1 & A2 & A3) (B1 & B2 & B3). split; [|split].
  - intros x t H. destruct (A1 x t H) as [H1 H2]. destruct (B1 x t H1) as [H3 H4]. split; [exact H3|congruence].
  - intros x. destruct (A2 x) as [l H], (B2 x) as [l' H']. exists (l ++ l'). rewrite H', H, app_assoc. reflexivity.
  - intros l e H. destruct (A3 l e H) as (e1 & H1 & H2). destruct (B3 l e1 H1) as (e2 & H3 & H4).
    exists e2. split; [exact H3|congruence].
Qed.

Definition jumps_to (g : st) (a b : option nat) : Prop :=
  match a, b with Some x, Some y => silent g (x, 0) (y, 0) | None, None => True | _, _ => False end.
Lemma jumps_refl g a : jumps_to g a a.
Proof. destruct a; cbn; [constructor|exact I]. Qed.
Lemma jumps_trans g a b c : jumps_to g a b -> jumps_to g b c -> jumps_to g a c.
Proof. destruct a, b, c; cbn; try tauto. apply silent_trans. Qed.

(** Blocks that were made and have neither been started nor left. *)
Definition idle (g : st) (b : nat) : Prop := b < next g /\ b <> cur g /\ code g b = [] /\ term g b = None.
Definition ispend (g : st) (b : nat) : Prop := exists l e, lookup l (labels g) = Some e /\ used e = false /\ end_block e = b.
Definition free (j : jumps) (g : st) (b : nat) : Prop := idle g b /\ ~ ispend g b /\ j_entry j <> Some b.

Record wfc (j : jumps) (g : st) : Prop := {
  w_cur : cur g < next g;
  w_fresh : forall b, next g <= b -> code g b = [] /\ term g b = None;
  w_entry : forall e, j_entry j = Some e -> idle g e /\ ~ ispend g e;
  w_pend : forall b, ispend g b -> idle g b;
  w_ends : forall l e, lookup l (labels g) = Some e -> end_block e < next g;
  w_dist : forall l l' e e', lookup l (labels g) = Some e -> lookup l' (labels g) = Some e' ->
    end_block e = end_block e' -> l = l';
  w_chain : forall l e, lookup l (labels g) = Some e -> forall G, ext g G -> silent G (chain e, 0) (end_block e, 0)
}.

Lemma free_entry j g b e : free j g b -> free {| j_break := j_break j; j_continue := j_continue j; j_entry := e;
    j_default := j_default j; j_control := j_control j |} g b \/ e = Some b.
Proof.
  intros (A & B & C). destruct (option_map (Nat.eqb b) e) as [[|]|] eqn:Q; destruct e; cbn in Q; try discriminate.
  - injection Q as Q. apply Nat.eqb_eq in Q. right. congruence.
  - injection Q as Q. apply Nat.eqb_neq in Q. left. split; [exact A|]. split; [exact B|]. cbn. congruence.
  - left. split; [exact A|]. split; [exact B|]. discriminate.
Qed.

(** new_block *)
Section New.
Context (j : jumps) (g : st) (W : wfc j g).
Let g' := snd (new_block g).
Lemma new_ext : ext g g'. Proof. exact (ext_refl g). Qed.
Lemma new_free b : free j g b -> free j g' b.
Proof. intros ((A1 & A2 & A3 & A4) & B & C). repeat (split; auto). cbn. lia. Qed.
Lemma new_is_free : free j g' (next g).
Proof.
  destruct (w_fresh _ _ W (next g) (le_n _)) as [F1 F2]. pose proof (w_cur _ _ W). split; [|split].
  - repeat (split; auto); cbn; lia.
  - intros (l & e & L & _ & E). pose proof (w_ends _ _ W l e L). lia.
  - intros E. destruct (w_entry _ _ W _ E) as ((L & _) & _). lia.
Qed.
Lemma new_wfc : wfc j g'.
Proof.
  destruct W as [A B C D E F G]. split; cbn in *; auto.
  - intros b L. apply B. lia.
  - intros e H. destruct (C e H) as ((I1 & I2) & N). split; [|exact N]. split; [cbn; lia|exact I2].
  - intros b H. destruct (D b H) as (I1 & I2). split; [cbn; lia|exact I2].
  - intros l e H. pose proof (E l e H). lia.
Qed.
End New.

(** A block gets its end. *)
Record fin (g : st) (s : nat) (t : ending) (g' : st) : Prop := {
  f_open : term g s = None;
  f_next : next g' = next g;
  f_cur : cur g' = cur g;
  f_code : code g' = code g;
  f_term : term g' = upd (term g) s (Some t);
  f_labels : labels g' = labels g
}.
Lemma finish_fin s t g g' : finish s t g = Ok g' -> fin g s t g'.
Proof. unfold finish. destruct (term g s) eqn:T; [discriminate|]. intros H; injection H as <-. split; auto. Qed.
Lemma connect_fin s b g g' : connect s b g = Ok g' -> fin g s (TGoto b) g'.
Proof.
  unfold connect. destruct (_ <? _); [|discriminate]. intros H. apply finish_fin in H. destruct H. split; auto.
Qed.

Section Fin.
Context (j : jumps) (g g' : st) (s : nat) (t : ending) (F : fin g s t g').
Lemma fin_ext : ext g g'.
Proof.
  destruct F as [O N C D T L]. split; [|split].
  - intros x u H. rewrite T, D. unfold upd. destruct (Nat.eqb_spec x s); [congruence|auto].
  - intros x. rewrite D. exists []. symmetry. apply app_nil_r.
  - rewrite L. eauto.
Qed.
Lemma fin_pend b : ispend g' b <-> ispend g b.
Proof. unfold ispend. rewrite (f_labels _ _ _ _ F). tauto. Qed.
Lemma fin_idle b : idle g b -> b <> s -> idle g' b.
Proof.
  destruct F as [O N C D T L]. unfold idle. rewrite N, C, D, T. unfold upd. intros (A1 & A2 & A3 & A4) B.
  destruct (Nat.eqb_spec b s); [contradiction|auto].
Qed.
Lemma fin_free b : free j g b -> b <> s -> free j g' b.
Proof. intros (A & B & C) N. split; [apply fin_idle; auto|]. split; [rewrite fin_pend; auto|exact C]. Qed.
Lemma fin_wfc : wfc j g -> s = cur g \/ free j g s -> wfc j g'.
Proof.
  intros W SP.
  assert (NE : forall e, j_entry j = Some e -> e <> s).
  { intros e H. destruct (w_entry _ _ W e H) as ((_ & NC & _) & _). destruct SP as [-> | (_ & _ & Q)]; congruence. }
  assert (NP : forall b, ispend g b -> b <> s).
  { intros b H. destruct (w_pend _ _ W b H) as (_ & NC & _). destruct SP as [-> | (_ & Q & _)]; congruence. }
  assert (LT : s < next g).
  { destruct SP as [-> | ((Q & _) & _)]; [apply (w_cur _ _ W)|exact Q]. }
  pose proof F as F0. destruct F0 as [O N C D T L]. destruct W as [A B E P X Y Z0]. split.
  - rewrite N, C. exact A.
  - intros b H. rewrite N in H. rewrite D, T. unfold upd. destruct (Nat.eqb_spec b s); [lia|]. apply B. exact H.
  - intros e H. destruct (E e H). split; [apply fin_idle; auto|rewrite fin_pend; auto].
  - intros b H. rewrite fin_pend in H. apply fin_idle; auto.
  - rewrite L, N. exact X.
  - rewrite L. exact Y.
  - rewrite L. intros l e H G EX. apply (Z0 l e H). exact (ext_trans _ _ _ fin_ext EX).
Qed.
Lemma fin_pos : s = cur g -> pos g' = pos g.
Proof. intros _. unfold pos. rewrite (f_cur _ _ _ _ F), (f_code _ _ _ _ F). reflexivity. Qed.
Lemma fin_at G : ext g' G -> at_end G (s, length (code g s)) t.
Proof.
  intros (E & _). destruct (E s t) as [H1 H2].
  - rewrite (f_term _ _ _ _ F). unfold upd. rewrite Nat.eqb_refl. reflexivity.
  - split; cbn [fst snd]; [rewrite H2, (f_code _ _ _ _ F); reflexivity|exact H1].
Qed.
End Fin.
Lemma fin_silent g g' s b G : fin g s (TGoto b) g' -> ext g' G -> silent G (s, length (code g s)) (b, 0).
Proof.
  intros F E. destruct (fin_at _ _ _ _ F G E) as [L T]. apply (silent_goto _ _ _ b); auto. constructor.
Qed.

Lemma fin_silentp g g' s b G : fin g s (TGoto b) g' -> ext g' G -> silentp G (s, length (code g s)) (b, 0).
Proof. intros F E. destruct (fin_at _ _ _ _ F G E) as [L T]. exists b. split; [exact L|]. split; [exact T|constructor]. Qed.

(** ir_block_start *)
Section Start.
Context (j : jumps) (g : st) (b : nat) (Fb : free j g b).
Let g' := block_start b g.
Lemma start_open : open g'. Proof. destruct Fb as ((_ & _ & _ & H) & _). exact H. Qed.
Lemma start_pos : pos g' = (b, 0). Proof. destruct Fb as ((_ & _ & H & _) & _). unfold pos, g'. cbn. rewrite H. reflexivity. Qed.
Lemma start_free x : free j g x -> x <> b -> free j g' x.
Proof. intros ((A1 & A2 & A3 & A4) & B & C) N. repeat (split; auto). Qed.
Lemma start_wfc : wfc j g -> wfc j g'.
Proof.
  destruct Fb as ((L & N & C & T) & P & E). intros [A1 A2 A3 A4 A5 A6 A7]. split; cbn; auto.
  - intros e H. destruct (A3 e H) as ((I1 & I2 & I3 & I4) & I5). split; [|exact I5]. repeat (split; auto). cbn. congruence.
  - intros x H. destruct (A4 x H) as (I1 & I2 & I3 & I4). repeat (split; auto). cbn. intros ->. contradiction.
Qed.
End Start.

(** An instruction is added. *)
Section Emit.
Context (j : jumps) (g : st) (i : instr) (O : open g).
Let g' := emit i g.
Lemma emit_ext : ext g g'.
Proof.
  split; [|split; [|exact (proj2 (proj2 (ext_refl g)))]]; cbn; intros x.
  - intros t H. split; [exact H|]. unfold upd. destruct (Nat.eqb_spec x (cur g)); [|reflexivity].
    subst x. unfold open in O. congruence.
  - unfold upd. destruct (Nat.eqb_spec x (cur g)); [subst x; eauto|exists []; symmetry; apply app_nil_r].
Qed.
Lemma emit_open : open g'. Proof. exact O. Qed.
Lemma emit_idle b : idle g b -> idle g' b.
Proof.
  intros (A & B & C & D). repeat (split; auto). cbn. unfold upd. destruct (Nat.eqb_spec b (cur g)); [contradiction|exact C].
Qed.
Lemma emit_free b : free j g b -> free j g' b.
Proof. intros (A & B & C). split; [apply emit_idle; exact A|]. split; [exact B|exact C]. Qed.
Lemma emit_wfc : wfc j g -> wfc j g'.
Proof.
  intros [A1 A2 A3 A4 A5 A6 A7]. split; cbn; auto.
  - intros b H. unfold upd. destruct (Nat.eqb_spec b (cur g)); [lia|apply A2; exact H].
  - intros e H. destruct (A3 e H). split; [apply emit_idle; assumption|assumption].
  - intros b H. apply emit_idle. apply A4. exact H.
  - intros l e H G E. apply (A7 l e H). exact (ext_trans _ _ _ emit_ext E).
Qed.
Lemma emit_at G : ext g' G -> at_instr G (pos g) i (pos g').
Proof.
  intros (_ & E & _). unfold at_instr, pos, g' in *. cbn [fst snd cur code emit] in *.
  assert (U : upd (code g) (cur g) (code g (cur g) ++ [i]) (cur g) = code g (cur g) ++ [i]) by (unfold upd; rewrite Nat.eqb_refl; reflexivity).
  rewrite U.
  rewrite app_length. cbn. destruct (E (cur g)) as [l H]. rewrite U in H.
  split; [|f_equal; lia]. rewrite H, <- app_assoc. rewrite nth_error_app2 by lia. rewrite Nat.sub_diag. reflexivity.
Qed.
End Emit.
Lemma emit_option_at v g G : open g -> ext (emit_option v g) G -> at_option G (pos g) v (pos (emit_option v g)).
Proof. intros O E. destruct v; cbn [at_option emit_option] in *; [apply emit_at; auto|reflexivity]. Qed.
Lemma emit_option_ext v g : open g -> ext g (emit_option v g).
Proof. intros O. destruct v; cbn; [apply emit_ext; exact O|apply ext_refl]. Qed.
Lemma emit_option_open v g : open g -> open (emit_option v g).
Proof. destruct v; auto. Qed.
Lemma emit_option_wfc v j g : open g -> wfc j g -> wfc j (emit_option v g).
Proof. intros O. destruct v; cbn; [apply emit_wfc; exact O|auto]. Qed.
Lemma emit_option_free v j g b : free j g b -> free j (emit_option v g) b.
Proof. destruct v; cbn; [apply emit_free|auto]. Qed.

(** Only the field block_entry of struct jump_blocks matters here. *)
Lemma wfc_jumps j j' g : j_entry j' = j_entry j -> wfc j g -> wfc j' g.
Proof. intros E [A1 A2 A3 A4 A5 A6 A7]. split; auto. rewrite E. exact A3. Qed.
Lemma free_jumps j j' g b : j_entry j' = j_entry j -> free j g b -> free j' g b.
Proof. intros E (A & B & C). split; [exact A|]. split; [exact B|]. rewrite E. exact C. Qed.

(** ir_if_selection *)
Lemma if_selection_ok t g bt bf g' : if_selection t g = Ok (bt, bf, g') ->
  bf = next g /\ bt = S (next g) /\ fin (snd (new_block (snd (new_block g)))) (cur g) (t bt bf) g'.
Proof.
  unfold if_selection. cbn [new_block]. intros H. apply bind_ok in H as (g1 & F & H). injection H as <- <- <-.
  apply finish_fin in F. auto.
Qed.
Record branched (j : jumps) (g : st) (t : nat -> nat -> ending) (bt bf : nat) (g' : st) : Prop := {
  b_wfc : wfc j g'; b_ext : ext g g'; b_bt : free j g' bt; b_bf : free j g' bf; b_ne : bt <> bf;
  b_new : next g <= bt /\ next g <= bf; b_next : next g <= next g';
  b_free : forall b, free j g b -> free j g' b;
  b_at : forall G, ext g' G -> at_end G (pos g) (t bt bf)
}.
Lemma if_selection_branched j t g bt bf g' : wfc j g -> if_selection t g = Ok (bt, bf, g') -> branched j g t bt bf g'.
Proof.
  intros W H. apply if_selection_ok in H as (-> & -> & F).
  assert (W1 := new_wfc j g W). assert (W2 := new_wfc j _ W1).
  assert (F1 := new_free j _ _ (new_is_free j g W)). assert (F2 := new_is_free j _ W1).
  assert (CN := w_cur _ _ W).
  split.
  - apply (fin_wfc j _ _ _ _ F W2). left. reflexivity.
  - apply (ext_trans _ _ _ (new_ext g)). apply (ext_trans _ _ _ (new_ext _)). exact (fin_ext _ _ _ _ F).
  - apply (fin_free j _ _ _ _ F); [exact F2|lia].
  - apply (fin_free j _ _ _ _ F); [exact F1|lia].
  - lia.
  - lia.
  - rewrite (f_next _ _ _ _ F). cbn. lia.
  - intros b Fb. apply (fin_free j _ _ _ _ F); [|destruct Fb as ((_ & N & _) & _); exact N].
    apply new_free. apply new_free. exact Fb.
  - intros G E. exact (fin_at _ _ _ _ F G E).
Qed.

(** Tables of labels. *)
Lemma lookup_replace l e t l' : lookup l t <> None ->
  lookup l' (replace l e t) = if l' =? l then Some e else lookup l' t.
Proof.
  induction t as [|[k x] t IH]; cbn; [congruence|]. intros H.
  destruct (Nat.eqb_spec l k).
  - subst k. cbn. destruct (l' =? l); reflexivity.
  - cbn. destruct (Nat.eqb_spec l' k).
    + subst k. destruct (Nat.eqb_spec l' l); [congruence|reflexivity].
    + apply IH. exact H.
Qed.
Lemma lookup_app l t l' e : lookup l t = None -> lookup l' (t ++ [(l, e)]) = if l' =? l then Some e else lookup l' t.
Proof.
  induction t as [|[k x] t IH]; cbn; intros H.
  - destruct (l' =? l); reflexivity.
  - destruct (Nat.eqb_spec l k); [discriminate|]. destruct (Nat.eqb_spec l' k).
    + subst k. destruct (Nat.eqb_spec l' l); [congruence|reflexivity].
    + apply IH. exact H.
Qed.

(** break, continue and goto: the step block. *)
Record stepped (j : jumps) (g : st) (to step : nat) (g' : st) : Prop := {
  s_wfc : wfc j g'; s_open : open g'; s_ext : ext g g'; s_next : next g <= next g';
  s_free : forall b, free j g b -> b <> step -> free j g' b; s_labels : labels g' = labels g;
  s_pos : forall G, ext g' G -> silentp G (pos g) (to, 0);
  s_step : forall G, ext g' G -> silent G (step, 0) (to, 0)
}.
Lemma step_to_stepped j g to step g' : wfc j g -> free j g step -> step_to to step g = Ok g' -> stepped j g to step g'.
Proof.
  intros W F H. unfold step_to in H. apply bind_ok in H as (g1 & H1 & H). apply connect_fin in H1.
  apply bind_ok in H as (g2 & H2 & H). apply connect_fin in H2. cbn [cur block_start] in H2.
  cbn [new_block] in H. injection H as <-.
  assert (NS : step <> cur g) by (destruct F as ((_ & N & _) & _); exact N).
  assert (W1 := fin_wfc j _ _ _ _ H1 W (or_introl eq_refl)).
  assert (F1 := fin_free j _ _ _ _ H1 _ F NS).
  assert (W1' := start_wfc j _ _ F1 W1).
  assert (W2 := fin_wfc j _ _ _ _ H2 W1' (or_introl eq_refl)).
  assert (W3 := new_wfc j _ W2). assert (F3 := new_is_free j _ W2).
  assert (W4 := start_wfc j _ _ F3 W3).
  assert (EX : ext g g2).
  { apply (ext_trans _ g1); [exact (fin_ext _ _ _ _ H1)|]. exact (fin_ext _ _ _ _ H2). }
  assert (C1 : code g1 step = []) by (destruct F1 as ((_ & _ & C & _) & _); exact C).
  split.
  - exact W4.
  - exact (start_open j _ _ F3).
  - exact EX.
  - cbn. rewrite (f_next _ _ _ _ H2). cbn. rewrite (f_next _ _ _ _ H1). lia.
  - intros b Fb N. apply (start_free j); [|].
    + apply new_free. apply (fin_free j _ _ _ _ H2); [|exact N]. apply (start_free j); [|exact N].
      apply (fin_free j _ _ _ _ H1 _ Fb). destruct Fb as ((_ & X & _) & _). exact X.
    + destruct Fb as ((L & _) & _). cbn. rewrite (f_next _ _ _ _ H2). cbn. rewrite (f_next _ _ _ _ H1). lia.
  - cbn. rewrite (f_labels _ _ _ _ H2). cbn. exact (f_labels _ _ _ _ H1).
  - intros G E. change (ext g2 G) in E. apply (silentp_trans _ _ (step, 0)).
    + apply (fin_silentp _ _ _ _ _ H1). exact (ext_trans _ _ _ (fin_ext _ _ _ _ H2) E).
    + pose proof (fin_silent _ _ _ _ _ H2 E) as S1. cbn in S1. rewrite C1 in S1. exact S1.
  - intros G E. change (ext g2 G) in E.
    pose proof (fin_silent _ _ _ _ _ H2 E) as S1. cbn in S1. rewrite C1 in S1. exact S1.
Qed.
