(** Proofs about the definition of objects (Tentative.v). *)
From Coq Require Import String.
From Verif Require Import Base CharTypes MacroTable MacroTableProofs Labels Tentative TentativeSpec C39Props X86Preserve.
Ltac Zify.zify_post_hook ::= idtac.
Local Open Scope Z_scope.
Local Open Scope list_scope.

Lemma otype_eqb_eq a b : otype_eqb a b = true -> a = b.
Proof.
  destruct a, b; cbn; try discriminate; intros H; try (apply Z.eqb_eq in H; subst; reflexivity).
  apply andb_true_iff in H. destruct H as [A B]. apply Z.eqb_eq in A, B. subst. reflexivity.
Qed.
Lemma composite_left a b t : composite a b = Some t -> complete_type a -> t = a.
Proof.
  unfold composite. destruct (otype_eqb a b); [intros H; injection H as <-; reflexivity|].
  destruct a, b; cbn; try discriminate; intros H C; try (injection H as <-); try reflexivity; destruct C.
Qed.
Lemma composite_right a b t : composite a b = Some t -> complete_type b -> t = b.
Proof.
  unfold composite. destruct (otype_eqb a b) eqn:E; [apply otype_eqb_eq in E; subst; intros H; injection H as <-; reflexivity|].
  destruct a, b; cbn; try discriminate; intros H C; try (injection H as <-); try reflexivity; destruct C.
Qed.
Lemma composite_from a b t : composite a b = Some t -> t = a \/ t = b.
Proof.
  unfold composite. destruct (otype_eqb a b); [intros H; injection H as <-; left; reflexivity|].
  destruct a, b; cbn; try discriminate; intros H; injection H as <-; auto.
Qed.
Lemma complete_by_complete t i : complete_type (complete_by t i).
Proof. destruct t; exact I. Qed.
Lemma complete_by_same t i : complete_type t -> complete_by t i = t.
Proof. destruct t; cbn; intros H; try reflexivity; destruct H. Qed.

Definition realb (d : declaration) : bool := match d_init d with Some _ => true | None => false end.
Definition tentb (d : declaration) : bool := negb (is_extern d) && negb (realb d).

Lemma lookup_set x y s l : lookup x (set_symbol y s l) = if sv_cmp y x then Some s else lookup x l.
Proof. reflexivity. Qed.

Lemma declarations_snoc x l e :
  declarations_of x (l ++ [e]) = declarations_of x l ++ declarations_of x [e].
Proof.
  induction l as [|[d|d] l IH]; [reflexivity| |].
  - cbn [app declarations_of]. destruct (sv_cmp (d_name d) x); rewrite IH; reflexivity.
  - cbn [app declarations_of]. exact IH.
Qed.
Lemma block_snoc l e : block_statics (l ++ [e]) = block_statics l ++ block_statics [e].
Proof.
  induction l as [|[d|d] l IH]; [reflexivity| |].
  - cbn [app block_statics]. exact IH.
  - cbn [app block_statics]. destruct (is_static d); rewrite IH; reflexivity.
Qed.
Lemma emitted_app x a b : emitted x (a ++ b) = emitted x a ++ emitted x b.
Proof. apply filter_app. Qed.

Lemma local_label_dot n x : exists t, local_label n x = 46 :: t.
Proof. eexists. reflexivity. Qed.
Lemma local_label_name n y x : c_name x -> sv_cmp (local_label n y) x = false.
Proof.
  intros (c & t & -> & R). destruct (sv_cmp (local_label n y) (c :: t)) eqn:E; [|reflexivity].
  apply sv_cmp_spec in E. destruct (local_label_dot n y) as (u & U). rewrite U in E. injection E as <- _. exfalso. lia.
Qed.

(** A type that the declarations give. *)
Definition completed (ds : list declaration) (t : otype) : Prop :=
  exists e d i, In e ds /\ In d ds /\ d_init d = Some i /\ t = complete_by (d_type e) i.
Definition given (ds : list declaration) (t : otype) : Prop := (exists e, In e ds /\ t = d_type e) \/ completed ds t.

(** How an emitted object comes from a definition proper. *)
Definition made_by (x : list Z) (d : declaration) (v : static_var) : Prop :=
  v_label v = x /\ v_init v = d_init d /\ v_global v = negb (is_static d) /\ v_align v = d_align d.

Definition symbol_ok (st : state) (x : list Z) (ds : list declaration) (s : symbol) : Prop :=
  exists ds0 d, ds = ds0 ++ [d] /\
  s_defined s = existsb realb ds /\
  (s_defined s = false -> s_tentative s = tentb d /\ s_global s = negb (is_static d) /\ s_align s = d_align d) /\
  (s_defined s = true -> s_tentative s = false) /\
  (forall e, In e ds -> complete_type (d_type e) -> s_type s = d_type e) /\
  given ds (s_type s) /\
  (s_tentative s = true -> In x (tentative st)) /\
  (forall v, In v (emitted x (vars st)) -> s_type s = v_type v /\ complete_type (v_type v) /\ completed ds (v_type v)).

Definition inv (l : list event) (st : state) (x : list Z) : Prop :=
  match lookup x (symbols st) with
  | None => declarations_of x l = [] /\ emitted x (vars st) = []
  | Some s => symbol_ok st x (declarations_of x l) s
  end /\
  Forall2 (made_by x) (filter realb (declarations_of x l)) (emitted x (vars st)).

Lemma completed_mono ds d t : completed ds t -> completed (ds ++ [d]) t.
Proof.
  intros (e & u & i & E & U & I & T). exists e, u, i. rewrite !in_app_iff. auto.
Qed.
Lemma given_mono ds d t : given ds t -> given (ds ++ [d]) t.
Proof.
  intros [(e & E & T)|C]; [left; exists e; rewrite in_app_iff; auto|right; apply completed_mono, C].
Qed.
Lemma existsb_snoc {A} (f : A -> bool) l a : existsb f (l ++ [a]) = existsb f l || f a.
Proof. rewrite existsb_app. cbn. rewrite orb_false_r. reflexivity. Qed.
Lemma snoc_last {A} (l : list A) a : exists l0 b, l ++ [a] = l0 ++ [b] /\ b = a /\ l0 = l.
Proof. exists l, a. auto. Qed.

(** A declaration of another name. *)
Lemma declare_other d st st' x l : sv_cmp (d_name d) x = false -> declare d st = Ok st' ->
  inv l st x -> inv (l ++ [AtFile d]) st' x.
Proof.
  intros NE D (A & B). unfold declare in D. cbv zeta in D.
  apply bind_ok in D. destruct D as (type & _ & D).
  destruct (is_extern d && _); [discriminate|]. injection D as <-.
  assert (DS : declarations_of x (l ++ [AtFile d]) = declarations_of x l).
  { rewrite declarations_snoc. cbn [declarations_of]. rewrite NE. apply app_nil_r. }
  assert (EM : forall more, (forall v, In v more -> v_label v = d_name d) ->
               emitted x (vars st ++ more) = emitted x (vars st)).
  { intros more M. rewrite emitted_app. replace (emitted x more) with (@nil static_var); [apply app_nil_r|].
    symmetry. unfold emitted. clear -M NE. induction more as [|v more IH]; [reflexivity|]. cbn [filter].
    rewrite (M v (or_introl eq_refl)), NE. apply IH. intros w W. apply M. right. exact W. }
  unfold inv. cbn [symbols tentative vars]. rewrite lookup_set, NE, DS, EM.
  2: { intros v V. destruct (negb (is_extern d) && _); [destruct V as [<-|[]]; reflexivity|destruct V]. }
  split; [|exact B]. destruct (lookup x (symbols st)) as [s|]; [|exact A].
  destruct A as (ds0 & d0 & A1 & A2 & A3 & A4 & A5 & A6 & A7 & A8). exists ds0, d0.
  split; [exact A1|]. split; [exact A2|]. split; [exact A3|]. split; [exact A4|]. split; [exact A5|].
  split; [exact A6|]. cbn [tentative vars]. rewrite EM.
  2: { intros v V. destruct (negb (is_extern d) && _); [destruct V as [<-|[]]; reflexivity|destruct V]. }
  split; [|exact A8].
  intros T. specialize (A7 T). destruct (_ && _); [apply in_or_app; left|]; exact A7.
Qed.

(** A declaration of the name. *)
Lemma declare_same d st st' l : declare d st = Ok st' -> inv l st (d_name d) -> inv (l ++ [AtFile d]) st' (d_name d).
Proof.
  intros D (A & B). set (x := d_name d) in *. unfold declare in D. cbv zeta in D. fold x in D.
  apply bind_ok in D. destruct D as (type & TY & D).
  destruct (is_extern d && _) eqn:BAD; [discriminate|]. injection D as <-.
  assert (DS : declarations_of x (l ++ [AtFile d]) = declarations_of x l ++ [d]).
  { rewrite declarations_snoc. cbn [declarations_of]. unfold x. rewrite sv_cmp_refl. reflexivity. }
  set (ds := declarations_of x l) in *.
  change (match d_init d with Some _ => true | None => false end) with (realb d) in *.
  assert (RE : realb d = true -> is_extern d = false).
  { intros R. rewrite R, andb_true_r in BAD. exact BAD. }
  set (t := match d_init d with Some i => complete_by type i | None => type end) in *.
  (* facts about the type *)
  assert (TD : complete_type (d_type d) -> t = d_type d).
  { intros C. assert (type = d_type d).
    { destruct (lookup x (symbols st)) as [s|]; [|injection TY as <-; reflexivity].
      destruct (composite (d_type d) (s_type s)) as [q|] eqn:CO; [|discriminate]. injection TY as <-.
      exact (composite_left _ _ _ CO C). }
    unfold t. destruct (d_init d); [|exact H]. rewrite H. apply complete_by_same, C. }
  assert (TG : exists e, (In e ds \/ e = d) /\ type = d_type e \/ (exists s, lookup x (symbols st) = Some s /\ type = s_type s)).
  { destruct (lookup x (symbols st)) as [s|].
    - destruct (composite (d_type d) (s_type s)) as [q|] eqn:CO; [|discriminate]. injection TY as <-.
      destruct (composite_from _ _ _ CO) as [-> | ->]; exists d; [left; auto|right; exists s; auto].
    - injection TY as <-. exists d. left. auto. }
  assert (TC : realb d = true -> complete_type t).
  { intros R. unfold t. unfold realb in R. destruct (d_init d); [apply complete_by_complete|discriminate]. }
  assert (GT : given (ds ++ [d]) type).
  { destruct TG as (e & [(W & E)|(s & L & E)]).
    - left. exists e. rewrite in_app_iff. cbn. destruct W; subst; auto.
    - rewrite L in A. destruct A as (ds0 & d0 & A1 & A2 & A3 & A4 & A5 & A6 & A7 & A8).
      rewrite E. apply given_mono, A6. }
  assert (GIV : given (ds ++ [d]) t).
  { unfold t. destruct (d_init d) as [i|] eqn:DI; [|exact GT].
    destruct GT as [(e & IE & E)|C].
    - right. exists e, d, i. rewrite E. split; [exact IE|]. split; [apply in_or_app; right; left; reflexivity|]. auto.
    - right. destruct C as (e & u & j & IE & IU & J & E). exists e, u, j.
      rewrite E, (complete_by_same _ i); [auto|apply complete_by_complete]. }
  assert (CMP : realb d = true -> completed (ds ++ [d]) t).
  { intros R. unfold t. unfold realb in R. destruct (d_init d) as [i|] eqn:DI; [|discriminate].
    destruct GT as [(e & IE & E)|C].
    - exists e, d, i. rewrite E. split; [exact IE|]. split; [apply in_or_app; right; left; reflexivity|]. auto.
    - destruct C as (e & u & j & IE & IU & J & E). exists e, u, j.
      rewrite E, (complete_by_same _ i); [auto|apply complete_by_complete]. }
  set (more := if negb (is_extern d) && realb d then _ else _).
  assert (EM : emitted x (vars st ++ more) = emitted x (vars st) ++ more).
  { rewrite emitted_app. f_equal. unfold more. destruct (negb (is_extern d) && realb d); [|reflexivity].
    unfold emitted. cbn [filter v_label]. rewrite sv_cmp_refl. reflexivity. }
  (* types of what was emitted before *)
  assert (OLD : forall s, lookup x (symbols st) = Some s -> complete_type (s_type s) -> t = s_type s).
  { intros s L C. rewrite L in TY.
    destruct (composite (d_type d) (s_type s)) as [q|] eqn:CO; [|discriminate]. injection TY as <-.
    pose proof (composite_right _ _ _ CO C) as E. unfold t. destruct (d_init d); [|exact E].
    rewrite E. apply complete_by_same, C. }
  unfold inv. cbn [symbols tentative vars]. rewrite lookup_set, sv_cmp_refl, DS, EM. split.
  - exists ds, d. cbn [s_type s_global s_tentative s_defined s_align]. fold t.
    split; [reflexivity|]. rewrite existsb_snoc.
    assert (PD : match lookup x (symbols st) with Some s => s_defined s | None => false end = existsb realb ds).
    { destruct (lookup x (symbols st)) as [s|].
      - destruct A as (ds0 & d0 & A1 & A2 & _). exact A2.
      - destruct A as (-> & _). reflexivity. }
    match goal with |- context [fst (fst ?f)] => set (fl := f) end.
    assert (FL : fl = if existsb realb ds
                      then (match lookup x (symbols st) with Some s => s_global s | None => true end, false, true)
                      else (negb (is_static d), tentb d, realb d)).
    { unfold fl. rewrite PD. unfold tentb. destruct (lookup x (symbols st)) as [s|].
      - destruct (existsb realb ds) eqn:EX.
        + destruct A as (ds0 & d0 & A1 & A2 & A3 & A4 & _). rewrite (A4 PD), PD.
          destruct (is_extern d), (realb d); reflexivity.
        + destruct (realb d) eqn:R; [rewrite (RE eq_refl)|rewrite andb_false_r]; reflexivity.
      - rewrite <- PD. destruct (realb d) eqn:R; [rewrite (RE eq_refl)|rewrite andb_false_r]; reflexivity. }
    rewrite FL. clear fl FL.
    split; [destruct (existsb realb ds); reflexivity|].
    split; [destruct (existsb realb ds); cbn; [discriminate|auto]|].
    split; [destruct (existsb realb ds); cbn [fst snd]; [reflexivity|]; unfold tentb; intros ->; apply andb_false_r|].
    split.
    { intros e E C. apply in_app_or in E. destruct E as [E|[<-|[]]]; [|apply TD, C].
      destruct (lookup x (symbols st)) as [s|] eqn:L; [|destruct A as (A & _); rewrite A in E; destruct E].
      destruct A as (ds0 & d0 & A1 & A2 & A3 & A4 & A5 & A6 & A7 & A8).
      rewrite <- (A5 e E C). apply OLD; [reflexivity|]. rewrite (A5 e E C). exact C. }
    split; [exact GIV|].
    split.
    { intros T. destruct (existsb realb ds) eqn:EX; cbn [fst snd] in T; [discriminate|].
      unfold tentb in T. rewrite T, PD. cbn [negb andb]. apply in_or_app. right. left. reflexivity. }
    cbn [vars]. rewrite EM. intros v V. apply in_app_or in V. destruct V as [V|V].
    + destruct (lookup x (symbols st)) as [s|] eqn:L; [|destruct A as (_ & A); rewrite A in V; destruct V].
      destruct A as (ds0 & d0 & A1 & A2 & A3 & A4 & A5 & A6 & A7 & A8).
      destruct (A8 v V) as (S1 & S2 & S3).
      split; [|split; [exact S2|apply completed_mono, S3]]. rewrite <- S1. apply OLD; [reflexivity|]. rewrite S1. exact S2.
    + unfold more in V. destruct (negb (is_extern d) && realb d) eqn:W; [|destruct V].
      apply andb_true_iff in W. destruct W as (_ & W).
      destruct V as [<-|[]]. cbn [v_type]. split; [reflexivity|]. split; [apply TC, W|apply CMP, W].
  - rewrite filter_app. apply Forall2_app; [exact B|]. cbn [filter]. unfold more.
    destruct (realb d) eqn:R; [rewrite (RE eq_refl)|rewrite andb_false_r; constructor].
    cbn [negb andb]. constructor; [|constructor]. unfold made_by. cbn. auto.
Qed.

Lemma block_step d st st' x l : c_name x -> declare_in_block d st = Ok st' -> inv l st x -> inv (l ++ [InBlock d]) st' x.
Proof.
  intros N D (A & B). unfold declare_in_block in D. cbv zeta in D.
  destruct (is_extern d && _); [discriminate|].
  assert (DS : declarations_of x (l ++ [InBlock d]) = declarations_of x l).
  { rewrite declarations_snoc. apply app_nil_r. }
  destruct (negb (is_extern d) && is_static d); injection D as <-; unfold inv; cbn [symbols vars]; rewrite DS;
    [|split; assumption].
  assert (EM : forall v, v_label v = local_label (local_var st) (d_name d) -> emitted x (vars st ++ [v]) = emitted x (vars st)).
  { intros v V. rewrite emitted_app. unfold emitted at 2. cbn [filter]. rewrite V, local_label_name by exact N.
    apply app_nil_r. }
  rewrite EM by reflexivity. split; [|exact B].
  destruct (lookup x (symbols st)) as [s|]; [|exact A].
  destruct A as (ds0 & d0 & A1 & A2 & A3 & A4 & A5 & A6 & A7 & A8). exists ds0, d0.
  split; [exact A1|]. split; [exact A2|]. split; [exact A3|]. split; [exact A4|]. split; [exact A5|].
  split; [exact A6|]. split; [exact A7|]. cbn [vars]. rewrite EM by reflexivity. exact A8.
Qed.

Lemma run_inv x (N : c_name x) l : forall done st st', run l st = Ok st' -> inv done st x -> inv (done ++ l) st' x.
Proof.
  induction l as [|e l IH]; intros done st st' R I; cbn [run] in R.
  - injection R as <-. rewrite app_nil_r. exact I.
  - apply bind_ok in R. destruct R as (st1 & S & R).
    replace (done ++ e :: l) with ((done ++ [e]) ++ l) by (rewrite <- app_assoc; reflexivity).
    apply (IH _ st1); [exact R|]. destruct e as [d|d]; cbn [step] in S.
    + destruct (sv_cmp (d_name d) x) eqn:E.
      * apply sv_cmp_spec in E. subst x. apply (declare_same d st); assumption.
      * apply (declare_other d st); assumption.
    + apply (block_step d st); assumption.
Qed.
Lemma inv_start x : inv [] start x.
Proof. split; [split; reflexivity|constructor]. Qed.

(** What generate_tentative_definitions adds under [x]. *)
Definition tentative_var (x : list Z) (s : symbol) : static_var :=
  {| v_label := x; v_type := s_type s; v_init := None; v_global := s_global s; v_align := s_align s |}.
Lemma generate_spec x names : forall syms vs,
  emitted x (generate names syms vs) = emitted x vs ++
    match lookup x syms with
    | Some s => if s_tentative s && existsb (fun y => sv_cmp y x) names then [tentative_var x s] else []
    | None => []
    end.
Proof.
  induction names as [|y names IH]; intros syms vs; cbn [generate existsb].
  - destruct (lookup x syms) as [s|]; [rewrite andb_false_r|]; symmetry; apply app_nil_r.
  - destruct (sv_cmp y x) eqn:E.
    + apply sv_cmp_spec in E. subst y. destruct (lookup x syms) as [s|] eqn:L.
      * destruct (s_tentative s) eqn:T.
        -- rewrite IH, lookup_set, sv_cmp_refl. cbn [s_tentative andb]. rewrite app_nil_r, emitted_app.
           f_equal. unfold emitted. cbn [filter v_label]. rewrite sv_cmp_refl. reflexivity.
        -- rewrite IH, L, T. reflexivity.
      * rewrite IH, L. reflexivity.
    + destruct (lookup y syms) as [s|].
      * destruct (s_tentative s); [|apply IH].
        rewrite IH, lookup_set, E, emitted_app. unfold emitted at 2. cbn [filter v_label]. rewrite E.
        rewrite app_nil_r. reflexivity.
      * apply IH.
Qed.

(** Objects of blocks. *)
Definition in_blocks (vs : list static_var) : list static_var := filter (fun v => hd 0 (v_label v) =? 46) vs.
Definition names_ok (l : list event) : Prop :=
  Forall (fun e => match e with AtFile d | InBlock d => c_name (d_name d) end) l.

Lemma digits_prefix p : forall q x y, Forall digit p -> Forall digit q -> c_name x -> c_name y -> p ++ x = q ++ y -> p = q.
Proof.
  induction p as [|a p IH]; intros [|b q] x y P Q X Y E; cbn [app] in E.
  - reflexivity.
  - exfalso. destruct X as (c & t & -> & R). injection E as -> _. apply Forall_inv in Q. unfold digit in Q. lia.
  - exfalso. destruct Y as (c & t & -> & R). injection E as -> _. apply Forall_inv in P. unfold digit in P. lia.
  - injection E as -> E. f_equal. apply (IH q x y);
      [exact (Forall_inv_tail P)|exact (Forall_inv_tail Q)|exact X|exact Y|exact E].
Qed.
Lemma local_label_inj a b x y : 0 <= a -> 0 <= b -> c_name x -> c_name y -> local_label a x = local_label b y -> a = b.
Proof.
  intros A B X Y E. unfold local_label in E. apply app_inv_head in E.
  apply decimal_inj; [exact A|exact B|].
  exact (digits_prefix _ _ x y (decimal_digits a A) (decimal_digits b B) X Y E).
Qed.

Definition block_inv (l : list event) (st : state) : Prop :=
  0 <= local_var st /\
  Forall2 (fun d v => v_init v = d_init d /\ v_global v = false /\ v_align v = d_align d /\
             exists n, 0 <= n < local_var st /\ v_label v = local_label n (d_name d))
          (block_statics l) (in_blocks (vars st)) /\
  NoDup (map v_label (in_blocks (vars st))).

Lemma in_blocks_app a b : in_blocks (a ++ b) = in_blocks a ++ in_blocks b.
Proof. apply filter_app. Qed.
Lemma in_blocks_name v : c_name (v_label v) -> in_blocks [v] = [].
Proof.
  intros (c & t & E & R). unfold in_blocks. cbn [filter]. rewrite E. cbn [hd].
  destruct (Z.eqb_spec c 46); [lia|reflexivity].
Qed.

Lemma block_statics_names l : names_ok l -> Forall (fun d => c_name (d_name d)) (block_statics l).
Proof.
  induction 1 as [|[d|d] l N _ IH]; cbn [block_statics]; [constructor|exact IH|].
  destruct (is_static d); [constructor; assumption|exact IH].
Qed.

Lemma step_blocks e st st' l : names_ok (l ++ [e]) -> step e st = Ok st' -> block_inv l st -> block_inv (l ++ [e]) st'.
Proof.
  intros NS S (N & F & U). pose proof (Forall_inv (proj2 (proj1 (Forall_app _ _ _) NS))) as NE.
  destruct e as [d|d]; cbn [step] in S; cbn beta iota in NE.
  - unfold declare in S. cbv zeta in S. apply bind_ok in S. destruct S as (type & _ & S).
    destruct (is_extern d && _); [discriminate|]. injection S as <-.
    unfold block_inv. cbn [local_var vars]. rewrite block_snoc. cbn [block_statics]. rewrite app_nil_r, in_blocks_app.
    match goal with |- context [in_blocks (if ?b then ?p else ?q)] => replace (in_blocks (if b then p else q)) with (@nil static_var) end.
    + rewrite app_nil_r. split; [exact N|]. split; [exact F|exact U].
    + symmetry. destruct (_ && _); [apply in_blocks_name; exact NE|reflexivity].
  - unfold declare_in_block in S. cbv zeta in S. destruct (is_extern d && _); [discriminate|].
    unfold block_inv. rewrite block_snoc. cbn [block_statics].
    destruct (is_static d) eqn:ST; [|rewrite andb_false_r in S; injection S as <-; rewrite app_nil_r; split; [exact N|]; split; [exact F|exact U]].
    assert (X : is_extern d = false). { unfold is_static in ST. unfold is_extern. destruct (d_storage d); [reflexivity|reflexivity|discriminate]. }
    rewrite X in S. cbn [negb andb] in S. injection S as <-. cbn [local_var vars]. rewrite in_blocks_app.
    match goal with |- context [in_blocks [?w]] => set (v := w) end.
    change (in_blocks [v]) with [v].
    split; [lia|]. split.
    + apply Forall2_app.
      * clear -F. induction F as [|a b la lb (A & B & C & n & R & L) _ IH]; constructor; [|exact IH].
        split; [exact A|]. split; [exact B|]. split; [exact C|]. exists n. split; [lia|exact L].
      * constructor; [|constructor]. cbn. split; [reflexivity|]. split; [reflexivity|]. split; [reflexivity|].
        exists (local_var st). split; [lia|reflexivity].
    + rewrite map_app. cbn [map]. apply NoDup_Add with (a := v_label v) (l := map v_label (in_blocks (vars st))).
      * apply Add_app with (l1 := map v_label (in_blocks (vars st))) (l2 := []) || idtac.
        rewrite <- (app_nil_r (map v_label (in_blocks (vars st)))) at 1. apply Add_app.
      * split; [exact U|]. intros I. apply in_map_iff in I. destruct I as (w & E & W).
        assert (exists d' n, c_name (d_name d') /\ 0 <= n < local_var st /\ v_label w = local_label n (d_name d')) as (d' & n & C & R & L).
        { assert (BN : Forall (fun d => c_name (d_name d)) (block_statics l)).
          { apply block_statics_names. exact (proj1 (proj1 (Forall_app _ _ _) NS)). }
          clear -F W BN. induction F as [|a b la lb (A & B & C & n & R & L) _ IH]; [destruct W|].
          destruct W as [->|W].
          - exists a, n. split; [exact (Forall_inv BN)|]. split; [exact R|exact L].
          - apply IH; [exact W|exact (Forall_inv_tail BN)]. }
        rewrite L in E. apply (local_label_inj n (local_var st) (d_name d') (d_name d)) in E; [lia|lia|lia|exact C|exact NE].
Qed.
Lemma run_blocks l : forall done st st', names_ok (done ++ l) -> run l st = Ok st' -> block_inv done st -> block_inv (done ++ l) st'.
Proof.
  induction l as [|e l IH]; intros done st st' NS R I; cbn [run] in R.
  - injection R as <-. rewrite app_nil_r. exact I.
  - apply bind_ok in R. destruct R as (st1 & S & R).
    replace (done ++ e :: l) with ((done ++ [e]) ++ l) in * by (rewrite <- app_assoc; reflexivity).
    apply (IH _ st1); [exact NS|exact R|]. apply (step_blocks e st); [|exact S|exact I].
    exact (proj1 (proj1 (Forall_app _ _ _) NS)).
Qed.
Lemma generate_blocks names : forall syms vs, Forall c_name names -> in_blocks (generate names syms vs) = in_blocks vs.
Proof.
  induction names as [|y names IH]; intros syms vs N; cbn [generate]; [reflexivity|].
  pose proof (Forall_inv N) as N1. pose proof (Forall_inv_tail N) as N2.
  destruct (lookup y syms) as [s|]; [|apply IH, N2]. destruct (s_tentative s); [|apply IH, N2].
  rewrite IH by exact N2. rewrite in_blocks_app, in_blocks_name by exact N1. apply app_nil_r.
Qed.
Lemma tentative_names l : forall st st', names_ok l -> run l st = Ok st' -> Forall c_name (tentative st) -> Forall c_name (tentative st').
Proof.
  induction l as [|e l IH]; intros st st' N R F; cbn [run] in R; [injection R as <-; exact F|].
  apply bind_ok in R. destruct R as (st1 & S & R). apply (IH st1); [exact (Forall_inv_tail N)|exact R|].
  pose proof (Forall_inv N) as N1. destruct e as [d|d]; cbn [step] in S.
  - unfold declare in S. cbv zeta in S. apply bind_ok in S. destruct S as (type & _ & S).
    destruct (is_extern d && _); [discriminate|]. injection S as <-. clear R. cbn [tentative].
    match goal with |- Forall _ (if ?b then _ else _) => destruct b end; [apply Forall_app; split; [exact F|constructor; [exact N1|constructor]]|exact F].
  - unfold declare_in_block in S. cbv zeta in S. destruct (is_extern d && _); [discriminate|].
    destruct (_ && _); injection S as <-; exact F.
Qed.
