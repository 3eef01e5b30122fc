(** The parser of initializers agrees with the positions C describes. *)
From Coq Require Import String.
From Verif Require Import Base Fuel InitParse InitSpec InitSteps.
Local Open Scope Z_scope.
Local Open Scope list_scope.

(** * Sizes and tokens *)
Fixpoint isz (i : ini) : nat :=
  match i with
  | Ex _ | Str _ _ => 1
  | Braced items _ => S ((fix all (l : list (list designator * ini)) := match l with [] => 0%nat | (_, i) :: l => S (isz i + all l)%nat end) items)
  end.
Fixpoint sz (l : list (list designator * ini)) : nat := match l with [] => 0%nat | (_, i) :: l => S (isz i + sz l)%nat end.
Lemma isz_braced items c : isz (Braced items c) = S (sz items).
Proof. reflexivity. Qed.

Definition print_item (it : list designator * ini) : list tok := print_designation (fst it) ++ print (snd it).
(** What follows an item of a list. *)
Fixpoint tail (items : list (list designator * ini)) (c : bool) (rest : list tok) : list tok :=
  match items with
  | [] => (if c then [TComma] else []) ++ TRbrace :: rest
  | it :: items => TComma :: print_item it ++ tail items c rest
  end.
(** The same when a comma has been read. *)
Definition pend (items : list (list designator * ini)) (c : bool) (rest : list tok) : list tok :=
  match items with
  | [] => TRbrace :: rest
  | it :: items => print_item it ++ tail items c rest
  end.
Lemma print_braced it items c rest : print (Braced (it :: items) c) ++ rest = TLbrace :: print_item it ++ tail items c rest.
Proof.
  cbn [print app]. f_equal. rewrite <- app_assoc. revert it. induction items as [|it2 items IH]; intros (ds, i).
  - unfold print_item. cbn [fst snd tail]. rewrite <- !app_assoc. destruct c; reflexivity.
  - unfold print_item at 1. cbn [fst snd tail]. rewrite <- !app_assoc. do 2 f_equal. cbn [app]. f_equal. apply IH.
Qed.

Lemma print_starts i rest : starts_designator (print i ++ rest) = false /\ starts_rbrace (print i ++ rest) = false.
Proof. destruct i; split; reflexivity. Qed.
Lemma tail_starts items c rest : starts_designator (tail items c rest) = false /\ starts_lbrace (tail items c rest) = false.
Proof. destruct items as [|it items]; [destruct c|]; split; reflexivity. Qed.
Lemma designation_starts ds l : ds <> [] ->
  starts_designator (print_designation ds ++ l) = true /\ starts_rbrace (print_designation ds ++ l) = false /\
  (forall X (a b : X), match print_designation ds ++ l with TComma :: _ => a | _ => b end = b).
Proof. destruct ds as [|[e|nm] ds]; intros N; [congruence| |]; repeat split; reflexivity. Qed.
Lemma no_designators t l : starts_designator l = false -> designators t l = Ok ([], l).
Proof. destruct l as [|[] l]; intros H; try discriminate; reflexivity. Qed.

(** One step of the mutually recursive functions. *)
Lemma initializer_S wide fuel t i e inside indices l : initializer wide (S fuel) t i e inside indices l =
      match indices with
      | k :: indices =>
          let! sel := lift (select t k) in
          let i := match i with IEmpty => IBrace [] | _ => i end in
          let! es := lift (add_entry i k) in
          let! r := initializer wide fuel sel (entry es k) e inside indices l in
          let '(_, c, l) := r in
          let i := IBrace (set_nth es k c) in
          match l with
          | TComma :: l =>
              if starts_rbrace l then ok (t, i, l)
              else let! (i, l) := brace wide fuel t i (S k) true e l in ok (t, i, l)
          | _ => ok (t, i, l)
          end
      | [] =>
          let! (h, l) := read_head t e l in
          let elide := is_aggregate t && inside && negb (starts_lbrace l) in
          match h with
          | HNull => lift (if elide then Undef else Fail) (* expr->data_type of NULL *)
          | HExpr v =>
              if elide && negb (same_type v t) then
                let! (i, l) := brace wide fuel t i O true (Some v) l in ok (t, i, l)
              else if is_aggregate t && negb (same_type v t) then
                let! r := initializer wide fuel t i (Some v) true [] l in
                let '(t, i, l) := r in
                let! t := lift (complete t i) in ok (t, i, l)
              else let! t := lift (complete t (ILeaf v)) in ok (t, ILeaf v, l)
          | HStr sk s =>
              match match_string wide t sk s l with
              | Some (t, l) => let! t := lift (complete t (ILeaf (VStr s))) in ok (t, ILeaf (VStr s), l)
              | None =>
                  let! (i, l) := if starts_lbrace l then brace wide fuel t i O false None l
                                 else brace wide fuel t i O true None l in
                  let! t := lift (complete t i) in ok (t, i, l)
              end
          | HBrace =>
              let! (i, l) := brace wide fuel t i O false None l in
              let! t := lift (complete t i) in ok (t, i, l)
          end
      end.
Proof. reflexivity. Qed.
Lemma brace_S wide fuel t i idx inside e l : brace wide (S fuel) t i idx inside e l =
      let i := match i with IEmpty => IBrace [] | _ => i end in
      let! l := match inside, l with
                | true, _ => ok l
                | false, TLbrace :: l => ok l
                | false, _ => lift Fail
                end in
      let! mx := lift (max_members t) in
      if inside && match mx with Some n => (n <=? idx)%nat | None => false end then ok (i, l)
      else items wide fuel t i idx inside mx e l.
Proof. reflexivity. Qed.
Lemma items_S wide fuel t i idx inside mx e l : items wide (S fuel) t i idx inside mx e l =
      if inside && starts_designator l then ok (i, l)
      else
        let! (ds, l) := lift (designators t l) in
        let! l := match ds, l with
                  | [], _ => ok l
                  | _, TAssign :: l => ok l
                  | _, _ => lift Fail
                  end in
        let idx := match ds with [] => idx | d :: _ => d end in
        let! ct := lift (select t idx) in
        let! es := lift (add_entry i idx) in
        let! r := initializer wide fuel ct (entry es idx) e (match ds with [] => true | _ => false end) (tl ds) l in
        let '(_, c, l) := r in
        let i := IBrace (set_nth es idx c) in
        if starts_designator l then items wide fuel t i idx inside mx None l
        else
          let idx := S idx in
          let finish := fun l => if inside then ok (i, l)
                                 else match l with TRbrace :: l => ok (i, l) | _ => lift Fail end in
          if inside && match mx with Some n => (idx =? n)%nat | None => false end then finish l
          else match l with
               | TComma :: l => if starts_rbrace l then finish l else items wide fuel t i idx inside mx None l
               | _ => finish l
               end.
Proof. reflexivity. Qed.

(** * Fuel *)
Definition evs {A} (F : nat -> ex A) (r : A) : Prop := exists f0, forall f, (f0 <= f)%nat -> F f = ok r.

(** * Entries *)
Lemma add_ok l k : exists es, add_entry (IBrace l) k = Ok es /\ (k < length es)%nat /\ length es = Nat.max (length l) (S k) /\
  (forall r, leaf (IBrace es) r = leaf (IBrace l) r) /\ (forall r, leaf (entry es k) r = leaf (IBrace l) (k :: r)).
Proof.
  exists (l ++ repeat IEmpty (S k - length l)). split; [reflexivity|].
  assert (L : length (l ++ repeat IEmpty (S k - length l)) = Nat.max (length l) (S k)) by (rewrite app_length, repeat_length; lia).
  split; [lia|]. split; [exact L|].
  assert (E : forall r, leaf (IBrace (l ++ repeat IEmpty (S k - length l))) r = leaf (IBrace l) r).
  { intros [|j r]; [reflexivity|]. cbn [leaf]. destruct (Nat.lt_ge_cases j (length l)) as [J|J].
    - rewrite nth_error_app1 by exact J. reflexivity.
    - rewrite nth_error_app2 by exact J. rewrite (proj2 (nth_error_None l j) J).
      destruct (nth_error (repeat IEmpty (S k - length l)) (j - length l)) as [y|] eqn:E; [|reflexivity].
      apply nth_error_In, repeat_spec in E. subst y. destruct r; reflexivity. }
  split; [exact E|]. intros r. rewrite <- E. cbn [leaf]. unfold entry.
  rewrite (nth_error_nth' _ IEmpty); [reflexivity|lia].
Qed.
Lemma put_child l es k c q M ws : add_entry (IBrace l) k = Ok es -> M q = None ->
  (forall r, leaf (IBrace l) r = M (q ++ r)) -> below (q ++ [k]) ws ->
  (forall r, leaf c r = effects M ws ((q ++ [k]) ++ r)) ->
  forall r, leaf (IBrace (set_nth es k c)) r = effects M ws (q ++ r).
Proof.
  intros A N X B C. destruct (add_ok l k) as (es' & A' & L & _ & E & _). rewrite A in A'. injection A' as <-.
  intros [|j r].
  - rewrite app_nil_r. rewrite (effects_outside (q ++ [k])); [rewrite N; reflexivity|exact B|apply prefix_longer].
  - cbn [leaf]. destruct (Nat.eq_dec k j) as [->|J].
    + rewrite nth_error_set_nth_eq by exact L. rewrite C, <- app_assoc. reflexivity.
    + rewrite nth_error_set_nth_neq by exact J. rewrite (effects_outside (q ++ [k])); [|exact B|apply prefix_other; exact J].
      rewrite <- X, <- E. reflexivity.
Qed.

(** * Members *)
Lemma members u : regular u -> is_aggregate u = true -> exists mx, max_members u = Ok (Some mx) /\ (0 < mx)%nat /\
  (forall k, followed u k = (S k <? mx)%nat) /\ (forall k, (k < mx)%nat -> exists uc, sub u k = Some uc).
Proof.
  destruct u as [kd|n e|e|un tag cn fs]; intros R A; try discriminate; [|destruct R|].
  - exists n. destruct R as [R _]. split; [reflexivity|]. split; [exact R|]. split; [reflexivity|].
    intros k H. exists e. cbn [sub]. apply Nat.ltb_lt in H. rewrite H. reflexivity.
  - destruct R as (N & _ & _).
    assert (G : forall k, (k < length fs)%nat -> exists uc, sub (Record un tag cn fs) k = Some uc).
    { intros k H. cbn [sub]. destruct (nth_error fs k) as [f|] eqn:E; [exists (snd f); reflexivity|].
      apply nth_error_None in E. lia. }
    destruct un.
    + exists 1%nat. repeat split; [lia|]. intros k H. apply G. destruct fs; [congruence|cbn; lia].
    + exists (length fs). repeat split; [destruct fs; [congruence|cbn; lia]|exact G].
Qed.
Lemma sub_aggregate u k uc : sub u k = Some uc -> is_aggregate u = true.
Proof. destruct u; intros H; try discriminate; reflexivity. Qed.

Section Main.
Variable wide : kind.
Local Notation takes := (takes wide true).
Local Notation lands := (lands wide).
Local Notation inits := (inits wide true).
Local Notation lists := (lists wide true).
Local Notation item := (item wide true).
Local Notation is_string_for := (is_string_for wide).
Local Notation is_value_for := (is_value_for wide).

Lemma inits_head u i ws : inits u i ws -> exists o ws', ws = ([], o) :: ws'.
Proof. destruct 1; eauto. Qed.

Definition designated (items : list (list designator * ini)) : Prop :=
  match items with (ds, _) :: _ => ds <> [] | [] => False end.
(** The tokens left when the subobject at [q] is done with. *)
Definition left_over (T : ty) (q : path) (items : list (list designator * ini)) (c : bool) (rest : list tok) (n : option path) (toks : list tok) : Prop :=
  toks = tail items c rest /\ (items = [] \/ n = next T q) \/
  toks = pend items c rest /\ (items = [] \/ designated items).
Definition post (T : ty) (g q : path) (M : state) (c : bool) (rest : list tok) (b : nat) (ws : list write) (x : init) (toks : list tok) : Prop :=
  exists ws1 ws2 items n, ws = ws1 ++ ws2 /\ ws1 <> [] /\ below q ws1 /\ lists T g n items ws2 /\ (sz items <= b)%nat /\
    (forall r, leaf x r = effects M ws1 (q ++ r)) /\ left_over T q items c rest n toks.
(** The initializer is still to be read, or it is an expression that has been. *)
Definition pending (i : ini) (e : option value) (toks rest : list tok) : Prop :=
  e = None /\ toks = print i ++ rest \/ exists e0, i = Ex e0 /\ e = Some (VExpr e0) /\ toks = rest.

Definition P_ini (n : nat) : Prop := forall u i ws x e inside M toks rest,
  initializable u -> match u with Open _ => e = None /\ x = IEmpty | _ => True end ->
  inits u i ws -> (isz i < n)%nat -> fine M ws -> (forall r, leaf x r = M r) -> pending i e toks rest -> starts_lbrace rest = false ->
  exists x', evs (fun f => initializer wide f u x e inside [] toks) (completed u ws, x', rest) /\ forall r, leaf x' r = effects M ws r.

Definition P_place (n m : nat) : Prop := forall T g q u x e inside i items d ui wsi ws M c rest toks,
  type_at T q = Some u -> regular u -> (tsize u <= m)%nat -> (S (isz i) + sz items <= n)%nat ->
  lands u i d -> type_at u d = Some ui -> inits ui i wsi -> lists T g (next T (q ++ d)) items ws ->
  fine M (map (under (q ++ d)) wsi ++ ws) -> (forall r, leaf x r = M (q ++ r)) ->
  pending i e toks (tail items c rest) ->
  exists x' toks', evs (fun f => initializer wide f u x e inside [] toks) (u, x', toks') /\
    post T g q M c rest (sz items) (map (under (q ++ d)) wsi ++ ws) x' toks'.

Definition P_loop (n m : nat) : Prop := forall T g q u l k mx uc e i its d ui wsi ws M c rest toks,
  type_at T q = Some u -> regular u -> (tsize u <= m)%nat -> (S (isz i) + sz its <= n)%nat ->
  max_members u = Ok (Some mx) -> (k < mx)%nat -> sub u k = Some uc ->
  lands uc i d -> type_at uc d = Some ui -> inits ui i wsi -> lists T g (next T ((q ++ [k]) ++ d)) its ws ->
  fine M (map (under ((q ++ [k]) ++ d)) wsi ++ ws) -> (forall r, leaf (IBrace l) r = M (q ++ r)) ->
  pending i e toks (tail its c rest) ->
  exists l' toks', evs (fun f => items wide f u (IBrace l) k true (Some mx) e toks) (IBrace l', toks') /\
    post T g q M c rest (sz its) (map (under ((q ++ [k]) ++ d)) wsi ++ ws) (IBrace l') toks'.

(** Around the first write there is no value. *)
Lemma first_write ui i wsi p d k q ws M : inits ui i wsi -> p = (q ++ [k]) ++ d -> fine M (map (under p) wsi ++ ws) -> M q = None.
Proof.
  intros I -> F. destruct (inits_head _ _ _ I) as (o & ws' & ->). cbn [map app] in F.
  apply (fine_around _ _ _ q k F). unfold under. cbn [fst]. rewrite app_nil_r. apply prefix_app.
Qed.

Lemma pending_starts i e toks rest : pending i e toks rest -> starts_designator rest = false -> starts_designator toks = false.
Proof. intros [(_ & ->)|(e0 & _ & _ & ->)] H; [apply print_starts|exact H]. Qed.

Lemma post_widen T g q k M c rest b b' ws x' toks' ws1 ws2 items n :
  ws = ws1 ++ ws2 -> ws1 <> [] -> below (q ++ [k]) ws1 -> lists T g n items ws2 -> (sz items <= b)%nat -> (b <= b')%nat ->
  (forall r, leaf x' r = effects M ws1 (q ++ r)) -> left_over T q items c rest n toks' ->
  post T g q M c rest b' ws x' toks'.
Proof.
  intros E N B L S S' X O. exists ws1, ws2, items, n. split; [exact E|]. split; [exact N|].
  split; [exact (below_shorter _ _ _ (prefix_app q [k]) B)|]. split; [exact L|]. split; [lia|]. split; [exact X|exact O].
Qed.

Lemma loop_step n m : (forall m', (m' < m)%nat -> P_place n m') -> (forall n' m', (n' < n)%nat -> P_loop n' m') -> P_loop n m.
Proof.
  intros PL LP T g q u l k mx uc e i its d ui wsi ws M c rest toks HT R SM SN MX K SU LD TU IN LS F X PD.
  pose proof (first_write _ _ _ _ d k q _ _ IN eq_refl F) as NQ.
  destruct (add_ok l k) as (es & AE & KL & _ & _ & EN).
  assert (UC : type_at T (q ++ [k]) = Some uc) by (rewrite type_at_app, HT; cbn [type_at]; rewrite SU; reflexivity).
  pose proof (regular_sub _ _ _ (regular_initializable _ R) SU) as RC. pose proof (sub_size _ _ _ SU) as SC.
  assert (EN' : forall r, leaf (entry es k) r = M ((q ++ [k]) ++ r)) by (intros r; rewrite EN, X, <- app_assoc; reflexivity).
  destruct (PL (tsize uc) ltac:(lia) T g (q ++ [k]) uc (entry es k) e true i its d ui wsi ws M c rest toks UC RC (le_n _) SN LD TU IN LS F EN' PD)
    as (x1 & toks1 & E1 & ws1 & ws2 & its2 & n1 & EW & NE & BL & L2 & S2 & X1 & LO).
  pose proof (put_child l es k x1 q M ws1 AE NQ X BL X1) as X2.
  set (l1 := set_nth es k x1) in *.
  pose proof (pending_starts _ _ _ _ PD (proj1 (tail_starts its c rest))) as ST.
  assert (STEP : forall f, initializer wide f uc (entry es k) e true [] toks = ok (uc, x1, toks1) ->
    items wide (S f) u (IBrace l) k true (Some mx) e toks =
      if starts_designator toks1 then items wide f u (IBrace l1) k true (Some mx) None toks1
      else if (S k =? mx)%nat then ok (IBrace l1, toks1)
      else match toks1 with
           | TComma :: l => if starts_rbrace l then ok (IBrace l1, l) else items wide f u (IBrace l1) (S k) true (Some mx) None l
           | _ => ok (IBrace l1, toks1)
           end).
  { intros f H. rewrite items_S; cbn [andb]. rewrite ST, (no_designators _ _ ST). unfold lift. cbn [exbind ok tl].
    rewrite (select_sub _ _ _ SU). cbn [exbind]. rewrite AE. cbn [exbind]. rewrite H. reflexivity. }
  destruct E1 as (f1 & E1).
  destruct (members u R (sub_aggregate _ _ _ SU)) as (mx' & MX' & MP & FO & SB). rewrite MX in MX'. injection MX' as <-.
  pose proof (next_app q k T u HT ltac:(congruence)) as NX. rewrite (FO k) in NX.
  (* the object is done with *)
  assert (DONE : forall toks', (exists f0, forall f, (f0 <= f)%nat -> items wide (S f) u (IBrace l) k true (Some mx) e toks = ok (IBrace l1, toks')) ->
    left_over T q its2 c rest n1 toks' ->
    exists l' toks'', evs (fun f => items wide f u (IBrace l) k true (Some mx) e toks) (IBrace l', toks'') /\
      post T g q M c rest (sz its) (map (under ((q ++ [k]) ++ d)) wsi ++ ws) (IBrace l') toks'').
  { intros toks' (f0 & H) O. exists l1, toks'. split.
    - exists (S f0). intros [|f] L; [lia|]. apply H. lia.
    - exact (post_widen T g q k M c rest (sz its) (sz its) _ _ _ ws1 ws2 its2 n1 EW NE BL L2 S2 (le_n _) X2 O). }
  destruct LO as [(-> & D)|(-> & D)].
  - destruct its2 as [|(ds, i2) its3].
    + (* the list ends *)
      apply (DONE (if (S k =? mx)%nat then tail [] c rest else pend [] c rest)).
      * exists f1. intros f L. rewrite (STEP f (E1 f L)). destruct c; cbn; destruct mx as [|mx]; cbn; try reflexivity; destruct (k =? mx)%nat; reflexivity.
      * destruct (S k =? mx)%nat; [left; split; [reflexivity|left; reflexivity]|right; split; [reflexivity|left; reflexivity]].
    + destruct D as [D|D]; [discriminate|]. rewrite NX in D.
      destruct (S k =? mx)%nat eqn:EK.
      * (* the last member *)
        apply Nat.eqb_eq in EK. assert (FK : (S k <? mx)%nat = false) by (apply Nat.ltb_ge; lia). rewrite FK in D.
        apply (DONE (tail ((ds, i2) :: its3) c rest)).
        -- exists f1. intros f L. rewrite (STEP f (E1 f L)). reflexivity.
        -- left. split; [reflexivity|]. right. exact D.
      * apply Nat.eqb_neq in EK. assert (FK : (S k <? mx)%nat = true) by (apply Nat.ltb_lt; lia). rewrite FK in D.
        destruct ds as [|d1 ds].
        -- (* on to the next member *)
           subst n1. inversion L2 as [| ? ? ? ? q2 u2 wsi2 ? ws3 NS IT L3 |]; subst; [|congruence].
           inversion IT as [? ? ? u0 d2 ? ? A1 A2 A3 A4]; subst.
           assert (SU2 : sub u (S k) = Some u0).
           { rewrite type_at_app, HT in A1. cbn [type_at] in A1. destruct (sub u (S k)); [exact A1|discriminate]. }
           rewrite EW in F. apply fine_app in F as [_ F2].
           assert (SN2 : (S (isz i2) + sz its3 <= n - 1)%nat) by (cbn [sz] in S2; lia).
           destruct (LP (n - 1)%nat m ltac:(lia) T g q u l1 (S k) mx u0 None i2 its3 d2 u2 wsi2 ws3 (effects M ws1) c rest (print i2 ++ tail its3 c rest)
             HT R SM SN2 MX ltac:(lia) SU2 A2 A3 A4 L3 F2 X2 ltac:(left; split; reflexivity))
             as (l2 & toks2 & (f2 & E2) & ws1' & ws2' & its4 & n4 & EW' & NE' & BL' & L4 & S4 & X4 & O4).
           exists l2, toks2. split.
           ++ exists (S (Nat.max f1 f2)). intros [|f] L; [lia|]. rewrite (STEP f (E1 f ltac:(lia))). cbn [tail starts_designator].
              unfold print_item. cbn [fst snd print_designation app].
              rewrite (proj2 (print_starts i2 _)). apply E2. lia.
           ++ exists (ws1 ++ ws1'), ws2', its4, n4. split; [rewrite EW, EW', app_assoc; reflexivity|].
              split; [destruct ws1; [congruence|discriminate]|]. split; [apply below_app; split; [exact (below_shorter _ _ _ (prefix_app q [k]) BL)|exact BL']|].
              split; [exact L4|]. split; [cbn [sz] in S2; lia|]. split; [intros r; rewrite X4, effects_app; reflexivity|exact O4].
        -- (* a designator *)
           apply (DONE (pend ((d1 :: ds, i2) :: its3) c rest)); [|right; split; [reflexivity|right; discriminate]].
           exists (S f1). intros [|f] L; [lia|]. rewrite (STEP (S f) (E1 (S f) ltac:(lia))). cbn [tail starts_designator].
           unfold print_item. cbn [fst snd]. rewrite <- app_assoc.
           destruct (designation_starts (d1 :: ds) (print i2 ++ tail its3 c rest) ltac:(discriminate)) as (SD & SR & _).
           rewrite SR. rewrite items_S; cbn [andb]. rewrite SD. unfold pend, print_item. cbn [fst snd]. rewrite <- app_assoc. reflexivity.
  - destruct its2 as [|(ds, i2) its3].
    + apply (DONE (pend [] c rest)); [|right; split; [reflexivity|left; reflexivity]].
      exists f1. intros f L. rewrite (STEP f (E1 f L)). cbn [pend starts_designator]. destruct (S k =? mx)%nat; reflexivity.
    + destruct D as [D|D]; [discriminate|]. cbn [designated] in D.
      apply (DONE (pend ((ds, i2) :: its3) c rest)); [|right; split; [reflexivity|right; exact D]].
      exists (S f1). intros [|f] L; [lia|]. rewrite (STEP (S f) (E1 (S f) ltac:(lia))).
      assert (SD : starts_designator (pend ((ds, i2) :: its3) c rest) = true).
      { unfold pend, print_item. cbn [fst snd]. rewrite <- app_assoc. apply designation_starts. exact D. }
      rewrite SD. rewrite items_S; cbn [andb]. rewrite SD. reflexivity.
Qed.

Lemma complete_regular u i : regular u -> complete u i = Ok u.
Proof. destruct u; intros R; try reflexivity. destruct R. Qed.
Lemma completed_regular u ws : regular u -> completed u ws = u.
Proof. destruct u; intros R; try reflexivity. destruct R. Qed.
Definition norm (x : init) : init := match x with IEmpty => IBrace [] | _ => x end.
Lemma norm_ok x : leaf x [] = None -> exists l, norm x = IBrace l /\ forall r, leaf (IBrace l) r = leaf x r.
Proof.
  destruct x as [|l|v]; intros H; [|exists l; split; reflexivity|discriminate].
  exists []. split; [reflexivity|]. intros [|[|k] r]; reflexivity.
Qed.
Lemma string_kind_ok sk k : string_kind wide sk k = true <-> character_type wide sk k.
Proof.
  assert (E : forall a b, kind_eqb a b = true <-> a = b).
  { intros a b. destruct a, b; cbn; split; intros H; try discriminate; try reflexivity; try congruence.
    - apply Z.eqb_eq in H. congruence.
    - injection H as ->. apply Z.eqb_refl. }
  destruct sk; cbn; rewrite ?orb_true_iff, ?E; [tauto|reflexivity..].
Qed.
Lemma match_none t sk s l : ~ is_string_for t (Str sk s) -> match_string wide t sk s l = None.
Proof.
  intros N. destruct t as [k|n [k|n' e|e|? ? ? ?]|[k|n' e|e|? ? ? ?]|? ? ? ?]; try reflexivity; cbn in *;
    (destruct (string_kind wide sk k) eqn:E; [|reflexivity]; apply string_kind_ok in E; contradiction).
Qed.
Lemma differs u e : is_aggregate u = true -> ~ is_value_for u (Ex e) -> same_type (VExpr e) u = false.
Proof.
  intros A N. destruct u as [k|n t|t|un tag cn fs]; try discriminate; try reflexivity. cbn in *.
  destruct (e_record e) as [(tag', cn')|] eqn:E; [|reflexivity]. destruct (tag =? tag') eqn:ET; [|reflexivity].
  apply Z.eqb_eq in ET. subst tag'. destruct N. exists cn'. reflexivity.
Qed.

Lemma place_step n m : P_ini n -> P_loop n m -> P_place n m.
Proof.
  intros PI LP T g q u x e inside i items d ui wsi ws M c rest toks HT R SM SN LD TU IN LS F X PD.
  inversion LD as [? ? H|? ? uc p NB NV SU LD2]; subst.
  - (* the initializer is for the object *)
    cbn [type_at] in TU. injection TU as <-. rewrite app_nil_r in *. apply fine_app in F as [F1 F2].
    assert (O : match u with Open _ => e = None /\ x = IEmpty | _ => True end) by (destruct u; try exact I; destruct R).
    destruct (PI u i wsi x e inside (fun r => M (q ++ r)) toks (tail items c rest) (regular_initializable _ R) O IN ltac:(lia)
      (fine_under _ _ _ F1) X PD (proj2 (tail_starts items c rest))) as (x' & E & X').
    rewrite (completed_regular _ _ R) in E. exists x', (tail items c rest). split; [exact E|].
    exists (map (under q) wsi), ws, items, (next T q). split; [reflexivity|].
    split; [destruct (inits_head _ _ _ IN) as (o & ws' & ->); discriminate|]. split; [apply below_under|]. split; [exact LS|].
    split; [lia|]. split; [intros r; rewrite X', effects_under; reflexivity|]. left. split; [reflexivity|right; reflexivity].
  - (* braces are left out *)
    assert (EQ : q ++ 0%nat :: p = (q ++ [0%nat]) ++ p) by (rewrite <- app_assoc; reflexivity).
    pose proof (sub_aggregate _ _ _ SU) as AG.
    pose proof (first_write _ _ _ _ p 0%nat q _ _ IN EQ F) as NQ.
    assert (X0 : leaf x [] = None) by (rewrite X, app_nil_r; exact NQ).
    destruct (norm_ok x X0) as (l0 & NX & XL).
    destruct (members u R AG) as (mx & MX & MP & _ & _).
    assert (TU2 : type_at uc p = Some ui) by (cbn [type_at] in TU; rewrite SU in TU; exact TU).
    rewrite EQ in *.
    assert (IN0 : forall e' toks', pending i e' toks' (tail items c rest) ->
      exists l' toks'', evs (fun f => brace wide f u x 0%nat true e' toks') (IBrace l', toks'') /\
        post T g q M c rest (sz items) (map (under ((q ++ [0%nat]) ++ p)) wsi ++ ws) (IBrace l') toks'').
    { intros e' toks' PD'.
      destruct (LP T g q u l0 0%nat mx uc e' i items p ui wsi ws M c rest toks' HT R SM SN MX MP SU LD2 TU2 IN LS F
        ltac:(intros r; rewrite XL; apply X) PD') as (l' & toks'' & (f0 & E) & P).
      exists l', toks''. split; [|exact P]. exists (S f0). intros [|f] L; [lia|]. rewrite brace_S. fold (norm x). rewrite NX.
      cbn [exbind ok]. unfold lift. rewrite MX. cbn [exbind andb].
      assert (G : (mx <=? 0)%nat = false) by (apply Nat.leb_gt; exact MP). rewrite G. apply E. lia. }
    destruct i as [e0|sk s|its cm]; [| |destruct (NB I)].
    + (* an expression *)
      destruct (IN0 (Some (VExpr e0)) (tail items c rest) ltac:(right; exists e0; repeat split)) as (l' & toks'' & (f0 & E) & P).
      exists (IBrace l'), toks''. split; [|exact P].
      pose proof (differs u e0 AG NV) as DF.
      assert (RH : read_head u e toks = ok (HExpr (VExpr e0), tail items c rest)).
      { destruct PD as [(-> & ->)|(e1 & E1 & -> & ->)]; [|injection E1 as <-; reflexivity].
        destruct u; try discriminate; reflexivity. }
      assert (IT : forall f, (S f0 <= f)%nat -> forall e' toks', read_head u e' toks' = ok (HExpr (VExpr e0), tail items c rest) ->
        initializer wide f u x e' true [] toks' = ok (u, IBrace l', toks'')).
      { intros [|f] L e' toks' RH'; [lia|]. rewrite initializer_S, RH'. cbn [exbind ok].
        rewrite AG, (proj2 (tail_starts items c rest)), DF. cbn [andb negb]. rewrite (E f ltac:(lia)). reflexivity. }
      destruct inside; [exists (S f0); intros f L; exact (IT f L _ _ RH)|].
      exists (S (S f0)). intros [|f] L; [lia|]. rewrite initializer_S, RH. cbn [exbind ok]. rewrite AG, DF. cbn [andb negb].
      rewrite (IT f ltac:(lia) (Some (VExpr e0)) (tail items c rest) eq_refl). cbn [exbind ok]. unfold lift.
      rewrite (complete_regular _ _ R). reflexivity.
    + (* a string *)
      destruct PD as [(-> & ->)|(e1 & E1 & _)]; [|discriminate].
      destruct (IN0 None (print (Str sk s) ++ tail items c rest) ltac:(left; split; reflexivity)) as (l' & toks'' & (f0 & E) & P).
      exists (IBrace l'), toks''. split; [|exact P]. exists (S f0). intros [|f] L; [lia|]. rewrite initializer_S.
      assert (RH : read_head u None (print (Str sk s) ++ tail items c rest) = ok (HStr sk s, print (Str sk s) ++ tail items c rest)).
      { destruct u; try discriminate; reflexivity. }
      rewrite RH. cbn [exbind ok]. rewrite match_none by (intros H; apply NV; destruct u; try discriminate; exact H).
      cbn [print app starts_lbrace]. pose proof (E f ltac:(lia)) as E'. cbn [print app] in E'. rewrite E'. cbn [exbind ok]. unfold lift. rewrite (complete_regular _ _ R). reflexivity.
Qed.

Definition P_des (n : nat) : Prop := forall inds T p q u x i its u0 d ui wsi ws M c rest,
  p = q ++ inds -> q <> [] -> type_at T q = Some u -> regular u -> (S (isz i) + sz its <= n)%nat ->
  type_at u inds = Some u0 -> lands u0 i d -> type_at u0 d = Some ui -> inits ui i wsi -> lists T p (next T (p ++ d)) its ws ->
  fine M (map (under (p ++ d)) wsi ++ ws) -> (forall r, leaf x r = M (q ++ r)) ->
  exists x' toks', evs (fun f => initializer wide f u x None false inds (print i ++ tail its c rest)) (u, x', toks') /\
    post T p q M c rest (sz its) (map (under (p ++ d)) wsi ++ ws) x' toks'.

Lemma des_step n : (forall m, P_place n m) -> (forall n' m', (n' < n)%nat -> P_loop n' m') -> P_des n.
Proof.
  intros PL LP inds. induction inds as [|k inds IH]; intros T p q u x i its u0 d ui wsi ws M c rest HP QN HT R SN TI LD TU IN LS F X.
  - rewrite app_nil_r in HP. subst p. cbn [type_at] in TI. injection TI as <-.
    exact (PL (tsize u) T q q u x None false i its d ui wsi ws M c rest _ HT R (le_n _) SN LD TU IN LS F X ltac:(left; split; reflexivity)).
  - cbn [type_at] in TI. destruct (sub u k) as [uc|] eqn:SU; [|discriminate].
    assert (HP' : p = (q ++ [k]) ++ inds) by (rewrite <- app_assoc; exact HP).
    assert (EQ : p ++ d = (q ++ [k]) ++ inds ++ d) by (rewrite HP', <- app_assoc; reflexivity).
    pose proof (first_write _ _ _ _ (inds ++ d) k q _ _ IN EQ F) as NQ.
    assert (X0 : leaf x [] = None) by (rewrite X, app_nil_r; exact NQ).
    destruct (norm_ok x X0) as (l & NX & XL).
    assert (X' : forall r, leaf (IBrace l) r = M (q ++ r)) by (intros r; rewrite XL; apply X).
    destruct (add_ok l k) as (es & AE & KL & _ & _ & EN).
    assert (UC : type_at T (q ++ [k]) = Some uc) by (rewrite type_at_app, HT; cbn [type_at]; rewrite SU; reflexivity).
    pose proof (regular_sub _ _ _ (regular_initializable _ R) SU) as RC.
    assert (EN' : forall r, leaf (entry es k) r = M ((q ++ [k]) ++ r)) by (intros r; rewrite EN, X', <- app_assoc; reflexivity).
    destruct (IH T p (q ++ [k]) uc (entry es k) i its u0 d ui wsi ws M c rest HP' ltac:(destruct q; discriminate) UC RC SN TI LD TU IN LS F EN')
      as (x1 & toks1 & (f1 & E1) & ws1 & ws2 & its2 & n1 & EW & NE & BL & L2 & S2 & X1 & LO). clear IH.
    pose proof (put_child l es k x1 q M ws1 AE NQ X' BL X1) as X2.
    set (l1 := set_nth es k x1) in *.
    assert (STEP : forall f, (f1 <= f)%nat ->
      initializer wide (S f) u x None false (k :: inds) (print i ++ tail its c rest) =
        match toks1 with
        | TComma :: l => if starts_rbrace l then ok (u, IBrace l1, l)
                         else let! (i, l) := brace wide f u (IBrace l1) (S k) true None l in ok (u, i, l)
        | _ => ok (u, IBrace l1, toks1)
        end).
    { intros f L. rewrite initializer_S. unfold lift. rewrite (select_sub _ _ _ SU). cbn [exbind]. fold (norm x). rewrite NX, AE. cbn [exbind].
      rewrite (E1 f L). reflexivity. }
    destruct (members u R (sub_aggregate _ _ _ SU)) as (mx & MX & MP & FO & SB).
    pose proof (next_app q k T u HT ltac:(congruence)) as NXT. rewrite (FO k) in NXT.
    assert (DONE : forall toks', (exists f0, forall f, (f0 <= f)%nat -> initializer wide (S f) u x None false (k :: inds) (print i ++ tail its c rest) = ok (u, IBrace l1, toks')) ->
      left_over T q its2 c rest n1 toks' ->
      exists x' toks'', evs (fun f => initializer wide f u x None false (k :: inds) (print i ++ tail its c rest)) (u, x', toks'') /\
        post T p q M c rest (sz its) (map (under (p ++ d)) wsi ++ ws) x' toks'').
    { intros toks' (f0 & H) O. exists (IBrace l1), toks'. split.
      - exists (S f0). intros [|f] L; [lia|]. apply H. lia.
      - exact (post_widen T p q k M c rest (sz its) (sz its) _ _ _ ws1 ws2 its2 n1 EW NE BL L2 S2 (le_n _) X2 O). }
    destruct LO as [(-> & D)|(-> & D)].
    + destruct its2 as [|(ds, i2) its3].
      * apply (DONE (pend [] c rest)); [|right; split; [reflexivity|left; reflexivity]].
        exists f1. intros f L. rewrite (STEP f L). destruct c; reflexivity.
      * destruct D as [D|D]; [discriminate|]. rewrite NXT in D.
        destruct ds as [|d1 ds].
        -- (* on to the next member, or stuck *)
           inversion L2 as [| ? ? cur ? q2 u2 wsi2 ? ws3 NS IT L3 |]; subst; [|congruence].
           destruct (S k <? mx)%nat eqn:EK.
           2:{ (* stuck *)
             exfalso. apply (NS eq_refl). exists q, k, inds, u. split; [reflexivity|]. split; [exact QN|]. split; [exact HT|].
             split; [rewrite FO; exact EK|]. apply (next_not_under _ T). rewrite NXT. congruence. }
           match goal with H : Some cur = _ |- _ => injection H as -> end.
           inversion IT as [? ? ? u0' d2 ? ? A1 A2 A3 A4]; subst. apply Nat.ltb_lt in EK.
           assert (SU2 : sub u (S k) = Some u0').
           { rewrite type_at_app, HT in A1. cbn [type_at] in A1. destruct (sub u (S k)); [exact A1|discriminate]. }
           rewrite EW in F. apply fine_app in F as [_ F2].
           assert (SN2 : (S (isz i2) + sz its3 <= n - 1)%nat) by (cbn [sz] in S2; lia).
           destruct (LP (n - 1)%nat (tsize u) ltac:(lia) T (q ++ k :: inds) q u l1 (S k) mx u0' None i2 its3 d2 u2 wsi2 ws3 (effects M ws1) c rest (print i2 ++ tail its3 c rest)
             HT R (le_n _) SN2 MX EK SU2 A2 A3 A4 L3 F2 X2 ltac:(left; split; reflexivity))
             as (l2 & toks2 & (f2 & E2) & ws1' & ws2' & its4 & n4 & EW' & NE' & BL' & L4 & S4 & X4 & O4).
           exists (IBrace l2), toks2. split.
           ++ exists (S (S (Nat.max f1 f2))). intros [|[|f]] L; [lia|lia|]. rewrite (STEP (S f) ltac:(lia)). cbn [tail].
              unfold print_item. cbn [fst snd print_designation app]. rewrite (proj2 (print_starts i2 _)).
              rewrite brace_S. cbn [exbind ok]. unfold lift. rewrite MX. cbn [exbind andb].
              assert (G : (mx <=? S k)%nat = false) by (apply Nat.leb_gt; exact EK). rewrite G, (E2 f ltac:(lia)). reflexivity.
           ++ exists (ws1 ++ ws1'), ws2', its4, n4. split; [rewrite EW, EW', app_assoc; reflexivity|].
              split; [destruct ws1; [congruence|discriminate]|]. split; [apply below_app; split; [exact (below_shorter _ _ _ (prefix_app q [k]) BL)|exact BL']|].
              split; [exact L4|]. split; [cbn [sz] in S2; lia|]. split; [intros r; rewrite X4, effects_app; reflexivity|exact O4].
        -- (* a designator *)
           apply (DONE (pend ((d1 :: ds, i2) :: its3) c rest)); [|right; split; [reflexivity|right; discriminate]].
           exists (S (S f1)). intros [|[|f]] L; [lia|lia|]. rewrite (STEP (S (S f)) ltac:(lia)). cbn [tail].
           unfold print_item. cbn [fst snd]. rewrite <- app_assoc.
           destruct (designation_starts (d1 :: ds) (print i2 ++ tail its3 c rest) ltac:(discriminate)) as (SD & SR & _).
           rewrite SR. rewrite brace_S. cbn [exbind ok]. unfold lift. rewrite MX. cbn [exbind andb].
           unfold pend, print_item. cbn [fst snd]. rewrite <- app_assoc.
           destruct (mx <=? S k)%nat; [reflexivity|]. rewrite items_S; cbn [andb]. rewrite SD. reflexivity.
    + destruct its2 as [|(ds, i2) its3].
      * apply (DONE (pend [] c rest)); [|right; split; [reflexivity|left; reflexivity]].
        exists f1. intros f L. rewrite (STEP f L). reflexivity.
      * destruct D as [D|D]; [discriminate|]. cbn [designated] in D.
        apply (DONE (pend ((ds, i2) :: its3) c rest)); [|right; split; [reflexivity|right; exact D]].
        exists f1. intros f L. rewrite (STEP f L). unfold pend, print_item. cbn [fst snd]. rewrite <- app_assoc.
        destruct ds as [|[e|nm] ds]; [congruence|reflexivity|reflexivity].
Qed.

Lemma used_app a b : used (a ++ b) = Nat.max (used a) (used b).
Proof. unfold used. induction a as [|w a IH]; cbn [app fold_right]; [reflexivity|]. rewrite IH. lia. Qed.
Lemma used_below k ws : below [k] ws -> ws <> [] -> used ws = S k.
Proof.
  induction ws as [|w ws IH]; intros B N; [congruence|]. inversion_clear B as [|? ? B1 B2].
  destruct (prefix_split _ _ B1) as (r & E). change (used (w :: ws)) with (Nat.max (match fst w with [] => 0 | k :: _ => S k end) (used ws)). rewrite E. cbn [app].
  destruct ws as [|w' ws]; [cbn; lia|]. rewrite IH; [lia|exact B2|discriminate].
Qed.

Definition P_list (n : nat) : Prop := forall T g cur l idx its ws M c rest mx,
  initializable T -> lists T g cur its ws -> its <> [] -> (sz its <= n)%nat ->
  designated its \/ cur = Some [idx] -> fine M ws -> (forall r, leaf (IBrace l) r = M r) ->
  exists l', evs (fun f => items wide f T (IBrace l) idx false mx None (pend its c rest)) (IBrace l', rest) /\
    (forall r, leaf (IBrace l') r = effects M ws r) /\ length l' = Nat.max (length l) (used ws).

Lemma list_step n : (forall m, P_place n m) -> P_des n -> (forall n', (n' < n)%nat -> P_list n') -> P_list n.
Proof.
  intros PL PD LP T g cur l idx its ws M c rest mx R LS N SN CU F X.
  destruct its as [|(ds, i) its]; [congruence|]. cbn [sz] in SN.
  assert (CORE : exists k inds uc es x1 toks1 g' f1, sub T k = Some uc /\ add_entry (IBrace l) k = Ok es /\ M [] = None /\
    (forall f, (f1 <= f)%nat -> initializer wide f uc (entry es k) None (match ds with [] => true | _ => false end) inds (print i ++ tail its c rest) = ok (uc, x1, toks1)) /\
    post T g' [k] M c rest (sz its) ws x1 toks1 /\
    (ds = [] /\ k = idx /\ inds = [] \/ ds <> [] /\ designates T ds (k :: inds))).
  { inversion LS as [|? ? p ? q u wsi ? ws' NS IT L2|? ? ? ? p ? q u wsi ? ws' DN DS IT L2]; subst.
    - (* the next one *)
      destruct CU as [CU|CU]; [cbn in CU; congruence|]. injection CU as ->.
      inversion IT as [? ? ? u0 d ? ? A1 A2 A3 A4]; subst.
      assert (SU : sub T idx = Some u0) by (cbn [type_at] in A1; destruct (sub T idx); [exact A1|discriminate]).
      pose proof (regular_sub _ _ _ R SU) as RC. destruct (add_ok l idx) as (es & AE & KL & _ & _ & EN).
      pose proof (first_write _ _ _ _ d idx [] _ _ A4 eq_refl F) as NQ.
      destruct (PL (tsize u0) T g [idx] u0 (entry es idx) None true i its d u wsi ws' M c rest (print i ++ tail its c rest) A1 RC (le_n _) ltac:(lia)
        A2 A3 A4 L2 F ltac:(intros r; rewrite EN, X; reflexivity) ltac:(left; split; reflexivity)) as (x1 & toks1 & (f1 & E1) & P).
      exists idx, [], u0, es, x1, toks1, g, f1. repeat (split; [assumption|]). left. repeat split.
    - (* a designation *)
      destruct (designates_nonempty _ _ _ DS DN) as (k & inds & ->).
      inversion IT as [? ? ? u0 d ? ? A1 A2 A3 A4]; subst.
      assert (SU : exists uc, sub T k = Some uc /\ type_at uc inds = Some u0).
      { cbn [type_at] in A1. destruct (sub T k) as [uc|]; [exists uc; split; [reflexivity|exact A1]|discriminate]. }
      destruct SU as (uc & SU & TI).
      pose proof (regular_sub _ _ _ R SU) as RC. destruct (add_ok l k) as (es & AE & KL & _ & _ & EN).
      pose proof (first_write _ _ _ _ (inds ++ d) k [] _ _ A4 eq_refl F) as NQ.
      destruct (PD inds T (k :: inds) [k] uc (entry es k) i its u0 d u wsi ws' M c rest eq_refl ltac:(discriminate)
        ltac:(cbn [type_at]; rewrite SU; reflexivity) RC ltac:(lia) TI A2 A3 A4 L2 F ltac:(intros r; rewrite EN, X; reflexivity)) as (x1 & toks1 & (f1 & E1) & P).
      exists k, inds, uc, es, x1, toks1, (k :: inds), f1. repeat (split; [assumption|]).
      split; [destruct ds; [congruence|]; exact E1|]. split; [exact P|]. right. split; assumption. }
  destruct CORE as (k & inds & uc & es & x1 & toks1 & g' & f1 & SU & AE & NQ & E1 & (ws1 & ws2 & its2 & n1 & EW & NE & BL & L2 & S2 & X1 & LO) & KIND).
  pose proof (put_child l es k x1 [] M ws1 AE NQ X BL X1) as X2.
  assert (LL : length (set_nth es k x1) = Nat.max (length l) (used ws1)).
  { rewrite set_nth_length, (used_below _ _ BL NE). destruct (add_ok l k) as (es' & AE' & _ & L & _). congruence. }
  set (l1 := set_nth es k x1) in *.
  assert (STEP : forall f, (f1 <= f)%nat -> items wide (S f) T (IBrace l) idx false mx None (pend ((ds, i) :: its) c rest) =
    if starts_designator toks1 then items wide f T (IBrace l1) k false mx None toks1
    else match toks1 with
         | TComma :: l => if starts_rbrace l then match l with TRbrace :: l => ok (IBrace l1, l) | _ => lift Fail end
                          else items wide f T (IBrace l1) (S k) false mx None l
         | TRbrace :: l => ok (IBrace l1, l)
         | _ => lift Fail
         end).
  { intros f L. rewrite items_S. cbn [andb pend]. unfold print_item. cbn [fst snd]. rewrite <- app_assoc. unfold lift.
    destruct KIND as [(-> & -> & ->)|(DN & DS)].
    - cbn [print_designation app]. rewrite no_designators by apply print_starts. cbn [exbind ok tl].
      rewrite (select_sub _ _ _ SU). cbn [exbind]. rewrite AE. cbn [exbind]. rewrite (E1 f L). cbn [exbind ok]. clear. destruct toks1 as [|[] ?]; reflexivity.
    - assert (PR : print_designation ds ++ print i ++ tail its c rest = print_designators ds ++ TAssign :: print i ++ tail its c rest).
      { destruct ds; [congruence|]. unfold print_designation. rewrite <- app_assoc. reflexivity. }
      rewrite PR, (designators_ok _ _ _ DS _ R). cbn [exbind ok tl].
      rewrite (select_sub _ _ _ SU). cbn [exbind]. rewrite AE. cbn [exbind].
      destruct ds as [|d1 ds]; [congruence|]. rewrite (E1 f L). cbn [exbind ok]. clear. destruct toks1 as [|[] ?]; reflexivity. }
  rewrite EW in F. apply fine_app in F as [_ F2].
  (* the end of the list *)
  assert (DONE : its2 = [] -> (forall f, (f1 <= f)%nat -> items wide (S f) T (IBrace l) idx false mx None (pend ((ds, i) :: its) c rest) = ok (IBrace l1, rest)) ->
    exists l', evs (fun f => items wide f T (IBrace l) idx false mx None (pend ((ds, i) :: its) c rest)) (IBrace l', rest) /\
      (forall r, leaf (IBrace l') r = effects M ws r) /\ length l' = Nat.max (length l) (used ws)).
  { intros -> H. inversion L2; subst. rewrite app_nil_r. exists l1. split; [|split; [exact X2|exact LL]].
    exists (S f1). intros [|f] L; [lia|]. apply H. lia. }
  (* more to come *)
  assert (MORE : forall idx', its2 <> [] -> designated its2 \/ n1 = Some [idx'] ->
    (forall f, (f1 <= f)%nat -> items wide (S f) T (IBrace l) idx false mx None (pend ((ds, i) :: its) c rest) = items wide f T (IBrace l1) idx' false mx None (pend its2 c rest)) ->
    exists l', evs (fun f => items wide f T (IBrace l) idx false mx None (pend ((ds, i) :: its) c rest)) (IBrace l', rest) /\
      (forall r, leaf (IBrace l') r = effects M ws r) /\ length l' = Nat.max (length l) (used ws)).
  { intros idx' N2 C2 H.
    destruct (LP (sz its2) ltac:(lia) T g' n1 l1 idx' its2 ws2 (effects M ws1) c rest mx R L2 N2 (le_n _) C2 F2 X2) as (l' & (f2 & E2) & X3 & L3).
    exists l'. split; [|split].
    - exists (S (Nat.max f1 f2)). intros [|f] L; [lia|]. rewrite (H f ltac:(lia)). apply E2. lia.
    - intros r. rewrite X3, EW, effects_app. reflexivity.
    - rewrite L3, LL, EW, used_app. lia. }
  destruct LO as [(-> & D)|(-> & D)].
  - destruct its2 as [|(ds2, i2) its3].
    + apply DONE; [reflexivity|]. intros f L. rewrite (STEP f L). destruct c; reflexivity.
    + destruct D as [D|D]; [discriminate|]. apply (MORE (S k)); [discriminate| |].
      * destruct ds2 as [|d1 ds2]; [right|left; discriminate].
        inversion L2 as [|? ? p2 ? q2 u2 wsi2 ? ws3 NS IT L3|]; subst; [|congruence].
        pose proof (next_app [] k T T eq_refl ltac:(congruence)) as NX. cbn [app] in NX.
        match goal with H : Some p2 = _ |- _ => rewrite NX in H; destruct (followed T k); [exact H|discriminate] end.
      * intros f L. rewrite (STEP f L). cbn [tail starts_designator pend].
        assert (SR : starts_rbrace (print_item (ds2, i2) ++ tail its3 c rest) = false).
        { unfold print_item. cbn [fst snd]. rewrite <- app_assoc. destruct ds2 as [|d1 ds2]; [apply print_starts|].
          apply designation_starts. discriminate. }
        rewrite SR. reflexivity.
  - destruct its2 as [|(ds2, i2) its3].
    + apply DONE; [reflexivity|]. intros f L. rewrite (STEP f L). reflexivity.
    + destruct D as [D|D]; [discriminate|]. apply (MORE k); [discriminate|left; exact D|].
      intros f L. rewrite (STEP f L). cbn [designated] in D.
      assert (SD : starts_designator (pend ((ds2, i2) :: its3) c rest) = true).
      { unfold pend, print_item. cbn [fst snd]. rewrite <- app_assoc. apply designation_starts. exact D. }
      rewrite SD. reflexivity.
Qed.

Lemma read_list u its c rest : is_aggregate u = true -> its <> [] ->
  read_head u None (TLbrace :: pend its c rest) = ok (HBrace, TLbrace :: pend its c rest) \/
  exists sk s, its = [([], Str sk s)] /\ read_head u None (TLbrace :: pend its c rest) = ok (HStr sk s, TLbrace :: pend its c rest).
Proof.
  intros A N. destruct its as [|(ds, i) its]; [congruence|]. destruct u as [k|n t|t|un tag cn fs]; try discriminate; cbn [read_head is_scalar];
  (destruct ds as [|[e|nm] ds]; [|left; reflexivity|left; reflexivity];
   destruct i as [e|sk s|its' c']; [left; reflexivity| |left; reflexivity];
   destruct its as [|it its]; [|left; reflexivity]; destruct c; [left; reflexivity|]; right; exists sk, s; split; reflexivity).
Qed.

Lemma ini_step n : (forall n', (n' < n)%nat -> P_list n') -> P_ini n.
Proof.
  intros LP u i ws x e inside M toks rest R O IN SN F X PD SL.
  assert (LEAF : forall v, (forall f, initializer wide (S f) u x e inside [] toks = ok (completed u [([], Some v)], ILeaf v, rest)) ->
    exists x', evs (fun f => initializer wide f u x e inside [] toks) (completed u [([], Some v)], x', rest) /\
      forall r, leaf x' r = effects M [([], Some v)] r).
  { intros v H. exists (ILeaf v). split.
    - exists 1%nat. intros [|f] L; [lia|]. apply H.
    - intros r. destruct r; reflexivity. }
  inversion IN as [? ? v TK|? i' v comma K CM TK|? its comma ws' AG NI NS LS]; subst.
  - (* a value *)
    apply LEAF. intros f. rewrite initializer_S.
    inversion TK as [k e0|k sk s|un tag cn cn' fs e0 ER EC|n' k sk s CT|k sk s CT]; subst.
    + destruct PD as [(-> & ->)|(e1 & E1 & -> & ->)]; [reflexivity|injection E1 as <-; reflexivity].
    + destruct PD as [(-> & ->)|(e1 & E1 & _)]; [reflexivity|discriminate].
    + assert (RH : read_head (Record un tag cn fs) e toks = ok (HExpr (VExpr e0), rest)).
      { destruct PD as [(-> & ->)|(e1 & E1 & -> & ->)]; [reflexivity|injection E1 as <-; reflexivity]. }
      rewrite RH. cbn [exbind ok same_type is_aggregate]. rewrite ER, (EC eq_refl), Z.eqb_refl, Bool.eqb_reflx.
      cbn [andb negb]. rewrite andb_false_r. reflexivity.
    + destruct PD as [(-> & ->)|(e1 & E1 & _)]; [|discriminate]. cbn [print app read_head is_scalar exbind ok match_string].
      apply string_kind_ok in CT. rewrite CT. reflexivity.
    + destruct PD as [(-> & ->)|(e1 & E1 & _)]; [|discriminate]. cbn [print app read_head is_scalar exbind ok match_string].
      apply string_kind_ok in CT. rewrite CT. reflexivity.
  - (* a value in braces *)
    destruct PD as [(-> & ->)|(e1 & E1 & _)]; [|discriminate]. pose proof (CM eq_refl); subst comma. apply LEAF. intros f. rewrite initializer_S.
    inversion TK as [k e0|k sk s|un tag cn cn' fs e0 ER EC|n' k sk s CT|k sk s CT]; subst.
    + reflexivity.
    + reflexivity.
    + destruct K as [K|K]; [discriminate|destruct K].
    + cbn [print print_designation app read_head is_scalar exbind ok match_string]. apply string_kind_ok in CT. rewrite CT. reflexivity.
    + cbn [print print_designation app read_head is_scalar exbind ok match_string]. apply string_kind_ok in CT. rewrite CT. reflexivity.
  - (* a list *)
    destruct PD as [(-> & ->)|(e1 & E1 & _)]; [|discriminate].
    assert (PR : print (Braced its comma) ++ rest = TLbrace :: pend its comma rest) by (destruct its as [|it its]; [congruence|apply print_braced]).
    rewrite PR. destruct F as [F1 F2]. cbn [effect snd] in F2.
    assert (X0 : leaf x [] = None) by (rewrite X; apply F1; [reflexivity|left; reflexivity]).
    destruct (norm_ok x X0) as (l0 & NX & XL).
    rewrite isz_braced in SN.
    assert (MX : exists mx, max_members u = Ok mx) by (destruct u; try discriminate; eexists; reflexivity).
    destruct MX as (mx & MX).
    destruct (LP (sz its) ltac:(lia) u [] (Some [0%nat]) l0 0%nat its ws' M comma rest mx R LS NI (le_n _) ltac:(right; reflexivity) F2
      ltac:(intros r; rewrite XL; apply X)) as (l' & (f0 & E) & X' & L').
    exists (IBrace l'). split; [|exact X'].
    assert (CO : complete u (IBrace l') = Ok (completed u (([], None) :: ws'))).
    { destruct u as [k|m t|t|un tag cn fs]; try reflexivity. destruct O as (_ & ->). cbn [norm] in NX. injection NX as <-.
      cbn [complete completed]. rewrite L'. destruct ws'; reflexivity. }
    assert (BR : forall f, (S f0 <= f)%nat -> brace wide f u x 0%nat false None (TLbrace :: pend its comma rest) = ok (IBrace l', rest)).
    { intros [|f] L; [lia|]. rewrite brace_S. fold (norm x). rewrite NX. cbn [exbind ok]. unfold lift. rewrite MX. cbn [exbind andb]. apply E. lia. }
    exists (S (S f0)). intros [|f] L; [lia|]. rewrite initializer_S.
    destruct (read_list u its comma rest AG NI) as [RH|(sk & s & EI & RH)]; rewrite RH; cbn [exbind ok].
    + rewrite (BR f ltac:(lia)). cbn [exbind ok]. unfold lift. rewrite CO. reflexivity.
    + rewrite match_none by (apply NS; exact EI). cbn [starts_lbrace].
      rewrite (BR f ltac:(lia)). cbn [exbind ok]. unfold lift. rewrite CO. reflexivity.
Qed.

Theorem all_ok n : P_ini n /\ (forall m, P_place n m) /\ (forall m, P_loop n m) /\ P_des n /\ P_list n.
Proof.
  induction n as [n IH] using lt_wf_ind.
  assert (I : P_ini n) by (apply ini_step; intros n' L; apply (IH n' L)).
  assert (LO : forall n' m', (n' < n)%nat -> P_loop n' m') by (intros n' m' L; apply (IH n' L)).
  assert (PL : forall m, P_place n m /\ P_loop n m).
  { induction m as [m IHm] using lt_wf_ind.
    assert (L : P_loop n m) by (apply loop_step; [intros m' H; apply (IHm m' H)|exact LO]).
    split; [|exact L]. apply place_step; assumption. }
  assert (D : P_des n) by (apply des_step; [intros m; apply PL|exact LO]).
  repeat split; try assumption; try (intros m; apply PL).
  apply list_step; [intros m; apply PL|exact D|intros n' L; apply (IH n' L)].
Qed.
End Main.
