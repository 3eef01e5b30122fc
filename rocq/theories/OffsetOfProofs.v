(** Proofs about __builtin_offsetof. *)
From Verif Require Import Base Common Arch.
From Verif Require Import OffsetOf OffsetOfSpec.

Local Open Scope Z_scope.
Local Open Scope list_scope.

Scheme ty_mut := Induction for ty Sort Prop
with members_mut := Induction for members Sort Prop.

Lemma bytes_nonneg t : wf t -> 0 <= bytes t.
Proof.
  induction t; cbn; intros H; try lia.
  - destruct H as (Hn & _ & _ & Hw). specialize (IHt Hw). nia.
Qed.

Lemma size_bytes t : wf t -> complete t -> calculate_size t = bytes t.
Proof.
  induction t; cbn [calculate_size bytes]; intros H C; try reflexivity.
  - cbn [wf] in H. destruct H as (Hn & Hb & Hc & Hw). rewrite (IHt Hw Hc).
    pose proof (bytes_nonneg t Hw). apply signed_id; [lia|].
    change (2 ^ (32 - 1)) with (2 ^ 31). split; [|exact Hb]. nia.
  - destruct C.
Qed.

Lemma add64_ok a b : 0 <= a -> 0 <= b -> a + b < 2 ^ 63 -> add64 a b = Ok (a + b).
Proof.
  intros. unfold add64. rewrite (proj2 (Z.leb_le _ _)) by lia. rewrite (proj2 (Z.ltb_lt _ _)) by lia. reflexivity.
Qed.
Lemma mul64_ok a b : 0 <= a * b -> a * b < 2 ^ 63 -> mul64 a b = Ok (a * b).
Proof.
  intros. unfold mul64. rewrite (proj2 (Z.leb_le _ _)) by lia. rewrite (proj2 (Z.ltb_lt _ _)) by lia. reflexivity.
Qed.
Lemma add64_inv a b c : add64 a b = Ok c -> c = a + b.
Proof. unfold add64. destruct (_ && _); intros H; inversion H; reflexivity. Qed.
Lemma mul64_inv a b c : mul64 a b = Ok c -> c = a * b.
Proof. unfold mul64. destruct (_ && _); intros H; inversion H; reflexivity. Qed.

Lemma member_named ms x o t : has_member ms x o t -> In x (names ms).
Proof.
  induction 1; cbn [names].
  - left; reflexivity.
  - apply in_or_app; left; assumption.
  - destruct name; [right; assumption|]. destruct t'; try assumption. apply in_or_app; right; assumption.
Qed.

Lemma member_wf ms x o t : has_member ms x o t -> wf_members ms -> 0 <= o /\ wf t.
Proof.
  induction 1; cbn [wf_members]; intros (Ho & Ht & Hb & Hr).
  - split; assumption.
  - cbn [wf] in Ht. destruct Ht as (_ & _ & Hi). destruct (IHhas_member Hi). split; [lia|assumption].
  - auto.
Qed.

Lemma search_nonempty ms x : search_members ms x <> Some [].
Proof.
  induction ms; cbn [search_members]; [discriminate|].
  assert (L : match search_members ms x with Some (i :: p) => Some (S i :: p) | r => r end <> Some []).
  { destruct (search_members ms x) as [[|]|]; [exact IHms|discriminate|discriminate]. }
  destruct name as [y|].
  - destruct (y =? x); [discriminate|exact L].
  - destruct t; try exact L. destruct (search_members ms0 x); [discriminate|exact L].
Qed.

Lemma search_named : forall ms x p, search_members ms x = Some p -> In x (names ms).
Proof.
  apply (members_mut
           (fun t => match t with Agg _ ms => forall x p, search_members ms x = Some p -> In x (names ms) | _ => True end)
           (fun ms => forall x p, search_members ms x = Some p -> In x (names ms))); try (intros; exact I).
  - intros s ms H. exact H.
  - intros x p H. discriminate H.
  - intros name t Ht off bits rest Hr x p H. cbn [search_members] in H. cbn [names].
    assert (L : match search_members rest x with Some (i :: q) => Some (S i :: q) | r => r end = Some p -> In x (names rest)).
    { destruct (search_members rest x) as [q|] eqn:E; [intros _; exact (Hr x q E)|discriminate]. }
    destruct name as [y|].
    + destruct (Z.eqb_spec y x); [left; assumption|right; exact (L H)].
    + destruct t; try exact (L H). apply in_or_app.
      destruct (search_members ms x) as [q|] eqn:E; [left; exact (Ht x q E)|right; exact (L H)].
Qed.

Lemma NoDup_app_parts {A} (a b : list A) : NoDup (a ++ b) -> NoDup a /\ NoDup b /\ forall x, In x a -> In x b -> False.
Proof.
  induction a as [|y a IH]; cbn; intros H.
  - repeat split; [constructor|exact H|intros x []].
  - inversion H; subst. destruct (IH H3) as (Ha & Hb & Hd). repeat split.
    + constructor; [|exact Ha]. intros I. apply H2, in_or_app; left; exact I.
    + exact Hb.
    + intros x [->|I] J; [apply H2, in_or_app; right; exact J|exact (Hd x I J)].
Qed.

Lemma dots_later base s s' name t off bits rest i p :
  dots (Label base (Agg s (Cons name t off bits rest))) (S i :: p) = dots (Label base (Agg s' rest)) (i :: p).
Proof. reflexivity. Qed.

Lemma search_found ms x o t : has_member ms x o t -> NoDup (names ms) -> wf_members ms ->
  exists p, search_members ms x = Some p /\
    forall s base, 0 <= base -> base + o < 2 ^ 63 ->
      dots (Label base (Agg s ms)) p = Ok (Label (base + o) t).
Proof.
  induction 1; intros N W.
  - exists [O]. cbn [search_members]. rewrite Z.eqb_refl. split; [reflexivity|].
    intros s base Hb Ho. cbn [dots mk_dot nth_member]. cbn [wf_members] in W.
    change (negb (-1 =? -1)) with false. cbn iota.
    rewrite add64_ok by (destruct W; lia). reflexivity.
  - cbn [names] in N. destruct (NoDup_app_parts _ _ N) as (N1 & _ & _).
    cbn [wf_members wf] in W. destruct W as (Ho & (_ & _ & Wi) & _ & _).
    destruct (IHhas_member N1 Wi) as (p & Hp & Hd). exists (O :: p). cbn [search_members]. rewrite Hp.
    split; [reflexivity|]. intros s' base Hb Hl. destruct (member_wf _ _ _ _ H Wi) as [Ho' _].
    cbn [dots mk_dot nth_member]. change (negb (-1 =? -1)) with false. cbn iota.
    rewrite add64_ok by lia. cbn [bind]. rewrite Hd by lia. f_equal. f_equal. lia.
  - pose proof (member_named _ _ _ _ H) as I. cbn [wf_members] in W. destruct W as (_ & _ & _ & Wr).
    assert (K : NoDup (names rest) ->
      (search_members (Cons name t' off' bits rest) x =
         match search_members rest x with Some (i :: p) => Some (S i :: p) | r => r end) ->
      exists p, search_members (Cons name t' off' bits rest) x = Some p /\
        forall s base, 0 <= base -> base + o < 2 ^ 63 ->
          dots (Label base (Agg s (Cons name t' off' bits rest))) p = Ok (Label (base + o) t)).
    { intros Nr E. destruct (IHhas_member Nr Wr) as (p & Hp & Hd). destruct p as [|i p].
      - destruct (search_nonempty _ _ Hp).
      - exists (S i :: p). rewrite E, Hp. split; [reflexivity|]. intros s base Hb Hl.
        rewrite (dots_later base s s). apply Hd; assumption. }
    destruct name as [y|].
    + cbn [names] in N. inversion N; subst. apply (K H3).
      cbn [search_members]. destruct (Z.eqb_spec y x); [subst; contradiction|reflexivity].
    + destruct t'; try (apply (K N); reflexivity).
      cbn [names] in N. destruct (NoDup_app_parts _ _ N) as (_ & N2 & D). apply (K N2).
      cbn [search_members]. destruct (search_members ms x) as [q|] eqn:E; [|reflexivity].
      destruct (D x (search_named _ _ _ E) I).
Qed.

Lemma dots_plain p : forall t o t', dots (Plain t) p <> Ok (Label o t').
Proof.
  induction p as [|i p IH]; intros t o t'; cbn [dots]; [discriminate|].
  destruct t; cbn [mk_dot bind]; try discriminate.
  destruct (nth_member ms i) as [[[u ?] ?]|]; cbn [bind]; [apply IH|discriminate].
Qed.

Lemma search_sound : forall ms x p s base o t,
  search_members ms x = Some p -> dots (Label base (Agg s ms)) p = Ok (Label o t) ->
  has_member ms x (o - base) t.
Proof.
  apply (members_mut
           (fun t => match t with
                     | Agg _ ms => forall x p s base o t, search_members ms x = Some p ->
                         dots (Label base (Agg s ms)) p = Ok (Label o t) -> has_member ms x (o - base) t
                     | _ => True end)
           (fun ms => forall x p s base o t, search_members ms x = Some p ->
                         dots (Label base (Agg s ms)) p = Ok (Label o t) -> has_member ms x (o - base) t));
    try (intros; exact I).
  - intros s ms H. exact H.
  - intros x p s base o t H. discriminate H.
  - intros name t Ht off bits rest Hr x p s base o u H D. cbn [search_members] in H.
    assert (L : match search_members rest x with Some (i :: q) => Some (S i :: q) | r => r end = Some p ->
                has_member (Cons name t off bits rest) x (o - base) u).
    { intros E. destruct (search_members rest x) as [[|i q]|] eqn:F; [| |discriminate].
      - destruct (search_nonempty _ _ F).
      - injection E as <-. rewrite (dots_later base s s) in D. apply next. exact (Hr _ _ _ _ _ _ F D). }
    destruct name as [y|].
    + destruct (Z.eqb_spec y x) as [->|]; [|exact (L H)]. injection H as <-.
      cbn [dots mk_dot nth_member] in D. destruct (Z.eqb_spec bits (-1)) as [->|]; cbn [negb] in D.
      * destruct (add64 base off) as [b| |] eqn:A; cbn [bind] in D; try discriminate.
        injection D as <- <-. apply add64_inv in A. replace (b - base) with off by lia. apply own.
      * cbn [bind] in D. discriminate.
    + destruct t; try exact (L H).
      destruct (search_members ms x) as [q|] eqn:E; [|exact (L H)]. injection H as <-.
      cbn [dots mk_dot nth_member] in D. destruct (Z.eqb_spec bits (-1)) as [->|]; cbn [negb] in D.
      * destruct (add64 base off) as [b| |] eqn:A; cbn [bind] in D; try discriminate.
        apply add64_inv in A. pose proof (Ht _ _ _ _ _ _ E D) as M.
        replace (o - base) with (off + (o - b)) by lia. apply unnamed. exact M.
      * cbn [bind] in D. destruct (dots_plain _ _ _ _ D).
Qed.

Lemma promotes st : promotes_to_int st <-> is_contained_in SYSV ST_INT (-1) st (-1) = Ok true.
Proof.
  unfold promotes_to_int. cbn [In].
  destruct st; split; intros H; try reflexivity; try (vm_compute in H; discriminate);
    try (repeat destruct H as [H|H]; discriminate || contradiction); tauto.
Qed.

Lemma designates_nonneg t ds o t' : designates t ds o t' -> wf t -> Forall plain_index ds -> 0 <= o.
Proof.
  induction 1; intros W P.
  - lia.
  - inversion P; subst. cbn [wf] in W. destruct W as (_ & _ & W). destruct (member_wf _ _ _ _ H W).
    specialize (IHdesignates H2 H4). lia.
  - inversion P; subst. cbn [wf] in W. destruct W as (_ & _ & _ & W). destruct H2 as [_ Hi].
    specialize (IHdesignates W H3). pose proof (bytes_nonneg t W). nia.
  - inversion P; subst. cbn [wf] in W. destruct W as (_ & W). destruct H2 as [_ Hi].
    specialize (IHdesignates W H3). pose proof (bytes_nonneg t W). nia.
Qed.

Lemma designate_complete t ds o t' : designates t ds o t' -> wf t -> Forall plain_index ds ->
  forall base, 0 <= base -> base + o < 2 ^ 63 -> designate (Label base t) ds = Ok (Label (base + o) t').
Proof.
  assert (X : forall t st i ds o t' base, wf t -> complete t -> plain_index (Index st i) -> designates t ds o t' ->
      Forall plain_index ds ->
      0 <= base -> base + (i * bytes t + o) < 2 ^ 63 ->
      (let* int_constant := is_contained_in SYSV ST_INT (-1) st (-1) in
       if int_constant then
         let* d := mul64 i (calculate_size t) in
         let* o' := add64 base d in
         Ok (Label o' t)
       else Ok (Plain t)) = Ok (Label (base + i * bytes t) t) /\ 0 <= i * bytes t).
  { clear. intros t st i ds o t' base W C [Q Hi] D P Hb Hl. apply promotes in Q. rewrite Q. cbn [bind].
    rewrite (size_bytes t W C). pose proof (bytes_nonneg t W). pose proof (designates_nonneg _ _ _ _ D W P).
    assert (0 <= i * bytes t) by nia.
    rewrite mul64_ok by lia. cbn [bind]. rewrite add64_ok by lia. split; [reflexivity|assumption]. }
  induction 1; intros W P base Hb Hl.
  - cbn [designate]. f_equal. f_equal. lia.
  - inversion P; subst. cbn [wf] in W. destruct W as (_ & N & W).
    destruct (member_wf _ _ _ _ H W) as [Ho Wt].
    pose proof (designates_nonneg _ _ _ _ H0 Wt H4).
    destruct (search_found _ _ _ _ H N W) as (p & Hp & Hd).
    cbn [designate]. unfold expr_dot_operator. cbn [type_of type_search_member]. rewrite Hp.
    rewrite Hd by lia. cbn [bind]. rewrite (IHdesignates Wt H4) by lia. f_equal. f_equal. lia.
  - inversion P; subst. cbn [wf] in W. destruct W as (_ & _ & C & W).
    destruct (X t st i ds o' t' base W C H2 H H3 Hb Hl) as [E Hn].
    cbn [designate mk_index]. rewrite E. cbn [bind]. rewrite (IHdesignates W H3) by lia. f_equal. f_equal. lia.
  - inversion P; subst. cbn [wf] in W. destruct W as (C & W).
    destruct (X t st i ds o' t' base W C H2 H H3 Hb Hl) as [E Hn].
    cbn [designate mk_index]. rewrite E. cbn [bind]. rewrite (IHdesignates W H3) by lia. f_equal. f_equal. lia.
Qed.

Lemma designate_plain ds : forall t o t', designate (Plain t) ds <> Ok (Label o t').
Proof.
  induction ds as [|[x|st v] ds IH]; intros t o t'; cbn [designate]; [discriminate| |].
  - unfold expr_dot_operator. cbn [type_of]. destruct (type_search_member t x) as [p|]; cbn [bind]; [|discriminate].
    destruct (dots (Plain t) p) as [[b u|u]| |] eqn:D; cbn [bind]; try discriminate; [|apply IH].
    destruct (dots_plain _ _ _ _ D).
  - destruct t; cbn [mk_index bind]; try discriminate; apply IH.
Qed.

Lemma designate_sound ds : forall t base o t', wf t -> designate (Label base t) ds = Ok (Label o t') ->
  designates t ds (o - base) t'.
Proof.
  induction ds as [|[x|st v] ds IH]; intros t base o t' W H; cbn [designate] in H.
  - injection H as <- <-. replace (base - base) with 0 by lia. apply whole.
  - unfold expr_dot_operator in H. cbn [type_of] in H.
    destruct t as [| | | |s ms]; cbn [type_search_member bind] in H; try discriminate.
    destruct (search_members ms x) as [p|] eqn:E; cbn [bind] in H; [|discriminate].
    destruct (dots (Label base (Agg s ms)) p) as [[b u|u]| |] eqn:D; cbn [bind] in H; try discriminate.
    + pose proof (search_sound _ _ _ _ _ _ _ E D) as M. cbn [wf] in W. destruct W as (_ & _ & W).
      destruct (member_wf _ _ _ _ M W) as [_ Wu].
      replace (o - base) with ((b - base) + (o - b)) by lia.
      apply member with (t := u); [exact M|]. exact (IH _ _ _ _ Wu H).
    + destruct (designate_plain _ _ _ _ H).
  - destruct t as [| |n u|u|]; cbn [mk_index bind] in H; try discriminate.
    + destruct (designate_plain _ _ _ _ H).
    + cbn [wf] in W. destruct W as (_ & _ & C & W). rewrite (size_bytes u W C) in H.
      destruct (is_contained_in _ _ _ _ _) as [[|]| |]; cbn [bind] in H; try discriminate.
      * destruct (mul64 v (bytes u)) as [d| |] eqn:M; cbn [bind] in H; try discriminate.
        destruct (add64 base d) as [b| |] eqn:A; cbn [bind] in H; try discriminate.
        apply mul64_inv in M. apply add64_inv in A.
        replace (o - base) with (v * bytes u + (o - b)) by lia. apply element. exact (IH _ _ _ _ W H).
      * destruct (designate_plain _ _ _ _ H).
    + cbn [wf] in W. destruct W as (C & W). rewrite (size_bytes u W C) in H.
      destruct (is_contained_in _ _ _ _ _) as [[|]| |]; cbn [bind] in H; try discriminate.
      * destruct (mul64 v (bytes u)) as [d| |] eqn:M; cbn [bind] in H; try discriminate.
        destruct (add64 base d) as [b| |] eqn:A; cbn [bind] in H; try discriminate.
        apply mul64_inv in M. apply add64_inv in A.
        replace (o - base) with (v * bytes u + (o - b)) by lia. apply flexible. exact (IH _ _ _ _ W H).
      * destruct (designate_plain _ _ _ _ H).
Qed.

Lemma offsetof_as_designate t x ds v :
  offsetof t x ds = Ok v ->
  exists n, designate (Label 0 t) (Dot x :: ds) = Ok n /\
    v = match n with Label o _ => Constant (o mod 2 ^ 64) | Plain _ => NotConstant end.
Proof.
  unfold offsetof. cbn [designate]. destruct (expr_dot_operator (Label 0 t) x) as [[n|]| |]; cbn [bind]; intros H.
  - destruct (designate n ds) as [n'| |]; cbn [bind] in H; try discriminate. exists n'. split; [reflexivity|].
    destruct n'; injection H as <-; reflexivity.
  - destruct ds as [|[|]]; discriminate.
  - discriminate.
  - discriminate.
Qed.

Lemma designate_as_offsetof t x ds o u :
  designate (Label 0 t) (Dot x :: ds) = Ok (Label o u) -> offsetof t x ds = Ok (Constant (o mod 2 ^ 64)).
Proof.
  unfold offsetof. cbn [designate]. destruct (expr_dot_operator (Label 0 t) x) as [[n|]| |]; cbn [bind]; intros H;
    try discriminate. rewrite H. reflexivity.
Qed.
